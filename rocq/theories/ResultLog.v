(* The text of result.log. *)
From Coq Require Import Ascii String List ZArith Lia Arith Bool Permutation.
From Verif Require Import Base BaseFacts Sums ModelSequence ModelWilliamson ModelEquivalence ModelMatrices ModelGraph ModelRowsum SpecRowsum RowsumFacts ModelMatching ModelWrite TextFacts WriteFacts FolderFacts DriverFacts ModelMain SpecPrint ArgFacts MainFacts MainThms DriverMain
  ModelLog LogFolder LogText LogFacts LogStages LogJoin DriverLog TableThms SpecLog SpecFiles SpecSearch SpecMain SpecSolver SolverFacts SpecSplit SplitFacts SpecMixed SpecPrinted PrintedFacts PrintedJoin SpecResultLog Spec.
Import ListNotations.
Notation length := List.length.
Open Scope nat_scope.
#[local] Opaque usize_to_string isize_to_string seconds.

(* ---- small facts ---- *)

Lemma stacked_glue s l : l <> [] -> stacked (glue s l) = s ++ stacked l.
Proof. destruct l as [|h r]; [congruence|]. intros _. unfold stacked. cbn [glue map concat]. now rewrite !app_assoc. Qed.
Lemma fold_m_keeps {A B} (P : A -> Prop) (f : A -> B -> option A) l : (forall a b a', P a -> f a b = Some a' -> P a') -> forall a a', P a -> fold_m f l a = Some a' -> P a'.
Proof.
  intros H. induction l as [|b l IH]; intros a a' Pa E; cbn [fold_m] in E; [now injection E as <-|].
  apply bind_some in E as (a1 & E1 & E). eapply IH; [|exact E]. eapply H; eauto.
Qed.
Definition flat (s : list ascii) : Prop := ~ In newline s.
Lemma flat_app s u : flat s -> flat u -> flat (s ++ u).
Proof. intros H1 H2 I. apply in_app_or in I as [I|I]; auto. Qed.
Lemma flat_concrete s : existsb (Ascii.eqb newline) s = false -> flat s.
Proof. intros E I. assert (existsb (Ascii.eqb newline) s = true) by (apply existsb_exists; exists newline; split; auto; apply Ascii.eqb_refl). congruence. Qed.
Lemma flat_entry x : flat (magma_entry x).
Proof. unfold magma_entry. destruct (x =? 1)%Z; now apply flat_concrete. Qed.
Lemma flat_row h row s s' : flat s -> magma_row h row s = Some s' -> flat s'.
Proof.
  intros Fs E. unfold magma_row in E. apply bind_some in E as (r & E1 & E). apply bind_some in E as (x & _ & E). injection E as <-.
  apply flat_app; [|apply flat_entry]. unfold for_m in E1. eapply (fold_m_keeps flat); [|shelve|exact E1]. Unshelve.
  - intros a b a' Fa Eb. apply bind_some in Eb as (z & _ & Eb). injection Eb as <-. apply flat_app; [exact Fa|]. apply flat_app; [apply flat_entry|now apply flat_concrete].
  - apply flat_app; [exact Fs|now apply flat_concrete].
Qed.
Lemma flat_magma h s : HM_to_string_magma h = Some s -> flat s.
Proof.
  unfold HM_to_string_magma, guard. destruct (negb _); [|discriminate]. intros E. apply bind_some in E as (r & E1 & E). apply bind_some in E as (r' & E2 & E). injection E as <-.
  apply flat_app; [|now apply flat_concrete]. eapply flat_row; [|exact E2]. unfold for_m in E1. eapply (fold_m_keeps flat); [|shelve|exact E1]. Unshelve.
  - intros a b a' Fa Eb. apply bind_some in Eb as (z & Ez & Eb). injection Eb as <-. apply flat_app; [eapply flat_row; eauto|now apply flat_concrete].
  - now apply flat_concrete.
Qed.
Lemma matrices_text equ : forall s s', fold_m (fun s mat => let* t := HM_to_string_magma mat in Some (s ++ t ++ [newline_char])) equ s = Some s' ->
  exists ms, s' = s ++ stacked ms /\ Forall (fun m => ~ In newline m) ms /\ length ms = length equ.
Proof.
  induction equ as [|h equ IH]; intros s s' E; cbn [fold_m] in E.
  - injection E as <-. exists []. unfold stacked. cbn. rewrite app_nil_r. auto.
  - apply bind_some in E as (s1 & E1 & E). apply bind_some in E1 as (m & Em & E1). injection E1 as <-. destruct (IH _ _ E) as (ms & -> & F & Lm).
    exists (m :: ms). split; [|split; [constructor; auto; exact (flat_magma h m Em)|cbn; now rewrite Lm]].
    unfold stacked. cbn [map concat]. rewrite <- !app_assoc. reflexivity.
Qed.
Lemma convert_numbers lines : forall k c s k' c' s', c <= k -> fold_m (fun '(num_seq, num_non_commutative, result) line =>
      let* pqs := QS_from_str line in
      let* qhm := QHM_from_pqs pqs in
      let* qhm := QHM_dephase qhm in
      let* b := contains_non_commuting_elements qhm in
      let* s := QHM_to_string qhm in
      Some (num_seq + 1, (if b : bool then num_non_commutative + 1 else num_non_commutative), result ++ s ++ nl1)) lines (k, c, s) = Some (k', c', s') -> k' = k + length lines /\ c' <= k'.
Proof.
  induction lines as [|l lines IH]; intros k c s k' c' s' Hc E; cbn [fold_m] in E.
  - injection E as <- <- _. cbn. lia.
  - apply bind_some in E as ([[k1 c1] s1] & E1 & E). apply bind_some in E1 as (p & _ & E1). apply bind_some in E1 as (q & _ & E1). apply bind_some in E1 as (q' & _ & E1).
    apply bind_some in E1 as (b & _ & E1). apply bind_some in E1 as (u & _ & E1). injection E1 as <- <- <-.
    apply IH in E; [|destruct b; lia]. cbn [length]. lia.
Qed.

Section Log.
Context {L : Type} (ck : Clock) (fuel : nat) (e : Env L) (n : nat) (t : SequenceType) (y : list ascii).
Hypothesis Hck : clock_ok ck.
Hypothesis Hn : (Z.of_nat n < 2 ^ 64)%Z.
Hypothesis Hy : canonical_numeral y n.
Let x := type_word t.
Local Lemma ny' : usize_to_string (Z.of_nat n) = y. Proof. symmetry. now apply numeral_string. Qed.

Lemma run_log_main args c w w' l s : command_line (lit "rust" :: args) c -> exec_log ck fuel e c w = Some (w', l, s) -> run_log ck fuel e args w = (w', l, s).
Proof. intros H El. unfold run_log. apply parse_args_iff in H. rewrite H. cbn [bind]. now rewrite El. Qed.
Lemma run_main_exec args c w : command_line args c -> run_main fuel e args w = exec fuel e c w.
Proof. intros H. unfold run_main. apply parse_args_iff in H. now rewrite H. Qed.
Lemma place_write w pl : place_of (write w x y pl) x y = pl.
Proof. unfold place_of. now rewrite write_same. Qed.

Lemma hm_printed w w' : run_main fuel e [chars "rust"; chars "convert"; chars "hm"; x; y] w = Some w' ->
  exists ms, run_log ck fuel e [lit "convert"; lit "hm"; x; y] w = (w',
    [chars "Converting sequences found in " ++ place_path x y ++ (match t with WilliamsonType => chars "/result-qts.seq" | _ => chars "/result.seq" end)
               ++ chars " to Hadamard matrices up to Hadamard equivalence ...";
             chars "Reducing matrices to equivalence via graph isomorphism...";
             chars "Number of matrices up to equivalence : " ++ count (length ms)], []) /\
    pl_mat (place_of w' x y) = Some (stacked ms) /\ Forall (fun m => ~ In newline m) ms /\ pl_seq (place_of w' x y) = pl_seq (place_of w x y).
Proof.
  intros E. assert (C : command_line [chars "rust"; chars "convert"; chars "hm"; x; y] (ConvertHm t (Z.of_nat n))) by (apply cl_convert_hm; now apply numeral_length_arg).
  rewrite (run_main_exec _ _ w C) in E. cbn [exec] in E. rewrite type_word_string, ny' in E. fold x in E.
  apply bind_some in E as (pl & Ew & E). apply bind_some in E as (lines & El & E). apply bind_some in E as ([k s] & Eh & E). injection E as <-.
  assert (K : exists ms, s = stacked ms /\ Forall (fun m => ~ In newline m) ms /\ length ms = k).
  { clear -Eh. unfold hadamard_equivalence_from_file in Eh. apply bind_some in Eh as (s1 & _ & Eh). apply bind_some in Eh as (s2 & _ & Eh). apply bind_some in Eh as (ok & _ & Eh).
    unfold guard in Eh. destruct ok; [|discriminate]. apply bind_some in Eh as (ps & _ & Eh). cbv zeta in Eh. apply bind_some in Eh as (txt & Et & Eh). injection Eh as <- <-.
    destruct (matrices_text _ _ _ Et) as (ms & -> & F & Lm). exists ms. auto. }
  destruct K as (ms & -> & F & <-). exists ms. split; [|split; [|split; [exact F|]]].
  - eapply run_log_main; [exact C|]. cbn [exec_log]. rewrite type_word_string, ny'. fold x. rewrite Ew. cbn [bind]. rewrite El. cbn [bind]. rewrite Eh. cbn [bind].
    do 3 f_equal. f_equal. unfold place_path. rewrite <- !app_assoc. destruct t; reflexivity.
  - rewrite place_write. reflexivity.
  - rewrite place_write. unfold place_of. rewrite Ew. reflexivity.
Qed.
Lemma qhm_printed w w' seq : 1 <= n -> pl_seq (place_of w x y) = Some seq -> run_main fuel e [chars "rust"; chars "convert"; chars "qhm"; x; y] w = Some w' ->
  exists c, run_log ck fuel e [lit "convert"; lit "qhm"; x; y] w = (w',
     [chars "./" ++ place_path x y ++ chars "/result.seq";
      chars "converted " ++ count (length seq) ++ chars " sequences of size " ++ y ++ chars ". " ++ count c ++ chars " contained non-commuting elements."], []) /\
    pl_mat (place_of w' x y) = pl_mat (place_of w x y) /\ pl_seq (place_of w' x y) = Some seq /\ c <= length seq /\
    (forall quads, Forall (fun q => pm_quad n q /\ is_QT q) quads -> Forall2 line_of_quad quads seq ->
       exists ds flags, Forall2 (normal_qhm n) quads ds /\ Forall2 (fun d b => b = true <-> non_commuting n (qhm_matrix d)) ds flags /\ c = count_occ bool_dec flags true).
Proof.
  intros Hn1 Es E. assert (C : command_line [chars "rust"; chars "convert"; chars "qhm"; x; y] (ConvertQhm t (Z.of_nat n))) by (apply cl_convert_qhm; now apply numeral_length_arg).
  rewrite (run_main_exec _ _ w C) in E. cbn [exec] in E. rewrite type_word_string, ny' in E. fold x in E.
  unfold place_of in Es. destruct (w x y) as [pl|] eqn:Ew; [|discriminate]. rewrite Es in E.
  apply bind_some in E as ([[k c] s] & Ec & E). injection E as <-.
  destruct (convert_numbers seq 0 0 [] k c s ltac:(lia) Ec) as [Hk Hc]. cbn [plus] in Hk. subst k. exists c. split; [|split; [|split; [|split; [exact Hc|]]]].
  - eapply run_log_main; [exact C|]. cbn [exec_log]. rewrite type_word_string, ny'. fold x. rewrite Ew, Es, Ec. cbn [bind]. 
    do 3 f_equal. unfold place_path. rewrite <- !app_assoc. reflexivity.
  - rewrite place_write. unfold place_of. rewrite Ew. reflexivity.
  - rewrite place_write. exact Es.
  - intros quads P F. destruct (convert_spec n quads seq Hn1 P F) as (ds & txts & flags & F1 & _ & F3 & E). exists ds, flags. split; auto. split; auto.
    rewrite E in Ec. now injection Ec as _ <- _.
Qed.
Lemma sort_printed p f : Forall (shaped p) f -> sorting_lines ck x y (match p with Some r => r | None => WZ end) f (sort_log ck x y f).
Proof.
  intros F. assert (E : exists p1 p2, pairs_of (match p with Some r => r | None => WZ end) Both = [p1; p2] /\
    forall W FL FR, map fst (filter (fun e : text * Lines => ends_with (fst e) (lit ".pair")) (FolderFacts.dir_of p W FL FR)) = map pair_name [p1; p2]).
  { destruct p as [[| |]|]; (eexists; eexists; split; [reflexivity|reflexivity]). }
  destruct E as (p1 & p2 & E1 & E2). exists p1, p2, (seconds (tm_sort ck)), (map fst f). split; [exact E1|]. split; [apply seconds_time; apply Hck|]. split; [apply Permutation_refl|].
  unfold sort_log. f_equal. f_equal. rewrite map_map. apply map_ext_in. intros [nm d] I. rewrite Forall_forall in F. destruct (F _ I) as (rs & W & FL & FR & [= -> ->]). cbn [fst].
  specialize (E2 W FL FR). rewrite <- (map_map fst (fun fn => lit "Sorting file results/pairs/" ++ x ++ lit "/find_" ++ y ++ lit "/" ++ rowsum_dir rs ++ lit "/" ++ fn ++ lit " ...")).
  rewrite <- (map_map pair_name (fun fn => chars "Sorting file " ++ place_path x y ++ chars "/" ++ rowsum_dir rs ++ chars "/" ++ fn ++ chars " ...")).
  match goal with |- map ?g ?a = map ?h ?b => replace a with b by (symmetry; exact E2) end. apply map_ext. intros fn. unfold place_path. rewrite <- !app_assoc. reflexivity.
Qed.
End Log.

(* ---- the whole file ---- *)

Lemma made_place x y w : made x y w x y = Some (place_of w x y).
Proof. unfold made, place_of. destruct (w x y) eqn:E; [exact E|apply write_same]. Qed.
Lemma pairing_str r pr : pairing_arg r pr -> str_to_rowsum_pairing r = pr.
Proof. apply pairing_arg_iff. Qed.

Theorem log_printed {L} ck (e : Env L) n t y m r pr w : clock_ok ck -> 1 <= n -> (Z.of_nat n < 2 ^ 62)%Z -> searchable t -> canonical_numeral y n -> pairing_arg r pr -> pl_dirs (place_of w (type_word t) y) = [] ->
  exists fuel0, forall fuel (h : bool) log, fuel0 <= fuel -> exists w1, run_main fuel e [chars "rust"; chars "pairs"; type_word t; y; match_word m; r] (made (type_word t) y w) = Some w1 /\
    forall w3 w4 w5, run_main fuel e [chars "rust"; chars "join"; type_word t; y] (sort_place (type_word t) y w1) = Some w3 ->
      (if h then run_main fuel e [chars "rust"; chars "convert"; chars "hm"; type_word t; y] w3 = Some w4 else w4 = w3) ->
      run_main fuel e [chars "rust"; chars "convert"; chars "qhm"; type_word t; y] w4 = Some w5 ->
      exists lines, driver_log ck fuel e (type_word t) y (match_word m) r h w log = (w5, Some lines) /\
        result_log ck (e_ls e) n t y (match pr with Some p => p | None => WZ end) h (pl_dirs (place_of w1 (type_word t) y)) (place_of w3 (type_word t) y) (place_of w5 (type_word t) y) (stacked lines).
Proof.
  intros Hck Hn Hn2 Ht Hy Hr Hd. destruct (printed_pairs ck t m n Hck Ht Hn Hn2 pr) as (fuel0 & G). exists fuel0. intros fuel h log Hf. destruct (G fuel Hf) as (f & c & l1 & Ew & El & P).
  assert (H64 : (Z.of_nat n < 2 ^ 64)%Z) by lia. set (x := type_word t) in *. set (w0 := made x y w).
  assert (H0 : w0 x y = Some (place_of w x y)) by apply made_place. assert (P0 : place_of w0 x y = place_of w x y) by (unfold place_of at 1; now rewrite H0).
  set (w1 := match f with [] => w0 | _ => write w0 x y (set_dirs (place_of w x y) f) end).
  assert (C := cl_pairs (chars "rust") t y _ m _ _ (numeral_length_arg y n Hy H64) Hr).
  assert (R1 : run_log ck fuel e [lit "pairs"; x; y; match_word m; r] w0 = (w1, l1, [])).
  { eapply run_log_main; [exact C|]. cbn [exec_log]. rewrite type_word_string, <- (numeral_string y n Hy), Nat2Z.id. fold x. rewrite P0, Hd, El. cbn [bind]. unfold w1. now destruct f. }
  assert (M1 : run_main fuel e [chars "rust"; chars "pairs"; x; y; match_word m; r] w0 = Some w1).
  { refine (eq_trans (run_main_exec fuel e _ _ w0 C) _). cbn [exec]. rewrite type_word_string, <- (numeral_string y n Hy), Nat2Z.id. fold x. rewrite P0, Hd, Ew. cbn [bind]. unfold w1. now destruct f. }
  exists w1. split; [exact M1|]. intros w3 w4 w5 M3 M4 M5.
  assert (D1 : pl_dirs (place_of w1 x y) = f).
  { unfold w1. destruct f; [rewrite P0; exact Hd|]. unfold place_of at 1. now rewrite write_same. }
  assert (W1 : exists pl, w1 x y = Some pl).
  { unfold w1. destruct f; [eauto|]. rewrite write_same. eauto. }
  destruct W1 as (p1 & W1). assert (D2 : pl_dirs (place_of (sort_place x y w1) x y) = sortpairs f).
  { unfold sort_place. rewrite W1. unfold place_of at 1. rewrite write_same. cbn [set_dirs pl_dirs]. unfold place_of in D1. rewrite W1 in D1. now rewrite D1. }
  destruct (folder_shape fuel n t m _ f c Hn Hn2 Ht Ew) as [Sh _].
  destruct (join_printed ck e fuel n t y _ w3 Hck Hn H64 Hy M3) as (l3 & s & R3 & J). fold x in R3, J. rewrite D2 in J.
  assert (Q : exists seq, pl_seq (place_of w3 x y) = Some seq).
  { destruct J as (? & ? & ? & ? & seq & ? & ? & ? & ? & ? & ? & ? & _ & _ & _ & E & _). eauto. }
  destruct Q as (seq & Q3).
  assert (H4 : exists l4, (if h then
        let '(w, l, _) := run_log ck fuel e [lit "convert"; lit "hm"; x; y] w3 in
        (w, l ++ [lit "Converting to matrices up to Hadamard equivalence took " ++ seconds (tm_hm ck) ++ lit " seconds";
                  match pl_mat (place_of w x y) with Some s => usize_to_string (file_lines s) | None => [] end
                    ++ lit " matrices were found after converting up to Hadamard equivalence."])
      else (w3, [])) = (w4, l4) /\ pl_seq (place_of w4 x y) = Some seq /\ forall pl', pl_mat pl' = pl_mat (place_of w4 x y) -> if h then hadamard_lines ck t y pl' l4 else l4 = []).
  { destruct h; [|subst w4; exists []; auto].
    destruct (hm_printed ck fuel e n t y H64 Hy w3 w4 M4) as (ms & R4 & Em & F & Es). fold x in R4, Em, Es.
    match goal with |- context [run_log ck fuel e ?A w3] => replace (run_log ck fuel e A w3) with (w4, [chars "Converting sequences found in " ++ place_path x y ++ (match t with WilliamsonType => chars "/result-qts.seq" | _ => chars "/result.seq" end)
               ++ chars " to Hadamard matrices up to Hadamard equivalence ..."; chars "Reducing matrices to equivalence via graph isomorphism..."; chars "Number of matrices up to equivalence : " ++ count (length ms)], @nil ascii) by (symmetry; exact R4) end.
    eexists. split; [reflexivity|]. split; [now rewrite Es|]. intros pl' Ep. rewrite Em in Ep.
    exists ms, (count (length ms)), (seconds (tm_hm ck)). split; [exact Ep|]. split; [exact F|]. split; [apply count_canonical|]. split; [apply seconds_time; apply Hck|].
    rewrite Em, (stacked_count ms F). reflexivity. }
  destruct H4 as (l4 & R4 & Q4 & T4).
  destruct (qhm_printed ck fuel e n t y H64 Hy w4 w5 seq Hn Q4 M5) as (k & R5 & Em & Q5 & Hk & Hs). fold x in R5, Em, Q5.
  unfold driver_log. rewrite Hd. cbn [length Nat.eqb negb]. cbv zeta. fold (made x y w). fold w0.
  match goal with |- context [run_log ck fuel e ?A w0] => replace (run_log ck fuel e A w0) with (w1, l1, @nil ascii) by (symmetry; exact R1) end. rewrite D1.
  match goal with |- context [run_log ck fuel e ?A (sort_place x y w1)] => replace (run_log ck fuel e A (sort_place x y w1)) with (w3, l3, s) by (symmetry; exact R3) end.
  match goal with |- context [if h then ?A else (w3, ?B)] => replace (if h then A else (w3, B)) with (w4, l4) by (symmetry; exact R4) end.
  match type of R5 with _ = (w5, ?B, _) => match goal with |- context [run_log ck fuel e ?A w4] => replace (run_log ck fuel e A w4) with (w5, B, @nil ascii) by (symmetry; exact R5) end end.
  eexists. split; [reflexivity|].
  exists l1, (sort_log ck x y f), (stacked l3 ++ s), l4, ([lit "Converting PQS to QHM ..."] ++ [chars "./" ++ place_path x y ++ chars "/result.seq";
      chars "converted " ++ count (length seq) ++ chars " sequences of size " ++ y ++ chars ". " ++ count k ++ chars " contained non-commuting elements."] ++
      [lit "Converting to PQS to QHM took " ++ seconds (tm_qhm ck) ++ lit " seconds"; []; lit "Total execution time was " ++ seconds (tm_all ck) ++ lit " seconds."]).
  split; [exact P|]. split; [exact (sort_printed ck t y Hck pr f Sh)|]. split; [exact J|]. split; [apply T4; exact Em|]. split.
  - exists seq, k, (count (length seq)), (count k), (seconds (tm_qhm ck)), (seconds (tm_all ck)). split; [exact Q5|]. split; [apply count_canonical|]. split; [apply count_canonical|]. split; [exact Hk|]. split; [exact Hs|].
    split; [apply seconds_time; apply Hck|]. split; [apply seconds_time; apply Hck|]. reflexivity.
  - refine (eq_trans (stacked_app _ _) _). f_equal. refine (eq_trans (stacked_app _ _) _). f_equal. refine (eq_trans (stacked_app _ _) _). rewrite <- app_assoc. f_equal.
    rewrite stacked_glue by (destruct l4; discriminate). f_equal. exact (stacked_app _ _).
Qed.

Theorem log_complete {L} ck (e : Env L) n t y m r pr w : clock_ok ck -> env_ok e -> 1 <= n <= 31 -> searchable t -> (exists q, pm_quad n q /\ is_type t q) -> canonical_numeral y n -> pairing_arg r pr ->
  pl_dirs (place_of w (type_word t) y) = [] ->
  exists fuel0, forall fuel (h : bool) log, fuel0 <= fuel -> exists w1 w3, run_main fuel e [chars "rust"; chars "pairs"; type_word t; y; match_word m; r] (made (type_word t) y w) = Some w1 /\
    run_main fuel e [chars "rust"; chars "join"; type_word t; y] (sort_place (type_word t) y w1) = Some w3 /\
    forall w4, (if h then run_main fuel e [chars "rust"; chars "convert"; chars "hm"; type_word t; y] w3 = Some w4 else w4 = w3) ->
      exists w5 lines, run_main fuel e [chars "rust"; chars "convert"; chars "qhm"; type_word t; y] w4 = Some w5 /\
        driver_log ck fuel e (type_word t) y (match_word m) r h w log = (w5, Some lines) /\
        result_log ck (e_ls e) n t y (match pr with Some p => p | None => WZ end) h (pl_dirs (place_of w1 (type_word t) y)) (place_of w3 (type_word t) y) (place_of w5 (type_word t) y) (stacked lines).
Proof.
  intros Hck He Hn Ht Hq Hy Hr Hd. assert (H62 := small62 n (proj2 Hn)). assert (H64 : (Z.of_nat n < 2 ^ 64)%Z) by lia.
  assert (S : exists fuel0, forall fuel pl0, fuel0 <= fuel -> exists f k rr pl1 pl, steps fuel e n t m r false pl0 f k rr pl1 pl).
  { destruct Ht as [-> |[-> | ->]].
    - destruct (steps_QT e n Hn He m r false Hq) as (f0 & G). exists f0. intros fuel pl0 Hf. destruct (G fuel pl0 Hf) as (f & k & rr & pl1 & pl & equ & S & _). now exists f, k, rr, pl1, pl.
    - destruct (steps_WT e n Hn He m r false Hq) as (f0 & G). exists f0. intros fuel pl0 Hf. destruct (G fuel pl0 Hf) as (f & k & rr & r' & pl1 & pl & equ & S & _). now exists f, k, rr, pl1, pl.
    - exact (steps_W e n Hn He m r false Hq). }
  destruct S as (fa & S). destruct (log_printed ck e n t y m r pr w Hck (proj1 Hn) H62 Ht Hy Hr Hd) as (fb & G). exists (max fa fb). intros fuel h log Hf.
  destruct (S fuel (place_of w (type_word t) y) ltac:(lia)) as (f & k & rr & pl1 & pl & [Ep _ Ef _ (ls & _ & seqs & kk & s & Es & Ec & _)]).
  destruct (G fuel h log ltac:(lia)) as (w1 & M1 & T). set (x := type_word t) in *.
  assert (H0 : made x y w x y = Some (place_of w x y)) by apply made_place.
  destruct (stage_pairs fuel e n t y H64 Hy _ _ m r f k H0 Hd Ep) as [H1 _]. fold x in H1. unfold run_on in H1.
  match type of H1 with context [run_main fuel e ?A ?B] => replace (run_main fuel e A B) with (Some w1) in H1 by (symmetry; exact M1) end.
  destruct (stage_sort t y _ _ H1) as [H2 _]. fold x in H2. cbn [set_dirs pl_dirs] in H2.
  change (set_dirs (set_dirs (place_of w x y) f) (sortpairs f)) with (set_dirs (place_of w x y) (sortpairs f)) in H2.
  assert (C3 := cl_join (chars "rust") t y _ (numeral_length_arg y n Hy H64)).
  set (w3 := write (sort_place x y w1) x y pl1).
  assert (M3 : run_main fuel e [chars "rust"; chars "join"; x; y] (sort_place x y w1) = Some w3).
  { refine (eq_trans (run_main_exec fuel e _ _ _ C3) _). cbn [exec]. rewrite type_word_string, <- (numeral_string y n Hy), Nat2Z.id. fold x. rewrite H2. cbn [bind].
    match goal with |- bind ?X _ = _ => replace X with (Some pl1) by (symmetry; exact Ef) end. reflexivity. }
  exists w1, w3. split; [exact M1|]. split; [exact M3|]. intros w4 M4.
  assert (Q4 : exists pl4, w4 x y = Some pl4 /\ pl_seq pl4 = Some seqs).
  { destruct h; [|subst w4; exists pl1; split; auto; apply write_same].
    assert (C4 := cl_convert_hm (chars "rust") t y _ (numeral_length_arg y n Hy H64)). assert (M4' := eq_trans (eq_sym (run_main_exec fuel e _ _ w3 C4)) M4).
    cbn [exec] in M4'. rewrite type_word_string, <- (numeral_string y n Hy) in M4'. fold x in M4'. apply bind_some in M4' as (p3 & W3 & M4'). apply bind_some in M4' as (l & _ & M4'). apply bind_some in M4' as ([k0 s0] & _ & M4').
    injection M4' as <-. unfold w3 in W3. rewrite write_same in W3. injection W3 as <-. eexists. split; [apply write_same|]. exact Es. }
  destruct Q4 as (pl4 & W4 & S4).
  assert (C5 := cl_convert_qhm (chars "rust") t y _ (numeral_length_arg y n Hy H64)). set (w5 := write w4 x y (set_qhm pl4 s)).
  assert (M5 : run_main fuel e [chars "rust"; chars "convert"; chars "qhm"; x; y] w4 = Some w5).
  { refine (eq_trans (run_main_exec fuel e _ _ _ C5) _). cbn [exec]. rewrite type_word_string, <- (numeral_string y n Hy). fold x. rewrite W4, S4, Ec. destruct kk. reflexivity. }
  destruct (T w3 w4 w5 M3 M4 M5) as (lines & D & R). exists w5, lines. auto.
Qed.
