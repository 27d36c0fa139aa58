(* The scripts run one by one, sorting twice, and repeated runs of driver.sh. *)
From Coq Require Import Ascii String List ZArith Bool Arith Lia Permutation Relations.
From Verif Require Import Base BaseFacts Sums Quat ModelSequence ModelWilliamson ModelEquivalence SpecEquiv OpFacts EquivFacts TypeFacts
  OrderFacts EquivThms CanonFacts ReduceFacts QtWt Convert ModelMatrices SpecMatrix SpecPrint MatFacts QhmFacts PrintFacts HmFacts ModelGraph SpecGraph GraphThms HadEquiv
  ModelRowsum ModelMatching ModelWrite TextFacts WriteFacts FolderFacts SearchThms ExtendFacts FindQuadFacts DriverFacts ModelMain SpecMain MainFacts ArgFacts MainThms RepSymm SeqFacts DriverMain
  ModelLog LogFolder LogText LogFacts LogStages LogJoin DriverLog TableThms ModelScripts SingleFacts SpecSplit SplitFacts SpecScripts SpecSearch SpecLog Spec.
Import ListNotations.
Open Scope nat_scope.
Notation length := List.length.
#[local] Opaque usize_to_string isize_to_string seconds.

Lemma shaped_pair p e : shaped p e -> existsb (fun g => ends_with (fst g) (lit ".pair")) (snd e) = true.
Proof. intros (rs & W & FL & FR & ->). destruct p as [[| |]|]; reflexivity. Qed.
Lemma shaped_sort p f : Forall (shaped p) f -> map (fun '(name, d) => (name, sort_dir_sh d)) f = sortpairs f.
Proof.
  intros H. unfold sortpairs. apply map_ext_in. intros [name d] I. rewrite Forall_forall in H. assert (E := shaped_pair p (name, d) (H _ I)). cbn [snd] in E. unfold sort_dir_sh. now rewrite E.
Qed.
Lemma shaped_files p f : Forall (shaped p) f -> map (fun '(name, d) => (name, if existsb (fun g => ends_with (fst g) (lit ".pair")) d then d else [(lit "*.pair", @nil (list ascii))])) f = f.
Proof.
  intros H. rewrite <- map_id. apply map_ext_in. intros [name d] I. rewrite Forall_forall in H. assert (E := shaped_pair p (name, d) (H _ I)). cbn [snd] in E. match goal with |- context [existsb ?h d] => replace (existsb h d) with true by (symmetry; exact E) end. reflexivity.
Qed.
Lemma open_place (w : World) (x y : text) : let w0 := match w x y with Some _ => w | None => write w x y new_place end in
  w0 x y = Some (place_of w x y) /\ only w w0 x y.
Proof. cbv zeta. unfold place_of. destruct (w x y) eqn:E; [split; auto; apply only_refl|split; [apply write_same|apply write_only]]. Qed.

(* ---- one by one, the tree ---- *)
Section Tree.
Context {L : Type} (fuel : nat) (e : Env L) (n : nat) (t : SequenceType) (y : list ascii).
Hypothesis Hn : 1 <= n.
Hypothesis Hn2 : (Z.of_nat n < 2 ^ 62)%Z.
Hypothesis Ht : searchable t.
Hypothesis Hy : canonical_numeral y n.
Let x := type_word t.
Local Lemma H64' : (Z.of_nat n < 2 ^ 64)%Z. Proof. lia. Qed.

(* what pairs.sh leaves *)
Lemma pairs_stage w pl m pr : w x y = Some pl -> pl_dirs pl = [] ->
  exists f, let w' := run_on fuel e [lit "pairs"; x; y; match_word m; pr] w in w' x y = Some (set_dirs pl f) /\ only w w' x y /\ Forall (shaped (str_to_rowsum_pairing pr)) f.
Proof.
  intros Hw Hd. destruct (write_pairs fuel n t m (str_to_rowsum_pairing pr) []) as [[f c]|] eqn:E.
  - exists f. destruct (stage_pairs fuel e n t y H64' Hy w pl m pr f c Hw Hd E) as [A B]. split; auto. split; auto. eapply folder_shape; eauto.
  - exists []. cbv zeta. rewrite (run_on_cmd fuel e _ (Pairs t (Z.of_nat n) m (str_to_rowsum_pairing pr))).
    2:{ apply cl_pairs; [now apply numeral_length_arg, H64'|]. now apply pairing_arg_iff. }
    cbn [exec]. rewrite type_word_string, <- (numeral_string y n Hy), Nat2Z.id. fold x. unfold place_of. rewrite Hw, Hd, E. cbn [bind].
    split; [|split; [apply only_refl|constructor]]. rewrite Hw, <- Hd. destruct pl; reflexivity.
Qed.
Theorem scripts_tree c pr h (d : bool) w : d = true \/ pl_dirs (place_of w x y) = [] ->
  remaining fuel e x y h (pairs_sh fuel e x y c pr d w) = driver_flags fuel e x y c pr h d w.
Proof.
  intros Hd. destruct (flags_start x y d w Hd) as (_ & D & _). unfold driver_flags, driver_sh, pairs_sh. cbv zeta.
  rewrite D. cbn [length Nat.eqb negb]. set (w0 := if d then cleanup x y w else w) in *.
  destruct (open_place w0 x y) as [H1 _]. set (w1 := match w0 x y with Some _ => w0 | None => write w0 x y new_place end) in *.
  rewrite match_flag. destruct (pairs_stage w1 _ (if c then CORRELATION else PSD) (match pr with Some r => r | None => lit "WZ" end) H1 D) as (f & P & _ & Sh).
  unfold remaining, after_sorting, join_sh, hm_sh, qhm_sh.
  match goal with |- context [sort_sh x y ?w] => replace (sort_sh x y w) with (sort_place x y w); [reflexivity|] end.
  match goal with |- context [run_on fuel e ?A w1] => set (W := run_on fuel e A w1) end. change (W x y = Some (set_dirs (place_of w0 x y) f)) in P.
  unfold sort_sh, sort_place. rewrite P. cbn [set_dirs pl_dirs]. now rewrite (shaped_sort _ f Sh).
Qed.

(* ---- sorting twice ---- *)
Lemma sorted_again p W FL FR : sort_dir_sh (sorted_dir_of p W FL FR) = sorted_dir_of p W FL FR ++ [(lit "*.pair.sorted", [])].
Proof. destruct p as [[| |]|]; reflexivity. Qed.
Lemma three_sorted p W FL FR d : Permutation d (sorted_dir_of p W FL FR ++ [(lit "*.pair.sorted", [])]) -> get_order_from_dir d = None.
Proof.
  intros P. unfold get_order_from_dir. set (h := fun g : text * Lines => ends_with (fst g) (lit ".pair.sorted")).
  assert (E : length (filter h d) = 3).
  { rewrite (Permutation_length (Permutation_filter' h _ _ P)). destruct p as [[| |]|]; reflexivity. }
  destruct (filter h d) as [|[n0 l0] [|[n1 l1] [|z l]]]; try discriminate E; auto.
Qed.
Theorem sort_twice c pr (d : bool) w : any_listing (e_ls e) -> d = true \/ pl_dirs (place_of w x y) = [] ->
  let w2 := sort_sh x y (pairs_sh fuel e x y c pr d w) in pl_dirs (place_of w2 x y) <> [] ->
  run_main fuel e [chars "rust"; chars "join"; x; y] (sort_sh x y w2) = None.
Proof.
  intros (Lf & _ & Lp) Hd. cbv zeta. destruct (flags_start x y d w Hd) as (_ & D & _). unfold pairs_sh. cbv zeta.
  rewrite D. cbn [length Nat.eqb negb]. set (w0 := if d then cleanup x y w else w) in *.
  destruct (open_place w0 x y) as [H1 _]. set (w1 := match w0 x y with Some _ => w0 | None => write w0 x y new_place end) in *.
  rewrite match_flag. destruct (pairs_stage w1 _ (if c then CORRELATION else PSD) (match pr with Some r => r | None => lit "WZ" end) H1 D) as (f & P & _ & Sh).
  match goal with |- context [run_on fuel e ?A w1] => set (W := run_on fuel e A w1) end. change (W x y = Some (set_dirs (place_of w0 x y) f)) in P.
  unfold sort_sh at 1. rewrite P. cbn [set_dirs pl_dirs]. rewrite (shaped_sort _ f Sh). unfold place_of. rewrite write_same. cbn [set_dirs pl_dirs]. intros Hne.
  assert (C := cl_join (chars "rust") t y _ (numeral_length_arg y n Hy H64')). apply parse_args_iff in C. unfold run_main. unfold x at 1. rewrite C. cbn [bind exec].
  rewrite type_word_string, <- (numeral_string y n Hy). fold x. unfold sort_sh at 1. unfold sort_sh at 1. rewrite P. rewrite write_same. cbn [set_dirs pl_dirs]. rewrite (shaped_sort _ f Sh). rewrite write_same. cbn [bind].
  unfold find_write_place. cbn [pl_dirs]. rewrite join_pairs_eq by auto.
  match goal with |- context [match_pairs ?l t ?g] => replace (match_pairs l t g) with (@None (list QuadSeq)); [reflexivity|] end.
  symmetry. unfold match_pairs. destruct f as [|e0 f]; [now destruct Hne|]. inversion Sh as [|? ? S0 _]; subst. destruct S0 as (rs & W0 & FL & FR & ->).
  apply (fold_m_none _ _ (rowsum_dir rs, sort_dir_sh (sort_dir (dir_of (str_to_rowsum_pairing (match pr with Some r => r | None => lit "WZ" end)) W0 FL FR)))).
  - apply (Permutation_in _ (Permutation_sym (Lf _))). left. reflexivity.
  - intros a. destruct (get_sequences_from_dir _); auto. cbn [bind]. rewrite (three_sorted (str_to_rowsum_pairing (match pr with Some r => r | None => lit "WZ" end)) W0 FL FR); [reflexivity|].
    rewrite sort_dir_of, sorted_again. apply Lp.
Qed.
End Tree.

(* ---- one by one, the log ---- *)
Section Log.
Context {L : Type} (ck : Clock) (st : Watch) (fuel : nat) (e : Env L) (n : nat) (t : SequenceType) (y : list ascii).
Hypothesis Hck : clock_ok ck.
Hypothesis Hst : watch_ok st.
Hypothesis Hn : 1 <= n.
Hypothesis Hn2 : (Z.of_nat n < 2 ^ 62)%Z.
Hypothesis Ht : searchable t.
Hypothesis Hy : canonical_numeral y n.
Hypothesis Hl : any_listing (e_ls e).
Let x := type_word t.
Local Lemma H64'' : (Z.of_nat n < 2 ^ 64)%Z. Proof. lia. Qed.

Lemma quiet_gen z : (0 <= z)%Z -> Forall quiet [lit "Generating the .pair files took " ++ usize_to_string z ++ lit " seconds. "; lit " "; []].
Proof. intros H. constructor; [quiet_tac|]. constructor; [quiet_tac|]. constructor; [apply quiet_nil|constructor]. Qed.
Lemma quiet_joining z : (0 <= z)%Z -> Forall quiet [lit "Joining the files together took " ++ usize_to_string z ++ lit " seconds. "; []; []].
Proof. intros H. constructor; [quiet_tac|]. constructor; [apply quiet_nil|]. constructor; [apply quiet_nil|constructor]. Qed.
Lemma quiet_qhm_time : Forall quiet [lit "Converting to PQS to QHM took " ++ seconds (tm_qhm ck) ++ lit " seconds"].
Proof. assert (H := quiet_last ck Hck). inversion H; subst. constructor; auto. Qed.

Ltac use_log R l := match goal with |- context [run_log ck fuel e ?A ?w] => replace (run_log ck fuel e A w) with (run_on fuel e A w, l, @nil ascii) by (symmetry; exact R) end.
Theorem scripts_log c pr h (d : bool) w log f k r pl1 pl : d = true \/ pl_dirs (place_of w x y) = [] ->
  steps fuel e n t (if c : bool then CORRELATION else PSD) (match pr with Some r => r | None => lit "WZ" end) h (place_of (if d then cleanup x y w else w) x y) f k r pl1 pl ->
  exists lg, one_by_one ck st fuel e x y c pr h d w log = (driver_flags fuel e x y c pr h d w, Some lg) /\
    reading lg = whole ck t h k r pl.
Proof.
  intros Hd [Ep Ej Ef Am (lines & Elines & seqs & kk & s & Eseq & Ec & Epl)].
  destruct (folder_shape fuel n t _ _ f k Hn Hn2 Ht Ep) as [Sh Cc]. assert (Sh' := sorted_shape _ _ Sh).
  replace (driver_flags fuel e x y c pr h d w) with (remaining fuel e x y h (pairs_sh fuel e x y c pr d w)) by exact (scripts_tree fuel e n t y Hn Hn2 Ht Hy c pr h d w Hd).
  destruct (flags_start x y d w Hd) as (_ & D & _).
  unfold one_by_one, remaining, after_sorting, join_sh, hm_sh, qhm_sh, pairs_sh, pairs_sh_log, sort_sh_log, join_sh_log, hm_sh_log, qhm_sh_log. cbv zeta.
  set (w0 := if d then cleanup x y w else w) in *.
  rewrite D. cbn [length Nat.eqb negb]. rewrite match_flag.
  set (pr0 := match pr with Some r => r | None => lit "WZ" end) in *. set (m := if c then CORRELATION else PSD) in *.
  destruct (open_place w0 x y) as [H0 O0]. set (w1 := match w0 x y with Some _ => w0 | None => write w0 x y new_place end) in *.
  destruct (log_pairs ck fuel e n t y Hck H64'' Hy w1 _ m pr0 f k H0 D Ep) as (l1 & R1 & Nc & Q1). use_log R1 l1.
  destruct (stage_pairs fuel e n t y H64'' Hy w1 _ m pr0 f k H0 D Ep) as [H1 _]. fold x in H1. clear R1.
  match goal with |- context [run_on fuel e ?A w1] => set (w2 := run_on fuel e A w1) end. change (w2 x y = Some (set_dirs (place_of w0 x y) f)) in H1.
  assert (Q2 := sort_log_reading ck _ t y f Hck (plain_y n y Hy) Sh). fold x in Q2.
  assert (D1 : pl_dirs (place_of w2 x y) = f) by (unfold place_of; rewrite H1; reflexivity). rewrite D1.
  match goal with |- context [sort_log ck x y ?g] => replace (sort_log ck x y g) with (sort_log ck x y f) by (f_equal; symmetry; exact (shaped_files _ f Sh)) end.
  assert (H2 : sort_sh x y w2 x y = Some (set_dirs (place_of w0 x y) (sortpairs f))).
  { unfold sort_sh. rewrite H1. cbn [set_dirs pl_dirs]. rewrite (shaped_sort _ f Sh). apply write_same. }
  set (w3 := sort_sh x y w2) in *.
  destruct (log_join ck fuel e n t y Hck H64'' Hy w3 _ pl1 r (str_to_rowsum_pairing pr0) H2 Hl Sh' Ej Am Ef) as (l3 & R3 & Q3). use_log R3 l3.
  destruct (stage_join fuel e n t y H64'' Hy w3 _ pl1 H2 Ef) as [H3 _]. fold x in H3. clear R3.
  match goal with |- context [run_on fuel e ?A w3] => set (w4 := run_on fuel e A w3) end. change (w4 x y = Some pl1) in H3.
  set (pl2 := if h then match hadamard_equivalence_from_file (e_canon e) (e_same e) (e_hms e) lines t with Some (_, s) => set_mat pl1 s | None => pl1 end else pl1) in *.
  assert (P2 : pl_seq pl2 = pl_seq pl1 /\ pl_qts pl2 = pl_qts pl1).
  { unfold pl2. destruct h; auto. destruct (hadamard_equivalence_from_file _ _ _ _ _) as [[? ?]|]; auto. }
  assert (H4 : exists l4, forall lg, (if h then
        let '(w, l, s) := run_log ck fuel e [lit "convert"; lit "hm"; x; y] w4 in
        (w, append (Some lg) (l ++ glue s [lit "Converting to matrices up to Hadamard equivalence took " ++ seconds (tm_hm ck) ++ lit " seconds"]))
      else (w4, Some lg)) = (if h then run_on fuel e [lit "convert"; lit "hm"; x; y] w4 else w4, Some (lg ++ l4)) /\
      reading l4 = mkReading None None None [] None (if h then Some (seconds (tm_hm ck)) else None) /\
      (if h then run_on fuel e [lit "convert"; lit "hm"; x; y] w4 else w4) x y = Some pl2).
  { destruct h; [|exists []; intros lg; rewrite app_nil_r; split; [reflexivity|]; split; [reflexivity|exact H3]].
    destruct (log_hm ck fuel e n t y H64'' Hy w4 pl1 lines H3 Elines) as (l & Rl & Ql). eexists. intros lg. use_log Rl l. split; [reflexivity|]. split.
    - rewrite reading_app, (reading_quiet l Ql), then_nothing. change (glue [] ?a) with a. apply reading_hm. apply Hck.
    - unfold pl2. destruct (hadamard_equivalence_from_file (e_canon e) (e_same e) (e_hms e) lines t) as [[k0 s0]|] eqn:Eh.
      + exact (proj1 (stage_hm fuel e n t y H64'' Hy w4 pl1 lines k0 s0 H3 Elines Eh)).
      + assert (P := stage_hm_panics fuel e n t y H64'' Hy w4 pl1 lines H3 Elines Eh). fold x in P. rewrite P. exact H3. }
  destruct H4 as (l4 & H4).
  set (lg1 := (l1 ++ [lit "Generating the .pair files took " ++ usize_to_string (tm_gen st) ++ lit " seconds. "; lit " "; []]) ++ sort_log ck x y f).
  set (lg3 := lg1 ++ l3 ++ [lit "Joining the files together took " ++ usize_to_string (tm_join st) ++ lit " seconds. "; []; []]).
  destruct (H4 lg3) as (R4 & Q4 & W4). cbn [append glue app].
  match goal with |- exists lg, (let '(_, _) := (if h then ?A else ?B) in _) = _ /\ _ => replace (if h then A else B) with (if h then run_on fuel e [lit "convert"; lit "hm"; x; y] w4 else w4, Some (lg3 ++ l4)) by (symmetry; exact R4) end.
  set (w5 := if h then run_on fuel e [lit "convert"; lit "hm"; x; y] w4 else w4) in *.
  assert (S2 : pl_seq pl2 = Some seqs) by (destruct P2 as (-> & _); exact Eseq).
  destruct (log_qhm ck fuel e n t y H64'' Hy w5 pl2 seqs kk s W4 S2 Ec) as (l5 & R5 & Q5). use_log R5 l5. cbn [append].
  eexists. split; [reflexivity|]. destruct Hst as [S1 S3].
  unfold lg3, lg1. rewrite !reading_app, Q1, Q2, Q3, Q4, (reading_quiet _ (quiet_gen _ S1)), (reading_quiet _ (quiet_joining _ S3)), (reading_quiet l5 Q5).
  match goal with |- context [reading [?a]] => replace (reading [a]) with nothing by (symmetry; exact (reading_quiet _ quiet_qhm_time)) end. unfold whole. rewrite Epl. cbn [set_qhm pl_qts]. destruct P2 as (_ & ->).
  destruct t, h; try reflexivity; unfold extra; destruct (pl_qts pl1); reflexivity.
Qed.
End Log.

Theorem scripts_row {L} ck st (e : Env L) n t y c pr h (d : bool) w log : clock_ok ck -> watch_ok st -> 1 <= n <= 31 -> env_ok e -> canonical_numeral y n -> searchable t ->
  d = true \/ pl_dirs (place_of w (type_word t) y) = [] -> (exists q, pm_quad n q /\ is_type t q) ->
  exists fuel0, forall fuel, fuel0 <= fuel -> exists w' pl lg lg',
    driver_flags_log ck fuel e (type_word t) y c pr h d w log = (w', Some lg) /\
    one_by_one ck st fuel e (type_word t) y c pr h d w log = (w', Some lg') /\
    w' (type_word t) y = Some pl /\ collect pl lg' = collect pl lg.
Proof.
  intros Hck Hst Hn He Hy Ht Hd Hq.
  assert (S : exists fuel0, forall fuel pl0, fuel0 <= fuel -> exists f k r pl1 pl,
    steps fuel e n t (if c : bool then CORRELATION else PSD) (match pr with Some r => r | None => lit "WZ" end) h pl0 f k r pl1 pl).
  { destruct Ht as [->|[->| ->]].
    - destruct (steps_QT e n Hn He (if c then CORRELATION else PSD) (match pr with Some r => r | None => lit "WZ" end) h Hq) as (f0 & H).
      exists f0. intros fuel pl0 Hf. destruct (H fuel pl0 Hf) as (f & k & r & pl1 & pl & equ & S & _). now exists f, k, r, pl1, pl.
    - destruct (steps_WT e n Hn He (if c then CORRELATION else PSD) (match pr with Some r => r | None => lit "WZ" end) h Hq) as (f0 & H).
      exists f0. intros fuel pl0 Hf. destruct (H fuel pl0 Hf) as (f & k & r & r' & pl1 & pl & equ & S & _). now exists f, k, r, pl1, pl.
    - destruct (steps_W e n Hn He (if c then CORRELATION else PSD) (match pr with Some r => r | None => lit "WZ" end) h Hq) as (f0 & H).
      exists f0. intros fuel pl0 Hf. destruct (H fuel pl0 Hf) as (f & k & r & pl1 & pl & S). now exists f, k, r, pl1, pl. }
  destruct S as (f0 & S). exists f0. intros fuel Hf.
  destruct (S fuel (place_of (if d then cleanup (type_word t) y w else w) (type_word t) y) Hf) as (f & k & r & pl1 & pl & Hs).
  assert (Hn2 : (Z.of_nat n < 2 ^ 62)%Z) by lia.
  assert (Hl : any_listing (e_ls e)) by apply He.
  destruct (flags_log ck e n y Hck Hn He Hy fuel t c pr h d w log f k r pl1 pl Ht Hd Hs) as (w' & lg & (E & Ew & O & P) & Dp & K & R).
  destruct (scripts_log ck st fuel e n t y Hck Hst (proj1 Hn) Hn2 Ht Hy Hl c pr h d w log f k r pl1 pl Hd Hs) as (lg' & E' & R').
  exists w', pl, lg, lg'. split; [exact E|]. split; [rewrite E', Ew; reflexivity|]. split; [exact P|].
  rewrite !collect_reading, R, R'. reflexivity.
Qed.

(* ---- running driver.sh -d again ---- *)
Section Again.
Context {L : Type} (fuel : nat) (e : Env L) (n : nat) (t : SequenceType) (y : list ascii).
Hypothesis Hn : (Z.of_nat n < 2 ^ 64)%Z.
Hypothesis Hy : canonical_numeral y n.
Let x := type_word t.

Definition p_pairs m pr (pl : Place) : Place :=
  match write_pairs fuel n t m (str_to_rowsum_pairing pr) [] with Some (f, _) => set_dirs pl f | None => set_dirs pl [] end.
Definition p_join (pl : Place) : Place := match find_write_place fuel (e_ord e) (e_path e) (e_ls e) n t pl with Some pl' => pl' | None => pl end.
Definition p_hm (pl : Place) : Place :=
  match match t with WilliamsonType => pl_qts pl | _ => pl_seq pl end with
  | Some lines => match hadamard_equivalence_from_file (e_canon e) (e_same e) (e_hms e) lines t with Some (_, s) => set_mat pl s | None => pl end
  | None => pl
  end.
Definition p_qhm (pl : Place) : Place :=
  match pl_seq pl with Some lines => match convert_qs_to_matrices lines with Some (_, s) => set_qhm pl s | None => pl end | None => pl end.
Definition set_mat' (pl : Place) (s : option text) : Place :=
  mkPlace (pl_dirs pl) (pl_quad pl) (pl_seq pl) (pl_qseq pl) (pl_qts pl) (pl_qts_q pl) s (pl_qhm pl) (pl_all pl).
Definition set_qhm' (pl : Place) (s : option text) : Place :=
  mkPlace (pl_dirs pl) (pl_quad pl) (pl_seq pl) (pl_qseq pl) (pl_qts pl) (pl_qts_q pl) (pl_mat pl) s (pl_all pl).
Definition p_driver m pr (h : bool) (pl : Place) : Place :=
  let pl := p_pairs m pr pl in
  let pl := set_dirs pl (sortpairs (pl_dirs pl)) in
  let pl := p_join pl in
  p_qhm (if h then p_hm pl else pl).

Lemma on_pairs w pl m pr : w x y = Some pl -> pl_dirs pl = [] -> run_on fuel e [lit "pairs"; x; y; match_word m; pr] w x y = Some (p_pairs m pr pl) /\
  only w (run_on fuel e [lit "pairs"; x; y; match_word m; pr] w) x y.
Proof.
  intros Hw Hd. unfold p_pairs. destruct (write_pairs fuel n t m (str_to_rowsum_pairing pr) []) as [[f c]|] eqn:E.
  - exact (stage_pairs fuel e n t y Hn Hy w pl m pr f c Hw Hd E).
  - rewrite (run_on_cmd fuel e _ (Pairs t (Z.of_nat n) m (str_to_rowsum_pairing pr))).
    2:{ apply cl_pairs; [now apply numeral_length_arg|]. now apply pairing_arg_iff. }
    cbn [exec]. rewrite type_word_string, <- (numeral_string y n Hy), Nat2Z.id. fold x. unfold place_of. rewrite Hw, Hd, E. cbn [bind].
    split; [|apply only_refl]. rewrite Hw, <- Hd. destruct pl; reflexivity.
Qed.
Lemma on_join w pl : w x y = Some pl -> run_on fuel e [lit "join"; x; y] w x y = Some (p_join pl) /\ only w (run_on fuel e [lit "join"; x; y] w) x y.
Proof.
  intros Hw. unfold p_join. rewrite (run_on_cmd fuel e _ (Join t (Z.of_nat n))) by (apply cl_join; now apply numeral_length_arg).
  cbn [exec]. rewrite type_word_string, <- (numeral_string y n Hy), Nat2Z.id. fold x. rewrite Hw. cbn [bind].
  destruct (find_write_place fuel (e_ord e) (e_path e) (e_ls e) n t pl); cbn [bind]; [split; [apply write_same|apply write_only]|split; [exact Hw|apply only_refl]].
Qed.
Lemma on_hm w pl : w x y = Some pl -> run_on fuel e [lit "convert"; lit "hm"; x; y] w x y = Some (p_hm pl) /\ only w (run_on fuel e [lit "convert"; lit "hm"; x; y] w) x y.
Proof.
  intros Hw. unfold p_hm. rewrite (run_on_cmd fuel e _ (ConvertHm t (Z.of_nat n))) by (apply cl_convert_hm; now apply numeral_length_arg).
  cbn [exec]. rewrite type_word_string, <- (numeral_string y n Hy). fold x. rewrite Hw. cbn [bind].
  destruct (match t with WilliamsonType => pl_qts pl | _ => pl_seq pl end) as [lines|]; cbn [bind]; [|split; [exact Hw|apply only_refl]].
  destruct (hadamard_equivalence_from_file _ _ _ _ _) as [[k s]|]; cbn [bind]; [split; [apply write_same|apply write_only]|split; [exact Hw|apply only_refl]].
Qed.
Lemma on_qhm w pl : w x y = Some pl -> run_on fuel e [lit "convert"; lit "qhm"; x; y] w x y = Some (p_qhm pl) /\ only w (run_on fuel e [lit "convert"; lit "qhm"; x; y] w) x y.
Proof.
  intros Hw. unfold p_qhm. rewrite (run_on_cmd fuel e _ (ConvertQhm t (Z.of_nat n))) by (apply cl_convert_qhm; now apply numeral_length_arg).
  cbn [exec]. rewrite type_word_string, <- (numeral_string y n Hy). fold x. rewrite Hw.
  destruct (pl_seq pl) as [lines|]; [|split; [exact Hw|apply only_refl]].
  destruct (convert_qs_to_matrices lines) as [[k s]|]; cbn [bind]; [split; [apply write_same|apply write_only]|split; [exact Hw|apply only_refl]].
Qed.
Lemma cleanup_place w : pl_dirs (place_of (cleanup x y w) x y) = [] /\ only w (cleanup x y w) x y /\ set_dirs (place_of (cleanup x y w) x y) [] = set_dirs (place_of w x y) [].
Proof.
  unfold cleanup, place_of. destruct (w x y) as [pl|] eqn:E; [rewrite write_same; split; [reflexivity|split; [apply write_only|reflexivity]]|].
  rewrite E. split; [reflexivity|]. split; [apply only_refl|reflexivity].
Qed.
Lemma p_pairs_dirs m pr pl : p_pairs m pr pl = p_pairs m pr (set_dirs pl []).
Proof. unfold p_pairs. destruct (write_pairs _ _ _ _ _ _) as [[? ?]|]; reflexivity. Qed.
Theorem driver_place c pr h w : let w' := driver_flags fuel e x y c pr h true w in
  only w w' x y /\ w' x y = Some (p_driver (if c then CORRELATION else PSD) (match pr with Some r => r | None => lit "WZ" end) h (place_of w x y)).
Proof.
  cbv zeta. unfold driver_flags, driver_sh. destruct (cleanup_place w) as (D & Oc & Ec). set (w0 := cleanup x y w) in *. cbv zeta.
  rewrite D. cbn [length Nat.eqb negb]. destruct (open_place w0 x y) as [H0 O0]. set (w1 := match w0 x y with Some _ => w0 | None => write w0 x y new_place end) in *.
  rewrite match_flag. set (pr0 := match pr with Some r => r | None => lit "WZ" end). set (m := if c then CORRELATION else PSD).
  destruct (on_pairs w1 _ m pr0 H0 D) as [H1 O1].
  match goal with |- context [run_on fuel e ?A w1] => set (w2 := run_on fuel e A w1) end. change (w2 x y = Some (p_pairs m pr0 (place_of w0 x y))) in H1. change (only w1 w2 x y) in O1.
  rewrite p_pairs_dirs, Ec, <- p_pairs_dirs in H1.
  destruct (stage_sort t y w2 _ H1) as [H2 O2]. fold x in H2, O2. set (w3 := sort_place x y w2) in *.
  destruct (on_join w3 _ H2) as [H3 O3]. match goal with |- context [run_on fuel e ?A w3] => set (w4 := run_on fuel e A w3) end.
  match type of H3 with _ = Some ?p => change (w4 x y = Some p) in H3; set (pl3 := p) in * end. change (only w3 w4 x y) in O3.
  assert (H4 : (if h then run_on fuel e [lit "convert"; lit "hm"; x; y] w4 else w4) x y = Some (if h then p_hm pl3 else pl3) /\
    only w4 (if h then run_on fuel e [lit "convert"; lit "hm"; x; y] w4 else w4) x y).
  { destruct h; [exact (on_hm w4 pl3 H3)|split; [exact H3|apply only_refl]]. }
  destruct H4 as [H4 O4]. match goal with |- context [if h then run_on fuel e ?A w4 else w4] => set (w5 := if h then run_on fuel e A w4 else w4) end.
  change (w5 x y = Some (if h then p_hm pl3 else pl3)) in H4. change (only w4 w5 x y) in O4.
  destruct (on_qhm w5 _ H4) as [H5 O5]. split; [|exact H5].
  eapply only_trans; [exact Oc|]. eapply only_trans; [exact O0|]. eapply only_trans; [exact O1|]. eapply only_trans; [exact O2|]. eapply only_trans; [exact O3|]. eapply only_trans; [exact O4|exact O5].
Qed.

(* the join step depends on the directories only *)
Lemma join_const f : (forall pl, find_write_place fuel (e_ord e) (e_path e) (e_ls e) n t (set_dirs pl f) = None) \/
  (exists out q, forall pl, find_write_place fuel (e_ord e) (e_path e) (e_ls e) n t (set_dirs pl f) = Some (set_seq (set_dirs pl f) out q) /\ t <> WilliamsonType) \/
  (exists out q out' q', forall pl, find_write_place fuel (e_ord e) (e_path e) (e_ls e) n t (set_dirs pl f) = Some (set_qts (set_seq (set_dirs pl f) out q) out' q')).
Proof.
  unfold find_write_place. cbn [set_dirs pl_dirs]. destruct (join_pairs _ _ _ _ _ _) as [r|]; cbn [bind]; [|now left].
  destruct (match t with QuaternionType => _ | _ => _ end) as [am|]; cbn [bind]; [|now left].
  destruct (seq_lines r) as [out|]; cbn [bind]; [|now left]. destruct (qseq_text r) as [q|]; cbn [bind]; [|now left].
  destruct t; try (right; left; exists out, q; intros pl; split; [reflexivity|discriminate]).
  destruct (extend_wts n r) as [l|]; cbn [bind]; [|now left]. destruct (reduce_to_canonical_reps _ _ _ _ _) as [r'|]; cbn [bind]; [|now left].
  destruct (seq_lines r') as [out'|]; cbn [bind]; [|now left]. destruct (qseq_text r') as [q'|]; cbn [bind]; [|now left].
  right. right. exists out, q, out', q'. reflexivity.
Qed.
Definition fixed_dirs m pr : Folder := match write_pairs fuel n t m (str_to_rowsum_pairing pr) [] with Some (f, _) => sortpairs f | None => [] end.
Lemma p_sorted m pr pl : (let pl := p_pairs m pr pl in set_dirs pl (sortpairs (pl_dirs pl))) = set_dirs pl (fixed_dirs m pr).
Proof. unfold p_pairs, fixed_dirs. destruct (write_pairs _ _ _ _ _ _) as [[? ?]|]; reflexivity. Qed.
Definition v_hm (pl : Place) : option text :=
  match match t with WilliamsonType => pl_qts pl | _ => pl_seq pl end with
  | Some lines => option_map snd (hadamard_equivalence_from_file (e_canon e) (e_same e) (e_hms e) lines t)
  | None => None
  end.
Definition v_qhm (pl : Place) : option text := match pl_seq pl with Some lines => option_map snd (convert_qs_to_matrices lines) | None => None end.
Lemma p_hm_eq pl : p_hm pl = match v_hm pl with Some s => set_mat pl s | None => pl end.
Proof. unfold p_hm, v_hm. destruct (match t with WilliamsonType => _ | _ => _ end) as [l|]; [|reflexivity]. now destruct (hadamard_equivalence_from_file _ _ _ l t) as [[? ?]|]. Qed.
Lemma p_qhm_eq pl : p_qhm pl = match v_qhm pl with Some s => set_qhm pl s | None => pl end.
Proof. unfold p_qhm, v_qhm. destruct (pl_seq pl) as [l|]; [|reflexivity]. now destruct (convert_qs_to_matrices l) as [[? ?]|]. Qed.
Lemma v_hm_qhm pl s : v_hm (set_qhm pl s) = v_hm pl. Proof. unfold v_hm. now destruct t. Qed.
Lemma v_hm_mat pl s : v_hm (set_mat pl s) = v_hm pl. Proof. unfold v_hm. now destruct t. Qed.
Lemma v_qhm_qhm pl s : v_qhm (set_qhm pl s) = v_qhm pl. Proof. reflexivity. Qed.
Lemma v_qhm_mat pl s : v_qhm (set_mat pl s) = v_qhm pl. Proof. reflexivity. Qed.
Lemma p_driver_eq m pr (h : bool) pl : p_driver m pr h pl = p_qhm (if h then p_hm (p_join (set_dirs pl (fixed_dirs m pr))) else p_join (set_dirs pl (fixed_dirs m pr))).
Proof. unfold p_driver. cbv zeta. now rewrite (p_sorted m pr). Qed.
(* what the last two steps change *)
Lemma last_two (h : bool) B : let P := p_qhm (if h then p_hm B else B) in
  P = set_qhm' (set_mat' B (if h then match v_hm B with Some s => Some s | None => pl_mat B end else pl_mat B)) (match v_qhm B with Some s => Some s | None => pl_qhm B end).
Proof.
  cbv zeta. destruct h.
  - rewrite p_hm_eq, p_qhm_eq. destruct (v_hm B) as [s|]; [rewrite v_qhm_mat|]; destruct (v_qhm B); destruct B; reflexivity.
  - rewrite p_qhm_eq. destruct (v_qhm B); destruct B; reflexivity.
Qed.
Lemma p_driver_again m pr h pl : p_driver m pr h (p_driver m pr h pl) = p_driver m pr h pl.
Proof.
  rewrite !p_driver_eq. set (f := fixed_dirs m pr). set (B := p_join (set_dirs pl f)).
  assert (K : p_join (set_dirs (p_qhm (if h then p_hm B else B)) f) = p_qhm (if h then p_hm B else B)).
  { rewrite last_two. unfold B, p_join. destruct (join_const f) as [J|[(out & q & J)|(out & q & out' & q' & J)]].
    - rewrite !J. reflexivity.
    - rewrite !(fun p => proj1 (J p)). reflexivity.
    - rewrite !J. reflexivity. }
  rewrite K. rewrite !last_two.
  match goal with |- context [v_hm (set_qhm' ?a ?b)] => replace (v_hm (set_qhm' a b)) with (v_hm B) by (unfold v_hm; now destruct t) end.
  match goal with |- context [v_qhm (set_qhm' ?a ?b)] => replace (v_qhm (set_qhm' a b)) with (v_qhm B) by reflexivity end.
  destruct h, (v_hm B), (v_qhm B); reflexivity.
Qed.
Theorem rerun c pr h w : same_tree (driver_flags fuel e x y c pr h true w) (driver_flags fuel e x y c pr h true (driver_flags fuel e x y c pr h true w)).
Proof.
  intros a b. destruct (driver_place c pr h w) as [O P]. destruct (driver_place c pr h (driver_flags fuel e x y c pr h true w)) as [O' P'].
  destruct (text_dec a x) as [->|Na]; [destruct (text_dec b y) as [->|Nb]|].
  - rewrite P', P. f_equal. unfold place_of at 1. rewrite P. apply p_driver_again.
  - apply O'. intros E. injection E as E. now destruct Nb.
  - apply O'. intros E. injection E as E _. now destruct Na.
Qed.
Lemma kept_refl {A} (a : option A) : kept a a. Proof. intros v; auto. Qed.
Lemma kept_none {A} (a : option A) : kept None a. Proof. intros v; discriminate. Qed.
Lemma kept_value {A} (a b : option A) (u v : option A) : kept a b -> u = None -> kept (match a with Some s => Some s | None => u end) (match b with Some s => Some s | None => v end).
Proof. intros K -> w E. destruct a; [|discriminate]. injection E as ->. now rewrite (K w eq_refl). Qed.
Lemma p_driver_new m pr h pl : files_of (p_driver m pr h new_place) (p_driver m pr h pl).
Proof.
  rewrite !p_driver_eq, !last_two. set (f := fixed_dirs m pr).
  assert (J : let B0 := p_join (set_dirs new_place f) in let B := p_join (set_dirs pl f) in
    pl_dirs B0 = pl_dirs B /\ kept (pl_quad B0) (pl_quad B) /\ kept (pl_seq B0) (pl_seq B) /\ kept (pl_qseq B0) (pl_qseq B) /\
    kept (pl_qts B0) (pl_qts B) /\ kept (pl_qts_q B0) (pl_qts_q B) /\ pl_mat B0 = None /\ pl_qhm B0 = None /\ kept (pl_all B0) (pl_all B)).
  { cbv zeta. unfold p_join. destruct (join_const f) as [J|[(out & q & J)|(out & q & out' & q' & J)]]; [rewrite !J|rewrite !(fun p => proj1 (J p))|rewrite !J];
      cbn; repeat split; auto using @kept_none, @kept_refl. }
  cbv zeta in J. set (B0 := p_join (set_dirs new_place f)) in *. set (B := p_join (set_dirs pl f)) in *. clearbody B0 B.
  destruct J as (J1 & J2 & J3 & J4 & J5 & J6 & J7 & J8 & J9).
  assert (Vh : kept (v_hm B0) (v_hm B)).
  { unfold v_hm. assert (K : kept (match t with WilliamsonType => pl_qts B0 | _ => pl_seq B0 end) (match t with WilliamsonType => pl_qts B | _ => pl_seq B end)) by (destruct t; auto).
    destruct (match t with WilliamsonType => pl_qts B0 | _ => pl_seq B0 end) as [l|]; [|apply kept_none]. rewrite (K l eq_refl). apply kept_refl. }
  assert (Vq : kept (v_qhm B0) (v_qhm B)).
  { unfold v_qhm. destruct (pl_seq B0) as [l|]; [|apply kept_none]. rewrite (J3 l eq_refl). apply kept_refl. }
  unfold files_of, set_qhm', set_mat'. cbn [pl_dirs pl_quad pl_seq pl_qseq pl_qts pl_qts_q pl_mat pl_qhm pl_all].
  repeat (split; [assumption|]). split; [|split; [|assumption]].
  - destruct h; [now apply kept_value|]. rewrite J7. apply kept_none.
  - now apply kept_value.
Qed.
Theorem stale_files c pr h w w0 : w0 x y = None -> exists p p0,
  driver_flags fuel e x y c pr h true w x y = Some p /\ driver_flags fuel e x y c pr h true w0 x y = Some p0 /\ files_of p0 p.
Proof.
  intros E. destruct (driver_place c pr h w) as [_ P]. destruct (driver_place c pr h w0) as [_ P0]. eexists _, _. split; [exact P|]. split; [exact P0|].
  unfold place_of at 1. rewrite E. apply p_driver_new.
Qed.
End Again.
