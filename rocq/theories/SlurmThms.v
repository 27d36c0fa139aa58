(* The flag -s of the scripts. *)
From Coq Require Import Ascii String List ZArith Bool Arith Lia Permutation Relations.
From Verif Require Import Base BaseFacts Sums Quat ModelSequence ModelWilliamson ModelEquivalence SpecEquiv OpFacts EquivFacts TypeFacts
  OrderFacts EquivThms CanonFacts ReduceFacts QtWt Convert ModelMatrices SpecMatrix SpecPrint MatFacts QhmFacts PrintFacts HmFacts ModelGraph SpecGraph GraphThms HadEquiv
  ModelRowsum SpecRowsum RowsumFacts ModelMatching ModelWrite TextFacts WriteFacts FolderFacts SearchThms ExtendFacts FindQuadFacts DriverFacts ModelMain SpecMain MainFacts ArgFacts MainThms RepSymm SeqFacts DriverMain
  ModelLog LogFolder LogText LogFacts LogStages LogJoin DriverLog ModelScripts SingleFacts SpecSplit SplitFacts SpecScripts ScriptThms SpecSearch PanicDriver ModelSlurm SpecSlurm Spec.
Import ListNotations.
Open Scope nat_scope.
Notation length := List.length.

(* ---- words ---- *)
Lemma is_blank_iff a : is_blank a = true <-> blank a.
Proof.
  unfold blank. split.
  - destruct a as [[] [] [] [] [] [] [] []]; cbn; try discriminate; auto.
  - intros [->|[->| ->]]; reflexivity.
Qed.
Lemma blanks_none s : Forall blank s -> words_from s [] = [].
Proof. induction 1 as [|a s Ha _ IH]; cbn [words_from]; auto. apply is_blank_iff in Ha. now rewrite Ha. Qed.
Lemma blanks_last s cur : cur <> [] -> Forall blank s -> words_from s cur = [cur].
Proof.
  intros Hc F. destruct F as [|a s Ha F]; cbn [words_from]; [now destruct cur|]. apply is_blank_iff in Ha. rewrite Ha, (blanks_none s F). now destruct cur.
Qed.
Lemma words_letters w : forall s cur, Forall (fun c => ~ blank c) w -> words_from (w ++ s) cur = words_from s (cur ++ w).
Proof.
  induction w as [|a w IH]; intros s cur F; cbn [app words_from]; [now rewrite app_nil_r|]. inversion F; subst.
  destruct (is_blank a) eqn:E; [apply is_blank_iff in E; contradiction|]. rewrite IH by auto. now rewrite <- app_assoc.
Qed.
Lemma words_skip a s : Forall blank a -> words_from (a ++ s) [] = words_from s [].
Proof. induction 1 as [|b a Hb _ IH]; cbn [app words_from]; auto. apply is_blank_iff in Hb. now rewrite Hb. Qed.
Lemma words_no v : no_word v -> words_of v = [].
Proof. intros [->|(s & -> & F)]; [reflexivity|]. now apply blanks_none. Qed.
Lemma words_one v : one_word v -> exists w, words_of v = [w].
Proof.
  intros (s & a & w & b & -> & -> & Fa & Fb & Hw & Fw). exists w. cbn [words_of]. rewrite words_skip, words_letters by auto. cbn [app]. now apply blanks_last.
Qed.
(* from inside a word *)
Lemma words_some s : forall cur, cur <> [] \/ (exists d, In d s /\ ~ blank d) -> 1 <= length (words_from s cur).
Proof.
  induction s as [|a s IH]; intros cur H; cbn [words_from].
  - destruct cur; [destruct H as [H|(d & [] & _)]; now contradiction H|cbn; lia].
  - destruct (is_blank a) eqn:E.
    + destruct cur as [|c cur]; [|cbn; lia]. apply IH. right. destruct H as [H|(d & [<-|I] & Nd)]; [now contradiction H| |eauto].
      apply is_blank_iff in E. contradiction.
    + apply IH. left. now destruct cur.
Qed.
Lemma words_two c d e : (exists g, In g c /\ blank g) -> ~ blank d -> forall cur, cur <> [] -> 2 <= length (words_from (c ++ d :: e) cur).
Proof.
  intros H Hd. induction c as [|a c IH]; intros cur Hc; [destruct H as (g & [] & _)|]. cbn [app words_from]. destruct (is_blank a) eqn:E.
  - destruct cur as [|b cur]; [now contradiction Hc|]. cbn [List.length].
    assert (1 <= length (words_from (c ++ d :: e) [])); [|unfold text in *; lia]. apply words_some. right. exists d. split; auto. apply in_app_iff. right. now left.
  - apply IH; [|now destruct cur]. destruct H as (g & [<-|I] & Hg); [apply is_blank_iff in Hg; congruence|eauto].
Qed.
Lemma words_more v : more_words v -> 2 <= length (words_of v).
Proof.
  intros (s & a & b & c & d & e & -> & -> & Hb & Hd & H). cbn [words_of].
  assert (G : forall cur, 2 <= length (words_from (a ++ b :: c ++ d :: e) cur)); [|apply G].
  induction a as [|h a IH]; intros cur; cbn [app words_from].
  - destruct (is_blank b) eqn:E; [apply is_blank_iff in E; contradiction|]. apply words_two; auto. now destruct cur.
  - destruct (is_blank h); [|apply IH]. destruct cur; [apply IH|]. cbn [List.length]. specialize (IH []). unfold text in *. lia.
Qed.
(* a value with no word, one word or more *)
Theorem words_cases v : no_word v \/ one_word v \/ more_words v.
Proof.
  destruct v as [s|]; [|left; now left].
  assert (D : forall a, {blank a} + {~ blank a}).
  { intros a. destruct (is_blank a) eqn:E; [left; now apply is_blank_iff|right; intros B; apply is_blank_iff in B; congruence]. }
  assert (K : forall l, Forall blank l \/ exists a b c, l = a ++ b :: c /\ Forall blank a /\ ~ blank b).
  { induction l as [|h l [IH|(a & b & c & -> & Fa & Hb)]]; [left; constructor| |].
    - destruct (D h); [left; now constructor|]. right. exists [], h, l. auto.
    - destruct (D h); right; [exists (h :: a), b, c|exists [], h, (a ++ b :: c)]; auto. }
  destruct (K s) as [F|(a & b & c & -> & Fa & Hb)]; [left; right; eauto|]. right.
  assert (K2 : forall l, Forall (fun c => ~ blank c) l \/ exists a b c, l = a ++ b :: c /\ Forall (fun c => ~ blank c) a /\ blank b).
  { induction l as [|h l [IH|(a' & b' & c' & -> & Fa' & Hb')]]; [left; constructor| |].
    - destruct (D h); [|left; now constructor]. right. exists [], h, l. auto.
    - destruct (D h); right; [exists [], h, (a' ++ b' :: c')|exists (h :: a'), b', c']; auto. }
  destruct (K2 c) as [F|(a' & b' & c' & -> & Fa' & Hb')].
  - left. exists (a ++ b :: c), a, (b :: c), []. rewrite app_nil_r. repeat split; auto. discriminate.
  - destruct (K c') as [F|(a2 & b2 & c2 & -> & Fa2 & Hb2)].
    + left. exists (a ++ b :: a' ++ b' :: c'), a, (b :: a'), (b' :: c'). repeat split; auto. discriminate.
    + right. exists (a ++ b :: a' ++ b' :: a2 ++ b2 :: c2), a, b, (a' ++ b' :: a2), b2, c2. split; auto. split; [now rewrite <- app_assoc|]. split; auto. split; auto.
      exists b'. split; auto. apply in_app_iff. right. now left.
Qed.

(* ---- one word ---- *)
Lemma slurm_sort_one v l : one_word v -> slurm_sort v l = (sort_lines l, true).
Proof. intros H. apply words_one in H as (w & H). unfold slurm_sort. now rewrite H. Qed.
Lemma fold_ext {A B} (f g : A -> B -> A) l : (forall a b, f a b = g a b) -> forall a, fold_left f l a = fold_left g l a.
Proof. intros H. induction l as [|b l IH]; intros a; cbn [fold_left]; auto. now rewrite H. Qed.
Lemma slurm_dir_one v d : one_word v -> slurm_sort_dir v d = sort_dir d.
Proof. intros H. unfold slurm_sort_dir, sort_dir. apply fold_ext. intros a b. now rewrite (slurm_sort_one v (snd b) H). Qed.
Theorem slurm_same {L} v fuel (e : Env L) x y c pr h d w : one_word v -> driver_slurm true v fuel e x y c pr h d w = driver_flags fuel e x y c pr h d w.
Proof.
  intros H. assert (S : forall w, slurm_sort_place v x y w = sort_place x y w).
  { intros w0. unfold slurm_sort_place, sort_place. destruct (w0 x y) as [pl|]; auto. f_equal. f_equal. unfold sortpairs. apply map_ext. intros [nm dd]. now rewrite (slurm_dir_one v dd H). }
  unfold driver_slurm, driver_flags, driver_sh, slurm_run. cbv zeta. now rewrite S.
Qed.
Theorem slurm_sort_same v x y w : one_word v -> slurm_sort_sh v x y w = sort_sh x y w.
Proof.
  intros H. unfold slurm_sort_sh, sort_sh. destruct (w x y) as [pl|]; auto. f_equal. f_equal. apply map_ext. intros [nm dd]. unfold slurm_sort_dir_sh, sort_dir_sh.
  now rewrite (slurm_dir_one v dd H).
Qed.
Theorem slurm_pairs_same {L} fuel (e : Env L) x y c pr d w : pairs_slurm true fuel e x y c pr d w = pairs_sh fuel e x y c pr d w.
Proof. reflexivity. Qed.

(* ---- no program ---- *)
Theorem slurm_no_program {L} v fuel (e : Env L) x y c pr h d w : pl_dirs (place_of w x y) = [] \/ d = true ->
  driver_slurm false v fuel e x y c pr h d w x y = Some (set_dirs (place_of w x y) []) /\ only w (driver_slurm false v fuel e x y c pr h d w) x y /\
  pairs_slurm false fuel e x y c pr d w x y = Some (set_dirs (place_of w x y) []) /\ only w (pairs_slurm false fuel e x y c pr d w) x y.
Proof.
  intros Hd. assert (Hd' : d = true \/ pl_dirs (place_of w x y) = []) by tauto. destruct (flags_start x y d w Hd') as (O & D & E). unfold driver_slurm, pairs_slurm, slurm_run. cbv zeta.
  set (w0 := if d then cleanup x y w else w) in *. rewrite D. cbn [length Nat.eqb negb].
  destruct (open_place w0 x y) as [H1 O1]. set (w1 := match w0 x y with Some _ => w0 | None => write w0 x y new_place end) in *.
  assert (P : place_of w0 x y = set_dirs (place_of w x y) []).
  { subst w0. clear -Hd D. destruct d; unfold cleanup, place_of in *; destruct (w x y) as [pl|] eqn:Ew; rewrite ?write_same, ?Ew; auto.
    destruct pl. cbn in D. subst. reflexivity. }
  assert (S : slurm_sort_place v x y w1 = write w1 x y (set_dirs (place_of w x y) [])).
  { unfold slurm_sort_place. rewrite H1, P. reflexivity. }
  assert (G : (if h then slurm_sort_place v x y w1 else slurm_sort_place v x y w1) = slurm_sort_place v x y w1) by now destruct h. rewrite G, S.
  split; [apply write_same|]. split; [|split].
  - eapply only_trans; [|eapply only_trans; [exact O1|apply write_only]]. exact O.
  - now rewrite H1, P.
  - eapply only_trans; [|exact O1]. exact O.
Qed.

(* ---- no word, or several ---- *)
Definition kept_of (v : option text) : bool := match words_of v with [] => false | _ => true end.
Definition lost_dir_of (kept : bool) (p : option RowsumPairing) (W : Tag -> Lines) (FL FR : Lines) : Dir :=
  let '((a, b), (c, d)) := pairing_tags p in
  [(seq_file TW, W TW); (seq_file TX, W TX); (seq_file TY, W TY); (seq_file TZ, W TZ)] ++
  (if kept then [(pair_file a b, FL); (pair_file c d, FR)] else []) ++
  [(pair_file a b ++ lit ".sorted", []); (pair_file c d ++ lit ".sorted", [])].
Lemma slurm_sort_bad v l : ~ one_word v -> slurm_sort v l = ([], negb (kept_of v)).
Proof.
  intros H. unfold slurm_sort, kept_of. destruct (words_cases v) as [N|[N|N]]; [now rewrite (words_no v N)|contradiction|]. apply words_more in N.
  destruct (words_of v) as [|a [|b l0]]; cbn in N; try lia. reflexivity.
Qed.
Lemma lost_dir v p W FL FR : ~ one_word v -> slurm_sort_dir v (dir_of p W FL FR) = lost_dir_of (kept_of v) p W FL FR.
Proof.
  intros H. transitivity (fold_left (fun d e =>
      if ends_with (fst e) (lit ".pair")
      then put (if negb (kept_of v) then filter (fun e' => negb (text_eqb (fst e') (fst e))) d else d) (fst e ++ lit ".sorted") []
      else d) (dir_of p W FL FR) (dir_of p W FL FR)).
  { unfold slurm_sort_dir. apply fold_ext. intros a b. now rewrite (slurm_sort_bad v (snd b) H). }
  destruct (kept_of v); destruct p as [[| |]|]; reflexivity.
Qed.
Lemma resort p W FL FR : sort_dir_sh (lost_dir_of true p W FL FR) = sorted_dir_of p W FL FR.
Proof. destruct p as [[| |]|]; reflexivity. Qed.
Lemma tags_distinct p : let '((a, b), (c, d)) := pairing_tags p in pair_file a b <> pair_file c d.
Proof. destruct p as [[| |]|]; discriminate. Qed.
Lemma is_pair_spec name : is_pair_file name <-> ends_with name (lit ".pair") = true.
Proof. rewrite ends_with_spec. reflexivity. Qed.
Lemma lost_dir_nothing kept p W FL FR : nothing_sorted kept (dir_of p W FL FR) (lost_dir_of kept p W FL FR).
Proof.
  intros name l. 
  assert (S : forall tg, ends_with (seq_file tg) (lit ".pair") = false) by (intros []; reflexivity).
  assert (P : forall a b, ends_with (pair_file a b) (lit ".pair") = true) by (intros [] []; reflexivity).
  unfold dir_of, lost_dir_of. destruct (pairing_tags p) as [[a b] [c d]]. split.
  - intros I. apply in_app_iff in I as [I|I]; [|apply in_app_iff in I as [I|I]].
    + left. split; [apply in_app_iff with (l := [_; _; _; _]); now left|]. intros N. exfalso. apply is_pair_spec in N.
      repeat (destruct I as [I|I]; [injection I as <- _; now rewrite S in N|]). exact I.
    + left. destruct kept; [|destruct I]. split; auto. apply in_app_iff with (l := [_; _; _; _]). now right.
    + right. assert (K : forall k l0, In (k, l0) [(pair_file a b, FL); (pair_file c d, FR)] -> In (k, l0) ([(seq_file TW, W TW); (seq_file TX, W TX); (seq_file TY, W TY); (seq_file TZ, W TZ)] ++ [(pair_file a b, FL); (pair_file c d, FR)])).
      { intros k l0 H. apply in_app_iff. now right. }
      destruct I as [I|[I|[]]]; injection I as <- <-; (split; [reflexivity|]).
      * exists (pair_file a b), FL. split; auto. split; [apply is_pair_spec; auto|]. apply K. now left.
      * exists (pair_file c d), FR. split; auto. split; [apply is_pair_spec; auto|]. apply K. right. now left.
  - intros [[I K]|(-> & k & l0 & -> & N & I)].
    + apply in_app_iff with (l := [_; _; _; _]) in I as [I|I]; [apply in_app_iff; now left|].
      assert (kept = true) as ->. { apply K. apply is_pair_spec. destruct I as [I|[I|[]]]; injection I as <- _; auto. }
      apply in_app_iff. right. apply in_app_iff. now left.
    + apply in_app_iff. right. apply in_app_iff. right. apply is_pair_spec in N.
      repeat (destruct I as [I|I]; [injection I as <- _; try (now rewrite S in N); auto; (now left) || (right; now left)|]). destruct I.
Qed.

Section Lost.
Context {L : Type} (e : Env L) (n : nat) (t : SequenceType) (y : list ascii).
Hypothesis Hn : 1 <= n.
Hypothesis Hn2 : (Z.of_nat n < 2 ^ 62)%Z.
Hypothesis Ht : searchable t.
Hypothesis Hy : canonical_numeral y n.
Let x := type_word t.
Let H64 : (Z.of_nat n < 2 ^ 64)%Z. Proof. lia. Qed.

Lemma folder_entries fuel m p f c : write_pairs fuel n t m p [] = Some (f, c) -> exists rss, NoDup rss /\ (forall r, In r rss <-> feasible n r /\ normal_rowsums t r) /\ Forall2 (entry_of t m n p) rss f.
Proof.
  intros E. unfold write_pairs in E. apply bind_some in E as (rss & Er & E).
  destruct (generate_rowsums_spec n t) as (f0 & G). destruct (G (max f0 fuel) ltac:(lia)) as (rss' & Er' & Nd & Hin).
  assert (rss' = rss) as -> by (apply (generate_rowsums_mono fuel (max f0 fuel)) in Er; [congruence|lia]).
  destruct (write_folder t m n p rss [] 0%Z Ht Hn Hn2) as (f' & c' & Ew & F2); auto.
  { apply Forall_forall. intros r Hr. apply Hin in Hr. apply Hr. }
  cbn [app] in Ew. assert (X : Some (f', c') = Some (f, c)) by (rewrite <- Ew; exact E). injection X as -> _. exists rss. split; auto.
Qed.
Lemma lost_entry ls (name : text) kept p W FL FR : listing_ok ls ->
  let o := (let* sequences := get_sequences_from_dir (ls_seq ls name (lost_dir_of kept p W FL FR)) in
            let* (files, order) := get_order_from_dir (ls_pair ls name (lost_dir_of kept p W FL FR)) in
            join_pairs_files (fst files) (snd files) t order sequences) in o = None \/ o = Some [].
Proof.
  intros (_ & _ & Lp). cbv zeta. destruct (get_sequences_from_dir _) as [sq|]; [|now left]. cbn [bind].
  assert (HP := Permutation_filter' (fun e => ends_with (fst e) (lit ".pair.sorted")) _ _ (Lp name (lost_dir_of kept p W FL FR))).
  assert (E : exists n1 n2, filter (fun e : text * Lines => ends_with (fst e) (lit ".pair.sorted")) (lost_dir_of kept p W FL FR) = [(n1, []); (n2, [])]).
  { destruct kept; destruct p as [[| |]|]; do 2 eexists; reflexivity. }
  destruct E as (n1 & n2 & E). rewrite E in HP. unfold get_order_from_dir.
  apply Permutation_sym, Permutation_length_2_inv in HP as [-> | ->];
    (destruct (get_tag_from_filename _) as [[t1 t2]|]; [|now left]); cbn [bind];
    (destruct (get_tag_from_filename _) as [[t3 t4]|]; [|now left]); cbn [bind fst snd]; right; reflexivity.
Qed.
Definition lost_shape (kept : bool) (p : option RowsumPairing) (e : text * Dir) : Prop := exists rs W FL FR, e = (rowsum_dir rs, lost_dir_of kept p W FL FR).
Lemma lost_match ls kept p f : listing_ok ls -> Forall (lost_shape kept p) f -> match_pairs ls t f = None \/ match_pairs ls t f = Some [].
Proof.
  intros Hls F. unfold match_pairs. assert (F' : Forall (lost_shape kept p) (ls_folder ls f)).
  { rewrite Forall_forall in *. intros e0 I. apply F. apply (Permutation_in _ (proj1 Hls f)). exact I. }
  clear F. induction F' as [|e0 l (rs & W & FL & FR & ->) F IH]; [now right|]. cbn [fold_m]. assert (H := lost_entry ls (rowsum_dir rs) kept p W FL FR Hls). cbv zeta in H.
  destruct (get_sequences_from_dir _) as [sq|]; [|now left]. cbn [bind] in *. destruct (get_order_from_dir _) as [[fl o]|]; [|now left]. cbn [bind] in *.
  destruct H as [-> | ->]; [now left|]. cbn [bind app]. exact IH.
Qed.
Lemma lost_join fuel ls ord path i kept p pl f : listing_ok ls -> Forall (lost_shape kept p) f -> find_write_place fuel ord path ls i t (set_dirs pl f) = None.
Proof.
  intros Hls F. unfold find_write_place. cbn [set_dirs pl_dirs].
  replace (join_pairs fuel ord (0 :: path) ls t f) with (@None (list QuadSeq)); auto. symmetry.
  destruct (lost_match ls kept p f Hls F) as [E|E]; [unfold join_pairs; now rewrite E|]. now apply (no_match_panics fuel ord (0 :: path) ls i t f Ht E).
Qed.

Lemma idle_steps {A} (J H Q : A -> A) (h : bool) w : J w = w -> H w = w -> Q w = w -> Q (if h then H (J w) else J w) = w.
Proof. intros E1 E2 E3. rewrite E1, E2. now destruct h. Qed.
(* driver.sh -s with a bad value, in a folder without results *)
Lemma slurm_lost v c pr h (d : bool) w : ~ one_word v -> listing_ok (e_ls e) -> d = true \/ pl_dirs (place_of w x y) = [] ->
  pl_seq (place_of w x y) = None -> pl_qts (place_of w x y) = None -> forall fuel,
  exists f g, pairs_sh fuel e x y c pr d w x y = Some (set_dirs (place_of w x y) f) /\ only w (pairs_sh fuel e x y c pr d w) x y /\
    driver_slurm true v fuel e x y c pr h d w x y = Some (set_dirs (place_of w x y) g) /\ only w (driver_slurm true v fuel e x y c pr h d w) x y /\
    Forall2 (fun a b => exists rs W FL FR, let p := str_to_rowsum_pairing (match pr with Some r => r | None => lit "WZ" end) in
      a = (rowsum_dir rs, dir_of p W FL FR) /\ b = (rowsum_dir rs, lost_dir_of (kept_of v) p W FL FR)) f g.
Proof.
  intros Hv Hls Hd Hs Hq fuel. destruct (flags_start x y d w Hd) as (O & D & _). unfold pairs_sh. cbv zeta.
  set (w0 := if d then cleanup x y w else w) in *. rewrite D. cbn [length Nat.eqb negb].
  assert (P0 : place_of w0 x y = set_dirs (place_of w x y) []).
  { subst w0. clear -Hd D. destruct d; unfold cleanup, place_of in *; destruct (w x y) as [pl|] eqn:Ew; rewrite ?write_same, ?Ew; auto. destruct pl. cbn in D. subst. reflexivity. }
  destruct (open_place w0 x y) as [H1 O1]. set (w1 := match w0 x y with Some _ => w0 | None => write w0 x y new_place end) in *.
  rewrite match_flag. set (p := str_to_rowsum_pairing _).
  destruct (pairs_stage fuel e n t y Hn Hn2 Ht Hy w1 _ (if c then CORRELATION else PSD) (match pr with Some r => r | None => lit "WZ" end) H1 D) as (f & P & O2 & Sh). cbv zeta in P, O2. fold x in P, O2.
  set (w2 := run_on fuel e _ w1) in *. rewrite P0 in P. change (set_dirs (set_dirs (place_of w x y) []) f) with (set_dirs (place_of w x y) f) in P.
  set (g := map (fun '(name, d) => (name, slurm_sort_dir v d)) f).
  assert (F2 : Forall2 (fun a b => exists rs W FL FR, a = (rowsum_dir rs, dir_of p W FL FR) /\ b = (rowsum_dir rs, lost_dir_of (kept_of v) p W FL FR)) f g).
  { subst g. clear -Sh Hv. induction Sh as [|e0 f (rs & W & FL & FR & ->) _ IH]; cbn [map]; constructor; auto. exists rs, W, FL, FR. split; auto. f_equal. now apply lost_dir. }
  assert (Lg : Forall (lost_shape (kept_of v) p) g).
  { clear -F2. induction F2 as [|a b f g (rs & W & FL & FR & _ & ->) _ IH]; constructor; auto. now exists rs, W, FL, FR. }
  set (w3 := slurm_sort_place v x y w2). assert (W3 : w3 x y = Some (set_dirs (place_of w x y) g)).
  { unfold w3, slurm_sort_place. rewrite P. apply write_same. }
  assert (O3 : only w w3 x y).
  { eapply only_trans; [exact O|]. eapply only_trans; [exact O1|]. eapply only_trans; [exact O2|]. unfold w3, slurm_sort_place. rewrite P. apply write_only. }
  assert (La : length_arg y (Z.of_nat n)) by now apply numeral_length_arg.
  assert (Ey : usize_to_string (Z.of_nat n) = y) by (symmetry; now apply numeral_string).
  assert (E1 : run_on fuel e [lit "join"; x; y] w3 = w3).
  { rewrite (run_on_cmd fuel e _ (Join t (Z.of_nat n))) by now apply cl_join. cbn [exec]. rewrite type_word_string, Ey. fold x. rewrite W3. cbn [bind]. rewrite Nat2Z.id.
    now rewrite (lost_join fuel (e_ls e) (e_ord e) (e_path e) n (kept_of v) p (place_of w x y) g Hls Lg). }
  assert (E2 : run_on fuel e [lit "convert"; lit "hm"; x; y] w3 = w3).
  { rewrite (run_on_cmd fuel e _ (ConvertHm t (Z.of_nat n))) by now apply cl_convert_hm. cbn [exec]. rewrite type_word_string, Ey. fold x. rewrite W3. cbn [bind set_dirs pl_seq pl_qts].
    rewrite Hs, Hq. now destruct t. }
  assert (E3 : run_on fuel e [lit "convert"; lit "qhm"; x; y] w3 = w3).
  { rewrite (run_on_cmd fuel e _ (ConvertQhm t (Z.of_nat n))) by now apply cl_convert_qhm. cbn [exec]. rewrite type_word_string, Ey. fold x. rewrite W3. cbn [set_dirs pl_seq]. now rewrite Hs. }
  assert (EE : driver_slurm true v fuel e x y c pr h d w = w3).
  { unfold driver_slurm, slurm_run. cbv zeta. fold w0. rewrite D. cbn [length Nat.eqb negb]. fold w1. rewrite match_flag.
    exact (idle_steps (run_on fuel e [lit "join"; x; y]) (run_on fuel e [lit "convert"; lit "hm"; x; y]) (run_on fuel e [lit "convert"; lit "qhm"; x; y]) h w3 E1 E2 E3). }
  rewrite EE.
  exists f, g. split; [exact P|]. split; [eapply only_trans; [exact O|]; eapply only_trans; [exact O1|exact O2]|]. split; auto.
Qed.
Theorem slurm_lost_files v c pr h (d : bool) w : ~ one_word v -> listing_ok (e_ls e) -> d = true \/ pl_dirs (place_of w x y) = [] ->
  pl_seq (place_of w x y) = None -> pl_qts (place_of w x y) = None -> forall fuel kept, (no_word v /\ kept = false \/ more_words v /\ kept = true) ->
  exists f g, pairs_sh fuel e x y c pr d w x y = Some (set_dirs (place_of w x y) f) /\ 
    driver_slurm true v fuel e x y c pr h d w x y = Some (set_dirs (place_of w x y) g) /\ only w (driver_slurm true v fuel e x y c pr h d w) x y /\
    folder_lost kept f g.
Proof.
  intros Hv Hls Hd Hs Hq fuel kept Hk. destruct (slurm_lost v c pr h d w Hv Hls Hd Hs Hq fuel) as (f & g & A & B & C & D & F). exists f, g. split; auto. split; auto. split; auto.
  assert (kept = kept_of v) as ->.
  { unfold kept_of. destruct Hk as [[H ->]|[H ->]]; [now rewrite (words_no v H)|]. apply words_more in H. destruct (words_of v); cbn in H; [lia|reflexivity]. }
  unfold folder_lost. eapply Forall2_impl_in; [|exact F]. intros a b _ (rs & W & FL & FR & -> & ->). cbn [fst snd]. split; auto. apply lost_dir_nothing.
Qed.

(* a run of a command sees the tree only *)
Lemma write_tree (w w' : World) a b pl : same_tree w w' -> same_tree (write w a b pl) (write w' a b pl).
Proof. intros H a' b'. unfold write. destruct (_ && _); auto. Qed.
Lemma exec_tree fuel c (w w' : World) : same_tree w w' -> match exec fuel e c w, exec fuel e c w' with Some a, Some b => same_tree a b | None, None => True | _, _ => False end.
Proof.
  intros H. assert (Pl : forall a b, place_of w' a b = place_of w a b) by (intros; unfold place_of; now rewrite H).
  destruct c; cbn [exec]; rewrite ?H, ?Pl; auto;
    repeat match goal with
    | |- context [match w ?a ?b with _ => _ end] => destruct (w a b) eqn:?
    | |- context [bind (w ?a ?b)] => destruct (w a b) eqn:?; cbn [bind]
    | |- context [bind ?o] => destruct o eqn:?; cbn [bind]; auto
    | |- context [match ?o with (_, _) => _ end] => destruct o
    | |- context [match pl_seq ?o with _ => _ end] => destruct (pl_seq o)
    | |- context [match ?f with [] => _ | _ :: _ => _ end] => destruct f
    end; auto; try (now apply write_tree).
Qed.
Lemma run_tree fuel args (w w' : World) : same_tree w w' -> same_tree (run_on fuel e args w) (run_on fuel e args w').
Proof.
  intros H. unfold run_on, run_main. destruct (parse_args _) as [c|]; cbn [bind]; auto.
  assert (K := exec_tree fuel c w w' H). destruct (exec fuel e c w), (exec fuel e c w'); try contradiction; auto.
Qed.
(* several words: nothing is lost, the remaining scripts complete the run *)
Theorem slurm_recover v c pr h (d : bool) w : more_words v -> listing_ok (e_ls e) -> d = true \/ pl_dirs (place_of w x y) = [] ->
  pl_seq (place_of w x y) = None -> pl_qts (place_of w x y) = None -> forall fuel,
  same_tree (driver_flags fuel e x y c pr h d w) (remaining fuel e x y h (driver_slurm true v fuel e x y c pr h d w)).
Proof.
  intros Hv Hls Hd Hs Hq fuel. assert (Hw : 2 <= length (words_of v)) by now apply words_more.
  assert (Hv' : ~ one_word v) by (intros O; apply words_one in O as (z & E); rewrite E in Hw; cbn in Hw; lia).
  destruct (slurm_lost v c pr h d w Hv' Hls Hd Hs Hq fuel) as (f & g & A & B & C & D & F).
  assert (T := scripts_tree fuel e n t y Hn Hn2 Ht Hy c pr h d w Hd). fold x in T. rewrite <- T. clear T.
  assert (K : kept_of v = true) by (unfold kept_of; destruct (words_of v); cbn in Hw; [lia|reflexivity]).
  assert (S : same_tree (sort_sh x y (pairs_sh fuel e x y c pr d w)) (sort_sh x y (driver_slurm true v fuel e x y c pr h d w))).
  { unfold sort_sh. rewrite A, C. cbn [set_dirs pl_dirs].
    assert (E : map (fun '(name, d) => (name, sort_dir_sh d)) g = map (fun '(name, d) => (name, sort_dir_sh d)) f).
    { clear -F K. induction F as [|a b f g (rs & W & FL & FR & -> & ->) _ IH]; auto. cbn [map]. rewrite IH. f_equal. f_equal. rewrite K, resort.
      unfold sort_dir_sh. match goal with |- context [dir_of ?p W FL FR] => assert (X := shaped_pair p (rowsum_dir rs, dir_of p W FL FR) ltac:(now exists rs, W, FL, FR)) end.
      cbn [snd] in X. rewrite X. now rewrite sort_dir_of. }
    rewrite E. eapply (only_same w); [eapply only_trans; [exact B|apply write_only]|eapply only_trans; [exact D|apply write_only]|]. now rewrite !write_same. }
  unfold remaining, after_sorting, join_sh, hm_sh, qhm_sh. destruct h; repeat apply run_tree; exact S.
Qed.
(* the directories that were there to be sorted *)
Theorem slurm_dirs v c pr h (d : bool) w : ~ one_word v -> listing_ok (e_ls e) -> d = true \/ pl_dirs (place_of w x y) = [] ->
  pl_seq (place_of w x y) = None -> pl_qts (place_of w x y) = None -> exists fuel0, forall fuel, fuel0 <= fuel ->
  forall q, pm_quad n q -> is_type t q -> normal_rowsums t (totals q) -> 
  In (rowsum_dir (totals q)) (map fst (pl_dirs (place_of (driver_slurm true v fuel e x y c pr h d w) x y))).
Proof.
  intros Hv Hls Hd Hs Hq.
  destruct (search_spec n t (if c then CORRELATION else PSD) (str_to_rowsum_pairing (match pr with Some r => r | None => lit "WZ" end)) (e_ls e) Hn Hn2 Ht Hls) as (f0 & G).
  exists f0. intros fuel Hf q Pq Tq Nq. destruct (G fuel Hf) as (f & k & r & Ew & _).
  destruct (folder_entries fuel _ _ _ _ Ew) as (rss & _ & Hr & F2).
  destruct (slurm_lost v c pr h d w Hv Hls Hd Hs Hq fuel) as (f' & g & A & _ & C & _ & F). unfold place_of at 1. rewrite C. cbn [set_dirs pl_dirs].
  assert (Ef : f' = f).
  { destruct (flags_start x y d w Hd) as (O & D & _). unfold pairs_sh in A. cbv zeta in A. set (w0 := if d then cleanup x y w else w) in *. rewrite D in A. cbn [length Nat.eqb negb] in A.
    destruct (open_place w0 x y) as [H1 O1]. set (w1 := match w0 x y with Some _ => w0 | None => write w0 x y new_place end) in *. rewrite match_flag in A.
    destruct (stage_pairs fuel e n t y H64 Hy w1 _ _ _ f k H1 D Ew) as [B _]. fold x in B. assert (X := eq_trans (eq_sym B) A). now injection X. }
  subst f'. assert (I : In (totals q) rss).
  { apply Hr. split; auto. apply complementary_rowsums; auto. now apply (type_WT n q t). }
  clear -I F2 F. revert g F. induction F2 as [|rs e0 rss f E0 F2 IH]; intros g F; [destruct I|]. inversion F as [|? b ? g' (rs' & W & FL & FR & E & Eb) F']; subst. cbn [map fst].
  destruct I as [->|I]; [|right; now apply IH]. left. destruct E0 as (L1 & W1 & _ & _ & E1). cbn [fst]. exact (f_equal fst E1).
Qed.
End Lost.
Theorem slurm_unset {L : Type} (e : Env L) n t y : 1 <= n -> (Z.of_nat n < 2 ^ 62)%Z -> searchable t -> canonical_numeral y n ->
  forall v c pr h (d : bool) w, no_word v -> listing_ok (e_ls e) -> d = true \/ pl_dirs (place_of w (type_word t) y) = [] ->
  pl_seq (place_of w (type_word t) y) = None -> pl_qts (place_of w (type_word t) y) = None -> forall fuel,
  exists f g, pairs_sh fuel e (type_word t) y c pr d w (type_word t) y = Some (set_dirs (place_of w (type_word t) y) f) /\
    driver_slurm true v fuel e (type_word t) y c pr h d w (type_word t) y = Some (set_dirs (place_of w (type_word t) y) g) /\
    only w (driver_slurm true v fuel e (type_word t) y c pr h d w) (type_word t) y /\ folder_lost false f g.
Proof.
  intros Hn Hn2 Ht Hy v c pr h d w Hv Hl Hd Hs Hq fuel. eapply slurm_lost_files; eauto. intros O. apply words_one in O as (z & E). rewrite (words_no v Hv) in E. discriminate.
Qed.
Theorem slurm_words {L : Type} (e : Env L) n t y : 1 <= n -> (Z.of_nat n < 2 ^ 62)%Z -> searchable t -> canonical_numeral y n ->
  forall v c pr h (d : bool) w, more_words v -> listing_ok (e_ls e) -> d = true \/ pl_dirs (place_of w (type_word t) y) = [] ->
  pl_seq (place_of w (type_word t) y) = None -> pl_qts (place_of w (type_word t) y) = None -> forall fuel,
  exists f g, pairs_sh fuel e (type_word t) y c pr d w (type_word t) y = Some (set_dirs (place_of w (type_word t) y) f) /\
    driver_slurm true v fuel e (type_word t) y c pr h d w (type_word t) y = Some (set_dirs (place_of w (type_word t) y) g) /\
    only w (driver_slurm true v fuel e (type_word t) y c pr h d w) (type_word t) y /\ folder_lost true f g.
Proof.
  intros Hn Hn2 Ht Hy v c pr h d w Hv Hl Hd Hs Hq fuel. eapply slurm_lost_files; eauto. intros O. apply words_one in O as (z & E). apply words_more in Hv. rewrite E in Hv. cbn in Hv. lia.
Qed.
