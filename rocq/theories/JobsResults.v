(* The results of a search whose jobs ran at the same time. *)
From Coq Require Import Ascii String List ZArith Bool Arith Lia Permutation Relations.
From Verif Require Import Base BaseFacts Sums Quat ModelSequence ModelWilliamson ModelEquivalence SpecEquiv OpFacts EquivFacts TypeFacts
  OrderFacts EquivThms CanonFacts ReduceFacts WsFacts QtWt Convert ModelMatrices SpecMatrix SpecPrint MatFacts QhmFacts PrintFacts HmFacts ModelGraph SpecGraph GraphThms HadEquiv
  ModelRowsum SpecRowsum RowsumFacts ModelMatching ModelWrite TextFacts WriteFacts FolderFacts SearchThms ExtendFacts FindQuadFacts DriverFacts ModelMain SpecMain MainFacts ArgFacts MainThms RepSymm SeqFacts DriverMain
  ModelLog LogFolder LogJoin ModelScripts DirFacts SpecFiles SingleFacts SpecSearch SpecSplit SplitFacts SplitThms ModelJobs SpecJobs JobsFacts JobsThms Spec.
Import ListNotations.
Open Scope nat_scope.
Notation length := List.length.

(* ---- lines ---- *)
Lemma cut_newline (a b u v : list ascii) : ~ In newline a -> ~ In newline b -> a ++ newline :: u = b ++ newline :: v -> a = b /\ u = v.
Proof.
  revert b. induction a as [|c a IH]; intros [|d b] Ha Hb E; cbn [app] in E.
  - injection E as ->. auto.
  - injection E as E _. destruct Hb. now left.
  - injection E as E _. destruct Ha. now left.
  - injection E as -> E. destruct (IH b) with (2 := fun H => Hb (or_intror H)) as [-> ->]; auto. intros H. apply Ha. now right.
Qed.
Lemma stacked_inj l : forall l', (forall s, In s l -> ~ In newline s) -> (forall s, In s l' -> ~ In newline s) -> stacked l = stacked l' -> l = l'.
Proof.
  induction l as [|a l IH]; intros [|b l'] H H' E; auto.
  - rewrite stacked_cons, <- app_assoc in E. cbn [stacked map concat app] in E. destruct b; discriminate E.
  - rewrite stacked_cons, <- app_assoc in E. cbn [stacked map concat app] in E. destruct a; discriminate E.
  - rewrite !stacked_cons, <- !app_assoc in E. cbn [app] in E. apply cut_newline in E as [-> E]; [|apply H; now left|apply H'; now left].
    f_equal. apply IH; auto; intros; [apply H|apply H']; now right.
Qed.
Lemma disk_unique st f f' : on_disk st f -> on_disk st f' -> tidy f -> tidy f' -> same_dirs f f'.
Proof.
  rewrite !on_disk_holds. intros [[N N1] H] [[N' N1'] H'] T T'. split; auto. split; auto. split.
  - intros name. rewrite <- !get_names. rewrite <- (holds_dir _ _ _ H), <- (holds_dir _ _ _ H'). reflexivity.
  - intros name d d' I I'. split; [eauto|]. apply perm_get; eauto. intros k.
    assert (E := holds_file _ _ name k H). rewrite (holds_file _ _ name k H') in E.
    rewrite (proj2 (get_in f name d N) I), (proj2 (get_in f' name d' N') I') in E.
    destruct (get d k) as [l|] eqn:E1, (get d' k) as [l'|] eqn:E2; cbn [option_map] in E; try discriminate; auto.
    apply get_in in E1; [|eauto]. apply get_in in E2; [|eauto]. f_equal. apply stacked_inj; [eauto| |congruence]. intros s Hs. eapply T'; eauto.
Qed.
Lemma disk_same st f f' : same_dirs f f' -> on_disk st f' -> on_disk st f.
Proof.
  intros (N & N' & E & S). rewrite !on_disk_holds. intros [[_ N1'] H]. split.
  - split; auto. intros name d I. assert (J : In name (map fst f')) by (apply E; apply in_map_iff; now exists (name, d)).
    apply in_map_iff in J as ([nm d'] & X & J). cbn [fst] in X. subst nm. now destruct (S _ _ _ I J).
  - intros name. specialize (H name). destruct (get f' name) as [d'|] eqn:E'.
    + apply get_in in E'; auto. assert (J : In name (map fst f)) by (apply E; apply in_map_iff; now exists (name, d')).
      apply in_map_iff in J as ([nm d] & X & J). cbn [fst] in X. subst nm. rewrite (proj2 (get_in f name d N) J). destruct (st name) as [files|]; auto.
      intros k. rewrite H. destruct (S _ _ _ J E') as [Nd P]. now rewrite (get_perm d d' k Nd P).
    + destruct (get f name) as [d|] eqn:E1; auto. exfalso. assert (X : In name (map fst f')) by (apply E; apply get_names; congruence). apply get_names in X. congruence.
Qed.

Lemma num_newline c : num_char c -> c <> newline.
Proof. intros [->|[H H']] E; [discriminate|]. subst c. vm_compute in H, H'. lia. Qed.
Lemma join_newline fs : ~ In newline (TextFacts.join fs).
Proof.
  induction fs as [|x [|z r] IH].
  - intros [].
  - cbn. rewrite app_nil_r || idtac. intros H. assert (F := isize_chars x). rewrite Forall_forall in F. now apply (num_newline _ (F _ H)).
  - rewrite TextFacts.join_cons. intros H. apply in_app_iff in H as [H|[H|H]]; [|discriminate|auto].
    assert (F := isize_chars x). rewrite Forall_forall in F. now apply (num_newline _ (F _ H)).
Qed.
Lemma pair_newline fs i j : ~ In newline (pair_line (concat (map field fs)) i j).
Proof.
  rewrite pair_line_join. intros H. assert (U : forall k, ~ In newline (usize_to_string (Z.of_nat k))).
  { intros k X. assert (F := usize_num (Z.of_nat k) ltac:(lia)). rewrite Forall_forall in F. now apply (num_newline _ (F _ X)). }
  rewrite !in_app_iff in H. destruct H as [H|[H|[H|[H|H]]]]; [now apply join_newline in H| |now apply U in H| |now apply U in H];
    cbn in H; repeat (destruct H as [H|H]; [discriminate|]); destruct H.
Qed.
Lemma pm_newline l s : string_to_sequence l = Some s -> ~ In newline l.
Proof.
  revert s. unfold string_to_sequence. induction l as [|c l IH]; intros s E; [intros []|]. cbn [traverse] in E.
  destruct (Ascii.eqb_spec c "+"%char) as [->|_]; [|destruct (Ascii.eqb_spec c "-"%char) as [->|_]; [|discriminate]]; cbn [bind] in E;
    (match type of E with context [traverse ?f l] => destruct (traverse f l) eqn:E' end; [|discriminate]); (intros [H|H]; [discriminate|]); now apply (IH _ eq_refl).
Qed.
Lemma pm_lines w : forall l, file_to_sequences w = Some l -> forall s, In s w -> ~ In newline s.
Proof.
  unfold file_to_sequences. induction w as [|x w IH]; intros l E s [].
  - subst x. cbn [traverse] in E. destruct (string_to_sequence s) eqn:E1; [|discriminate]. now apply pm_newline in E1.
  - cbn [traverse] in E. destruct (string_to_sequence x); [|discriminate]. cbn [bind] in E. destruct (traverse string_to_sequence w) eqn:E2; [|discriminate]. now apply (IH _ eq_refl).
Qed.

Section Results.
Context {L : Type} (e : Env L) (n : nat) (y : list ascii) (m : MatchOption) (pr : RowsumPairing).
Hypothesis Hy : canonical_numeral y n.

Lemma folder_tidy t jobs : 1 <= n -> (Z.of_nat n < 2 ^ 62)%Z -> searchable t -> complete_jobs n jobs -> tidy (folder_of t m n pr (rows jobs)).
Proof.
  intros Hn Hn2 Ht Hc name d file lines s I I1 I2. unfold folder_of in I. apply in_map_iff in I as (r & E & I). injection E as <- <-.
  assert (Hf := rows_feasible n jobs Hc). rewrite Forall_forall in Hf. specialize (Hf r I).
  destruct (job_effect t m n pr Ht Hn Hn2 r Hf) as ((K & W & _ & HW & E) & _). injection E as E. rewrite E in I1.
  assert (HL : forall sd bo l1 l2, In s (pair_lines t m sd bo n l1 l2) -> ~ In newline s).
  { intros sd bo l1 l2 H. apply in_pair_lines in H as (i & j & s1 & s2 & _ & _ & _ & _ & ->). apply pair_newline. }
  unfold dir_of in I1. destruct (pairing_tags (Some pr)) as [[a b] [c d]] eqn:Ep. cbn [In] in I1.
  destruct I1 as [I1|[I1|[I1|[I1|[I1|[I1|[]]]]]]]; injection I1 as <- <-; first [eapply pm_lines; [apply HW|exact I2]|unfold left_lines, right_lines in I2; eapply HL; exact I2].
Qed.

Lemma runs_unique fuel lines : forall w w1 w2, runs fuel e lines w w1 -> runs fuel e lines w w2 -> w1 = w2.
Proof.
  induction lines as [|a l IH]; intros w w1 w2 H H'; inversion H as [|? ? ? v ? E R]; inversion H' as [|? ? ? v' ? E' R']; subst; auto.
  rewrite E in E'. injection E' as <-. now apply (IH v).
Qed.
Lemma empty_on_disk : on_disk empty_disk [].
Proof. split; [constructor|]. split; [intros ? ? []|]. intros name. cbn. auto. Qed.
Lemma read_back t jobs lines : 1 <= n -> (Z.of_nat n < 2 ^ 62)%Z -> searchable t -> complete_jobs n jobs -> Forall2 (job_line t y m pr) jobs lines ->
  exists acts, Forall2 (fun args a => run_actions args = Some (type_word t, y, a)) lines acts /\
    forall tr, interleaved acts tr -> exists st, perform tr empty_disk = Some st /\ (exists f, on_disk st f /\ tidy f) /\
      forall f, on_disk st f -> tidy f -> same_dirs (folder_of t m n pr (rows jobs)) f.
Proof.
  intros Hn Hn2 Ht Hc F. set (w := (fun _ _ => None) : World).
  destruct (jobs_parallel e n t y m pr Hn Hn2 Ht Hy jobs lines w empty_disk) as (acts & w1 & A & R & _ & P); auto.
  { intros r h I. now apply (Hc r h). } { exact empty_on_disk. }
  exists acts. split; auto. intros tr I. destruct (P tr I) as (st & E & S). exists st. split; auto.
  destruct (jobs_folder n t m pr Hn Hn2 Ht jobs Hc) as (f & Ef & Sf).
  destruct (run_jobs n t y m pr Hn Hn2 Hy e jobs lines w f F) as (w1' & R' & _ & P' & _). { exact Ef. }
  rewrite (runs_unique 0 lines w w1 w1' (R 0) (R' 0)), P' in S. cbn [set_dirs pl_dirs] in S.
  apply (disk_same _ _ _ Sf) in S. assert (Tf := folder_tidy t jobs Hn Hn2 Ht Hc). split; [eauto|]. intros f2 S2 T2. now apply (disk_unique st).
Qed.
Lemma parallel_start t jobs f w : 1 <= n -> (Z.of_nat n < 2 ^ 62)%Z -> searchable t -> complete_jobs n jobs -> any_listing (e_ls e) ->
  same_dirs (folder_of t m n pr (rows jobs)) f -> let w1 := write w (type_word t) y (set_dirs (place_of w (type_word t) y) f) in
  exists pl r0, only w (sort_sh (type_word t) y w1) (type_word t) y /\ sort_sh (type_word t) y w1 (type_word t) y = Some pl /\
    pl_mat pl = pl_mat (place_of w (type_word t) y) /\
    match_pairs (e_ls e) t (pl_dirs pl) = Some r0 /\ forall q, In q r0 <-> pm_quad n q /\ is_type t q /\ done jobs (totals q).
Proof.
  intros Hn Hn2 Ht Hc Hl S w1.
  destruct (jobs_match n t m pr Hn Hn2 Ht jobs f (e_ls e) Hc S Hl) as (r0 & Em & I).
  destruct (jobs_sorted n t m pr Hn Hn2 Ht jobs f Hc S) as [_ Es].
  exists (set_dirs (place_of w (type_word t) y) (sortpairs f)), r0. unfold sort_sh, w1. rewrite write_same. cbn [set_dirs pl_dirs]. rewrite Es.
  split; [eapply only_trans; [apply write_only|apply write_only]|]. split; [apply write_same|]. split; [reflexivity|]. split; auto.
Qed.
Hypothesis Hn : 1 <= n <= 31.
Hypothesis He : env_ok e.
Theorem parallel_QT jobs lines : complete_jobs n jobs ->
  (forall r, feasible n r -> normal_rowsums QuaternionType r -> done jobs r) -> Forall2 (job_line QuaternionType y m pr) jobs lines ->
  (exists q, pm_quad n q /\ is_QT q) ->
  exists acts fuel0, Forall2 (fun args a => run_actions args = Some (type_word QuaternionType, y, a)) lines acts /\
  forall tr, interleaved acts tr -> exists st, perform tr empty_disk = Some st /\ (exists f, on_disk st f /\ tidy f) /\
  forall f, on_disk st f -> tidy f -> forall fuel (h : bool) w, fuel0 <= fuel -> exists w' pl r equ,
    remaining fuel e (type_word QuaternionType) y h (write w (type_word QuaternionType) y (set_dirs (place_of w (type_word QuaternionType) y) f)) = w' /\
    only w w' (type_word QuaternionType) y /\ w' (type_word QuaternionType) y = Some pl /\
    one_per_class n QuaternionType r /\ lists_quads (pl_seq pl) (pl_qseq pl) r /\ lists_qhms n (pl_qhm pl) r /\
    (if h then one_matrix_per_class n QuaternionType equ /\ lists_matrices (pl_mat pl) equ else pl_mat pl = pl_mat (place_of w (type_word QuaternionType) y)).
Proof.
  intros Hc Hr F (q & P & T). assert (He' := He). destruct He' as (Ho & Hl & _). assert (Hn1 := proj1 Hn). assert (Hn2 : (Z.of_nat n < 2 ^ 62)%Z) by lia.
  destruct (read_back QuaternionType jobs lines Hn1 Hn2 (or_introl eq_refl) Hc F) as (acts & A0 & B0).
  exists acts, (class_fuel n). split; auto. intros tr It. destruct (B0 tr It) as (st & Est & Ex & Sf). exists st. split; auto. split; auto. intros f Df Tf fuel h w Hf.
  specialize (Sf f Df Tf).
  destruct (normal_reach n QuaternionType q Hn1 P T) as (z & R & Pz & Tz & Nz).
  assert (Dz : done jobs (totals z)). { apply Hr; [|exact Nz]. apply (complementary_rowsums n z Pz Hn1). now apply (type_complementary QuaternionType). }
  destruct (parallel_start QuaternionType jobs f w Hn1 Hn2 (or_introl eq_refl) Hc Hl Sf) as (pl & r0 & O & W & M & Em & I).
  destruct (join_of n (e_ls e) (e_ord e) QuaternionType (pl_dirs pl) r0 Hn Ho (or_introl eq_refl) Em) with (fuel := fuel) (path := 0 :: e_path e) as (r & Ej & Nd & A & B); auto.
  { intros x Hx. apply I in Hx as (? & ? & _). auto. }
  { intros ->. assert (X : In z []) by (apply I; auto). exact X. }
  assert (OC : one_per_class n QuaternionType r) by (eapply (all_classes n Hn QuaternionType); eauto).
  destruct (last_QT e n y Hn He Hy fuel h _ pl r W Ej) as (pl' & equ & O' & W' & LQ & LH & X); auto.
  { intros x Hx. destruct (A x Hx) as (? & ? & _). auto. }
  eexists _, pl', r, equ. split; [reflexivity|]. split; [eapply only_trans; [exact O|exact O']|].
  split; [exact W'|]. split; auto. split; auto. split; auto. destruct h; [exact X|congruence].
Qed.
Theorem parallel_WT jobs lines : complete_jobs n jobs ->
  (forall r, feasible n r -> normal_rowsums WilliamsonType r -> done jobs r) -> Forall2 (job_line WilliamsonType y m pr) jobs lines ->
  (exists q, pm_quad n q /\ is_WT q) ->
  exists acts fuel0, Forall2 (fun args a => run_actions args = Some (type_word WilliamsonType, y, a)) lines acts /\
  forall tr, interleaved acts tr -> exists st, perform tr empty_disk = Some st /\ (exists f, on_disk st f /\ tidy f) /\
  forall f, on_disk st f -> tidy f -> forall fuel (h : bool) w, fuel0 <= fuel -> exists w' pl r r' equ,
    remaining fuel e (type_word WilliamsonType) y h (write w (type_word WilliamsonType) y (set_dirs (place_of w (type_word WilliamsonType) y) f)) = w' /\
    only w w' (type_word WilliamsonType) y /\ w' (type_word WilliamsonType) y = Some pl /\
    one_per_class n WilliamsonType r /\ lists_quads (pl_seq pl) (pl_qseq pl) r /\
    one_per_class n QuaternionType r' /\ lists_quads (pl_qts pl) (pl_qts_q pl) r' /\ lists_qhms n (pl_qhm pl) r /\
    (if h then one_matrix_per_class n WilliamsonType equ /\ lists_matrices (pl_mat pl) equ else pl_mat pl = pl_mat (place_of w (type_word WilliamsonType) y)).
Proof.
  intros Hc Hr F (q & P & T). assert (He' := He). destruct He' as (Ho & Hl & _). assert (Hn1 := proj1 Hn). assert (Hn2 : (Z.of_nat n < 2 ^ 62)%Z) by lia.
  destruct (read_back WilliamsonType jobs lines Hn1 Hn2 (or_intror (or_introl eq_refl)) Hc F) as (acts & A0 & B0).
  exists acts, (class_fuel n). split; auto. intros tr It. destruct (B0 tr It) as (st & Est & Ex & Sf). exists st. split; auto. split; auto. intros f Df Tf fuel h w Hf.
  specialize (Sf f Df Tf).
  destruct (normal_reach n WilliamsonType q Hn1 P T) as (z & R & Pz & Tz & Nz).
  assert (Dz : done jobs (totals z)). { apply Hr; [|exact Nz]. apply (complementary_rowsums n z Pz Hn1). now apply (type_complementary WilliamsonType). }
  destruct (parallel_start WilliamsonType jobs f w Hn1 Hn2 (or_intror (or_introl eq_refl)) Hc Hl Sf) as (pl & r0 & O & W & M & Em & I).
  destruct (join_of n (e_ls e) (e_ord e) WilliamsonType (pl_dirs pl) r0 Hn Ho (or_intror eq_refl) Em) with (fuel := fuel) (path := 0 :: e_path e) as (r & Ej & Nd & A & B); auto.
  { intros x Hx. apply I in Hx as (? & ? & _). auto. }
  { intros ->. assert (X : In z []) by (apply I; auto). exact X. }
  assert (OC : one_per_class n WilliamsonType r) by (eapply (all_classes n Hn WilliamsonType); eauto).
  destruct (last_WT e n y Hn He Hy fuel h _ pl r Hf W) as (pl' & r' & equ & O' & W' & LQ & OC' & LQ' & LH & X); auto.
  { intros ->. destruct (B z) as (x & [] & _). apply I. auto. }
  eexists _, pl', r, r', equ. split; [reflexivity|]. split; [eapply only_trans; [exact O|exact O']|].
  split; [exact W'|]. split; auto. split; auto. split; auto. split; auto. split; auto. destruct h; [exact X|congruence].
Qed.
End Results.
