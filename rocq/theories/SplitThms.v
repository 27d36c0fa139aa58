(* Searches split over several jobs, on the command line. *)
From Coq Require Import Ascii String List ZArith Bool Arith Lia Permutation Relations.
From Verif Require Import Base BaseFacts Sums Quat ModelSequence ModelWilliamson ModelEquivalence SpecEquiv OpFacts EquivFacts TypeFacts
  OrderFacts EquivThms CanonFacts ReduceFacts WsFacts QtWt Convert ModelMatrices SpecMatrix SpecPrint MatFacts QhmFacts PrintFacts HmFacts ModelGraph SpecGraph GraphThms HadEquiv
  ModelRowsum SpecRowsum RowsumFacts ModelMatching ModelWrite TextFacts WriteFacts FolderFacts SearchThms ExtendFacts FindQuadFacts DriverFacts ModelMain SpecMain MainFacts ArgFacts MainThms RepSymm SeqFacts DriverMain
  ModelLog LogFolder LogJoin ModelScripts DirFacts SpecFiles SingleFacts SpecSearch SpecSplit SplitFacts Spec.
Import ListNotations.
Open Scope nat_scope.
Notation length := List.length.

Lemma quad_dec (r s : Quad) : {r = s} + {r <> s}.
Proof. repeat decide equality. Defined.
Lemma pairing_word_arg pr : pairing_arg (pairing_word pr) (Some pr). Proof. reflexivity. Qed.

(* ---- one job ---- *)
Section Jobs.
Context {L : Type} (n : nat) (t : SequenceType) (y : list ascii) (m : MatchOption) (pr : RowsumPairing).
Hypothesis Hn : 1 <= n.
Hypothesis Hn2 : (Z.of_nat n < 2 ^ 62)%Z.
Hypothesis Ht : searchable t.
Hypothesis Hy : canonical_numeral y n.
Let x := type_word t.
Local Lemma H64 : (Z.of_nat n < 2 ^ 64)%Z. Proof. lia. Qed.
Local Lemma ny : usize_to_string (Z.of_nat n) = y. Proof. symmetry. now apply numeral_string. Qed.

Lemma one_byte : byte_arg (chars "1") 1. Proof. split; [left; exact (decimal_digit 1 ltac:(lia))|lia]. Qed.
Lemma two_byte : byte_arg (chars "2") 2. Proof. split; [left; exact (decimal_digit 2 ltac:(lia))|lia]. Qed.
Lemma set_dirs_set pl f g : set_dirs (set_dirs pl f) g = set_dirs pl g. Proof. reflexivity. Qed.
Lemma set_dirs_same pl : set_dirs pl (pl_dirs pl) = pl. Proof. now destruct pl. Qed.
Lemma run_job (fuel : nat) (e : Env L) job args w f : job_line t y m pr job args -> job_folder t m n pr job (pl_dirs (place_of w x y)) = Some f ->
  run_main fuel e args w = Some (write w x y (set_dirs (place_of w x y) f)).
Proof.
  intros (a & b & c & d & Ha & ->) E. assert (La := numeral_length_arg y n Hy H64). unfold run_main, job_folder in *. destruct job as [r h]. cbn [fst snd] in *.
  destruct h.
  - assert (C := cl_pairs_rowsum (chars "rust") t y _ a b c d r m _ _ La Ha (pairing_word_arg pr)). apply parse_args_iff in C. rewrite C. cbn [bind exec].
    rewrite ny, Nat2Z.id, type_word_string in *. fold x in E |- *.
    destruct (write_pairs_rowsum _ _ _ _ _ _ _) as [[g k]|]; [|discriminate]. cbn [option_map fst] in E. injection E as ->. reflexivity.
  - assert (C := cl_pair_single (chars "rust") t y _ a b c d r m _ _ _ _ La Ha (pairing_word_arg pr) one_byte). apply parse_args_iff in C. rewrite C. cbn [bind exec].
    rewrite ny, Nat2Z.id. change (Z.to_nat 1) with 1. rewrite type_word_string in *. fold x in E |- *. rewrite E. reflexivity.
  - assert (C := cl_pair_single (chars "rust") t y _ a b c d r m _ _ _ _ La Ha (pairing_word_arg pr) two_byte). apply parse_args_iff in C. rewrite C. cbn [bind exec].
    rewrite ny, Nat2Z.id. change (Z.to_nat 2) with 2. rewrite type_word_string in *. fold x in E |- *. rewrite E. reflexivity.
Qed.
Lemma place_write w pl : place_of (write w x y pl) x y = pl.
Proof. unfold place_of. now rewrite write_same. Qed.
Lemma run_jobs (e : Env L) jobs lines w f : Forall2 (job_line t y m pr) jobs lines ->
  fold_m (fun f j => job_folder t m n pr j f) jobs (pl_dirs (place_of w x y)) = Some f ->
  exists w', (forall fuel, runs fuel e lines w w') /\ only w w' x y /\ place_of w' x y = set_dirs (place_of w x y) f /\ (jobs <> [] -> w' x y <> None).
Proof.
  intros F. revert w. induction F as [|job args jobs lines J F IH]; intros w E; cbn [fold_m] in E.
  - injection E as <-. exists w. split; [intros; constructor|]. split; [apply only_refl|]. split; [now rewrite set_dirs_same|congruence].
  - destruct (job_folder t m n pr job (pl_dirs (place_of w x y))) as [f1|] eqn:E1; [|discriminate]. cbn [bind] in E.
    set (w1 := write w x y (set_dirs (place_of w x y) f1)).
    destruct (IH w1) as (w' & R & O & P & S). { unfold w1. rewrite place_write. exact E. }
    exists w'. split; [intros fuel; econstructor; [eapply run_job; eauto|apply R]|]. split; [eapply only_trans; [apply write_only|exact O]|].
    split; [rewrite P; unfold w1; rewrite place_write; reflexivity|].
    intros _. destruct jobs; [|apply S; discriminate]. inversion F; subst. specialize (R 0). inversion R; subst. unfold w1. rewrite write_same. discriminate.
Qed.

(* ---- the folder ---- *)
Definition rows (jobs : list (Quad * Part)) : list Quad := nodup quad_dec (map fst jobs).
Lemma rows_done jobs : complete_jobs n jobs -> forall r, In r (rows jobs) <-> done jobs r.
Proof.
  intros H r. unfold rows. rewrite nodup_In. split.
  - intros I. apply in_map_iff in I as ([s h] & <- & I). cbn [fst]. exact (proj2 (H s h I)).
  - intros [I|[I _]]; apply in_map_iff; eexists; split; try exact I; reflexivity.
Qed.
Lemma rows_feasible jobs : complete_jobs n jobs -> Forall (feasible n) (rows jobs).
Proof.
  intros H. apply Forall_forall. intros r I. unfold rows in I. rewrite nodup_In in I. apply in_map_iff in I as ([s h] & <- & I). exact (proj1 (H s h I)).
Qed.
Lemma jobs_folder jobs : complete_jobs n jobs -> exists f, fold_m (fun f j => job_folder t m n pr j f) jobs [] = Some f /\
  same_dirs (folder_of t m n pr (rows jobs)) f.
Proof.
  intros H. destruct (jobs_after t m n pr Ht Hn Hn2 jobs [] []) as (f & E & A); [intros r h I; now apply (H r h)|apply after_nil|].
  cbn [app] in A. exists f. split; auto. apply (jobs_same t m n pr Ht Hn Hn2 (rows jobs) jobs f); auto.
  - apply NoDup_nodup.
  - now apply rows_feasible.
  - now apply rows_done.
  - intros r h I. now apply (H r h).
Qed.
Lemma full_sorted r : feasible n r -> exists W FL FR, full_dir t m n pr r = dir_of (Some pr) W FL FR.
Proof.
  intros Hf. destruct (job_effect t m n pr Ht Hn Hn2 r Hf) as ((K & W & _ & _ & E) & _). injection E as E. eauto.
Qed.
Lemma jobs_sorted jobs f : complete_jobs n jobs -> same_dirs (folder_of t m n pr (rows jobs)) f ->
  same_dirs (sortpairs (folder_of t m n pr (rows jobs))) (sortpairs f) /\ map (fun '(name, d) => (name, sort_dir_sh d)) f = sortpairs f.
Proof.
  intros H S. split.
  - apply same_dirs_sorted; auto. intros name d I. unfold folder_of in I. apply in_map_iff in I as (r & E & I). injection E as <- <-.
    assert (Hf := rows_feasible jobs H). rewrite Forall_forall in Hf. destruct (full_sorted r (Hf r I)) as (W & FL & FR & ->).
    rewrite sort_dir_of. destruct pr; split; try (repeat constructor; cbn; intuition discriminate); intros e He; cbn in He;
      repeat (destruct He as [<-|He]; [reflexivity|]); contradiction.
  - unfold sortpairs. apply map_ext_in. intros [name d] I. f_equal. unfold sort_dir_sh.
    replace (existsb _ d) with true; auto. symmetry. apply existsb_exists.
    destruct S as (_ & _ & N & S). assert (J : In name (map fst (folder_of t m n pr (rows jobs)))) by (apply N; apply in_map_iff; exists (name, d); auto).
    apply in_map_iff in J as ([nm d0] & E & J). cbn [fst] in E. subst nm. destruct (S _ _ _ J I) as [_ P].
    unfold folder_of in J. apply in_map_iff in J as (r & E & J). injection E as _ <-.
    assert (Hf := rows_feasible jobs H). rewrite Forall_forall in Hf. destruct (full_sorted r (Hf r J)) as (W & FL & FR & E). rewrite E in P.
    destruct pr; (eexists; split; [eapply Permutation_in; [exact P|]|]; [do 4 right; left; reflexivity|reflexivity]).
Qed.
Lemma jobs_match jobs f ls : complete_jobs n jobs -> same_dirs (folder_of t m n pr (rows jobs)) f -> listing_ok ls ->
  exists r, match_pairs ls t (sortpairs f) = Some r /\ forall q, In q r <-> pm_quad n q /\ is_type t q /\ done jobs (totals q).
Proof.
  intros H S Hls. destruct (jobs_sorted jobs f H S) as [S' _]. assert (N' : NoDup (map fst (sortpairs f))) by apply S'.
  destruct (match_fold t m n (Some pr) (rows jobs) (folder_of t m n pr (rows jobs)) (relist ls (sortpairs (folder_of t m n pr (rows jobs))) (sortpairs f))) as (r & E & A & B); auto.
  - now apply relist_ok.
  - apply folder_entries; auto. now apply rows_feasible.
  - exists r. rewrite relist_match in E by auto. split; auto. intros q. split.
    + intros I. destruct (A q I) as (rs & J & P & T & <-). split; auto. split; auto. now apply rows_done.
    + intros (P & T & D). apply (B (totals q)); [now apply rows_done|]. split; auto.
Qed.
End Jobs.

(* ---- the output of the join step for whatever was matched ---- *)
Theorem join_of n ls ord t f r0 : 1 <= n <= 31 -> ord_ok ord -> t = QuaternionType \/ t = WilliamsonType ->
  match_pairs ls t f = Some r0 -> (forall q, In q r0 -> pm_quad n q /\ is_type t q) -> r0 <> [] ->
  forall fuel path, class_fuel n <= fuel -> exists r, join_pairs fuel ord path ls t f = Some r /\ NoDup r /\
    (forall x, In x r -> pm_quad n x /\ is_type t x /\ least (reach (type_ops t) x) x /\ exists q, In q r0 /\ reach (type_ops t) q x) /\
    (forall q, In q r0 -> exists x, In x r /\ reach (type_ops t) q x /\ forall x', In x' r -> reach (type_ops t) q x' -> x' = x).
Proof.
  intros Hn Ho Ht Em Snd Hne. assert (Hn1 : 1 <= n) by lia.
  assert (Ht' : searchable t) by (unfold searchable; tauto).
  destruct (canonical_list n t r0 Ht' Hn1) as (l & El & A & B); [intros q Hq; now apply Snd|].
  assert (Vl : forall x, In x l -> pm_quad n x /\ is_type t x).
  { intros x Hx. destruct (B x Hx) as (q & Hq & R). destruct (Snd q Hq). now apply (reach_type n t q). }
  assert (Hne' : unique l <> []).
  { apply unique_nonempty. destruct r0 as [|q r0]; [congruence|]. destruct (A q (or_introl eq_refl)) as (c & I & _). intros ->. exact I. }
  intros fuel path Hfu.
  destruct (reduce_complete_at n ord (unique l) t Ho Ht Hn Hne') with (fuel := fuel) (p := path) as (r & Er & Nd & C & D & E); auto.
  { apply Forall_forall. intros x Hx. apply (proj1 (proj2 (unique_spec l) _)) in Hx. destruct (Vl x Hx). split; auto. now apply (verify_type n). }
  exists r. split; [|split; auto; split].
  - rewrite join_pairs_eq by auto. rewrite Em. cbn [bind]. rewrite El. exact Er.
  - intros x Hx. destruct (C x Hx) as (Px & Vx & y & Hy & Ry). split; auto. split; [now apply (verify_type n)|]. split; auto.
    apply (proj1 (proj2 (unique_spec l) _)) in Hy. destruct (B y Hy) as (q & Hq & Rq). exists q. split; auto. now apply rt_trans with y.
  - intros q Hq. destruct (A q Hq) as (c & Hc & Rc). destruct (D c) as (x & Hx & Rx & U); [now apply (proj2 (proj2 (unique_spec l) _))|].
    exists x. split; auto. split; [now apply rt_trans with c|]. intros x' I' R'. apply U; auto.
    apply rt_trans with q; auto. apply (reach_sym n); auto. apply pm_i8. now apply Snd.
Qed.

(* ---- the last steps ---- *)
Section Last.
Context {L : Type} (e : Env L) (n : nat) (y : list ascii).
Hypothesis Hn : 1 <= n <= 31.
Hypothesis He : env_ok e.
Hypothesis Hy : canonical_numeral y n.
Let H64 := small_length n (proj2 Hn).

(* quaternion type: the matrices need all classes *)
Lemma last_QT fuel (h : bool) w pl r : w (type_word QuaternionType) y = Some pl -> 
  join_pairs fuel (e_ord e) (0 :: e_path e) (e_ls e) QuaternionType (pl_dirs pl) = Some r ->
  (forall x, In x r -> pm_quad n x /\ is_QT x) ->
  (h = true -> one_per_class n QuaternionType r) ->
  exists pl' equ, only w (after_sorting fuel e (type_word QuaternionType) y h w) (type_word QuaternionType) y /\ after_sorting fuel e (type_word QuaternionType) y h w (type_word QuaternionType) y = Some pl' /\
    lists_quads (pl_seq pl') (pl_qseq pl') r /\ lists_qhms n (pl_qhm pl') r /\
    (if h then one_matrix_per_class n QuaternionType equ /\ lists_matrices (pl_mat pl') equ else pl_mat pl' = pl_mat pl).
Proof.
  intros Hw Ej A OC. destruct He as (Ho & Hls & Hc & Hp). assert (Hn1 := proj1 Hn).
  destruct (seq_lines_spec n r) as (out & Eo & Fo); [intros x Hx; now apply A|].
  assert (Eq : qseq_text r = Some (stacked (map quad_text r))) by (apply (qseq_text_spec n); intros x Hx; now apply A).
  destruct (qhms_spec n r out Hn1) as (k & s & Es & LQ); auto.
  assert (Ea : Forall (fun q => is_amicable q = Some true) r).
  { apply Forall_forall. intros x Hx. destruct (A x Hx) as (Px & Tx).
    destruct (is_amicable_spec n x Px Hn1) as (b & -> & Hb). f_equal. apply Hb. now apply (QT_iff_WT n x Px Hn1). }
  set (pl1 := set_seq pl out (stacked (map quad_text r))).
  assert (Ef : find_write_place fuel (e_ord e) (e_path e) (e_ls e) n QuaternionType pl = Some pl1).
  { unfold find_write_place. rewrite Ej. cbn [bind]. destruct (amicable_notes r Ea) as (am & no & -> & _). cbn [bind]. rewrite Eo. cbn [bind]. rewrite Eq. reflexivity. }
  destruct (stage_join fuel e n QuaternionType y H64 Hy w pl pl1 Hw Ef) as [H1 O1].
  unfold after_sorting, join_sh, hm_sh, qhm_sh.
  match goal with |- context [run_on fuel e [lit "join"; ?a; ?b] w] => set (w1 := run_on fuel e [lit "join"; a; b] w) in * end.
  destruct h.
  - destruct (matrices_spec (e_canon e) (e_same e) (e_hms e) n QuaternionType r out Hc Hp Hn1 (or_introl eq_refl) (OC eq_refl) Fo) as (equ & Ee & OM).
    destruct (stage_hm fuel e n QuaternionType y H64 Hy w1 pl1 out _ _ H1 eq_refl Ee) as [H2 O2].
    destruct (stage_qhm fuel e n QuaternionType y H64 Hy _ _ out _ _ H2 eq_refl Es) as [H3 O3].
    eexists _, equ. split; [|split; [exact H3|]]; [eapply only_trans; [exact O1|]; eapply only_trans; [exact O2|exact O3]|].
    split; [exists out; auto|]. split; [exact LQ|]. split; [exact OM|reflexivity].
  - destruct (stage_qhm fuel e n QuaternionType y H64 Hy w1 pl1 out _ _ H1 eq_refl Es) as [H3 O3].
    eexists _, []. split; [|split; [exact H3|]]; [eapply only_trans; [exact O1|exact O3]|].
    split; [exists out; auto|]. split; [exact LQ|]. reflexivity.
Qed.
Lemma last_WT fuel (h : bool) w pl r : class_fuel n <= fuel -> w (type_word WilliamsonType) y = Some pl -> r <> [] ->
  join_pairs fuel (e_ord e) (0 :: e_path e) (e_ls e) WilliamsonType (pl_dirs pl) = Some r ->
  one_per_class n WilliamsonType r ->
  exists pl' r' equ, only w (after_sorting fuel e (type_word WilliamsonType) y h w) (type_word WilliamsonType) y /\ after_sorting fuel e (type_word WilliamsonType) y h w (type_word WilliamsonType) y = Some pl' /\
    lists_quads (pl_seq pl') (pl_qseq pl') r /\ one_per_class n QuaternionType r' /\ lists_quads (pl_qts pl') (pl_qts_q pl') r' /\ lists_qhms n (pl_qhm pl') r /\
    (if h then one_matrix_per_class n WilliamsonType equ /\ lists_matrices (pl_mat pl') equ else pl_mat pl' = pl_mat pl).
Proof.
  intros Hf Hw Hne Ej OC. destruct He as (Ho & Hls & Hc & Hp). assert (Hn1 := proj1 Hn).
  assert (A : forall x, In x r -> pm_quad n x /\ is_WT x) by (intros x Hx; destruct OC as (_ & O & _); destruct (O x Hx) as (? & ? & _); auto).
  destruct (seq_lines_spec n r) as (out & Eo & Fo); [intros x Hx; now apply A|].
  assert (Eq : qseq_text r = Some (stacked (map quad_text r))) by (apply (qseq_text_spec n); intros x Hx; now apply A).
  destruct (wts_to_qts_at n (e_ord e) r Ho Hn Hne) as (l' & El & R).
  { apply Forall_forall. intros x Hx. destruct (A x Hx). split; auto. now apply (verify_type n). }
  { intros z Pz Vz. destruct OC as (_ & _ & O). destruct (O z Pz) as (x & I & Rx & _); eauto. now apply (verify_type n) in Vz. }
  destruct (R fuel (1 :: e_path e) Hf) as (r' & Er' & Nd' & A' & B').
  assert (OC' : one_per_class n QuaternionType r') by (apply one_per_class_intro; auto).
  destruct (seq_lines_spec n r') as (out' & Eo' & Fo'); [intros x Hx; now apply A'|].
  assert (Eq' : qseq_text r' = Some (stacked (map quad_text r'))) by (apply (qseq_text_spec n); intros x Hx; now apply A').
  set (pl1 := set_qts (set_seq pl out (stacked (map quad_text r))) out' (stacked (map quad_text r'))).
  destruct (qhms_spec n r out Hn1) as (k & s & Es & LQ); auto.
  { intros x Hx. destruct (A x Hx). split; auto. now apply (QT_iff_WT n). }
  assert (Ef : find_write_place fuel (e_ord e) (e_path e) (e_ls e) n WilliamsonType pl = Some pl1).
  { unfold find_write_place. rewrite Ej. cbn [bind]. rewrite Eo. cbn [bind]. rewrite Eq. cbn [bind].
    rewrite El. cbn [bind]. rewrite Er'. cbn [bind]. rewrite Eo'. cbn [bind]. rewrite Eq'. reflexivity. }
  destruct (stage_join fuel e n WilliamsonType y H64 Hy w pl pl1 Hw Ef) as [H1 O1].
  unfold after_sorting, join_sh, hm_sh, qhm_sh.
  match goal with |- context [run_on fuel e [lit "join"; ?a; ?b] w] => set (w1 := run_on fuel e [lit "join"; a; b] w) in * end.
  destruct h.
  - destruct (matrices_spec (e_canon e) (e_same e) (e_hms e) n WilliamsonType r' out' Hc Hp Hn1 (or_intror eq_refl) OC' Fo') as (equ & Ee & OM).
    destruct (stage_hm fuel e n WilliamsonType y H64 Hy w1 pl1 out' _ _ H1 eq_refl Ee) as [H2 O2].
    destruct (stage_qhm fuel e n WilliamsonType y H64 Hy _ _ out _ _ H2 eq_refl Es) as [H3 O3].
    eexists _, r', equ. split; [|split; [exact H3|]]; [eapply only_trans; [exact O1|]; eapply only_trans; [exact O2|exact O3]|].
    split; [exists out; auto|]. split; [exact OC'|]. split; [exists out'; auto|]. split; [exact LQ|]. split; [exact OM|reflexivity].
  - destruct (stage_qhm fuel e n WilliamsonType y H64 Hy w1 pl1 out _ _ H1 eq_refl Es) as [H3 O3].
    eexists _, r', []. split; [|split; [exact H3|]]; [eapply only_trans; [exact O1|exact O3]|].
    split; [exists out; auto|]. split; [exact OC'|]. split; [exists out'; auto|]. split; [exact LQ|]. reflexivity.
Qed.
End Last.

(* ---- a search split over jobs ---- *)
Section Split.
Context {L : Type} (e : Env L) (n : nat) (y : list ascii) (m : MatchOption) (pr : RowsumPairing).
Hypothesis Hy : canonical_numeral y n.

Theorem split_files t jobs lines w : 1 <= n -> (Z.of_nat n < 2 ^ 62)%Z -> searchable t -> pl_dirs (place_of w (type_word t) y) = [] ->
  complete_jobs n jobs -> (forall r, done jobs r <-> feasible n r /\ normal_rowsums t r) -> Forall2 (job_line t y m pr) jobs lines ->
  exists w1 f1 fuel0, (forall fuel, runs fuel e lines w w1) /\ only w w1 (type_word t) y /\
    place_of w1 (type_word t) y = set_dirs (place_of w (type_word t) y) f1 /\
    forall fuel, fuel0 <= fuel -> exists w2 f2,
      run_main fuel e [chars "rust"; chars "pairs"; type_word t; y; match_word m; pairing_word pr] w = Some w2 /\ only w w2 (type_word t) y /\
      place_of w2 (type_word t) y = set_dirs (place_of w (type_word t) y) f2 /\ same_dirs f2 f1.
Proof.
  intros Hn Hn2 Ht Hd Hc Hr F. destruct (jobs_folder n t m pr Hn Hn2 Ht jobs Hc) as (f & Ef & S).
  destruct (run_jobs n t y m pr Hn Hn2 Hy e jobs lines w f F) as (w1 & R & O & P & _). { now rewrite Hd. }
  destruct (generate_rowsums_spec n t) as (fuel0 & G). exists w1, f, fuel0. split; auto. split; auto. split; auto. intros fuel Hf.
  destruct (G fuel Hf) as (rss & Er & Nd & Hrss).
  assert (Fe : Forall (feasible n) rss) by (apply Forall_forall; intros r I; now apply Hrss).
  destruct (write_folder_of t m n pr Ht Hn Hn2 rss [] 0%Z Fe Nd) as (c & Ec). { intros r _ []. }
  assert (Ew : write_pairs fuel n t m (Some pr) [] = Some (folder_of t m n pr rss, c)).
  { unfold write_pairs. rewrite Er. cbn [bind]. exact Ec. }
  assert (C := cl_pairs (chars "rust") t y _ m _ _ (numeral_length_arg y n Hy ltac:(lia)) (pairing_word_arg pr)). apply parse_args_iff in C.
  assert (S' : same_dirs (folder_of t m n pr rss) f).
  { destruct (jobs_after t m n pr Ht Hn Hn2 jobs [] []) as (f' & E' & A); [intros r h I; now apply (Hc r h)|apply after_nil|].
    rewrite Ef in E'. injection E' as <-. apply (jobs_same t m n pr Ht Hn Hn2 rss jobs f); auto.
    - intros r. rewrite Hrss. symmetry. apply Hr.
    - intros r h I. now apply (Hc r h). }
  unfold run_main. rewrite C. cbn [bind exec]. rewrite type_word_string, <- (numeral_string y n Hy), Nat2Z.id, Hd, Ew. cbn [bind].
  set (F0 := folder_of t m n pr rss) in *. clearbody F0. exists (match F0 with [] => w | _ => write w (type_word t) y (set_dirs (place_of w (type_word t) y) F0) end), F0.
  destruct F0 as [|a F0].
  - split; [reflexivity|]. split; [apply only_refl|]. split; [|exact S']. rewrite <- Hd. now rewrite set_dirs_same.
  - split; [reflexivity|]. split; [apply write_only|]. split; [|exact S']. unfold place_of. now rewrite write_same.
Qed.

Lemma split_start t jobs lines w : 1 <= n -> (Z.of_nat n < 2 ^ 62)%Z -> searchable t -> pl_dirs (place_of w (type_word t) y) = [] ->
  complete_jobs n jobs -> jobs <> [] -> Forall2 (job_line t y m pr) jobs lines -> any_listing (e_ls e) ->
  exists w1 pl r0, (forall fuel, runs fuel e lines w w1) /\ only w (sort_sh (type_word t) y w1) (type_word t) y /\ sort_sh (type_word t) y w1 (type_word t) y = Some pl /\
    pl_mat pl = pl_mat (place_of w (type_word t) y) /\
    match_pairs (e_ls e) t (pl_dirs pl) = Some r0 /\ forall q, In q r0 <-> pm_quad n q /\ is_type t q /\ done jobs (totals q).
Proof.
  intros Hn Hn2 Ht Hd Hc Hne F Hl. destruct (jobs_folder n t m pr Hn Hn2 Ht jobs Hc) as (f & Ef & S).
  destruct (run_jobs n t y m pr Hn Hn2 Hy e jobs lines w f F) as (w1 & R & O & P & N). { now rewrite Hd. }
  destruct (jobs_match n t m pr Hn Hn2 Ht jobs f (e_ls e) Hc S Hl) as (r0 & Em & I).
  destruct (jobs_sorted n t m pr Hn Hn2 Ht jobs f Hc S) as [_ Es].
  specialize (N Hne). exists w1, (set_dirs (place_of w (type_word t) y) (sortpairs f)), r0. unfold sort_sh. destruct (w1 (type_word t) y) as [pl|] eqn:E1; [|congruence].
  unfold place_of in P at 1. rewrite E1 in P. subst pl. cbn [set_dirs pl_dirs]. rewrite Es. split; auto. split; [eapply only_trans; [exact O|apply write_only]|].
  split; [apply write_same|]. split; [reflexivity|]. split; auto.
Qed.
Hypothesis Hn : 1 <= n <= 31.
Hypothesis He : env_ok e.

Lemma all_classes t jobs r r0 : t = QuaternionType \/ t = WilliamsonType -> (forall s, feasible n s -> normal_rowsums t s -> done jobs s) ->
  (forall q, In q r0 <-> pm_quad n q /\ is_type t q /\ done jobs (totals q)) -> NoDup r ->
  (forall x, In x r -> pm_quad n x /\ is_type t x /\ least (reach (type_ops t) x) x /\ exists q, In q r0 /\ reach (type_ops t) q x) ->
  (forall q, In q r0 -> exists x, In x r /\ reach (type_ops t) q x /\ forall x', In x' r -> reach (type_ops t) q x' -> x' = x) ->
  one_per_class n t r.
Proof.
  intros Ht Hd H0 Nd A B. split; auto. split.
  - intros x I. destruct (A x I) as (P & T & Lx & _). auto.
  - intros q P T. destruct (normal_reach n t q (proj1 Hn) P T) as (z & R & Pz & Tz & Nz).
    destruct (B z) as (x & I & Rx & U).
    + apply H0. split; auto. split; auto. apply Hd; [|exact Nz]. apply (complementary_rowsums n z Pz (proj1 Hn)). now apply (type_complementary t).
    + exists x. split; auto. split; [now apply rt_trans with z|]. intros x' I' R'. apply U; auto.
      apply rt_trans with q; auto. apply (reach_sym n); auto. now apply pm_i8.
Qed.

Theorem split_QT jobs lines (h : bool) w : pl_dirs (place_of w (type_word QuaternionType) y) = [] -> complete_jobs n jobs ->
  (forall r, feasible n r -> normal_rowsums QuaternionType r -> done jobs r) -> Forall2 (job_line QuaternionType y m pr) jobs lines ->
  (exists q, pm_quad n q /\ is_QT q) ->
  exists w1 fuel0, (forall fuel, runs fuel e lines w w1) /\ forall fuel, fuel0 <= fuel -> exists w' pl r equ,
    remaining fuel e (type_word QuaternionType) y h w1 = w' /\ only w w' (type_word QuaternionType) y /\ w' (type_word QuaternionType) y = Some pl /\
    one_per_class n QuaternionType r /\ lists_quads (pl_seq pl) (pl_qseq pl) r /\ lists_qhms n (pl_qhm pl) r /\
    (if h then one_matrix_per_class n QuaternionType equ /\ lists_matrices (pl_mat pl) equ else pl_mat pl = pl_mat (place_of w (type_word QuaternionType) y)).
Proof.
  intros Hd Hc Hr F (q & P & T). assert (He' := He). destruct He' as (Ho & Hl & _). assert (Hn1 := proj1 Hn). assert (Hn2 : (Z.of_nat n < 2 ^ 62)%Z) by lia.
  destruct (normal_reach n QuaternionType q Hn1 P T) as (z & R & Pz & Tz & Nz).
  assert (Dz : done jobs (totals z)). { apply Hr; [|exact Nz]. apply (complementary_rowsums n z Pz Hn1). now apply (type_complementary QuaternionType). }
  destruct (split_start QuaternionType jobs lines w Hn1 Hn2 (or_introl eq_refl) Hd Hc) as (w1 & pl & r0 & R1 & O & W & M & Em & I); auto.
  { intros ->. destruct Dz as [[]|[[] _]]. }
  exists w1, (class_fuel n). split; auto. intros fuel Hf.
  destruct (join_of n (e_ls e) (e_ord e) QuaternionType (pl_dirs pl) r0 Hn Ho (or_introl eq_refl) Em) with (fuel := fuel) (path := 0 :: e_path e) as (r & Ej & Nd & A & B); auto.
  { intros x Hx. apply I in Hx as (? & ? & _). auto. }
  { intros ->. assert (X : In z []) by (apply I; auto). exact X. }
  assert (OC : one_per_class n QuaternionType r) by (eapply all_classes; eauto).
  destruct (last_QT e n y Hn He Hy fuel h _ pl r W Ej) as (pl' & equ & O' & W' & LQ & LH & X); auto.
  { intros x Hx. destruct (A x Hx) as (? & ? & _). auto. }
  exists (remaining fuel e (type_word QuaternionType) y h w1), pl', r, equ. split; [reflexivity|]. split; [eapply only_trans; [exact O|exact O']|].
  split; [exact W'|]. split; auto. split; auto. split; auto. destruct h; [exact X|congruence].
Qed.
Theorem split_WT jobs lines (h : bool) w : pl_dirs (place_of w (type_word WilliamsonType) y) = [] -> complete_jobs n jobs ->
  (forall r, feasible n r -> normal_rowsums WilliamsonType r -> done jobs r) -> Forall2 (job_line WilliamsonType y m pr) jobs lines ->
  (exists q, pm_quad n q /\ is_WT q) ->
  exists w1 fuel0, (forall fuel, runs fuel e lines w w1) /\ forall fuel, fuel0 <= fuel -> exists w' pl r r' equ,
    remaining fuel e (type_word WilliamsonType) y h w1 = w' /\ only w w' (type_word WilliamsonType) y /\ w' (type_word WilliamsonType) y = Some pl /\
    one_per_class n WilliamsonType r /\ lists_quads (pl_seq pl) (pl_qseq pl) r /\
    one_per_class n QuaternionType r' /\ lists_quads (pl_qts pl) (pl_qts_q pl) r' /\ lists_qhms n (pl_qhm pl) r /\
    (if h then one_matrix_per_class n WilliamsonType equ /\ lists_matrices (pl_mat pl) equ else pl_mat pl = pl_mat (place_of w (type_word WilliamsonType) y)).
Proof.
  intros Hd Hc Hr F (q & P & T). assert (He' := He). destruct He' as (Ho & Hl & _). assert (Hn1 := proj1 Hn). assert (Hn2 : (Z.of_nat n < 2 ^ 62)%Z) by lia.
  destruct (normal_reach n WilliamsonType q Hn1 P T) as (z & R & Pz & Tz & Nz).
  assert (Dz : done jobs (totals z)). { apply Hr; [|exact Nz]. apply (complementary_rowsums n z Pz Hn1). now apply (type_complementary WilliamsonType). }
  destruct (split_start WilliamsonType jobs lines w Hn1 Hn2 (or_intror (or_introl eq_refl)) Hd Hc) as (w1 & pl & r0 & R1 & O & W & M & Em & I); auto.
  { intros ->. destruct Dz as [[]|[[] _]]. }
  exists w1, (class_fuel n). split; auto. intros fuel Hf.
  destruct (join_of n (e_ls e) (e_ord e) WilliamsonType (pl_dirs pl) r0 Hn Ho (or_intror eq_refl) Em) with (fuel := fuel) (path := 0 :: e_path e) as (r & Ej & Nd & A & B); auto.
  { intros x Hx. apply I in Hx as (? & ? & _). auto. }
  { intros ->. assert (X : In z []) by (apply I; auto). exact X. }
  assert (OC : one_per_class n WilliamsonType r) by (eapply all_classes; eauto).
  destruct (last_WT e n y Hn He Hy fuel h _ pl r Hf W) as (pl' & r' & equ & O' & W' & LQ & OC' & LQ' & LH & X); auto.
  { intros ->. destruct (B z) as (x & [] & _). apply I. auto. }
  exists (remaining fuel e (type_word WilliamsonType) y h w1), pl', r, r', equ. split; [reflexivity|]. split; [eapply only_trans; [exact O|exact O']|].
  split; [exact W'|]. split; auto. split; auto. split; auto. split; auto. split; auto. destruct h; [exact X|congruence].
Qed.
(* some of the row sums only *)
Theorem split_some jobs lines w : pl_dirs (place_of w (type_word QuaternionType) y) = [] -> complete_jobs n jobs ->
  Forall2 (job_line QuaternionType y m pr) jobs lines ->
  (exists q, pm_quad n q /\ is_QT q /\ done jobs (totals q)) ->
  exists w1 fuel0, (forall fuel, runs fuel e lines w w1) /\ forall fuel, fuel0 <= fuel -> exists w' pl r,
    remaining fuel e (type_word QuaternionType) y false w1 = w' /\ only w w' (type_word QuaternionType) y /\ w' (type_word QuaternionType) y = Some pl /\
    one_per_class_of (fun q => pm_quad n q /\ is_QT q /\ done jobs (totals q)) QuaternionType r /\
    lists_quads (pl_seq pl) (pl_qseq pl) r /\ lists_qhms n (pl_qhm pl) r.
Proof.
  intros Hd Hc F (z & Pz & Tz & Dz). assert (He' := He). destruct He' as (Ho & Hl & _). assert (Hn1 := proj1 Hn). assert (Hn2 : (Z.of_nat n < 2 ^ 62)%Z) by lia.
  destruct (split_start QuaternionType jobs lines w Hn1 Hn2 (or_introl eq_refl) Hd Hc) as (w1 & pl & r0 & R1 & O & W & M & Em & I); auto.
  { intros ->. destruct Dz as [[]|[[] _]]. }
  exists w1, (class_fuel n). split; auto. intros fuel Hf.
  destruct (join_of n (e_ls e) (e_ord e) QuaternionType (pl_dirs pl) r0 Hn Ho (or_introl eq_refl) Em) with (fuel := fuel) (path := 0 :: e_path e) as (r & Ej & Nd & A & B); auto.
  { intros x Hx. apply I in Hx as (? & ? & _). auto. }
  { intros ->. assert (X : In z []) by (apply I; auto). exact X. }
  destruct (last_QT e n y Hn He Hy fuel false _ pl r W Ej) as (pl' & equ & O' & W' & LQ & LH & X); auto; try discriminate.
  { intros x Hx. destruct (A x Hx) as (? & ? & _). auto. }
  exists (remaining fuel e (type_word QuaternionType) y false w1), pl', r. split; [reflexivity|]. split; [eapply only_trans; [exact O|exact O']|].
  split; [exact W'|]. split; auto. split; auto. split.
  - intros x Hx. destruct (A x Hx) as (Px & Tx & Lx & q & Iq & Rq). split; auto. exists q. split; [now apply I|exact Rq].
  - intros q Hq. apply B. now apply I.
Qed.
End Split.
