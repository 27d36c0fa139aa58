(* Jobs that are killed and repeated. *)
From Coq Require Import Ascii String List ZArith Bool Arith Lia Permutation Relations.
From Verif Require Import Base BaseFacts Sums Quat ModelSequence ModelWilliamson ModelEquivalence SpecEquiv OpFacts EquivFacts TypeFacts
  OrderFacts EquivThms CanonFacts ReduceFacts WsFacts QtWt Convert ModelMatrices SpecMatrix SpecPrint MatFacts QhmFacts PrintFacts HmFacts ModelGraph SpecGraph GraphThms HadEquiv
  ModelRowsum SpecRowsum RowsumFacts ModelMatching ModelWrite TextFacts WriteFacts FolderFacts SearchThms ExtendFacts FindQuadFacts DriverFacts ModelMain SpecMain MainFacts ArgFacts MainThms RepSymm SeqFacts DriverMain
  ModelLog LogFolder LogJoin ModelScripts DirFacts SpecFiles SingleFacts SpecSearch SpecSplit SplitFacts SplitThms ModelJobs SpecJobs JobsFacts JobsThms JobsResults SpecKilled KilledFacts Spec.
Import ListNotations.
Open Scope nat_scope.
Notation length := List.length.

Lemma Forall2_right {A B} (R : A -> B -> Prop) l l' b : Forall2 R l l' -> List.In b l' -> exists a, List.In a l /\ R a b.
Proof.
  induction 1 as [|a b' l l' X F IH]; intros I; [destruct I|]. destruct I as [I|I].
  - subst b'. exists a. split; [now left|auto].
  - destruct (IH I) as (a' & Ia & Ra). exists a'. split; [now right|auto].
Qed.
Section Killed.
Context {L : Type} (e : Env L) (n : nat) (t : SequenceType) (y : list ascii) (m : MatchOption) (pr : RowsumPairing).
Hypothesis Hn : 1 <= n.
Hypothesis Hn2 : (Z.of_nat n < 2 ^ 62)%Z.
Hypothesis Ht : searchable t.
Hypothesis Hy : canonical_numeral y n.
Let x := type_word t.
Let D := full_dir t m n pr.

Theorem jobs_killed jobs1 jobs2 lines1 lines2 w st0 : (forall r h, In (r, h) (jobs1 ++ jobs2) -> feasible n r) ->
  Forall2 (job_line t y m pr) jobs1 lines1 -> Forall2 (job_line t y m pr) jobs2 lines2 ->
  on_disk st0 (pl_dirs (place_of w x y)) ->
  exists acts1 acts2 w1, Forall2 (fun args a => run_actions args = Some (x, y, a)) lines1 acts1 /\ Forall2 (fun args a => run_actions args = Some (x, y, a)) lines2 acts2 /\
    (forall fuel, runs fuel e (lines1 ++ lines2) w w1) /\ only w w1 x y /\
    forall killed tr1 tr2, Forall (fun k => exists a, In a acts2 /\ cut_short k a) killed -> interleaved (acts1 ++ killed) tr1 -> interleaved acts2 tr2 ->
      exists st, perform (tr1 ++ tr2) st0 = Some st /\ on_disk st (pl_dirs (place_of w1 x y)).
Proof.
  intros Hf F1 F2 S.
  destruct (programs n t y m pr Hn Hn2 Ht Hy jobs1 lines1) as (acts1 & A1 & B1); [intros r h I; apply (Hf r h); rewrite in_app_iff; auto|auto|].
  destruct (programs n t y m pr Hn Hn2 Ht Hy jobs2 lines2) as (acts2 & A2 & B2); [intros r h I; apply (Hf r h); rewrite in_app_iff; auto|auto|].
  assert (A := Forall2_app A1 A2). assert (B := Forall2_app B1 B2).
  destruct (in_turn e t y (lines1 ++ lines2) (acts1 ++ acts2) A w st0 S) as (w1 & st1 & R & O & P1 & S1).
  exists acts1, acts2, w1. split; auto. split; auto. split; auto. split; auto. intros killed tr1 tr2 K I1 I2.
  set (jobs := jobs1 ++ jobs2) in *.
  set (C := fun d k => match find (fun j => text_eqb (rowsum_dir (fst j)) d) jobs with
                       | Some j => match get (D (fst j)) k with Some l => stacked l | None => [] end
                       | None => [] end).
  assert (HC : forall j, In j jobs -> forall k l, get (D (fst j)) k = Some l -> C (rowsum_dir (fst j)) k = stacked l).
  { intros j Hj k l E. unfold C. match goal with |- context [find ?P jobs] => destruct (find P jobs) as [j'|] eqn:Ej end.
    - apply find_some in Ej as [_ Ej]. apply text_eqb_eq in Ej. apply rowsum_dir_inj in Ej. rewrite Ej, E. reflexivity.
    - assert (X := find_none _ _ Ej j Hj). cbn beta in X. now rewrite text_eqb_refl in X. }
  assert (Rd : forall (l : list (list Action)) a, In a l -> (exists j, In j jobs /\ program_of n t m pr j a) -> ready C (fun d k => In (MakeFile d k) (concat l)) (fun _ => False) (fun _ _ => False) a).
  { intros l0 a Ha (j & Hj & fl & -> & Hfl). cbn [ready]. apply ready_files; [now left|]. intros k l c Ik. destruct (Hfl k l c Ik) as [Ec El]. split.
    - rewrite Ec. now apply HC.
    - apply in_concat. eexists. split; [exact Ha|]. right. unfold files_acts. apply in_concat.
      exists (put_acts (rowsum_dir (fst j)) k c). split; [|now left]. apply in_map_iff. now exists (k, l, c). }
  assert (Pa : forall a, In a (acts1 ++ acts2) -> exists j, In j jobs /\ program_of n t m pr j a).
  { intros a Ha. exact (Forall2_right _ _ _ a B Ha). }
  destruct (killed_again C (fun d k => In (MakeFile d k) (concat (acts1 ++ acts2))) acts1 acts2 killed tr1 tr2 st0) as (st & P & X1 & X2 & X3); auto.
  { intros d k. reflexivity. }
  { intros a Ha. apply Rd; auto. apply Pa. apply in_app_iff. now right. }
  destruct (interleave C (fun d k => In (MakeFile d k) (concat (acts1 ++ acts2))) (concat (acts1 ++ acts2)) (acts1 ++ acts2) st0 (interleaved_concat _)) as (st' & P' & Y1 & Y2 & Y3).
  { apply Forall_forall. intros a Ha. exact (ready_mono C _ a _ _ _ _ (fun _ x => False_ind _ x) (fun _ _ x => False_ind _ x) (Rd _ a Ha (Pa a Ha))). }
  { intros d f X. left. apply in_concat in X as (p & Hp & X). now exists p. }
  rewrite P1 in P'. injection P' as <-. exists st. split; auto. apply on_disk_holds in S1 as [Cl Ho]. apply on_disk_holds. split; auto.
  apply (holds_ext st1); auto.
  - intros d. rewrite X3, Y3. reflexivity.
  - intros d k. destruct (in_dec act_eq_dec (MakeFile d k) (concat (acts1 ++ acts2))) as [H|H].
    + rewrite (X1 d k H), (Y1 d k H). reflexivity.
    + rewrite (X2 d k H), (Y2 d k H). reflexivity.
Qed.
End Killed.

Section Results.
Context {L : Type} (e : Env L) (n : nat) (y : list ascii) (m : MatchOption) (pr : RowsumPairing).
Hypothesis Hy : canonical_numeral y n.
Lemma killed_back t jobs1 jobs2 lines1 lines2 : 1 <= n -> (Z.of_nat n < 2 ^ 62)%Z -> searchable t -> complete_jobs n (jobs1 ++ jobs2) ->
  Forall2 (job_line t y m pr) jobs1 lines1 -> Forall2 (job_line t y m pr) jobs2 lines2 ->
  exists acts1 acts2, Forall2 (fun args a => run_actions args = Some (type_word t, y, a)) lines1 acts1 /\ Forall2 (fun args a => run_actions args = Some (type_word t, y, a)) lines2 acts2 /\
    forall killed tr1 tr2, Forall (fun k => exists a, In a acts2 /\ cut_short k a) killed -> interleaved (acts1 ++ killed) tr1 -> interleaved acts2 tr2 ->
      exists st, perform (tr1 ++ tr2) empty_disk = Some st /\ (exists f, on_disk st f /\ tidy f) /\
      forall f, on_disk st f -> tidy f -> same_dirs (folder_of t m n pr (rows (jobs1 ++ jobs2))) f.
Proof.
  intros Hn Hn2 Ht Hc F1 F2. set (w := (fun _ _ => None) : World).
  destruct (jobs_killed e n t y m pr Hn Hn2 Ht Hy jobs1 jobs2 lines1 lines2 w empty_disk) as (acts1 & acts2 & w1 & A1 & A2 & R & _ & P); auto.
  { intros r h I. now apply (Hc r h). } { exact empty_on_disk. }
  exists acts1, acts2. split; auto. split; auto. intros killed tr1 tr2 K I1 I2. destruct (P killed tr1 tr2 K I1 I2) as (st & E & S). exists st. split; auto.
  destruct (jobs_folder n t m pr Hn Hn2 Ht (jobs1 ++ jobs2) Hc) as (f & Ef & Sf).
  destruct (run_jobs n t y m pr Hn Hn2 Hy e (jobs1 ++ jobs2) (lines1 ++ lines2) w f (Forall2_app F1 F2)) as (w1' & R' & _ & P' & _). { exact Ef. }
  rewrite (runs_unique e 0 (lines1 ++ lines2) w w1 w1' (R 0) (R' 0)), P' in S. cbn [set_dirs pl_dirs] in S.
  apply (disk_same _ _ _ Sf) in S. assert (Tf := folder_tidy n m pr t (jobs1 ++ jobs2) Hn Hn2 Ht Hc). split; [eauto|]. intros f2 S2 T2. now apply (disk_unique st).
Qed.
Hypothesis Hn : 1 <= n <= 31.
Hypothesis He : env_ok e.
Theorem killed_QT jobs1 jobs2 lines1 lines2 : let jobs := jobs1 ++ jobs2 in complete_jobs n jobs ->
  (forall r, feasible n r -> normal_rowsums QuaternionType r -> done jobs r) -> Forall2 (job_line QuaternionType y m pr) jobs1 lines1 -> Forall2 (job_line QuaternionType y m pr) jobs2 lines2 ->
  (exists q, pm_quad n q /\ is_QT q) ->
  exists acts1 acts2 fuel0, Forall2 (fun args a => run_actions args = Some (type_word QuaternionType, y, a)) lines1 acts1 /\ Forall2 (fun args a => run_actions args = Some (type_word QuaternionType, y, a)) lines2 acts2 /\
  forall killed tr1 tr2, Forall (fun k => exists a, In a acts2 /\ cut_short k a) killed -> interleaved (acts1 ++ killed) tr1 -> interleaved acts2 tr2 ->
  exists st, perform (tr1 ++ tr2) empty_disk = Some st /\ (exists f, on_disk st f /\ tidy f) /\
  forall f, on_disk st f -> tidy f -> forall fuel (h : bool) w, fuel0 <= fuel -> exists w' pl r equ,
    remaining fuel e (type_word QuaternionType) y h (write w (type_word QuaternionType) y (set_dirs (place_of w (type_word QuaternionType) y) f)) = w' /\
    only w w' (type_word QuaternionType) y /\ w' (type_word QuaternionType) y = Some pl /\
    one_per_class n QuaternionType r /\ lists_quads (pl_seq pl) (pl_qseq pl) r /\ lists_qhms n (pl_qhm pl) r /\
    (if h then one_matrix_per_class n QuaternionType equ /\ lists_matrices (pl_mat pl) equ else pl_mat pl = pl_mat (place_of w (type_word QuaternionType) y)).
Proof.
  intros jobs Hc Hr F F' (q & P & T). assert (He' := He). destruct He' as (Ho & Hl & _). assert (Hn1 := proj1 Hn). assert (Hn2 : (Z.of_nat n < 2 ^ 62)%Z) by lia.
  destruct (killed_back QuaternionType jobs1 jobs2 lines1 lines2 Hn1 Hn2 (or_introl eq_refl) Hc F F') as (acts1 & acts2 & A0 & A0' & B0).
  exists acts1, acts2, (class_fuel n). split; auto. split; auto. intros killed tr1 tr2 K I1 I2. destruct (B0 killed tr1 tr2 K I1 I2) as (st & Est & Ex & Sf). exists st. split; auto. split; auto. intros f Df Tf fuel h w Hf.
  specialize (Sf f Df Tf).
  destruct (normal_reach n QuaternionType q Hn1 P T) as (z & R & Pz & Tz & Nz).
  assert (Dz : done jobs (totals z)). { apply Hr; [|exact Nz]. apply (complementary_rowsums n z Pz Hn1). now apply (type_complementary QuaternionType). }
  destruct (parallel_start e n y m pr QuaternionType jobs f w Hn1 Hn2 (or_introl eq_refl) Hc Hl Sf) as (pl & r0 & O & W & M & Em & I).
  destruct (join_of n (e_ls e) (e_ord e) QuaternionType (pl_dirs pl) r0 Hn Ho (or_introl eq_refl) Em) with (fuel := fuel) (path := 0 :: e_path e) as (r & Ej & Nd & A & B); auto.
  { intros x Hx. apply I in Hx as (? & ? & _). auto. }
  { intros ->. assert (X : In z []) by (apply I; auto). exact X. }
  assert (OC : one_per_class n QuaternionType r) by (eapply (all_classes n Hn QuaternionType); eauto).
  destruct (last_QT e n y Hn He Hy fuel h _ pl r W Ej) as (pl' & equ & O' & W' & LQ & LH & X); auto.
  { intros x Hx. destruct (A x Hx) as (? & ? & _). auto. }
  eexists _, pl', r, equ. split; [reflexivity|]. split; [eapply only_trans; [exact O|exact O']|].
  split; [exact W'|]. split; auto. split; auto. split; auto. destruct h; [exact X|congruence].
Qed.
Theorem killed_WT jobs1 jobs2 lines1 lines2 : let jobs := jobs1 ++ jobs2 in complete_jobs n jobs ->
  (forall r, feasible n r -> normal_rowsums WilliamsonType r -> done jobs r) -> Forall2 (job_line WilliamsonType y m pr) jobs1 lines1 -> Forall2 (job_line WilliamsonType y m pr) jobs2 lines2 ->
  (exists q, pm_quad n q /\ is_WT q) ->
  exists acts1 acts2 fuel0, Forall2 (fun args a => run_actions args = Some (type_word WilliamsonType, y, a)) lines1 acts1 /\ Forall2 (fun args a => run_actions args = Some (type_word WilliamsonType, y, a)) lines2 acts2 /\
  forall killed tr1 tr2, Forall (fun k => exists a, In a acts2 /\ cut_short k a) killed -> interleaved (acts1 ++ killed) tr1 -> interleaved acts2 tr2 ->
  exists st, perform (tr1 ++ tr2) empty_disk = Some st /\ (exists f, on_disk st f /\ tidy f) /\
  forall f, on_disk st f -> tidy f -> forall fuel (h : bool) w, fuel0 <= fuel -> exists w' pl r r' equ,
    remaining fuel e (type_word WilliamsonType) y h (write w (type_word WilliamsonType) y (set_dirs (place_of w (type_word WilliamsonType) y) f)) = w' /\
    only w w' (type_word WilliamsonType) y /\ w' (type_word WilliamsonType) y = Some pl /\
    one_per_class n WilliamsonType r /\ lists_quads (pl_seq pl) (pl_qseq pl) r /\
    one_per_class n QuaternionType r' /\ lists_quads (pl_qts pl) (pl_qts_q pl) r' /\ lists_qhms n (pl_qhm pl) r /\
    (if h then one_matrix_per_class n WilliamsonType equ /\ lists_matrices (pl_mat pl) equ else pl_mat pl = pl_mat (place_of w (type_word WilliamsonType) y)).
Proof.
  intros jobs Hc Hr F F' (q & P & T). assert (He' := He). destruct He' as (Ho & Hl & _). assert (Hn1 := proj1 Hn). assert (Hn2 : (Z.of_nat n < 2 ^ 62)%Z) by lia.
  destruct (killed_back WilliamsonType jobs1 jobs2 lines1 lines2 Hn1 Hn2 (or_intror (or_introl eq_refl)) Hc F F') as (acts1 & acts2 & A0 & A0' & B0).
  exists acts1, acts2, (class_fuel n). split; auto. split; auto. intros killed tr1 tr2 K I1 I2. destruct (B0 killed tr1 tr2 K I1 I2) as (st & Est & Ex & Sf). exists st. split; auto. split; auto. intros f Df Tf fuel h w Hf.
  specialize (Sf f Df Tf).
  destruct (normal_reach n WilliamsonType q Hn1 P T) as (z & R & Pz & Tz & Nz).
  assert (Dz : done jobs (totals z)). { apply Hr; [|exact Nz]. apply (complementary_rowsums n z Pz Hn1). now apply (type_complementary WilliamsonType). }
  destruct (parallel_start e n y m pr WilliamsonType jobs f w Hn1 Hn2 (or_intror (or_introl eq_refl)) Hc Hl Sf) as (pl & r0 & O & W & M & Em & I).
  destruct (join_of n (e_ls e) (e_ord e) WilliamsonType (pl_dirs pl) r0 Hn Ho (or_intror eq_refl) Em) with (fuel := fuel) (path := 0 :: e_path e) as (r & Ej & Nd & A & B); auto.
  { intros x Hx. apply I in Hx as (? & ? & _). auto. }
  { intros ->. assert (X : In z []) by (apply I; auto). exact X. }
  assert (OC : one_per_class n WilliamsonType r) by (eapply (all_classes n Hn WilliamsonType); eauto).
  destruct (last_WT e n y Hn He Hy fuel h _ pl r Hf W) as (pl' & r' & equ & O' & W' & LQ & OC' & LQ' & LH & X); auto.
  { intros ->. destruct (B z) as (x & [] & _). apply I. auto. }
  eexists _, pl', r, r', equ. split; [reflexivity|]. split; [eapply only_trans; [exact O|exact O']|].
  split; [exact W'|]. split; auto. split; auto. split; auto. split; auto. split; auto. destruct h; [exact X|congruence].
Qed.
End Results.
