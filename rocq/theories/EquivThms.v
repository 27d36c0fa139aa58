(* The facts about equivalences packaged in the form of the property theorems. *)
From Coq Require Import List ZArith Lia Arith Bool Permutation Relations.
From Verif Require Import Base BaseFacts Sums Quat ModelSequence ModelWilliamson Spec SeqFacts Convert QtWt
  ModelEquivalence SpecEquiv OpFacts EquivFacts TypeFacts OrderFacts FastFacts.
Import ListNotations.
Open Scope nat_scope.

Lemma verify_true n q t : pm_quad n q -> 1 <= n -> (verify q t = Some true <-> is_type t q).
Proof.
  intros Hq Hn. destruct (verify_spec n q t Hq Hn) as (b & E & H). rewrite E. rewrite <- H.
  split; [now intros [= ->]|now intros ->].
Qed.

Lemma op_in_type t op : In op (equivalences t) -> exists o, In o (type_ops t) /\ op = impl o.
Proof.
  rewrite equivalences_impl. intros H. apply in_map_iff in H as (o & <- & H). eauto.
Qed.

Lemma ops_preserve_type n t q op : 1 <= n <= 100 -> pm_quad n q -> verify q t = Some true ->
  In op (equivalences t) ->
  exists l, op q = Some l /\ forall y, In y l -> pm_quad n y /\ verify y t = Some true.
Proof.
  intros Hn Hq Hv Hop. apply op_in_type in Hop as (o & Ho & ->).
  destruct (impl_computes n o q (proj1 Hq)) as (l & E & _ & H); [intros _; lia|].
  exists l. split; auto. intros y Hy. apply H in Hy.
  apply (verify_true n) in Hv; auto; [|lia].
  destruct (variant_type n t o q y Hq) as [H1 H2]; auto; [lia|].
  split; auto. apply (verify_true n); auto; lia.
Qed.

(* all fourteen operations keep QT and WT, except the alternated negation at odd length *)
Lemma all_ops_preserve n t q o : 1 <= n -> pm_quad n q -> t = QuaternionType \/ t = WilliamsonType ->
  verify q t = Some true -> (o = Automorphism -> n <= 100) -> (o = AlternatedNegation -> Nat.even n = true) ->
  exists l, impl o q = Some l /\ forall y, In y l -> pm_quad n y /\ verify y t = Some true.
Proof.
  intros Hn Hq Ht Hv Hok Ha.
  destruct (impl_computes n o q (proj1 Hq) Hok) as (l & E & _ & H).
  exists l. split; auto. intros y Hy. apply H in Hy as [->|(w & Hw & ->)]; auto.
  assert (pm_quad n (wact w q)) as Hp by now apply wact_pm.
  rewrite (proj1 (proj1 Hq)) in Hw. split; auto.
  assert (Forall (good n) w) as Hg by (eapply good_op; eauto).
  apply (verify_true n) in Hv; auto. apply (verify_true n); auto.
  destruct Ht as [-> | ->]; cbn [is_type] in *;
    eapply (word_preserves _ (good n) n); eauto using good_WT, good_QT.
Qed.

Lemma class_is_orbit n ord ops q : ord_ok ord -> i8_quad n q -> n <= 100 ->
  exists fuel0, forall fuel p, fuel0 <= fuel -> exists r,
    generate_equivalence_class fuel ord p q (map impl ops) = Some r /\ NoDup r /\
    forall y, In y r <-> reach ops q y.
Proof. intros. exists (class_fuel n). intros. apply (class_spec n); auto. now apply small_ok. Qed.

Lemma loop_mono {S R} (step : S -> option (S + R)) f f' s r :
  loop f step s = Some r -> f <= f' -> loop f' step s = Some r.
Proof.
  revert f' s. induction f as [|f IH]; intros f' s H Hf; [discriminate|].
  destruct f' as [|f']; [lia|]. cbn in *. destruct (step s) as [[s'|r']|]; auto. apply IH; auto. lia.
Qed.

Lemma run_mono {S R} (step : S -> option (S + R)) f f' s r :
  run f step s = Some r -> f <= f' -> run f' step s = Some r.
Proof.
  unfold run. intros H Hf. destruct (loop f step s) as [x|] eqn:E; [|discriminate].
  now rewrite (loop_mono _ _ _ _ _ E Hf).
Qed.

(* any result the function returns is the orbit, whatever fuel was needed *)
Lemma class_sound n ord ops q fuel p r : ord_ok ord -> i8_quad n q -> n <= 100 ->
  generate_equivalence_class fuel ord p q (map impl ops) = Some r ->
  NoDup r /\ forall y, In y r <-> reach ops q y.
Proof.
  intros Ho Hq Hn E.
  destruct (class_spec n ord p ops q (max fuel (class_fuel n)) Ho (small_ok n ops Hn) Hq) as (r' & E' & H); [lia|].
  unfold generate_equivalence_class in *. rewrite (run_mono _ _ _ _ _ E) in E' by lia.
  injection E' as ->. exact H.
Qed.

Lemma type_class_is_orbit n ord t q : ord_ok ord -> i8_quad n q -> n <= 100 ->
  exists fuel0, forall fuel p, fuel0 <= fuel -> exists r,
    generate_equivalence_class fuel ord p q (equivalences t) = Some r /\ NoDup r /\
    forall y, In y r <-> reach (type_ops t) q y.
Proof. rewrite equivalences_impl. apply class_is_orbit. Qed.

Lemma equivalent_to_spec n ord t x y : ord_ok ord -> i8_quad n x -> n <= 100 ->
  exists fuel0, forall fuel p, fuel0 <= fuel -> exists b,
    equivalent_to fuel ord p x y t = Some b /\ (b = true <-> reach (type_ops t) x y).
Proof.
  intros Ho Hx Hn. destruct (type_class_is_orbit n ord t x Ho Hx Hn) as (f & H). exists f.
  intros fuel p Hf. destruct (H fuel p Hf) as (r & E & _ & Hr).
  exists (mem y r). unfold equivalent_to. rewrite E. split; auto. rewrite mem_in. apply Hr.
Qed.

Lemma equivalence_relation n ord t : ord_ok ord -> n <= 100 -> exists R : QuadSeq -> QuadSeq -> Prop,
  (forall x, i8_quad n x -> R x x) /\
  (forall x y, i8_quad n x -> i8_quad n y -> R x y -> R y x) /\
  (forall x y z, i8_quad n x -> i8_quad n y -> i8_quad n z -> R x y -> R y z -> R x z) /\
  (forall x y, i8_quad n x -> i8_quad n y -> exists fuel0, forall fuel p, fuel0 <= fuel ->
     exists b, equivalent_to fuel ord p x y t = Some b /\ (b = true <-> R x y)).
Proof.
  intros Ho Hn. exists (reach (type_ops t)). repeat split.
  - intros x _. apply rt_refl.
  - intros x y Hx _ H. eapply reach_sym; eauto.
  - intros x y z _ _ _ H1 H2. eapply rt_trans; eauto.
  - intros x y Hx _. now apply (equivalent_to_spec n).
Qed.

Lemma classes_equal_or_disjoint n ord t x y : ord_ok ord -> i8_quad n x -> i8_quad n y -> n <= 100 ->
  exists fuel0, forall fuel p p', fuel0 <= fuel -> exists cx cy,
    generate_equivalence_class fuel ord p x (equivalences t) = Some cx /\
    generate_equivalence_class fuel ord p' y (equivalences t) = Some cy /\
    (In y cx <-> In x cy) /\
    (In y cx -> same_set cx cy) /\ (~ In y cx -> forall z, ~ (In z cx /\ In z cy)).
Proof.
  intros Ho Hx Hy Hn. destruct (type_class_is_orbit n ord t x Ho Hx Hn) as (f & H).
  destruct (type_class_is_orbit n ord t y Ho Hy Hn) as (f' & H'). exists (max f f').
  intros fuel p p' Hf. destruct (H fuel p) as (cx & Ex & _ & Rx); [lia|].
  destruct (H' fuel p') as (cy & Ey & _ & Ry); [lia|]. exists cx, cy. repeat split; auto.
  - rewrite Rx, Ry. intros; eapply reach_sym; eauto.
  - rewrite Rx, Ry. intros; eapply reach_sym; eauto.
  - intros Hz. apply Rx in H0, Hz. apply Ry. now apply (reach_class_eq n _ x y).
  - intros Hz. apply Rx in H0. apply Ry in Hz. apply Rx. now apply (reach_class_eq n _ x y).
  - intros Hn' z [Hz1 Hz2]. apply Hn'. apply Rx. apply Rx in Hz1. apply Ry in Hz2.
    eapply rt_trans; [apply Hz1|]. eapply reach_sym; [|apply Hz2]; eauto.
Qed.

Lemma fast_agrees n ord ops q : ord_ok ord -> i8_quad n q -> n <= 31 ->
  exists fuel0, forall fuel p p' p'', fuel0 <= fuel -> exists G r r',
    generate_symmetry_group fuel ord p n (map impl ops) = Some G /\
    generate_equivalence_class_fast ord p' q G = Some r /\
    generate_equivalence_class fuel ord p'' q (map impl ops) = Some r' /\
    NoDup r /\ same_set r r'.
Proof.
  intros Ho Hq Hn. exists (class_fuel n). intros fuel p p' p'' Hf.
  destruct (symmetry_group_spec n ord p ops fuel Ho) as (G & EG & _ & HG); auto; [intros o _ _; lia|].
  destruct (fast_spec n ord p' ops q G Ho Hn Hq HG) as (r & Er & Nr & Hr).
  destruct (class_spec n ord p'' ops q fuel Ho) as (r' & Er' & _ & Hr'); auto; [intros o _ _; lia|].
  exists G, r, r'. repeat split; auto; rewrite Hr, Hr'; auto.
Qed.

Lemma fast_agrees_type n ord t q : ord_ok ord -> i8_quad n q -> n <= 31 ->
  exists fuel0, forall fuel p p' p'', fuel0 <= fuel -> exists G r r',
    generate_symmetry_group fuel ord p n (equivalences t) = Some G /\
    generate_equivalence_class_fast ord p' q G = Some r /\
    generate_equivalence_class fuel ord p'' q (equivalences t) = Some r' /\
    NoDup r /\ same_set r r'.
Proof. rewrite equivalences_impl. apply fast_agrees. Qed.

Lemma fast_wrong ord t q : ord_ok ord -> pm_quad 32 q -> verify q t = Some true ->
  exists fuel0, forall fuel p p' p'', fuel0 <= fuel -> exists G r r' y,
    generate_symmetry_group fuel ord p 32 (equivalences t) = Some G /\
    generate_equivalence_class_fast ord p' q G = Some r /\
    generate_equivalence_class fuel ord p'' q (equivalences t) = Some r' /\
    In y r /\ ~ In y r'.
Proof.
  intros Ho Hq Hv. exists (class_fuel 32). intros fuel p p' p'' Hf.
  destruct (fast_wrong_32 ord p p' t q fuel Ho Hq) as (G & r & y & EG & Er & Hy & Hn); auto.
  { apply (verify_true 32); auto; lia. }
  destruct (class_spec 32 ord p'' (type_ops t) q fuel Ho) as (r' & Er' & _ & Hr'); auto using pm_i8.
  { intros o _ _. lia. }
  rewrite <- equivalences_impl in Er'.
  exists G, r, r', y. repeat split; auto. now rewrite Hr'.
Qed.

Lemma less_than_total_order n : let R x y := will_less_than x y = Some true in
  (forall x y, wf n x -> wf n y -> exists b, will_less_than x y = Some b) /\
  (forall x, wf n x -> ~ R x x) /\
  (forall x y z, wf n x -> wf n y -> wf n z -> R x y -> R y z -> R x z) /\
  (forall x y, wf n x -> wf n y -> R x y \/ x = y \/ R y x).
Proof.
  assert (forall x y, wf n x -> wf n y -> (will_less_than x y = Some true <-> quad_lt x y)) as HR.
  { intros x y Hx Hy. destruct (will_less_than_spec n x y Hx Hy) as (b & E & H). rewrite E, <- H.
    split; [now intros [= ->]|now intros ->]. }
  repeat split.
  - intros x y Hx Hy. destruct (will_less_than_spec n x y Hx Hy) as (b & E & _). eauto.
  - intros x Hx. rewrite (HR x x) by auto. apply lex_irrefl.
  - intros x y z Hx Hy Hz. rewrite !HR by auto. apply lex_trans.
  - intros x y Hx Hy. rewrite !HR by auto. eapply quad_lt_total; eauto.
Qed.

Lemma less_than_lex n x y : wf n x -> wf n y -> (will_less_than x y = Some true <-> quad_lt x y).
Proof.
  intros Hx Hy. destruct (will_less_than_spec n x y Hx Hy) as (b & E & H). rewrite E, <- H.
  split; [now intros [= ->]|now intros ->].
Qed.

Lemma canonical_is_least n ord t q : ord_ok ord -> i8_quad n q -> n <= 100 ->
  exists m, least (reach (type_ops t) q) m /\ exists fuel0, forall fuel p, fuel0 <= fuel ->
    generate_canonical_representative fuel ord p q t = Some m.
Proof.
  intros Ho Hq Hn. destruct (canonical_spec n ord [] q t (class_fuel n) Ho Hn Hq) as (m & _ & Hm); auto.
  exists m. split; auto. exists (class_fuel n). intros fuel p Hf.
  destruct (canonical_spec n ord p q t fuel Ho Hn Hq Hf) as (m' & -> & Hm').
  f_equal. eapply least_unique; eauto.
Qed.

Lemma canonical_complete n ord ord' t x y : ord_ok ord -> ord_ok ord' -> i8_quad n x -> i8_quad n y -> n <= 100 ->
  exists fuel0, forall fuel p p', fuel0 <= fuel -> exists mx my,
    generate_canonical_representative fuel ord p x t = Some mx /\
    generate_canonical_representative fuel ord' p' y t = Some my /\
    (mx = my <-> reach (type_ops t) x y).
Proof.
  intros Ho Ho' Hx Hy Hn. exists (class_fuel n). intros fuel p p' Hf.
  destruct (canonical_spec n ord p x t fuel Ho Hn Hx Hf) as (mx & -> & Hmx).
  destruct (canonical_spec n ord' p' y t fuel Ho' Hn Hy Hf) as (my & -> & Hmy).
  exists mx, my. repeat split; eapply least_reach_iff; eauto.
Qed.

(* generate_equivalent_quad_seqs: the union of the classes, no duplicates *)
Lemma equivalent_quad_seqs_at n ord t l fuel p : ord_ok ord -> Forall (i8_quad n) l -> n <= 100 -> class_fuel n <= fuel ->
  exists r, generate_equivalent_quad_seqs fuel ord p l t = Some r /\ NoDup r /\
    forall y, In y r <-> exists x, In x l /\ reach (type_ops t) x y.
Proof.
  intros Ho Hl Hn Hf.
  unfold generate_equivalent_quad_seqs.
  assert (forall l i res done, Forall (i8_quad n) l -> (forall x, In x done -> i8_quad n x) -> NoDup res ->
    (forall y, In y res <-> exists x, In x done /\ reach (type_ops t) x y) ->
    exists r, foldi_from i (fun i res q =>
      if mem q res then Some res
      else let* class := generate_equivalence_class fuel ord (0 :: i :: p) q (equivalences t) in
           Some (insert_all (ord (1 :: i :: p) class) res)) l res = Some r /\ NoDup r /\
      forall y, In y r <-> exists x, In x (done ++ l) /\ reach (type_ops t) x y) as H.
  { clear l Hl. induction l as [|q l IH]; intros i res don Hl Hd Nr Hr; cbn [foldi_from bind].
    - exists res. rewrite app_nil_r. auto.
    - inversion Hl; subst. rewrite equivalences_impl in *.
      replace (don ++ q :: l) with ((don ++ [q]) ++ l) by now rewrite <- app_assoc.
      assert (forall x, In x (don ++ [q]) -> i8_quad n x) as Hd'.
      { intros x Hx. apply in_app_or in Hx as [Hx|[<-|[]]]; auto. }
      destruct (mem q res) eqn:Em; cbn [bind].
      + apply IH; auto. intros y. rewrite Hr. split; intros (x & Hx & H).
        * exists x. split; auto. apply in_or_app; auto.
        * apply in_app_or in Hx as [Hx|[<-|[]]]; eauto.
          apply mem_in in Em. apply Hr in Em as (x & Hx & H'). exists x. split; auto. eapply rt_trans; eauto.
      + destruct (class_spec n ord (0 :: i :: p) (type_ops t) q fuel Ho (small_ok n _ Hn)) as (c & -> & Nc & Hc); auto.
        cbn [bind]. apply IH; auto.
        * now apply insert_all_nodup.
        * intros y. rewrite insert_all_in. split.
          { intros [Hy|Hy].
            - apply (Permutation_in _ (Ho _ _)) in Hy. apply Hc in Hy. exists q. split; auto.
              apply in_or_app. right. now left.
            - apply Hr in Hy as (x & Hx & H). exists x. split; auto. apply in_or_app; auto. }
          { intros (x & Hx & H). apply in_app_or in Hx as [Hx|[<-|[]]].
            - right. apply Hr. eauto.
            - left. apply (Permutation_in _ (Permutation_sym (Ho _ _))). now apply Hc. } }
  destruct (H l 0 [] [] Hl) as (r & E & Nr & Hr); [intros ? []|constructor| |].
  { intros y. split; [intros []|intros (x & [] & _)]. }
  unfold foldi. rewrite E. cbn [bind]. exists (ord (2 :: p) r). split; auto. split.
  - apply (Permutation_NoDup (Permutation_sym (Ho _ _))). auto.
  - intros y. rewrite <- Hr. split; apply Permutation_in; auto. apply Permutation_sym, Ho.
Qed.
Lemma equivalent_quad_seqs_spec n ord t l : ord_ok ord -> Forall (i8_quad n) l -> n <= 100 ->
  exists fuel0, forall fuel p, fuel0 <= fuel -> exists r,
    generate_equivalent_quad_seqs fuel ord p l t = Some r /\ NoDup r /\
    forall y, In y r <-> exists x, In x l /\ reach (type_ops t) x y.
Proof. intros Ho Hl Hn. exists (class_fuel n). intros fuel p Hf. now apply (equivalent_quad_seqs_at n). Qed.
