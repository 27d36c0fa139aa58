(* The row sums of equivalent quadruples and the results of searches over different row sums. *)
From Coq Require Import List ZArith Lia Arith Permutation Relations.
From Verif Require Import Base BaseFacts ModelSequence ModelWilliamson ModelEquivalence ModelRowsum SpecEquiv EquivFacts EquivThms TypeFacts SpecRowsum SpecSums ClassSums
  SearchFacts WriteFacts ModelMain SpecMain SpecSplit SpecSearch Spec.
Import ListNotations.
Open Scope nat_scope.

Section Class.
  Variables (n : nat) (ord : Order) (t : SequenceType) (q : QuadSeq) (fuel : nat).
  Hypotheses (Ho : ord_ok ord) (Hn : n <= 100) (Hp : pm_quad n q).
  Lemma class_reach p r y : generate_equivalence_class fuel ord p q (equivalences t) = Some r -> In y r -> reach (type_ops t) q y.
  Proof.
    intros E I. rewrite equivalences_impl in E. now apply (proj2 (class_sound n ord (type_ops t) q fuel p r Ho (pm_i8 n q Hp) Hn E)).
  Qed.
End Class.

Theorem class_odd n ord t q fuel p r : Nat.Odd n -> n <= 100 -> ord_ok ord -> pm_quad n q -> generate_equivalence_class fuel ord p q (equivalences t) = Some r ->
  forall y, In y r -> Permutation (sum_sizes y) (sum_sizes q).
Proof. intros Od Hn Ho Hp E y I. apply (sums_odd n t); auto. now apply (class_reach n ord t q fuel Ho Hn Hp p r). Qed.
Theorem class_even n ord t q fuel p r : Nat.Even n -> n <= 100 -> ord_ok ord -> pm_quad n q -> generate_equivalence_class fuel ord p q (equivalences t) = Some r ->
  forall y, In y r -> Permutation (both_sizes y) (both_sizes q) \/ Permutation (both_sizes y) (map flipped (both_sizes q)).
Proof. intros Od Hn Ho Hp E y I. apply (sums_even n t); auto. now apply (class_reach n ord t q fuel Ho Hn Hp p r). Qed.
Theorem class_normal n ord t q fuel p r : Nat.Odd n -> n <= 100 -> ord_ok ord -> pm_quad n q -> generate_equivalence_class fuel ord p q (equivalences t) = Some r ->
  normal_rowsums t (totals q) -> forall y, In y r -> normal_rowsums t (totals y) -> totals y = totals q.
Proof. intros Od Hn Ho Hp E N y I. apply (normal_unique n t); auto. now apply (class_reach n ord t q fuel Ho Hn Hp p r). Qed.

Section Add.
  Variables (n : nat) (t : SequenceType) (D1 D2 : Quad -> Prop).
  Hypotheses (Hn : Nat.Odd n) (N1 : forall s, D1 s -> normal_rowsums t s) (N2 : forall s, D2 s -> normal_rowsums t s) (Dis : forall s, D1 s -> ~ D2 s).
  Let P (D : Quad -> Prop) (q : QuadSeq) := pm_quad n q /\ is_type t q /\ D (totals q).
  Lemma apart q q' : P D1 q -> P D2 q' -> ~ reach (type_ops t) q q'.
  Proof.
    intros (Hp & _ & H1) (_ & _ & H2) R. apply (Dis _ H1). rewrite <- (normal_unique n t q q' Hn Hp R) by auto. exact H2.
  Qed.
  Theorem results_add r1 r2 : one_per_class_of (P D1) t r1 -> one_per_class_of (P D2) t r2 ->
    (forall x y, In x r1 -> In y r2 -> ~ reach (type_ops t) x y) /\ one_per_class_of (P (fun s => D1 s \/ D2 s)) t (r1 ++ r2).
  Proof.
    intros (U1 & A1 & B1) (U2 & A2 & B2).
    assert (I8 : forall D q, P D q -> i8_quad n q) by (intros D q (Hp & _); now apply pm_i8).
    assert (Ap : forall x y, In x r1 -> In y r2 -> ~ reach (type_ops t) x y).
    { intros x y Ix Iy R. destruct (A1 x Ix) as (_ & q & Pq & Rq). destruct (A2 y Iy) as (_ & q' & Pq' & Rq').
      apply (apart q q' Pq Pq'). apply (rt_trans _ _ _ x); [exact Rq|]. apply (rt_trans _ _ _ y); [exact R|]. apply (reach_sym n); eauto using pm_i8. }
    split; [exact Ap|]. split; [|split].
    - apply SearchFacts.NoDup_app; auto. intros x Ix Iy. apply (Ap x x Ix Iy). apply rt_refl.
    - intros x I. apply in_app_iff in I as [I|I]; [destruct (A1 x I) as (L & q & (X & Y & Z) & R)|destruct (A2 x I) as (L & q & (X & Y & Z) & R)];
        (split; [exact L|]); exists q; (split; [|exact R]); (split; [exact X|]); (split; [exact Y|]); [now left|now right].
    - intros q (X & Y & [Z|Z]).
      + destruct (B1 q) as (x & Ix & R & O); [now split|]. exists x. split; [apply in_app_iff; now left|]. split; [exact R|].
        intros x' I R'. apply in_app_iff in I as [I|I]; [now apply O|]. exfalso. destruct (A2 x' I) as (_ & q' & P' & Q').
        apply (apart q q'); [now split|exact P'|]. apply (rt_trans _ _ _ x'); [exact R'|]. apply (reach_sym n); eauto using pm_i8.
      + destruct (B2 q) as (x & Ix & R & O); [now split|]. exists x. split; [apply in_app_iff; now right|]. split; [exact R|].
        intros x' I R'. apply in_app_iff in I as [I|I]; [|now apply O]. exfalso. destruct (A1 x' I) as (_ & q' & P' & Q').
        apply (apart q' q); [exact P'|now split|]. apply (rt_trans _ _ _ x'); [exact Q'|]. apply (reach_sym n); eauto using pm_i8.
  Qed.
End Add.

(* of even length the row sums of a class need not be unique *)
Definition q18 : QuadSeq := (mkQuad 18 [1;1;1;-1;-1;-1;1;1;-1;1;-1;1;1;-1;-1;-1;1;1] [-1;-1;-1;1;1;-1;1;1;1;1;1;1;1;-1;1;1;-1;-1]
  [-1;1;1;1;-1;-1;1;-1;1;1;1;-1;1;-1;-1;1;1;1] [-1;1;1;-1;1;-1;1;1;1;-1;1;1;1;-1;1;-1;1;1])%Z.
Theorem even_two : exists q q', pm_quad 18 q /\ is_QT q /\ reach (type_ops QuaternionType) q q' /\ feasible 18 (totals q) /\ normal_rowsums QuaternionType (totals q) /\
  feasible 18 (totals q') /\ normal_rowsums QuaternionType (totals q') /\ totals q = (2, 4, 4, 6)%Z /\ totals q' = (0, 2, 2, 8)%Z.
Proof.
  assert (Pa : pm_quad 18 q18) by (repeat split; auto; repeat (apply Forall_cons; [auto|]); apply Forall_nil).
  exists q18, (wact [All Alt] q18). split; [exact Pa|]. split; [apply (WriteFacts.verify_type 18 q18 QuaternionType Pa ltac:(lia)); vm_compute; reflexivity|].
  split; [apply rt_step; exists EvenAlternatedNegation; split; [cbn; auto|right; exists [All Alt]; split; [cbn; auto|reflexivity]]|].
  assert (E : totals q18 = (2, 4, 4, 6)%Z) by reflexivity. assert (E' : totals (wact [All Alt] q18) = (0, 2, 2, 8)%Z) by reflexivity. rewrite E, E'.
  repeat split; try reflexivity; lia.
Qed.
