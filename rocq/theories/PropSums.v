(* Property theorems C107: the row sums of equivalent quadruples. *)
From Coq Require Import Arith List ZArith Permutation Lia Relations.
From Verif Require Import Base BaseFacts ModelSequence ModelWilliamson ModelEquivalence ModelRowsum ModelMain EquivFacts SpecEquiv SpecRowsum SpecSums ClassSums SumsThms SpecMain SpecSplit SpecSearch Spec.
Import ListNotations.
Open Scope nat_scope.

(* C107: of odd length, all members of a class have the same four row sums up to order and signs *)
Theorem C107_odd_row_sums : forall n ord t q fuel p r, Nat.Odd n -> n <= 100 -> ord_ok ord -> pm_quad n q -> generate_equivalence_class fuel ord p q (equivalences t) = Some r ->
  forall y, In y r -> Permutation (sum_sizes y) (sum_sizes q).
Proof. exact class_odd. Qed.
Print Assumptions C107_odd_row_sums.
(* of even length the row sums may change places with the alternating sums, in all four sequences at once *)
Theorem C107_even_row_sums : forall n ord t q fuel p r, Nat.Even n -> n <= 100 -> ord_ok ord -> pm_quad n q -> generate_equivalence_class fuel ord p q (equivalences t) = Some r ->
  forall y, In y r -> Permutation (both_sizes y) (both_sizes q) \/ Permutation (both_sizes y) (map flipped (both_sizes q)).
Proof. exact class_even. Qed.
Print Assumptions C107_even_row_sums.
(* the same for every length, in terms of the operations *)
Theorem C107_odd_reachable : forall n t q q', Nat.Odd n -> pm_quad n q -> reach (type_ops t) q q' -> Permutation (sum_sizes q') (sum_sizes q).
Proof. exact sums_odd. Qed.
Print Assumptions C107_odd_reachable.
Theorem C107_even_reachable : forall n t q q', Nat.Even n -> pm_quad n q -> reach (type_ops t) q q' ->
  Permutation (both_sizes q') (both_sizes q) \/ Permutation (both_sizes q') (map flipped (both_sizes q)).
Proof. exact sums_even. Qed.
Print Assumptions C107_even_reachable.
(* so of odd length a class has members at one of the row sums that are searched, and at no other *)
Theorem C107_one_row_sum : forall n t q q', Nat.Odd n -> pm_quad n q -> reach (type_ops t) q q' -> normal_rowsums t (totals q) -> normal_rowsums t (totals q') ->
  totals q' = totals q.
Proof. exact normal_unique. Qed.
Print Assumptions C107_one_row_sum.
(* and the results of searches over different row sums can be put together *)
Theorem C107_results_add_up : forall n t (D1 D2 : Quad -> Prop), Nat.Odd n -> (forall s, D1 s -> normal_rowsums t s) -> (forall s, D2 s -> normal_rowsums t s) -> (forall s, D1 s -> ~ D2 s) ->
  let P (D : Quad -> Prop) q := pm_quad n q /\ is_type t q /\ D (totals q) in
  forall r1 r2, one_per_class_of (P D1) t r1 -> one_per_class_of (P D2) t r2 ->
  (forall x y, In x r1 -> In y r2 -> ~ reach (type_ops t) x y) /\ one_per_class_of (P (fun s => D1 s \/ D2 s)) t (r1 ++ r2).
Proof. exact results_add. Qed.
Print Assumptions C107_results_add_up.
(* not so of even length: a class with members at two of the row sums that are searched *)
Theorem C107_even_refuted : exists q q', pm_quad 18 q /\ is_QT q /\ reach (type_ops QuaternionType) q q' /\ feasible 18 (totals q) /\ normal_rowsums QuaternionType (totals q) /\
  feasible 18 (totals q') /\ normal_rowsums QuaternionType (totals q') /\ totals q = (2, 4, 4, 6)%Z /\ totals q' = (0, 2, 2, 8)%Z.
Proof. exact even_two. Qed.
Print Assumptions C107_even_refuted.

Example C107_instance : let q := (mkQuad 3 [-1;1;1] [-1;1;1] [1;-1;1] [1;1;1])%Z in let q' := (mkQuad 3 [1;-1;1] [1;-1;1] [1;1;-1] [1;1;1])%Z in
  pm_quad 3 q /\ Nat.Odd 3 /\ normal_rowsums QuaternionType (totals q) /\ reach (type_ops QuaternionType) q q' /\ q' <> q /\ normal_rowsums QuaternionType (totals q') /\
  Nat.Even 18 /\ pm_quad 18 q18 /\ both_sizes q18 <> both_sizes (wact [All Alt] q18) /\ both_sizes (wact [All Alt] q18) = map flipped (both_sizes q18) /\
  (exists s, feasible 7 s /\ normal_rowsums QuaternionType s /\ s <> (1, 1, 1, 5)%Z) /\ ord_ok (fun _ l => l).
Proof.
  cbv zeta. split; [repeat split; auto; repeat (apply Forall_cons; [auto|]); apply Forall_nil|]. split; [now exists 1|]. split; [cbn; lia|].
  split.
  { apply rt_step. exists UniformShift. split; [cbn; auto|right]. exists [All (Rot 2)]. split; [cbn; auto|reflexivity]. }
  split; [discriminate|]. split; [cbn; lia|]. split; [now exists 9|].
  split; [repeat split; auto; repeat (apply Forall_cons; [auto|]); apply Forall_nil|]. split; [vm_compute; discriminate|]. split; [vm_compute; reflexivity|].
  split; [exists (1, 3, 3, 3)%Z; split; [vm_compute; tauto|split; [cbn; lia|discriminate]]|]. intros ? ?. reflexivity.
Qed.
