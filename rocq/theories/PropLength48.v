(* Lengths 33 to 63, where the symbols from 128 on do not fit into an i8 and none of them becomes 0. *)
From Coq Require Import Ascii String List ZArith Lia Arith Bool Permutation.
From Verif Require Import Base ModelSequence ModelWilliamson ModelEquivalence SpecEquiv EquivFacts ModelMatching ModelRowsum ModelWrite SpecRowsum SpecSearch
  ReduceFacts Len32Example Len48Example PropSequences PropEquivalence PropSearch PropLength32 Spec.
Import ListNotations.
Notation length := List.length.
Open Scope nat_scope.

(* the four sequences one after another *)
Definition joined (q : QuadSeq) : list Z := q_a q ++ q_b q ++ q_c q ++ q_d q.
(* the position read for the symbol 128, which is -128 as an i8: its absolute value is -128 again, and 2^64 - 128 as a usize *)
Definition position_128 (n : nat) : nat :=
  let N := Z.of_nat n in Z.to_nat ((127 - (2 ^ 64 - 129) mod N) / N * N + 127 mod N).
(* what the search takes x for: the symbols s from 129 to 4n are negative as an i8, so that the entry
   s - 1 is the negation of the entry 255 - s *)
Definition mistaken (n : nat) (x x' : QuadSeq) : Prop :=
  pm_quad n x' /\ forall i, i < 4 * n -> nth i (joined x') 0%Z =
    if i <? 127 then nth i (joined x) 0%Z else (- nth (if i =? 127 then position_128 n else 254 - i)%nat (joined x) 0)%Z.
(* the same up to the entry 127 *)
Definition up_to_127 (n : nat) (x y : QuadSeq) : Prop :=
  pm_quad n y /\ forall i, i < 4 * n -> i <> 127 -> nth i (joined y) 0%Z = nth i (joined x) 0%Z.

(* C105 *)
(* nothing panics, the result does not depend on hashing, and it is made of images of something else than the given sequences *)
Theorem C105_representatives : forall n t l, 33 <= n <= 63 -> three_types t -> l <> [] -> Forall (pm_quad n) l ->
  exists R fuel0, forall ord fuel path, ord_ok ord -> fuel0 <= fuel -> exists r,
    reduce_to_canonical_reps fuel ord path l t = Some r /\ NoDup r /\ same_set r R /\
    forall m, In m r -> pm_quad n m /\ exists x x' y, In x l /\ mistaken n x x' /\ up_to_127 n x' y /\ reach (type_ops (class_type t)) y m.
Proof. exact representatives_48. Qed.
Print Assumptions C105_representatives.
(* for odd lengths, exactly *)
Theorem C105_representatives_odd : forall n t l, 33 <= n <= 63 -> Nat.odd n = true -> three_types t -> l <> [] -> Forall (pm_quad n) l ->
  exists fuel0, forall ord fuel path, ord_ok ord -> fuel0 <= fuel -> exists r,
    reduce_to_canonical_reps fuel ord path l t = Some r /\ NoDup r /\
    forall m, In m r <-> exists x x', In x l /\ mistaken n x x' /\ least (reach (type_ops (class_type t)) x') m.
Proof. exact representatives_odd_48. Qed.
Print Assumptions C105_representatives_odd.
(* entries from 128 on are not looked at *)
Theorem C105_prefix_refuted : forall n t x y, 33 <= n <= 63 -> three_types t -> pm_quad n x -> pm_quad n y -> firstn 128 (joined x) = firstn 128 (joined y) ->
  exists m fuel0, forall ord fuel path, ord_ok ord -> fuel0 <= fuel -> reduce_to_canonical_reps fuel ord path [x; y] t = Some [m].
Proof. exact prefix_48. Qed.
Print Assumptions C105_prefix_refuted.
(* driver.sh reports a sequence that is not perfect *)
Theorem C105_driver_refuted : forall n t m p ls ord, In n [33; 34; 37; 38; 40; 42; 45; 46; 49; 50; 51; 54; 55; 57; 58; 62] ->
  three_types t -> any_listing ls -> ord_ok ord ->
  exists fuel0, forall fuel path, fuel0 <= fuel -> exists out out' z v line,
    driver fuel ord path ls t n m p = Some (out, out') /\ In line out /\
    to_qs z = Some v /\ QS_to_string_raw v = Some line /\ pm_quad n z /\ verify z t = Some false /\ QS_is_perfect v = Some false.
Proof. exact driver_examples_48. Qed.
Print Assumptions C105_driver_refuted.
(* equivalent solutions are reported as different *)
Theorem C105_equiv_refuted : forall t, three_types t ->
  exists x y, pm_quad 37 x /\ pm_quad 37 y /\ verify x t = Some true /\ verify y t = Some true /\ reach (type_ops t) x y /\
    forall ord, ord_ok ord -> exists fuel0, forall fuel path, fuel0 <= fuel -> equiv fuel ord path x y t = Some false.
Proof. exact equiv_37. Qed.
Print Assumptions C105_equiv_refuted.
Definition p37 : QuadSeq := mkQuad 37 (q_a x37) (q_b x37) (q_c x37) (pms "+---++++--++-+++-+-------------------").
Example C105_instance : three_types WilliamsonType /\ any_listing ls_rev /\ ord_ok ord_mix /\ In 37 [33; 34; 37] /\
  pm_quad 37 x37 /\ verify x37 WilliamsonType = Some true /\ pm_quad 37 p37 /\ x37 <> p37 /\ firstn 128 (joined x37) = firstn 128 (joined p37) /\
  map position_128 [33; 37; 63] = [127; 90; 64].
Proof.
  split; [unfold three_types; tauto|]. split; [exact ls_rev_ok|]. split; [exact ord_mix_ok|]. split; [cbn; tauto|]. split; [pm32|].
  split; [vm_compute; reflexivity|]. split; [pm32|]. split; [discriminate|]. split; vm_compute; reflexivity.
Qed.
