(* Property theorems C100: the size of a class. *)
From Coq Require Import List ZArith Lia Arith Bool Permutation Relations.
From Verif Require Import Base ModelSequence ModelWilliamson ModelEquivalence SpecEquiv OpFacts OrderFacts EquivFacts TypeFacts EquivThms PropSequences PropEquivalence SpecOrbit OrbitFacts GroupThms Spec.
Import ListNotations.
Open Scope nat_scope.

(* C100: the size of the class of a quadruple times the number of symmetries that fix it is the number of symmetries *)
Theorem C100_orbit_stabilizer : forall n ord ord' ord'' ops q, ord_ok ord -> ord_ok ord' -> ord_ok ord'' -> n <= 31 -> i8_quad n q ->
  exists fuel0, forall fuel p p' p'', fuel0 <= fuel -> exists G c stab,
    generate_symmetry_group fuel ord p n (map impl ops) = Some G /\
    generate_equivalence_class fuel ord' p' q (map impl ops) = Some c /\
    NoDup stab /\ (forall g, In g stab <-> In g G /\ generate_equivalence_class_fast ord'' p'' q [g] = Some [q]) /\
    1 <= length stab /\ length G = length c * length stab.
Proof. exact orbit_stabilizer. Qed.
Print Assumptions C100_orbit_stabilizer.

(* C100: how many symmetries a type of length at most 31 has *)
Theorem C100_symmetry_count : forall t n ord, ord_ok ord -> 1 <= n <= 31 -> exists fuel0, forall fuel p, fuel0 <= fuel ->
  exists G, generate_symmetry_group fuel ord p n (equivalences t) = Some G /\ NoDup G /\ length G = symmetries t n.
Proof. exact symmetry_count. Qed.
Print Assumptions C100_symmetry_count.

(* C100: the size of a class divides that number *)
Theorem C100_class_size_divides : forall t n ord q, ord_ok ord -> 1 <= n <= 31 -> i8_quad n q -> exists fuel0, forall fuel p, fuel0 <= fuel ->
  exists c, generate_equivalence_class fuel ord p q (equivalences t) = Some c /\ NoDup c /\ 1 <= length c /\ Nat.divide (length c) (symmetries t n).
Proof. exact class_size_divides. Qed.
Print Assumptions C100_class_size_divides.

Definition q1 : QuadSeq := {| q_size := 1; q_a := [1%Z]; q_b := [1%Z]; q_c := [1%Z]; q_d := [(-1)%Z] |}.
Example C100_count_instance : ord_ok ord_mix /\ i8_quad 1 q1 /\ symmetries QuaternionType 1 = 192 /\ symmetries WilliamsonType 3 = 2304 /\
  option_map (@length _) (generate_symmetry_group 200 ord_mix [] 1 (equivalences QuaternionType)) = Some 192 /\
  option_map (@length _) (generate_equivalence_class 200 ord_id [] q1 (equivalences QuaternionType)) = Some 16.
Proof.
  split; [apply ord_mix_ok|]. split; [repeat split; repeat constructor; cbn; lia|]. repeat split; vm_compute; reflexivity.
Qed.

Example C100_instance : i8_quad 3 w3 /\ ord_ok ord_mix /\
  option_map (@length _) (generate_symmetry_group 60 ord_mix [] 3 (map impl [DoubleNegate; UniformShift; Reverse])) = Some 48 /\
  option_map (@length _) (generate_equivalence_class 60 ord_id [] w3 (map impl [DoubleNegate; UniformShift; Reverse])) = Some 24.
Proof.
  split; [apply pm_i8, w3_pm|]. split; [apply ord_mix_ok|]. split; vm_compute; reflexivity.
Qed.
