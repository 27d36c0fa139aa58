(* Length 32, where the symbol 128 of the symbolic symmetry group does not fit into an i8. *)
From Coq Require Import Ascii String List ZArith Lia Arith Bool Permutation.
From Verif Require Import Base ModelSequence ModelWilliamson ModelEquivalence SpecEquiv EquivFacts ModelMatching ModelRowsum ModelWrite SpecSearch
  ReduceFacts Len32Example PropSequences PropEquivalence PropSearch Spec.
Import ListNotations.
Notation length := List.length.
Open Scope nat_scope.

(* the equivalence whose classes the representatives stand for *)
Definition class_type (t : SequenceType) : SequenceType := match t with QuaternionType => QuaternionType | _ => WilliamsonType end.

(* C103 *)
Theorem C103_representatives : forall t l, three_types t -> l <> [] -> Forall (fun x => pm_quad 32 x /\ verify x t = Some true) l ->
  exists R fuel0, forall ord fuel path, ord_ok ord -> fuel0 <= fuel -> exists r,
    reduce_to_canonical_reps fuel ord path l t = Some r /\ NoDup r /\ same_set r R /\
    forall m, In m r -> pm_quad 32 m /\
      ((exists x, In x l /\ reach (type_ops (class_type t)) x m) \/ forall s, verify m s = Some false).
Proof. exact representatives_32. Qed.
Print Assumptions C103_representatives.
Theorem C103_driver_refuted : forall t m p ls ord, three_types t -> any_listing ls -> ord_ok ord ->
  exists fuel0, forall fuel path, fuel0 <= fuel -> exists out out' x v line,
    driver fuel ord path ls t 32 m p = Some (out, out') /\ In line out /\
    to_qs x = Some v /\ QS_to_string_raw v = Some line /\ pm_quad 32 x /\ verify x t = Some false /\ QS_is_perfect v = Some false.
Proof. exact driver_32. Qed.
Print Assumptions C103_driver_refuted.
Theorem C103_equiv_refuted : forall t, three_types t ->
  exists x y, pm_quad 32 x /\ pm_quad 32 y /\ verify x t = Some true /\ verify y t = Some true /\ reach (type_ops t) x y /\
    forall ord, ord_ok ord -> exists fuel0, forall fuel path, fuel0 <= fuel -> equiv fuel ord path x y t = Some false.
Proof. exact equiv_32_wrong. Qed.
Print Assumptions C103_equiv_refuted.
Example C103_instance : three_types WilliamsonType /\ any_listing ls_rev /\ ord_ok ord_mix /\
  Forall (fun x => pm_quad 32 x /\ verify x WilliamsonType = Some true) [w32; x32].
Proof.
  split; [unfold three_types; tauto|]. split; [exact ls_rev_ok|]. split; [exact ord_mix_ok|].
  apply Forall_cons; [split; [exact w32_pm|vm_compute; reflexivity]|]. apply Forall_cons; [split; [exact x32_pm|vm_compute; reflexivity]|apply Forall_nil].
Qed.
