(* Property theorems C15-C20: canonical forms, reduction to representatives, pairwise equivalence.
   Each theorem is followed by a concrete, non-trivial instance of its hypotheses. *)
From Coq Require Import List ZArith Lia Arith Bool Permutation Relations.
From Verif Require Import Base BaseFacts Sums Quat ModelSequence ModelWilliamson Spec
  ModelEquivalence SpecEquiv OpFacts EquivFacts TypeFacts OrderFacts FastFacts EquivThms
  CanonFacts NsFacts ReduceFacts WsFacts PropSequences PropEquivalence.
Import ListNotations.
Open Scope nat_scope.

(* C15 *)
Theorem C15_ns_canonical_is_least : forall n q, pm_quad n q -> 1 <= n ->
  exists c, ns_canonical q = Some c /\ least (reach [NegateSwap] q) c.
Proof. exact ns_spec. Qed.
Print Assumptions C15_ns_canonical_is_least.
Theorem C15_ns_canonical_complete : forall n x y, 1 <= n -> pm_quad n x -> pm_quad n y ->
  (ns_canonical x = ns_canonical y <-> reach [NegateSwap] x y).
Proof. exact ns_complete. Qed.
Print Assumptions C15_ns_canonical_complete.

(* four distinct sequences: the two parities of signs and order are different orbits *)
Definition d3 : QuadSeq := (mkQuad 3 [1;1;1] [1;-1;1] [1;1;-1] [-1;1;1])%Z.
Definition d3' : QuadSeq := (mkQuad 3 [1;-1;1] [1;1;1] [1;1;-1] [-1;1;1])%Z.
Lemma d3_pm : pm_quad 3 d3. Proof. pm_tac. Qed.
Lemma d3'_pm : pm_quad 3 d3'. Proof. pm_tac. Qed.
Example C15_instance : pm_quad 3 d3 /\ pm_quad 3 d3' /\
  ns_canonical d3 = Some (mkQuad 3 [-1;-1;-1] [-1;-1;1] [-1;1;-1] [-1;1;1])%Z /\
  ns_canonical d3' = Some (mkQuad 3 [-1;-1;-1] [-1;-1;1] [-1;1;-1] [1;-1;-1])%Z /\
  ns_canonical w3' = ns_canonical w3.
Proof. split; [exact d3_pm|]. split; [exact d3'_pm|]. repeat split; vm_compute; reflexivity. Qed.

(* C16 *)
Theorem C16_sn_ss_canonical_is_least : forall n q, pm_quad n q -> 1 <= n ->
  exists c, sn_ss_canonical q = Some c /\ least (reach [Negate; Reorder] q) c.
Proof. exact sn_ss_spec. Qed.
Print Assumptions C16_sn_ss_canonical_is_least.
Theorem C16_sn_ss_canonical_complete : forall n x y, 1 <= n -> pm_quad n x -> pm_quad n y ->
  (sn_ss_canonical x = sn_ss_canonical y <-> reach [Negate; Reorder] x y).
Proof. exact sn_ss_complete. Qed.
Print Assumptions C16_sn_ss_canonical_complete.

Example C16_instance :
  sn_ss_canonical d3 = Some (mkQuad 3 [-1;-1;-1] [-1;-1;1] [-1;1;-1] [-1;1;1])%Z /\
  sn_ss_canonical d3' = sn_ss_canonical d3 /\ sn_ss_canonical w3 <> sn_ss_canonical d3.
Proof. repeat split; vm_compute; try reflexivity. discriminate. Qed.

(* C17 *)
Theorem C17_qt_canonical_is_brute_force : forall n ord ord' q t, ord_ok ord -> ord_ok ord' ->
  t = QuaternionType \/ t = WilliamsonType -> pm_quad n q -> 1 <= n <= 31 ->
  exists fuel0, forall fuel p p' p'', fuel0 <= fuel -> exists G m,
    generate_symmetry_group fuel ord p n (canonical_ops t) = Some G /\
    qt_canonical ord p' q G t = Some m /\
    generate_canonical_representative fuel ord' p'' q t = Some m.
Proof. exact qt_canonical_brute. Qed.
Print Assumptions C17_qt_canonical_is_brute_force.

Example C17_instance :
  (let* G := generate_symmetry_group 10 ord_mix [] 3 (canonical_ops WilliamsonType) in
   qt_canonical ord_mix [] w3' G WilliamsonType)
  = generate_canonical_representative 10 ord_id [] w3' WilliamsonType /\
  (let* G := generate_symmetry_group 10 ord_mix [] 3 (canonical_ops WilliamsonType) in
   qt_canonical ord_mix [] w3' G WilliamsonType)
  = Some (mkQuad 3 [-1;-1;-1] [-1;-1;1] [-1;-1;1] [-1;-1;1])%Z.
Proof. split; vm_compute; reflexivity. Qed.

(* C18 *)
Theorem C18_one_representative_per_class : forall n ord l t, ord_ok ord ->
  t = QuaternionType \/ t = WilliamsonType -> 1 <= n <= 31 ->
  l <> [] -> Forall (fun q => pm_quad n q /\ verify q t = Some true) l ->
  exists fuel0, forall fuel p, fuel0 <= fuel -> exists r,
    reduce_to_canonical_reps fuel ord p l t = Some r /\ NoDup r /\
    (forall m, In m r -> pm_quad n m /\ verify m t = Some true /\ exists x, In x l /\ reach (type_ops t) x m) /\
    (forall x, In x l -> exists m, In m r /\ reach (type_ops t) x m /\
       forall m', In m' r -> reach (type_ops t) x m' -> m' = m) /\
    (forall m, In m r -> least (reach (type_ops t) m) m).
Proof. exact reduce_complete. Qed.
Print Assumptions C18_one_representative_per_class.
Theorem C18_empty_list_panics : forall fuel ord p t, reduce_to_canonical_reps fuel ord p [] t = None.
Proof. exact reduce_empty. Qed.
Print Assumptions C18_empty_list_panics.

Example C18_instance :
  Forall (fun q => pm_quad 3 q /\ verify q QuaternionType = Some true) [w3; w3'] /\
  option_map (fun r => length r) (reduce_to_canonical_reps 10 ord_mix [] [w3; w3'] QuaternionType) = Some 1.
Proof.
  split; [|vm_compute; reflexivity].
  repeat apply Forall_cons; try apply Forall_nil; (split; [pm_tac|vm_compute; reflexivity]).
Qed.

(* C19 *)
Theorem C19_williamson_one_representative_per_class : forall n ord l, ord_ok ord -> 1 <= n <= 31 -> l <> [] ->
  Forall (fun q => pm_quad n q /\ verify q Williamson = Some true) l ->
  exists rep, (forall x y, In x l -> In y l -> (rep x = rep y <-> reach (type_ops Williamson) x y)) /\
  (forall x, In x l -> least (reach (type_ops WilliamsonType) x) (rep x)) /\
  exists fuel0, forall fuel p, fuel0 <= fuel -> exists r,
    reduce_to_canonical_reps fuel ord p l Williamson = Some r /\ NoDup r /\
    (forall m, In m r <-> exists x, In x l /\ m = rep x).
Proof. exact reduce_W. Qed.
Print Assumptions C19_williamson_one_representative_per_class.
Theorem C19_representative_is_williamson_refuted : exists q m fuel, pm_quad 3 q /\
  verify q Williamson = Some true /\ reduce_to_canonical_reps fuel ord_id [] [q] Williamson = Some [m] /\
  verify m Williamson = Some false.
Proof.
  exists w3, (mkQuad 3 [-1;-1;-1] [-1;-1;1] [-1;-1;1] [-1;-1;1])%Z, 10.
  split; [exact w3_pm|]. repeat split; vm_compute; reflexivity.
Qed.
Print Assumptions C19_representative_is_williamson_refuted.

Example C19_instance :
  Forall (fun q => pm_quad 3 q /\ verify q Williamson = Some true) [w3; w3'].
Proof. repeat apply Forall_cons; try apply Forall_nil; (split; [pm_tac|vm_compute; reflexivity]). Qed.

(* C20 *)
Theorem C20_equiv_decides_equivalence : forall n ord ord' x y t, ord_ok ord -> ord_ok ord' ->
  t = QuaternionType \/ t = WilliamsonType \/ t = Williamson -> 1 <= n <= 31 ->
  pm_quad n x -> pm_quad n y -> verify x t = Some true -> verify y t = Some true ->
  exists fuel0, forall fuel p p', fuel0 <= fuel -> exists b c,
    equiv fuel ord p x y t = Some b /\
    generate_equivalence_class fuel ord' p' x (equivalences t) = Some c /\ (b = true <-> In y c).
Proof. exact equiv_class. Qed.
Print Assumptions C20_equiv_decides_equivalence.
Theorem C20_equiv_is_reachability : forall n ord x y t, ord_ok ord ->
  t = QuaternionType \/ t = WilliamsonType \/ t = Williamson -> 1 <= n <= 31 ->
  pm_quad n x -> pm_quad n y -> verify x t = Some true -> verify y t = Some true ->
  exists fuel0, forall fuel p, fuel0 <= fuel -> exists b,
    equiv fuel ord p x y t = Some b /\ (b = true <-> reach (type_ops t) x y).
Proof. exact equiv_spec. Qed.
Print Assumptions C20_equiv_is_reachability.
Theorem C20_equiv_panics_on_invalid : forall fuel ord p x y t n, pm_quad n x -> pm_quad n y -> 1 <= n ->
  verify x t = Some false \/ verify y t = Some false -> equiv fuel ord p x y t = None.
Proof. exact equiv_panics. Qed.
Print Assumptions C20_equiv_panics_on_invalid.

(* two inequivalent Williamson quadruples of length 7 (28 = 1+9+9+9 = 25+1+1+1) *)
Definition w7 : QuadSeq :=
  (mkQuad 7 [1;1;1;-1;-1;1;1] [1;1;1;-1;-1;1;1] [1;1;-1;1;1;-1;1] [1;-1;1;-1;-1;1;-1])%Z.
Definition w7' : QuadSeq :=
  (mkQuad 7 [1;1;-1;-1;-1;-1;1] [1;-1;1;-1;-1;1;-1] [1;-1;-1;1;1;-1;-1] [1;-1;-1;-1;-1;-1;-1])%Z.
Example C20_instance_distinct : pm_quad 7 w7 /\ pm_quad 7 w7' /\
  equiv 10 ord_id [] w7 w7' Williamson = Some false /\ equiv 10 ord_mix [] w7 w7' WilliamsonType = Some false /\
  equiv 10 ord_id [] w7 w7' QuaternionType = Some false.
Proof. split; [pm_tac|]. split; [pm_tac|]. repeat split; vm_compute; reflexivity. Qed.
Example C20_instance :
  equiv 10 ord_id [] w3 w3' Williamson = Some true /\ equiv 10 ord_mix [] w3 w3' QuaternionType = Some true /\
  verify bad3 Williamson = Some false /\ equiv 10 ord_id [] w3 bad3 Williamson = None.
Proof. repeat split; vm_compute; reflexivity. Qed.
