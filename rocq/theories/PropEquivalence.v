(* Property theorems C09-C14, C46, C54-C56: equivalence operations, classes, order, representatives.
   Each theorem is followed by a concrete, non-trivial instance of its hypotheses. *)
From Coq Require Import List ZArith Lia Arith Bool Permutation Relations Ascii String.
From Verif Require Import Base BaseFacts Sums Quat ModelSequence ModelWilliamson Spec
  ModelEquivalence SpecEquiv OpFacts EquivFacts TypeFacts OrderFacts FastFacts EquivThms PropSequences.
Import ListNotations.
Open Scope nat_scope.
Notation length := List.length.

(* Two iteration orders: as stored, and reversed depending on the place in the program. *)
Definition ord_id : Order := fun _ l => l.
Definition ord_mix : Order := fun p l => if Nat.even (list_sum p) then rev l else l.
Lemma ord_id_ok : ord_ok ord_id.
Proof. intros p l. apply Permutation_refl. Qed.
Lemma ord_mix_ok : ord_ok ord_mix.
Proof. intros p l. unfold ord_mix. destruct Nat.even; auto using Permutation_refl, Permutation_sym, Permutation_rev. Qed.

Lemma w3_i8 : i8_quad 3 w3.
Proof. apply pm_i8, w3_pm. Qed.

(* a Williamson quadruple of length 32 *)
Definition signs (s : String.string) : list Z :=
  map (fun c => if Ascii.eqb c "+"%char then 1 else -1)%Z (text s).
Definition w32 : QuadSeq := mkQuad 32
  (signs "+---++--+++++-+++++-+++++--++---") (signs "+++++---+++-++--+--++-+++---++++")
  (signs "++-+--+-+--+--+++++--+--+-+--+-+") (signs "+++---+-+--+-+-+++-+-+--+-+---++").
Lemma w32_pm : pm_quad 32 w32.
Proof. pm_tac. Qed.

(* C09 *)
Theorem C09_operations_preserve_type : forall n t q op, 1 <= n <= 100 -> pm_quad n q ->
  verify q t = Some true -> In op (equivalences t) ->
  exists l, op q = Some l /\ forall y, In y l -> pm_quad n y /\ verify y t = Some true.
Proof. exact ops_preserve_type. Qed.
Print Assumptions C09_operations_preserve_type.
Theorem C09_reachable_keeps_type : forall n t x y, pm_quad n x -> 1 <= n ->
  reach (type_ops t) x y -> is_type t x -> pm_quad n y /\ is_type t y.
Proof. exact reach_type. Qed.
Print Assumptions C09_reachable_keeps_type.

Example C09_instance : pm_quad 32 w32 /\
  forallb (fun t => match verify w32 t with Some true => true | _ => false end)
    [QuaternionType; WilliamsonType; Williamson] = true /\
  map (fun op => match op w32 with Some l => length l | None => 0 end) (equivalences QuaternionType)
    = [32; 2; 8; 25; 8].
Proof. split; [exact w32_pm|]. split; vm_compute; reflexivity. Qed.

(* C10 *)
Theorem C10_class_is_orbit : forall n ord ops q, ord_ok ord -> i8_quad n q -> n <= 100 ->
  exists fuel0, forall fuel p, fuel0 <= fuel -> exists r,
    generate_equivalence_class fuel ord p q (map impl ops) = Some r /\ NoDup r /\
    forall y, In y r <-> reach ops q y.
Proof. exact class_is_orbit. Qed.
Print Assumptions C10_class_is_orbit.
Theorem C10_class_of_type_is_orbit : forall n ord t q, ord_ok ord -> i8_quad n q -> n <= 100 ->
  exists fuel0, forall fuel p, fuel0 <= fuel -> exists r,
    generate_equivalence_class fuel ord p q (equivalences t) = Some r /\ NoDup r /\
    forall y, In y r <-> reach (type_ops t) q y.
Proof. exact type_class_is_orbit. Qed.
Print Assumptions C10_class_of_type_is_orbit.
Theorem C10_any_result_is_orbit : forall n ord ops q fuel p r, ord_ok ord -> i8_quad n q -> n <= 100 ->
  generate_equivalence_class fuel ord p q (map impl ops) = Some r ->
  NoDup r /\ forall y, In y r <-> reach ops q y.
Proof. exact class_sound. Qed.
Print Assumptions C10_any_result_is_orbit.

Example C10_instance : ord_ok ord_id /\ ord_ok ord_mix /\ i8_quad 3 w3 /\
  option_map (fun r => (length r, hd bad3 r))
    (generate_equivalence_class 10 ord_id [] w3 (map impl [Negate; Reorder]))
    = Some (64, mkQuad 3 [1;-1;-1]%Z [1;-1;-1]%Z [1;-1;-1]%Z [1;1;1]%Z) /\
  option_map (fun r => (length r, hd bad3 r))
    (generate_equivalence_class 10 ord_mix [] w3 (map impl [Negate; Reorder]))
    = Some (64, mkQuad 3 [1;-1;-1]%Z [1;-1;-1]%Z [1;-1;-1]%Z [1;1;1]%Z).
Proof.
  split; [exact ord_id_ok|]. split; [exact ord_mix_ok|]. split; [exact w3_i8|].
  split; vm_compute; reflexivity.
Qed.

(* C11 *)
Theorem C11_equivalence_relation : forall n ord t, ord_ok ord -> n <= 100 ->
  exists R : QuadSeq -> QuadSeq -> Prop,
  (forall x, i8_quad n x -> R x x) /\
  (forall x y, i8_quad n x -> i8_quad n y -> R x y -> R y x) /\
  (forall x y z, i8_quad n x -> i8_quad n y -> i8_quad n z -> R x y -> R y z -> R x z) /\
  (forall x y, i8_quad n x -> i8_quad n y -> exists fuel0, forall fuel p, fuel0 <= fuel ->
     exists b, equivalent_to fuel ord p x y t = Some b /\ (b = true <-> R x y)).
Proof. exact equivalence_relation. Qed.
Print Assumptions C11_equivalence_relation.
Theorem C11_classes_equal_or_disjoint : forall n ord t x y,
  ord_ok ord -> i8_quad n x -> i8_quad n y -> n <= 100 ->
  exists fuel0, forall fuel p p', fuel0 <= fuel -> exists cx cy,
    generate_equivalence_class fuel ord p x (equivalences t) = Some cx /\
    generate_equivalence_class fuel ord p' y (equivalences t) = Some cy /\
    (In y cx <-> In x cy) /\
    (In y cx -> same_set cx cy) /\ (~ In y cx -> forall z, ~ (In z cx /\ In z cy)).
Proof. exact classes_equal_or_disjoint. Qed.
Print Assumptions C11_classes_equal_or_disjoint.
Theorem C11_equivalent_to_is_reachability : forall n ord t x y, ord_ok ord -> i8_quad n x -> n <= 100 ->
  exists fuel0, forall fuel p, fuel0 <= fuel -> exists b,
    equivalent_to fuel ord p x y t = Some b /\ (b = true <-> reach (type_ops t) x y).
Proof. exact equivalent_to_spec. Qed.
Print Assumptions C11_equivalent_to_is_reachability.

Definition w3' : QuadSeq := mkQuad 3 [-1;1;1]%Z [-1;-1;-1]%Z [1;-1;-1]%Z [-1;1;1]%Z.
Example C11_instance : i8_quad 3 w3' /\
  equivalent_to 10 ord_id [] w3 w3' Williamson = Some true /\
  equivalent_to 10 ord_id [] w3' w3 Williamson = Some true /\
  equivalent_to 10 ord_id [] w3 bad3 Williamson = Some false.
Proof. split; [apply pm_i8; pm_tac|]. repeat split; vm_compute; reflexivity. Qed.

(* C12 *)
Theorem C12_fast_agrees : forall n ord ops q, ord_ok ord -> i8_quad n q -> n <= 31 ->
  exists fuel0, forall fuel p p' p'', fuel0 <= fuel -> exists G r r',
    generate_symmetry_group fuel ord p n (map impl ops) = Some G /\
    generate_equivalence_class_fast ord p' q G = Some r /\
    generate_equivalence_class fuel ord p'' q (map impl ops) = Some r' /\
    NoDup r /\ same_set r r'.
Proof. exact fast_agrees. Qed.
Print Assumptions C12_fast_agrees.
Theorem C12_fast_agrees_for_type : forall n ord t q, ord_ok ord -> i8_quad n q -> n <= 31 ->
  exists fuel0, forall fuel p p' p'', fuel0 <= fuel -> exists G r r',
    generate_symmetry_group fuel ord p n (equivalences t) = Some G /\
    generate_equivalence_class_fast ord p' q G = Some r /\
    generate_equivalence_class fuel ord p'' q (equivalences t) = Some r' /\
    NoDup r /\ same_set r r'.
Proof. exact fast_agrees_type. Qed.
Print Assumptions C12_fast_agrees_for_type.
(* the agreement is refuted at length 32, for every valid quadruple and every iteration order *)
Theorem C12_fast_wrong_at_32_refuted : forall ord t q, ord_ok ord -> pm_quad 32 q ->
  verify q t = Some true ->
  exists fuel0, forall fuel p p' p'', fuel0 <= fuel -> exists G r r' y,
    generate_symmetry_group fuel ord p 32 (equivalences t) = Some G /\
    generate_equivalence_class_fast ord p' q G = Some r /\
    generate_equivalence_class fuel ord p'' q (equivalences t) = Some r' /\
    In y r /\ ~ In y r'.
Proof. exact fast_wrong. Qed.
Print Assumptions C12_fast_wrong_at_32_refuted.

Example C12_instance : exists G r r',
  generate_symmetry_group 10 ord_mix [] 3 (map impl [UniformShift; Automorphism; Negate]) = Some G /\
  generate_equivalence_class_fast ord_mix [] w3 G = Some r /\
  generate_equivalence_class 10 ord_id [] w3 (map impl [UniformShift; Automorphism; Negate]) = Some r' /\
  (length G, length r, length r', forallb (fun x => mem x r') r) = (96, 48, 48, true).
Proof.
  eexists; eexists; eexists. split; [vm_compute; reflexivity|]. split; [vm_compute; reflexivity|].
  split; [vm_compute; reflexivity|]. vm_compute; reflexivity.
Qed.
Example C12_instance_32 : pm_quad 32 w32 /\ verify w32 QuaternionType = Some true /\
  verify w32 WilliamsonType = Some true /\ verify w32 Williamson = Some true.
Proof. split; [exact w32_pm|]. repeat split; vm_compute; reflexivity. Qed.

(* C13 *)
Theorem C13_strict_total_order : forall n, let R x y := will_less_than x y = Some true in
  (forall x y, wf n x -> wf n y -> exists b, will_less_than x y = Some b) /\
  (forall x, wf n x -> ~ R x x) /\
  (forall x y z, wf n x -> wf n y -> wf n z -> R x y -> R y z -> R x z) /\
  (forall x y, wf n x -> wf n y -> R x y \/ x = y \/ R y x).
Proof. exact less_than_total_order. Qed.
Print Assumptions C13_strict_total_order.
Theorem C13_is_lexicographic : forall n x y, wf n x -> wf n y ->
  (will_less_than x y = Some true <-> quad_lt x y).
Proof. exact less_than_lex. Qed.
Print Assumptions C13_is_lexicographic.

Example C13_instance : wf 3 w3 /\ wf 3 bad3 /\ will_less_than w3 bad3 = Some true /\
  will_less_than bad3 w3 = Some false.
Proof. split; [apply w3_pm|]. split; [apply bad3_pm|]. split; reflexivity. Qed.

(* C14 *)
Theorem C14_representative_is_least : forall n ord t q, ord_ok ord -> i8_quad n q -> n <= 100 ->
  exists m, least (reach (type_ops t) q) m /\ exists fuel0, forall fuel p, fuel0 <= fuel ->
    generate_canonical_representative fuel ord p q t = Some m.
Proof. exact canonical_is_least. Qed.
Print Assumptions C14_representative_is_least.
Theorem C14_same_representative_iff_equivalent : forall n ord ord' t x y,
  ord_ok ord -> ord_ok ord' -> i8_quad n x -> i8_quad n y -> n <= 100 ->
  exists fuel0, forall fuel p p', fuel0 <= fuel -> exists mx my,
    generate_canonical_representative fuel ord p x t = Some mx /\
    generate_canonical_representative fuel ord' p' y t = Some my /\
    (mx = my <-> reach (type_ops t) x y).
Proof. exact canonical_complete. Qed.
Print Assumptions C14_same_representative_iff_equivalent.

Example C14_instance :
  generate_canonical_representative 10 ord_id [] w3' WilliamsonType
    = generate_canonical_representative 10 ord_mix [] w3 WilliamsonType /\
  generate_canonical_representative 10 ord_id [] w3' WilliamsonType
    = Some (mkQuad 3 [-1;-1;-1] [-1;-1;1] [-1;-1;1] [-1;-1;1])%Z.
Proof. split; vm_compute; reflexivity. Qed.

(* C46 *)
Theorem C46_coprime_is_gcd : forall a b, coprime a b = true <-> Nat.gcd a b = 1.
Proof. intros a b. rewrite coprime_gcd. apply Nat.eqb_eq. Qed.
Print Assumptions C46_coprime_is_gcd.
Theorem C46_table : forall n, n <= 100 ->
  vget COPRIMES n = Some (filter (fun k => Nat.gcd n k =? 1) (seq 1 n)).
Proof. exact COPRIMES_spec. Qed.
Print Assumptions C46_table.
Theorem C46_table_panics_above_100 : forall n, 100 < n -> vget COPRIMES n = None.
Proof. exact COPRIMES_none. Qed.
Print Assumptions C46_table_panics_above_100.
Theorem C46_automorphism_panics_above_100 : forall n q, wf n q -> 100 < n ->
  equivalent_automorphism q = None.
Proof. exact automorphism_panics. Qed.
Print Assumptions C46_automorphism_panics_above_100.

Example C46_instance : coprime 12 35 = true /\ coprime 35 12 = true /\ coprime 21 35 = false /\
  vget COPRIMES 12 = Some [1; 5; 7; 11].
Proof. repeat split; vm_compute; reflexivity. Qed.

(* C54 *)
Theorem C54_operations_return_documented_variants : forall n o q, wf n q -> (o = Automorphism -> n <= 100) ->
  exists l, impl o q = Some l /\ NoDup l /\ forall y, In y l <-> variant o q y.
Proof. exact impl_computes. Qed.
Print Assumptions C54_operations_return_documented_variants.

Example C54_instance : wf 3 w3 /\ variant UniformShift w3 (mkQuad 3 [-1;-1;-1] [1;-1;1] [1;-1;1] [1;-1;1])%Z /\
  ~ variant UniformShift w3 bad3.
Proof.
  split; [apply w3_pm|]. split.
  - right. exists [All (Rot 2)]. split; [right; now left|reflexivity].
  - intros [H|(w & [<-|[<-|[]]] & H)]; discriminate.
Qed.

(* C55 *)
Theorem C55_every_operation_keeps_QT_and_WT : forall n t q o, 1 <= n -> pm_quad n q ->
  t = QuaternionType \/ t = WilliamsonType -> verify q t = Some true ->
  (o = Automorphism -> n <= 100) -> (o = AlternatedNegation -> Nat.even n = true) ->
  exists l, impl o q = Some l /\ forall y, In y l -> pm_quad n y /\ verify y t = Some true.
Proof. exact all_ops_preserve. Qed.
Print Assumptions C55_every_operation_keeps_QT_and_WT.
Theorem C55_alternated_negation_refuted : exists q l y, pm_quad 3 q /\
  verify q QuaternionType = Some true /\ equivalent_alternated_negation q = Some l /\
  In y l /\ verify y QuaternionType = Some false.
Proof.
  exists w3, [mkQuad 3 [-1;1;-1] [-1;-1;1] [-1;-1;1] [-1;-1;1]; w3]%Z,
    (mkQuad 3 [-1;1;-1] [-1;-1;1] [-1;-1;1] [-1;-1;1])%Z.
  split; [exact w3_pm|]. split; [vm_compute; reflexivity|]. split; [vm_compute; reflexivity|].
  split; [now left|vm_compute; reflexivity].
Qed.
Print Assumptions C55_alternated_negation_refuted.

Example C55_instance : pm_quad 32 w32 /\ verify w32 WilliamsonType = Some true /\
  map (fun o => match impl o w32 with Some l => length l | None => 0 end)
    [Reverse; DoubleNegate; AlternatedNegation; DisjointSwaps; DoubleReorder] = [2; 7; 2; 4; 12].
Proof. split; [exact w32_pm|]. split; vm_compute; reflexivity. Qed.

(* C56 *)
Theorem C56_union_of_classes : forall n ord t l, ord_ok ord -> Forall (i8_quad n) l -> n <= 100 ->
  exists fuel0, forall fuel p, fuel0 <= fuel -> exists r,
    generate_equivalent_quad_seqs fuel ord p l t = Some r /\ NoDup r /\
    forall y, In y r <-> exists x, In x l /\ reach (type_ops t) x y.
Proof. exact equivalent_quad_seqs_spec. Qed.
Print Assumptions C56_union_of_classes.

Example C56_instance : Forall (i8_quad 3) [w3; w3'; bad3] /\
  option_map (fun r => length r)
    (generate_equivalent_quad_seqs 10 ord_mix [] [w3; w3'; bad3] Williamson) = Some 160.
Proof.
  split; [|vm_compute; reflexivity].
  repeat apply Forall_cons; try apply Forall_nil; apply pm_i8; [exact w3_pm|pm_tac|exact bad3_pm].
Qed.
