(* C108: the overflow checks of a debug build. *)
From Coq Require Import Ascii String List ZArith Bool Arith Lia Relations.
From Verif Require Import Base Quat ModelSequence ModelWilliamson ModelEquivalence ModelFind ModelMatrices ModelGraph ModelRowsum ModelMatching ModelWrite ModelMain ModelDebug ModelChecked.
From Verif Require Import SpecDebug SpecEquiv SpecRowsum SpecGraph SpecSearch SpecPrint SpecMain SpecMatrix SpecChecked FindQuadFacts OpFacts EquivFacts EquivThms Len32Example CheckedFacts CheckedThms CheckedMatrix
  PropSequences PropEquivalence PropSearch PropMain PropLength64 Spec.
Import ListNotations.
Open Scope nat_scope.
Notation length := List.length.

(* an operation panics exactly when it negates an entry -128 *)
Theorem C108_operation_same : forall n o t sg q, i8_quad n q -> ~ negates o q (-128)%Z -> checked_op o t sg q = debug_op o t sg q.
Proof. exact checked_op_same. Qed.
Print Assumptions C108_operation_same.
Theorem C108_operation_panics : forall o t sg q, negates o q (-128)%Z -> checked_op o t sg q = None.
Proof. exact checked_op_none. Qed.
Print Assumptions C108_operation_panics.
(* the classes of solutions of every length, +-1 quadruples having no such entry *)
Theorem C108_class_of_member : forall n ord p t q fuel, ord_ok ord -> 1 <= n <= 100 -> pm_quad n q -> is_type t q ->
  debug_class fuel ord p q t (checked_equivalences t) false = generate_equivalence_class fuel ord p q (equivalences t).
Proof. exact checked_class_member. Qed.
Print Assumptions C108_class_of_member.
(* up to length 31: the results of the build without checks *)
Theorem C108_symmetry_group : forall n ord p t ops fuel, ord_ok ord -> n <= 31 ->
  debug_symmetry_group fuel ord p n t (map checked_op ops) = generate_symmetry_group fuel ord p n (map impl ops).
Proof. exact checked_group_same. Qed.
Print Assumptions C108_symmetry_group.
Theorem C108_representatives : forall n fuel ord p l t, ord_ok ord -> 1 <= n <= 31 -> Forall (pm_quad n) l ->
  checked_reduce_to_canonical_reps fuel ord p l t = reduce_to_canonical_reps fuel ord p l t.
Proof. exact checked_reduce_same. Qed.
Print Assumptions C108_representatives.
Theorem C108_equiv : forall n fuel ord p x y t, ord_ok ord -> 1 <= n <= 31 -> pm_quad n x -> pm_quad n y ->
  checked_equiv fuel ord p x y t = equiv fuel ord p x y t.
Proof. exact checked_equiv_same. Qed.
Print Assumptions C108_equiv.
Theorem C108_reduce_to_equivalence : forall n ord t ops l, ord_ok ord -> 1 <= n <= 31 -> incl ops (type_ops t) -> Forall (fun q => pm_quad n q /\ is_type t q) l ->
  exists fuel0, forall fuel p, fuel0 <= fuel -> checked_reduce_to_equivalence fuel ord p l t (map checked_op ops) = reduce_to_equivalence fuel ord p l (map impl ops).
Proof. exact checked_reduce_equivalence_same. Qed.
Print Assumptions C108_reduce_to_equivalence.
Theorem C108_driver_same : forall (L : Type) (e : Env L) n t y c pr h (d : bool) w, 1 <= n <= 31 -> env_ok e -> three_types t -> canonical_numeral y n ->
  d = true \/ pl_dirs (place_of w (type_word t) y) = [] ->
  (exists q, pm_quad n q /\ is_type t q) \/ pl_seq (place_of w (type_word t) y) = None /\ pl_qts (place_of w (type_word t) y) = None ->
  exists fuel0, forall fuel, fuel0 <= fuel ->
    checked_driver_flags fuel e (type_word t) y c pr h d w = driver_flags fuel e (type_word t) y c pr h d w.
Proof. exact @checked_flags_same. Qed.
Print Assumptions C108_driver_same.
(* from length 32 on: the symbol 128 is the i8 -128, and the representatives are a panic *)
Theorem C108_representatives_panic : forall n ord p l t fuel, ord_ok ord -> 32 <= n -> Forall (fun x => q_size x = n) l ->
  checked_reduce_to_canonical_reps fuel ord p l t = None.
Proof. exact checked_reduce_32. Qed.
Print Assumptions C108_representatives_panic.
(* no loop that needs more fuel: in odd lengths up to 100 the group is found and cannot be applied, in
   the others the first round of the computation of the group panics *)
Theorem C108_panic : forall n ord p t, ord_ok ord -> 32 <= n ->
  if Nat.odd n && (n <=? 100) then exists fuel0, forall fuel, fuel0 <= fuel -> exists G,
    debug_symmetry_group fuel ord p n t (checked_canonical_ops t) = Some G /\ forall path q, q_size q = n -> checked_class_fast ord path q G = None
  else class_step ord p (map (fun o => o t true) (checked_canonical_ops t)) (0, [symbolic_quad n]) = None.
Proof. exact checked_panics_32. Qed.
Print Assumptions C108_panic.
Theorem C108_equiv_panics : forall n ord p x y t fuel, ord_ok ord -> 32 <= n -> pm_quad n x -> pm_quad n y -> three_types t ->
  verify x t = Some true -> verify y t = Some true -> checked_equiv fuel ord p x y t = None.
Proof. exact checked_equiv_32. Qed.
Print Assumptions C108_equiv_panics.
Theorem C108_join_panics : forall n t m p ls, 32 <= n -> (Z.of_nat n < 2 ^ 62)%Z -> three_types t -> any_listing ls ->
  exists fuel0, forall fuel, fuel0 <= fuel -> exists f c, write_pairs fuel n t m p [] = Some (f, c) /\
    forall ord path fuel', ord_ok ord -> checked_join_pairs fuel' ord path ls t (sortpairs f) = None.
Proof. exact checked_search_32. Qed.
Print Assumptions C108_join_panics.
(* so driver.sh leaves the sorted pairs and no result file *)
Theorem C108_driver_panics : forall (L : Type) (e : Env L) n t y (c : bool) pr h (d : bool) w, 32 <= n -> (Z.of_nat n < 2 ^ 62)%Z -> env_ok e -> three_types t ->
  canonical_numeral y n -> d = true \/ pl_dirs (place_of w (type_word t) y) = [] ->
  pl_seq (place_of w (type_word t) y) = None -> pl_qts (place_of w (type_word t) y) = None ->
  exists fuel0, forall fuel, fuel0 <= fuel -> exists f k,
    write_pairs fuel n t (if c then CORRELATION else PSD) (str_to_rowsum_pairing (match pr with Some r => r | None => chars "WZ" end)) [] = Some (f, k) /\
    only w (checked_driver_flags fuel e (type_word t) y c pr h d w) (type_word t) y /\
    checked_driver_flags fuel e (type_word t) y c pr h d w (type_word t) y = Some (set_dirs (place_of w (type_word t) y) (sortpairs f)).
Proof. exact @checked_driver_32. Qed.
Print Assumptions C108_driver_panics.
(* the verification of a matrix: an answer is always right *)
Theorem C108_verify_right : forall n h, hm_size h = n -> pm_matrix n (hm_matrix h) -> forall b, checked_HM_verify h = Some b -> (b = true <-> orthogonal_rows n (hm_matrix h)).
Proof. exact checked_verify_sound. Qed.
Print Assumptions C108_verify_right.
Theorem C108_verify_same : forall n h, hm_size h = n -> pm_matrix n (hm_matrix h) -> n <= 127 -> checked_HM_verify h = HM_verify h.
Proof. exact checked_verify_small. Qed.
Print Assumptions C108_verify_same.
Theorem C108_verify_accepts : forall n h, hm_size h = n -> pm_matrix n (hm_matrix h) -> n <= 255 -> orthogonal_rows n (hm_matrix h) -> checked_HM_verify h = Some true.
Proof. exact checked_verify_orthogonal. Qed.
Print Assumptions C108_verify_accepts.
(* but there need not be one: matrices of ones from size 128 on, and a Hadamard matrix of size 256 *)
Theorem C108_verify_ones : forall n, 128 <= n -> checked_HM_verify (HM_new n) = None.
Proof. exact checked_ones. Qed.
Print Assumptions C108_verify_ones.
Theorem C108_verify_256_refuted : exists h, hm_size h = 256 /\ hadamard 256 (hm_matrix h) /\ HM_verify h = Some true /\ checked_HM_verify h = None.
Proof. exact checked_256_refuted. Qed.
Print Assumptions C108_verify_256_refuted.
Definition low2 : QuadSeq := (mkQuad 2 [1; -128] [1; 1] [1; 1] [1; 1])%Z.
Example C108_instance : env_ok env0 /\ canonical_numeral (chars "3") 3 /\ canonical_numeral (chars "69") 69 /\ pm_quad 3 w3 /\ is_type QuaternionType w3 /\
  pm_quad 32 w32 /\ verify w32 Williamson = Some true /\ pm_quad 69 w69 /\ verify w69 QuaternionType = Some true /\
  i8_quad 2 low2 /\ ~ negates DoubleReorder low2 (-128)%Z /\ negates EvenAlternatedNegation low2 (-128)%Z /\
  option_map (@length QuadSeq) (impl EvenAlternatedNegation low2) = Some 2 /\
  option_map (@length QuadSeq) (checked_reduce_to_canonical_reps 10 ord_id [] [w3] QuaternionType) = Some 1 /\
  checked_HM_verify (mkHM 2 [[1; 1]; [1; -1]]%Z) = Some true /\ checked_HM_verify (mkHM 2 [[1; 1]; [1; 1]]%Z) = Some false.
Proof.
  destruct C72_instance as (He & N & _ & P & A & _). split; [exact He|]. split; [exact N|]. split; [exact numeral69|]. split; [exact P|]. split; [exact A|].
  split; [exact w32_pm|]. split; [vm_compute; reflexivity|]. split; [exact w69_pm|]. split; [vm_compute; reflexivity|].
  split. { split; [repeat split; reflexivity|]. repeat split; repeat constructor; unfold i8; lia. }
  split; [exact (fun x => x)|]. split. { split; [reflexivity|]. exists TW, 1. split; reflexivity. }
  repeat split; vm_compute; reflexivity.
Qed.
