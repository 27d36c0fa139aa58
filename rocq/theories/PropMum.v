(* C42, C48, C49, C60-C62: products of sequences, operators and measurements. Each theorem is the claim; the proofs are in ProductFacts, LeftFacts, MumFacts and MumThms. *)
From Coq Require Import List ZArith QArith Qcanon Bool Arith.
From Verif Require Import Base Sums Quat ModelSequence Spec ModelMatrices SpecMatrix ModelMum SpecMum
  ProductFacts LeftFacts MumFacts MumThms PropMatrix.
Import ListNotations.
Open Scope nat_scope.

(* C42 *)
Theorem C42_product_perfect : forall a b, length (qs_values a) = qs_size a -> length (qs_values b) = qs_size b ->
  1 <= qs_size a -> 1 <= qs_size b -> Nat.gcd (qs_size a) (qs_size b) = 1 ->
  QS_is_perfect a = Some true -> QS_is_perfect b = Some true ->
  exists r, sequence_product a b = Some r /\ qs_size r = qs_size a * qs_size b /\
    length (qs_values r) = qs_size r /\ perfect (qs_values r) /\ QS_is_perfect r = Some true.
Proof. exact product_perfect. Qed.
Print Assumptions C42_product_perfect.
(* without coprimality the product of unit sequences is never perfect *)
Theorem C42_product_not_coprime : forall a b, length (qs_values a) = qs_size a -> length (qs_values b) = qs_size b ->
  1 <= qs_size a -> 1 <= qs_size b -> Nat.gcd (qs_size a) (qs_size b) <> 1 ->
  Forall (fun p => qnorm2 p = 1%Qc) (qs_values a) -> Forall (fun p => qnorm2 p = 1%Qc) (qs_values b) ->
  exists r, sequence_product a b = Some r /\ QS_is_perfect r = Some false.
Proof. exact product_not_perfect. Qed.
Print Assumptions C42_product_not_coprime.
Example C42_instance : QS_is_perfect pqs3 = Some true /\ QS_is_perfect pqs5 = Some true /\ Nat.gcd (qs_size pqs3) (qs_size pqs5) = 1 /\
  (let* r := sequence_product pqs3 pqs5 in Some (qs_size r)) = Some 15 /\ (let* r := sequence_product pqs3 pqs5 in QS_is_perfect r) = Some true.
Proof. repeat split; vm_compute; reflexivity. Qed.

(* C48 *)
Theorem C48_products : forall p q, exists a b c, quaternion_to_operator p = Some a /\ quaternion_to_operator q = Some b /\
  quaternion_to_operator (qmul p q) = Some c /\ is_product 2 a b c.
Proof. exact q2o_hom. Qed.
Print Assumptions C48_products.
Theorem C48_sums : forall p q, exists a b c, quaternion_to_operator p = Some a /\ quaternion_to_operator q = Some b /\
  quaternion_to_operator (qadd p q) = Some c /\ op_add a b = Some c /\ is_sum 2 a b c.
Proof. exact q2o_add. Qed.
Print Assumptions C48_sums.
Theorem C48_conjugates : forall p, exists a b, quaternion_to_operator p = Some a /\ quaternion_to_operator (qconj p) = Some b /\
  conjugate_transpose a = Some b /\ is_adjoint 2 a b.
Proof. exact q2o_conj. Qed.
Print Assumptions C48_conjugates.
Theorem C48_injective : forall p q, quaternion_to_operator p = quaternion_to_operator q -> p = q.
Proof. exact q2o_inj. Qed.
Print Assumptions C48_injective.
Theorem C48_conjugate_transpose : forall n a, op_wf n a ->
  exists b, conjugate_transpose a = Some b /\ is_adjoint n a b /\ conjugate_transpose b = Some a.
Proof. exact conjugate_transpose_involutive. Qed.
Print Assumptions C48_conjugate_transpose.
(* the (j,k) block of the operator matrix is the operator of the conjugate of entry (j,k) *)
Theorem C48_blocks : forall n h, qhm_size h = n -> square n (qhm_matrix h) ->
  exists u, HMUO_from_qhm h = Some u /\ hmuo_matrix_size u = 2 * n /\ op_wf (2 * n) (hmuo_operator u) /\
  forall j k, j < n -> k < n -> exists o, quaternion_to_operator (qconj (cell Q1 (qhm_matrix h) j k)) = Some o /\
    forall a b, a < 2 -> b < 2 -> at2 (hmuo_operator u) (2 * j + a) (2 * k + b) = at2 o a b.
Proof. exact HMUO_blocks. Qed.
Print Assumptions C48_blocks.
Theorem C48_hadamard_of_unitaries : forall n h, qhm_size h = n -> qhadamard n (qhm_matrix h) -> Forall (Forall (fun p => In p Q24)) (qhm_matrix h) ->
  exists u, HMUO_from_qhm h = Some u /\
  (* every 2 x 2 block is unitary *)
  (forall j k a b, j < n -> k < n -> a < 2 -> b < 2 ->
     csum 2 (fun c => cmul (cconj (at2 (hmuo_operator u) (2 * j + c) (2 * k + a))) (at2 (hmuo_operator u) (2 * j + c) (2 * k + b))) =
     cdelta (a =? b) C1) /\
  (* U_j1* U_l1 + ... + U_jn* U_ln is n times the identity when j = l and 0 otherwise *)
  (forall j l a b, j < n -> l < n -> a < 2 -> b < 2 ->
     csum n (fun k => csum 2 (fun c => cmul (cconj (at2 (hmuo_operator u) (2 * j + c) (2 * k + a))) (at2 (hmuo_operator u) (2 * l + c) (2 * k + b)))) =
     cdelta ((j =? l) && (a =? b)) (creal n)).
Proof. exact HMUO_hadamard. Qed.
Print Assumptions C48_hadamard_of_unitaries.
Example C48_instance : (let* u := HMUO_from_qhm (mkQHM 2 [[Q1; Q1]; [QI; qneg QI]]) in Some (hmuo_matrix_size u)) = Some 4 /\
  QHM_verify (mkQHM 2 [[Q1; Q1]; [QI; qneg QI]]) = Some true.
Proof. split; vm_compute; reflexivity. Qed.

(* C49 *)
Theorem C49_tensor : forall a b, op_wf (hmuo_matrix_size a) (hmuo_operator a) -> op_wf (hmuo_matrix_size b) (hmuo_operator b) ->
  exists u, HMUO_tensor a b = Some u /\ op_wf (hmuo_matrix_size a * hmuo_matrix_size b) (hmuo_operator u) /\
    (forall i j, i < hmuo_matrix_size a * hmuo_matrix_size b -> j < hmuo_matrix_size a * hmuo_matrix_size b ->
      let n := hmuo_matrix_size b in
      at2 (hmuo_operator u) i j = cmul (at2 (hmuo_operator a) (i / n) (j / n)) (at2 (hmuo_operator b) (i mod n) (j mod n))) /\
    (hmuo_matrix_size u = op_size (hmuo_operator u) <->
       hmuo_matrix_size a + hmuo_matrix_size b = hmuo_matrix_size a * hmuo_matrix_size b).
Proof. exact HMUO_tensor_size. Qed.
Print Assumptions C49_tensor.
(* sizes are even, so the reported size is right for 2 x 2 operators only *)
Theorem C49_tensor_right_sizes : forall x y, 1 <= x -> 1 <= y -> 2 * x + 2 * y = (2 * x) * (2 * y) <-> x = 1 /\ y = 1.
Proof. exact HMUO_tensor_even. Qed.
Print Assumptions C49_tensor_right_sizes.
Theorem C49_tensor_refuted : exists h a u, HMUO_from_qhm h = Some a /\ QHM_verify h = Some true /\ HMUO_tensor a a = Some u /\
  hmuo_matrix_size u <> op_size (hmuo_operator u).
Proof. exact HMUO_tensor_refuted. Qed.
Print Assumptions C49_tensor_refuted.

(* C60 *)
Theorem C60_conjugate_perfect : forall v, Forall (fun p => In p Q24) v -> (perfect v <-> perfect (map qconj v)).
Proof. exact perfect_conj_iff. Qed.
Print Assumptions C60_conjugate_perfect.
Theorem C60_is_perfect : forall q, length (qs_values q) = qs_size q -> Forall (fun p => In p Q24) (qs_values q) ->
  QS_is_perfect (mkQS (qs_size q) (map qconj (qs_values q)) (qs_symmetry q)) = QS_is_perfect q.
Proof. exact is_perfect_conj. Qed.
Print Assumptions C60_is_perfect.
Example C60_instance : QS_is_perfect pqs5 = Some true /\ map qconj (qs_values pqs5) <> qs_values pqs5 /\
  QS_is_perfect (mkQS 5 (map qconj (qs_values pqs5)) None) = Some true.
Proof. split; [vm_compute; reflexivity|]. split; [|vm_compute; reflexivity]. intros E. apply (f_equal (fun l => quat_eqb (nth 2 l Q1) QI)) in E. vm_compute in E. discriminate. Qed.

(* C61 *)
Theorem C61_projectors : forall n h, qhm_size h = n -> square n (qhm_matrix h) -> Forall (Forall (fun p => In p Q24)) (qhm_matrix h) ->
  exists m, MUM_from_qhm h = Some m /\ mum_matrix_size m = n * 2 /\ length (mum_sequence m) = n /\
  forall b, b < n -> let Q := nth b (mum_sequence m) OP0 in op_wf (n * 2) Q /\
    conjugate_transpose Q = Some Q /\
    (forall i j, i < n * 2 -> j < n * 2 -> csum (n * 2) (fun k => cmul (at2 Q i k) (at2 Q k j)) = cmul (creal n) (at2 Q i j)).
Proof. exact mum_idempotent. Qed.
Print Assumptions C61_projectors.
Theorem C61_measurement : forall q, length (qs_values q) = qs_size q -> 1 <= qs_size q -> Forall (fun p => In p Q24) (qs_values q) -> QS_is_perfect q = Some true ->
  exists h m, QHM_from_pqs q = Some h /\ MUM_from_qhm h = Some m /\ mum_matrix_size m = qs_size q * 2 /\ length (mum_sequence m) = qs_size q /\
    projective (qs_size q * 2) (creal (qs_size q)) (mum_sequence m).
Proof. exact mum_of_perfect. Qed.
Print Assumptions C61_measurement.
(* for the dephased matrix, although it is a quaternion Hadamard matrix, it fails *)
Theorem C61_dephased_refuted : exists q h d m, QS_is_perfect q = Some true /\ length (qs_values q) = qs_size q /\
  Forall (fun p => In p Q24) (qs_values q) /\
  QHM_from_pqs q = Some h /\ QHM_verify h = Some true /\ QHM_dephased h = Some d /\ QHM_verify d = Some true /\ MUM_from_qhm d = Some m /\
  ~ projective (qs_size q * 2) (creal (qs_size q)) (mum_sequence m).
Proof. exact dephased_mum_refuted. Qed.
Print Assumptions C61_dephased_refuted.
Example C61_instance : QS_is_perfect pqs3 = Some true /\ Forall (fun p => In p Q24) (qs_values pqs3) /\
  (let* h := QHM_from_pqs pqs3 in let* m := MUM_from_qhm h in Some (mum_matrix_size m, mum_length m)) = Some (6, 3).
Proof. split; [vm_compute; reflexivity|]. split; [repeat constructor; cbn; tauto|vm_compute; reflexivity]. Qed.

(* C62 *)
Theorem C62_product_measurement : forall m1 m2 d1 d2 c1 c2, projective d1 c1 (mum_sequence m1) -> projective d2 c2 (mum_sequence m2) ->
  mum_matrix_size m1 = d1 -> mum_matrix_size m2 = d2 -> Nat.gcd (mum_length m1) (mum_length m2) = 1 ->
  exists m, mum_product m1 m2 = Some m /\ mum_matrix_size m = d1 * d2 /\ mum_length m = mum_length m1 * mum_length m2 /\
    projective (d1 * d2) (cmul c1 c2) (mum_sequence m).
Proof. exact mum_product_projective. Qed.
Print Assumptions C62_product_measurement.
(* perfect sequences of coprime lengths give such measurements *)
Theorem C62_of_perfect : forall p q, length (qs_values p) = qs_size p -> length (qs_values q) = qs_size q ->
  1 <= qs_size p -> 1 <= qs_size q -> Nat.gcd (qs_size p) (qs_size q) = 1 ->
  Forall (fun x => In x Q24) (qs_values p) -> Forall (fun x => In x Q24) (qs_values q) ->
  QS_is_perfect p = Some true -> QS_is_perfect q = Some true ->
  exists hp hq mp mq m, QHM_from_pqs p = Some hp /\ QHM_from_pqs q = Some hq /\ MUM_from_qhm hp = Some mp /\ MUM_from_qhm hq = Some mq /\
    mum_product mp mq = Some m /\ mum_length m = qs_size p * qs_size q /\
    projective (qs_size p * 2 * (qs_size q * 2)) (creal (qs_size p * qs_size q)) (mum_sequence m).
Proof. exact mum_product_of_perfect. Qed.
Print Assumptions C62_of_perfect.
Example C62_instance : (let* h := QHM_from_pqs pqs3 in let* m := MUM_from_qhm h in let* h' := QHM_from_pqs (mkQS 2 [Q1; QI] None) in let* m' := MUM_from_qhm h' in
  let* r := mum_product m m' in Some (mum_matrix_size r, mum_length r)) = Some (24, 6) /\ QS_is_perfect (mkQS 2 [Q1; QI] None) = Some true.
Proof. split; vm_compute; reflexivity. Qed.
