(* Property theorems C35-C40, C59: Hadamard matrices over +-1 and over the quaternions. *)
From Coq Require Import Ascii String List ZArith QArith Qcanon Lia Arith Bool.
From Verif Require Import Base Quat ModelSequence ModelWilliamson Spec ModelMatrices SpecMatrix SpecPrint
  MatFacts HmFacts QhmFacts PrintFacts PropSequences.
Import ListNotations.
Open Scope nat_scope.
Notation length := List.length.

(* C35 *)
Theorem C35_from_williamson_hadamard : forall n q t, pm_quad n q -> 1 <= n -> verify q t = Some true ->
  exists h, HM_from_williamson q QuaternionType = Some h /\ hm_size h = 4 * n /\ hadamard (4 * n) (hm_matrix h) /\
    HM_verify h = Some true /\ HM_get_qts h = Some q.
Proof. exact from_williamson_hadamard. Qed.
Print Assumptions C35_from_williamson_hadamard.
Example C35_instance : pm_quad 3 w3 /\ verify w3 Williamson = Some true /\
  (let* h := HM_from_williamson w3 QuaternionType in vget (hm_matrix h) 5) = Some [1; 1; -1; 1; 1; 1; -1; -1; 1; 1; 1; -1]%Z.
Proof. split; [exact w3_pm|]. split; vm_compute; reflexivity. Qed.

(* C36 *)
Theorem C36_verify_exact_below_256 : forall n h, hm_size h = n -> pm_matrix n (hm_matrix h) -> n <= 255 ->
  exists b, HM_verify h = Some b /\ (b = true <-> orthogonal_rows n (hm_matrix h)).
Proof. exact HM_verify_exact. Qed.
Print Assumptions C36_verify_exact_below_256.
(* what verify decides at every size *)
Theorem C36_verify_modulo_256 : forall n h, hm_size h = n -> pm_matrix n (hm_matrix h) ->
  exists b, HM_verify h = Some b /\
  (b = true <-> forall i j, i < n -> j < n -> i <> j -> (dot (nth i (hm_matrix h) []) (nth j (hm_matrix h) []) mod 256 = 0)%Z).
Proof. exact HM_verify_spec. Qed.
Print Assumptions C36_verify_modulo_256.
Theorem C36_verify_at_256_refuted : exists h, hm_size h = 256 /\ pm_matrix 256 (hm_matrix h) /\
  HM_verify h = Some true /\ ~ orthogonal_rows 256 (hm_matrix h).
Proof. exact verify_256_refuted. Qed.
Print Assumptions C36_verify_at_256_refuted.
Example C36_instance : HM_verify (mkHM 2 [[1; 1]; [1; -1]]%Z) = Some true /\ HM_verify (mkHM 2 [[1; 1]; [1; 1]]%Z) = Some false.
Proof. split; reflexivity. Qed.

(* C37 *)
Theorem C37_from_pqs_verify : forall q, length (qs_values q) = qs_size q -> Forall (fun p => In p Q24) (qs_values q) ->
  exists h b, QHM_from_pqs q = Some h /\ QHM_verify h = Some b /\ QS_is_perfect q = Some b /\
    (b = true <-> qhadamard (qs_size q) (qhm_matrix h)) /\ qhm_size h = qs_size q.
Proof. exact from_pqs_verify. Qed.
Print Assumptions C37_from_pqs_verify.
(* verify decides H H* = n I on every matrix over the 24 units, circulant or not *)
Theorem C37_verify_exact : forall n h, qhm_size h = n -> square n (qhm_matrix h) ->
  Forall (Forall (fun p => In p Q24)) (qhm_matrix h) ->
  exists b, QHM_verify h = Some b /\ (b = true <-> qhadamard n (qhm_matrix h)).
Proof. exact QHM_verify_spec. Qed.
Print Assumptions C37_verify_exact.
Definition pqs3 : QS := mkQS 3 [qneg QQ; Q1; Q1] None.
Definition pqs3_bad : QS := mkQS 3 [Q1; QI; QJ] None.
Example C37_instance : Forall (fun p => In p Q24) (qs_values pqs3) /\
  QS_is_perfect pqs3 = Some true /\ (let* h := QHM_from_pqs pqs3 in QHM_verify h) = Some true /\
  Forall (fun p => In p Q24) (qs_values pqs3_bad) /\
  QS_is_perfect pqs3_bad = Some false /\ (let* h := QHM_from_pqs pqs3_bad in QHM_verify h) = Some false.
Proof.
  split; [|split; [vm_compute; reflexivity|split; [vm_compute; reflexivity|split; [|split; vm_compute; reflexivity]]]];
    apply Forall_forall; intros p Hp; apply in24_iff;
    cbn in Hp; destruct Hp as [<-|[<-|[<-|[]]]]; vm_compute; reflexivity.
Qed.

(* C38 *)
Theorem C38_dephase : forall n h, qhm_size h = n -> square n (qhm_matrix h) ->
  Forall (Forall (fun p => In p Q24)) (qhm_matrix h) ->
  exists d, QHM_dephase h = Some d /\ QHM_dephased h = Some d /\ qhm_size d = n /\ square n (qhm_matrix d) /\
    Forall (Forall (fun p => In p Q24)) (qhm_matrix d) /\ normalised Q1 n (qhm_matrix d) /\
    (qhadamard n (qhm_matrix d) <-> qhadamard n (qhm_matrix h)) /\ (exists s, QHM_to_string d = Some s).
Proof. exact dephase_spec. Qed.
Print Assumptions C38_dephase.
(* it is obtained from the original by multiplying rows on the left and columns on the right *)
Theorem C38_dephase_scales : forall n h, qhm_size h = n -> square n (qhm_matrix h) ->
  Forall (Forall (fun p => In p Q24)) (qhm_matrix h) ->
  exists d u v, QHM_dephase h = Some d /\
    forall i j, i < n -> j < n -> In (u i) Q24 /\ In (v j) Q24 /\
      cell Q1 (qhm_matrix d) i j = qmul (u i) (qmul (cell Q1 (qhm_matrix h) i j) (v j)).
Proof. exact dephase_scales. Qed.
Print Assumptions C38_dephase_scales.
Example C38_instance : exists h d, QHM_from_pqs pqs3_bad = Some h /\ QHM_dephase h = Some d /\
  map (map (fun p => in24 p)) (qhm_matrix d) = [[true; true; true]; [true; true; true]; [true; true; true]] /\
  quat_eqb (cell Q1 (qhm_matrix h) 1 0) QJ = true /\ quat_eqb (cell Q1 (qhm_matrix d) 1 0) Q1 = true.
Proof. eexists _, _. repeat split; vm_compute; reflexivity. Qed.

(* C39 *)
Theorem C39_dephase : forall n h, hm_size h = n -> pm_matrix n (hm_matrix h) ->
  exists d, HM_dephase h = Some d /\ hm_size d = n /\ pm_matrix n (hm_matrix d) /\
    normalised 1%Z n (hm_matrix d) /\
    (orthogonal_rows n (hm_matrix d) <-> orthogonal_rows n (hm_matrix h)).
Proof. exact dephase_good. Qed.
Print Assumptions C39_dephase.
Theorem C39_dephased_exact : forall n h, hm_size h = n -> pm_matrix n (hm_matrix h) ->
  exists d, HM_dephased h = Some d /\ hm_size d = n /\ pm_matrix n (hm_matrix d) /\
    (forall i j, i < n -> j < n -> cell 1%Z (hm_matrix d) i j = (cell 1%Z (hm_matrix h) i 0 * cell 1%Z (hm_matrix h) i j)%Z) /\
    (orthogonal_rows n (hm_matrix d) <-> orthogonal_rows n (hm_matrix h)) /\
    (normalised 1%Z n (hm_matrix d) <-> forall j, j < n -> cell 1%Z (hm_matrix h) 0 j = cell 1%Z (hm_matrix h) 0 0).
Proof. exact dephased_exact. Qed.
Print Assumptions C39_dephased_exact.
Theorem C39_dephased_refuted : exists h d, hadamard 2 (hm_matrix h) /\ hm_size h = 2 /\
  HM_dephased h = Some d /\ ~ normalised 1%Z 2 (hm_matrix d).
Proof. exact dephased_refuted. Qed.
Print Assumptions C39_dephased_refuted.
Example C39_instance : let h := mkHM 2 [[1; -1]; [1; 1]]%Z in
  (let* d := HM_dephase h in Some (hm_matrix d)) = Some [[1; 1]; [1; -1]]%Z /\
  (let* d := HM_dephased h in Some (hm_matrix d)) = Some [[1; -1]; [1; 1]]%Z.
Proof. split; reflexivity. Qed.

(* C40 *)
Theorem C40_non_commuting : forall n h, qhm_size h = n -> square n (qhm_matrix h) -> normalised Q1 n (qhm_matrix h) ->
  exists b, contains_non_commuting_elements h = Some b /\
  (b = true <-> exists i j k l, i < n /\ j < n /\ k < n /\ l < n /\
     qmul (cell Q1 (qhm_matrix h) i j) (cell Q1 (qhm_matrix h) k l) <> qmul (cell Q1 (qhm_matrix h) k l) (cell Q1 (qhm_matrix h) i j)).
Proof. exact contains_non_commuting_normalised. Qed.
Print Assumptions C40_non_commuting.
(* on an arbitrary matrix the first row and column are ignored *)
Theorem C40_non_commuting_core : forall n h, qhm_size h = n -> square n (qhm_matrix h) ->
  exists b, contains_non_commuting_elements h = Some b /\
  (b = true <-> exists i j k l, 1 <= i < n /\ 1 <= j < n /\ 1 <= k < n /\ 1 <= l < n /\
     qmul (cell Q1 (qhm_matrix h) i j) (cell Q1 (qhm_matrix h) k l) <> qmul (cell Q1 (qhm_matrix h) k l) (cell Q1 (qhm_matrix h) i j)).
Proof. exact contains_non_commuting_spec. Qed.
Print Assumptions C40_non_commuting_core.
Example C40_instance :
  contains_non_commuting_elements (mkQHM 3 [[Q1; Q1; Q1]; [Q1; QI; QI]; [Q1; QI; QI]]) = Some false /\
  contains_non_commuting_elements (mkQHM 3 [[Q1; Q1; Q1]; [Q1; QI; QI]; [Q1; QI; QJ]]) = Some true.
Proof. split; vm_compute; reflexivity. Qed.

(* C59 *)
Theorem C59_to_string_text : forall n m, square n m -> HM_to_string (mkHM n m) = Some (concat (map (bar_line sign_char) m)).
Proof. exact HM_to_string_spec. Qed.
Print Assumptions C59_to_string_text.
Theorem C59_to_string_injective : forall n m1 m2, pm_matrix n m1 -> pm_matrix n m2 ->
  HM_to_string (mkHM n m1) = HM_to_string (mkHM n m2) -> m1 = m2.
Proof. exact HM_to_string_inj. Qed.
Print Assumptions C59_to_string_injective.
Theorem C59_magma_text : forall n m, square n m -> 1 <= n -> HM_to_string_magma (mkHM n m) = Some (magma_text m).
Proof. exact HM_to_string_magma_spec. Qed.
Print Assumptions C59_magma_text.
Theorem C59_magma_injective : forall n m1 m2, pm_matrix n m1 -> pm_matrix n m2 -> 1 <= n ->
  HM_to_string_magma (mkHM n m1) = HM_to_string_magma (mkHM n m2) -> m1 = m2.
Proof. exact HM_magma_inj. Qed.
Print Assumptions C59_magma_injective.
Theorem C59_magma_empty_panics : forall m, HM_to_string_magma (mkHM 0 m) = None.
Proof. exact HM_to_string_magma_empty. Qed.
Print Assumptions C59_magma_empty_panics.
Theorem C59_qhm_to_string_injective : forall n m1 m2, square n m1 -> square n m2 ->
  Forall (Forall (fun p => In p Q24)) m1 -> Forall (Forall (fun p => In p Q24)) m2 ->
  QHM_to_string (mkQHM n m1) = QHM_to_string (mkQHM n m2) -> m1 = m2.
Proof. exact QHM_to_string_inj. Qed.
Print Assumptions C59_qhm_to_string_injective.
Example C59_instance : HM_to_string_magma (mkHM 2 [[1; -1]; [1; 1]]%Z) = Some (text "M := Matrix([[1,-1],[1,1]]);") /\
  HM_to_string (mkHM 2 [[1; -1]; [1; 1]]%Z) = Some (text "| + - |" ++ [newline] ++ text "| + + |" ++ [newline]).
Proof. split; reflexivity. Qed.
