(* Property theorems C01-C08, C52, C70: sequences, quadruples, conversions.
   Each theorem is followed by a concrete, non-trivial instance of its hypotheses. *)
From Coq Require Import List ZArith Lia Arith Bool QArith Qcanon Ascii String.
From Verif Require Import Base BaseFacts Sums Quat ModelSequence ModelWilliamson Spec SeqFacts
  QuatFacts Convert QSymm Transpose QtWt.
Import ListNotations.
Open Scope nat_scope.

(* A Williamson quadruple of length 3 and a quadruple that is not complementary. *)
Definition w3 : QuadSeq := mkQuad 3 [-1;-1;-1]%Z [-1;1;1]%Z [-1;1;1]%Z [-1;1;1]%Z.
Definition bad3 : QuadSeq := mkQuad 3 [-1;-1;-1]%Z [-1;1;1]%Z [1;1;1]%Z [-1;1;1]%Z.
Definition text (s : String.string) : list ascii := list_ascii_of_string s.

Ltac pm_tac := unfold pm_quad, wf, pm1; repeat split; repeat (apply Forall_cons || apply Forall_nil);
  (left; reflexivity) || (right; reflexivity).
Lemma w3_pm : pm_quad 3 w3.
Proof. pm_tac. Qed.
Lemma bad3_pm : pm_quad 3 bad3.
Proof. pm_tac. Qed.

(* C01 *)
Theorem C01_is_perfect_decides : forall q : QS, List.length (qs_values q) = qs_size q ->
  exists b, QS_is_perfect q = Some b /\ (b = true <-> perfect (qs_values q)).
Proof. exact is_perfect_spec. Qed.
Print Assumptions C01_is_perfect_decides.

Example C01_instance : exists q, QS_from_str (text "+jZkq") = Some q /\
  List.length (qs_values q) = qs_size q /\ QS_is_perfect q = Some false.
Proof. eexists; split; [vm_compute; reflexivity|]. split; vm_compute; reflexivity. Qed.
Example C01_instance_true : exists q, to_qs w3 = Some q /\
  List.length (qs_values q) = qs_size q /\ QS_is_perfect q = Some true.
Proof. eexists; split; [vm_compute; reflexivity|]. split; vm_compute; reflexivity. Qed.

(* C02 *)
Theorem C02_is_odd_perfect_decides : forall q : QS, List.length (qs_values q) = qs_size q ->
  exists b, QS_is_odd_perfect q = Some b /\ (b = true <-> odd_perfect (qs_values q)).
Proof. exact is_odd_perfect_spec. Qed.
Print Assumptions C02_is_odd_perfect_decides.

Example C02_instance : exists q, QS_from_str (text "+i") = Some q /\
  List.length (qs_values q) = qs_size q /\ QS_is_odd_perfect q = Some false.
Proof. eexists; split; [vm_compute; reflexivity|]. split; vm_compute; reflexivity. Qed.
Example C02_instance_true : exists q, QS_from_str (text "++") = Some q /\
  List.length (qs_values q) = qs_size q /\ QS_is_odd_perfect q = Some true.
Proof. eexists; split; [vm_compute; reflexivity|]. split; vm_compute; reflexivity. Qed.

(* C03 *)
Theorem C03_quadruple_round_trip : forall n q, pm_quad n q ->
  exists s, to_qs q = Some s /\ from_pqs s = Some q.
Proof. exact from_pqs_to_qs. Qed.
Print Assumptions C03_quadruple_round_trip.
Theorem C03_quaternion_round_trip : forall s : QS, List.length (qs_values s) = qs_size s ->
  (forall p, In p (qs_values s) -> In p QPLUS) ->
  exists q, from_pqs s = Some q /\ pm_quad (qs_size s) q /\
    to_qs q = Some (mkQS (qs_size s) (qs_values s) None).
Proof. exact to_qs_from_pqs. Qed.
Print Assumptions C03_quaternion_round_trip.
Theorem C03_from_pqs_panics_iff : forall s : QS,
  from_pqs s = None <-> exists p, In p (qs_values s) /\ ~ In p QPLUS.
Proof. exact from_pqs_none. Qed.
Print Assumptions C03_from_pqs_panics_iff.

Example C03_instance : exists s, QS_from_str (text "+-iIjJkKqQxXyYzZ") = Some s /\
  forallb (fun p => existsb (quat_eqb p) QPLUS) (qs_values s) = true /\ from_pqs s <> None.
Proof. eexists; split; [vm_compute; reflexivity|]. split; vm_compute; [reflexivity|discriminate]. Qed.
Example C03_panic_instance : exists s, QS_from_str (text "++s") = Some s /\ from_pqs s = None.
Proof. eexists; split; vm_compute; reflexivity. Qed.

(* C04 *)
Theorem C04_values_round_trip : forall s : QS, (forall p, In p (qs_values s) -> In p Q24) ->
  exists txt, QS_to_string_raw s = Some txt /\
    QS_from_str txt = Some (mkQS (List.length (qs_values s)) (qs_values s) None).
Proof. exact from_str_to_string. Qed.
Print Assumptions C04_values_round_trip.
Theorem C04_text_round_trip : forall txt s, QS_from_str txt = Some s ->
  QS_to_string_raw s = Some txt /\ qs_size s = List.length txt /\
  List.length (qs_values s) = List.length txt /\ (forall p, In p (qs_values s) -> In p Q24).
Proof. exact to_string_from_str. Qed.
Print Assumptions C04_text_round_trip.
Theorem C04_from_str_panics_iff : forall txt,
  QS_from_str txt = None <-> exists c, In c txt /\ ~ In c Q24_STRING.
Proof. exact from_str_none. Qed.
Print Assumptions C04_from_str_panics_iff.

Example C04_instance : exists s, QS_from_str (text "+iSwZ") = Some s.
Proof. eexists; vm_compute; reflexivity. Qed.
Example C04_panic_instance : QS_from_str (text "+a") = None.
Proof. vm_compute; reflexivity. Qed.

(* C05 *)
Theorem C05_QT_iff_perfect : forall n q, pm_quad n q -> 1 <= n ->
  exists s b, to_qs q = Some s /\ verify q QuaternionType = Some b /\ QS_is_perfect s = Some b.
Proof. exact QT_verify_perfect. Qed.
Print Assumptions C05_QT_iff_perfect.
Theorem C05_QT_iff_perfect_spec : forall n q, pm_quad n q -> 1 <= n ->
  exists s, to_qs q = Some s /\ List.length (qs_values s) = qs_size s /\
    (is_QT q <-> perfect (qs_values s)).
Proof. exact QT_perfect. Qed.
Print Assumptions C05_QT_iff_perfect_spec.

Example C05_instance : pm_quad 3 w3 /\ verify w3 QuaternionType = Some true /\
  pm_quad 3 bad3 /\ verify bad3 QuaternionType = Some false.
Proof. split; [exact w3_pm|]. split; [reflexivity|]. split; [exact bad3_pm|reflexivity]. Qed.

(* C06 *)
Theorem C06_QT_iff_WT : forall n q, pm_quad n q -> 1 <= n ->
  exists b, verify q QuaternionType = Some b /\ verify q WilliamsonType = Some b.
Proof. exact QT_WT_verify. Qed.
Print Assumptions C06_QT_iff_WT.
Theorem C06_QT_iff_WT_spec : forall n q, pm_quad n q -> 1 <= n -> (is_QT q <-> is_WT q).
Proof. exact QT_iff_WT. Qed.
Print Assumptions C06_QT_iff_WT_spec.

(* a quadruple of both types that is not a Williamson quadruple *)
Example C06_instance :
  let q := mkQuad 3 [-1;-1;-1]%Z [1;-1;1]%Z [1;-1;1]%Z [1;-1;1]%Z in
  pm_quad 3 q /\ verify q QuaternionType = Some true /\ verify q Williamson = Some false.
Proof. split; [pm_tac|]. split; reflexivity. Qed.

(* C07 *)
Theorem C07_W_implies_WT : forall n q, pm_quad n q -> 1 <= n ->
  verify q Williamson = Some true -> verify q WilliamsonType = Some true.
Proof. exact W_WT_verify. Qed.
Print Assumptions C07_W_implies_WT.
Theorem C07_WT_implies_QT : forall n q, pm_quad n q -> 1 <= n ->
  verify q WilliamsonType = Some true -> verify q QuaternionType = Some true.
Proof. exact WT_QT_verify. Qed.
Print Assumptions C07_WT_implies_QT.
Theorem C07_other_types_rejected : forall q t,
  t <> Williamson -> t <> WilliamsonType -> t <> QuaternionType -> verify q t = Some false.
Proof. exact other_types_rejected. Qed.
Print Assumptions C07_other_types_rejected.

Example C07_instance : pm_quad 3 w3 /\ verify w3 Williamson = Some true.
Proof. split; [exact w3_pm|reflexivity]. Qed.

(* C08 *)
Theorem C08_verify_decides : forall n q t, pm_quad n q -> 1 <= n ->
  exists b, verify q t = Some b /\ (b = true <-> is_type t q).
Proof. exact verify_spec. Qed.
Print Assumptions C08_verify_decides.

Example C08_instance : pm_quad 3 bad3 /\ verify bad3 Williamson = Some false /\
  verify w3 Williamson = Some true.
Proof. split; [exact bad3_pm|split; reflexivity]. Qed.

(* C52 *)
Theorem C52_transpose_negates_index : forall (A : Type) (v : list A), 1 <= List.length v ->
  exists st r, transpose_init v = Some st /\ runs transpose_step st (Some r) /\
    List.length r = List.length v /\
    forall (i : Z) d, nth (pos (List.length v) (- i)) r d = nth (pos (List.length v) i) v d.
Proof. exact (@transpose_spec). Qed.
Print Assumptions C52_transpose_negates_index.
Theorem C52_transpose_involutive : forall (A : Type) (v : list A) st r,
  transpose_init v = Some st -> runs transpose_step st (Some r) ->
  exists st', transpose_init r = Some st' /\ runs transpose_step st' (Some v).
Proof. exact (@transpose_involutive). Qed.
Print Assumptions C52_transpose_involutive.

Example C52_instance : exists st, transpose_init [0;1;2;3;4;5] = Some st /\
  runs transpose_step st (Some [0;5;4;3;2;1]).
Proof. eexists; split; [reflexivity|]. exists 5. reflexivity. Qed.

(* C70 *)
Theorem C70_is_symmetric_decides : forall q : QS, List.length (qs_values q) = qs_size q ->
  exists b, QS_is_symmetric q = Some b /\ (b = true <-> qsymmetric (qs_values q)).
Proof. exact QS_is_symmetric_spec. Qed.
Print Assumptions C70_is_symmetric_decides.
Theorem C70_quadruple_is_symmetric_decides : forall n q, wf n q -> 1 <= n ->
  exists b, is_symmetric q = Some b /\
    (b = true <-> symmetric (q_a q) /\ symmetric (q_b q) /\ symmetric (q_c q) /\ symmetric (q_d q)).
Proof. exact is_symmetric_spec. Qed.
Print Assumptions C70_quadruple_is_symmetric_decides.
Theorem C70_tests_agree : forall n q, pm_quad n q -> 1 <= n ->
  exists s b, to_qs q = Some s /\ is_symmetric q = Some b /\ QS_is_symmetric s = Some b.
Proof. exact symmetric_tests_agree. Qed.
Print Assumptions C70_tests_agree.

Example C70_instance : exists q, QS_from_str (text "+ijji") = Some q /\
  List.length (qs_values q) = qs_size q /\ QS_is_symmetric q = Some true.
Proof. eexists; split; [vm_compute; reflexivity|]. split; vm_compute; reflexivity. Qed.
Example C70_instance_false : exists q, QS_from_str (text "+ijjk") = Some q /\
  List.length (qs_values q) = qs_size q /\ QS_is_symmetric q = Some false.
Proof. eexists; split; [vm_compute; reflexivity|]. split; vm_compute; reflexivity. Qed.
Example C70_agree_instance : pm_quad 3 w3 /\ is_symmetric w3 = Some true /\
  is_symmetric (mkQuad 3 [-1;-1;-1]%Z [1;-1;1]%Z [1;-1;1]%Z [1;-1;1]%Z) = Some false.
Proof. split; [exact w3_pm|]. split; reflexivity. Qed.
