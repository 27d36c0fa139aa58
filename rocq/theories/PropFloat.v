(* C53: the f32 evaluation of correlations equals exact evaluation. *)
From Coq Require Import List ZArith QArith Qcanon Bool Arith SpecFloat.
From Verif Require Import Base Quat ModelSequence ModelMatrices ModelFloat FloatQuat FloatLimit SpecFloats.
Import ListNotations.
Open Scope nat_scope.

(* The f32 table of the 24 quaternions holds finite numbers, which are exactly the 24 exact quaternions. *)
Theorem C53_alphabet : (forall q, In q FQ24 -> finite_quat q) /\ map quat_value FQ24 = Q24.
Proof. exact (conj FQ24_finite FQ24_values). Qed.
Print Assumptions C53_alphabet.

Theorem C53_periodic_autocorrelation : forall l sym t, Forall in_alphabet l -> (Z.of_nat (length l) < 2 ^ 22)%Z ->
  exists r, F_periodic_autocorrelation l t = Some r /\ finite_quat r /\
    QS_periodic_autocorrelation (mkQS (length l) (map quat_value l) sym) t = Some (quat_value r).
Proof. exact autocorrelation_value. Qed.
Print Assumptions C53_periodic_autocorrelation.

Theorem C53_odd_periodic_autocorrelation : forall l sym t, Forall in_alphabet l -> (Z.of_nat (length l) < 2 ^ 22)%Z ->
  exists r, F_odd_periodic_autocorrelation l t = Some r /\ finite_quat r /\
    QS_odd_periodic_autocorrelation (mkQS (length l) (map quat_value l) sym) t = Some (quat_value r).
Proof. exact odd_autocorrelation_value. Qed.
Print Assumptions C53_odd_periodic_autocorrelation.

Theorem C53_is_perfect : forall l sym, Forall in_alphabet l -> (Z.of_nat (length l) < 2 ^ 22)%Z ->
  F_is_perfect l = QS_is_perfect (mkQS (length l) (map quat_value l) sym) /\
  F_is_odd_perfect l = QS_is_odd_perfect (mkQS (length l) (map quat_value l) sym).
Proof. intros l sym H1 H2. exact (conj (is_perfect_exact l sym H1 H2) (is_odd_perfect_exact l sym H1 H2)). Qed.
Print Assumptions C53_is_perfect.

(* The tolerance of QHM::verify accepts no wrong sum: the f32 test decides as the exact test. *)
Theorem C53_verify : forall n m, Forall (Forall in_alphabet) m -> length m = n -> Forall (fun r => length r = n) m ->
  (Z.of_nat n < 2 ^ 21)%Z -> F_verify n m = QHM_verify (mkQHM n (map (map quat_value) m)).
Proof. exact verify_exact. Qed.
Print Assumptions C53_verify.

(* Some bound is needed: on 2^24 or more ones the f32 sum stays at 2^24. *)
Theorem C53_bound : forall n t, (2 ^ 24 <= Z.of_nat n)%Z -> exists r,
  F_periodic_autocorrelation (repeat FQ1 n) t = Some r /\ finite_quat r /\
  quat_value r = Quat (Q2Qc (inject_Z (2 ^ 24))) 0 0 0.
Proof. exact saturation. Qed.
Print Assumptions C53_bound.

(* The correlation -i - 2k of a sequence with half-integer products, and a perfect and a non-perfect sequence. *)
Example C53_instance :
  let l := [FQ1; FQQ; FQI; fq_mul FQQ FQJ; fq_neg FQK] in
  Forall in_alphabet l /\ (Z.of_nat (length l) < 2 ^ 22)%Z /\
  F_periodic_autocorrelation l 1 =
    Some (FQuat (S754_zero false) (S754_finite true 8388608 (-23)) (S754_zero false) (S754_finite true 8388608 (-22))) /\
  F_is_perfect [FQ1; FQI; FQ1; FQI] = Some false /\ F_is_perfect [FQ1; FQI; FQ1; fq_neg FQI] = Some true /\
  F_verify 2 [[FQ1; FQI]; [FQI; FQ1]] = Some true /\ F_verify 2 [[FQ1; FQQ]; [FQI; FQ1]] = Some false.
Proof.
  cbn zeta. split; [|repeat split; vm_compute; reflexivity].
  apply Forall_forall. intros q Hq. apply FQ24_alphabet. cbn in Hq. intuition subst; cbn; tauto.
Qed.
