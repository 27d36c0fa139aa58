(* Quaternions with exact rational components.
   Models cgmath::Quaternion<f32> (external crate) as used by rust/src/sequences/sequence.rs:2,9-15.
   SIMPLIFICATION: f32 rounding is ignored here; PropFloat.v shows that on the alphabet of the
   program the binary32 evaluation (ModelFloat.v) gives exactly the same results. *)
From Coq Require Import List QArith Qcanon Bool.
Import ListNotations.
Open Scope Qc_scope.

Record quat := Quat { q_s : Qc; q_x : Qc; q_y : Qc; q_z : Qc }.

(* cgmath: Quaternion + Quaternion, -Quaternion, Quaternion * Quaternion (Hamilton product),
   Quaternion * f32, conjugate, == *)
Definition qadd (p q : quat) : quat :=
  Quat (q_s p + q_s q) (q_x p + q_x q) (q_y p + q_y q) (q_z p + q_z q).
Definition qneg (p : quat) : quat := Quat (- q_s p) (- q_x p) (- q_y p) (- q_z p).
Definition qmul (p q : quat) : quat :=
  Quat (q_s p * q_s q - q_x p * q_x q - q_y p * q_y q - q_z p * q_z q)
       (q_s p * q_x q + q_x p * q_s q + q_y p * q_z q - q_z p * q_y q)
       (q_s p * q_y q + q_y p * q_s q + q_z p * q_x q - q_x p * q_z q)
       (q_s p * q_z q + q_z p * q_s q + q_x p * q_y q - q_y p * q_x q).
Definition qscale (c : Qc) (p : quat) : quat :=
  Quat (c * q_s p) (c * q_x p) (c * q_y p) (c * q_z p).
Definition qconj (p : quat) : quat := Quat (q_s p) (- q_x p) (- q_y p) (- q_z p).
Definition quat_eqb (p q : quat) : bool :=
  Qc_eq_bool (q_s p) (q_s q) && Qc_eq_bool (q_x p) (q_x q) &&
  Qc_eq_bool (q_y p) (q_y q) && Qc_eq_bool (q_z p) (q_z q).

Definition half : Qc := Q2Qc (1 # 2).

(* rust/src/sequences/sequence.rs:9-15 *)
Definition Q0 : quat := Quat 0 0 0 0.
Definition Q1 : quat := Quat 1 0 0 0.
Definition QI : quat := Quat 0 1 0 0.
Definition QJ : quat := Quat 0 0 1 0.
Definition QK : quat := Quat 0 0 0 1.
Definition QQ : quat := Quat half half half half.
Definition QS_ : quat := Quat half (- half) (- half) (- half).

(* rust/src/sequences/sequence.rs:17-19 *)
Definition QPLUS : list quat :=
  [ Q1; qneg Q1; QI; qneg QI; QJ; qneg QJ; QK; qneg QK;
    QQ; qscale (-(1)) QQ; qmul QQ QI; qmul QQ (qneg QI); qmul QQ QJ; qmul QQ (qneg QJ);
    qmul QQ QK; qmul QQ (qneg QK) ].

(* rust/src/sequences/sequence.rs:21-25 *)
Definition Q24 : list quat :=
  [ Q1; qneg Q1; QI; qneg QI; QJ; qneg QJ; QK; qneg QK;
    QQ; qscale (-(1)) QQ; qmul QQ QI; qmul QQ (qneg QI); qmul QQ QJ; qmul QQ (qneg QJ);
    qmul QQ QK; qmul QQ (qneg QK);
    QS_; qscale (-(1)) QS_; qmul QS_ QI; qmul QS_ (qneg QI); qmul QS_ QJ; qmul QS_ (qneg QJ);
    qmul QS_ QK; qmul QS_ (qneg QK) ].
