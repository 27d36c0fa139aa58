(* The quaternion arithmetic of the code in IEEE binary32 (f32), with the standard library's executable
   specification of floating point arithmetic (SpecFloat: round to nearest, ties to even). *)
From Coq Require Import List ZArith QArith Qcanon Bool Arith SpecFloat.
From Verif Require Import Base Quat ModelMatrices.
Import ListNotations.
Open Scope nat_scope.

Definition f32 : Type := spec_float.
(* f32 has a significand of 24 bits and the exponent of the infinities is 128 *)
Definition f_add : f32 -> f32 -> f32 := SFadd 24 128.
Definition f_sub : f32 -> f32 -> f32 := SFsub 24 128.
Definition f_mul : f32 -> f32 -> f32 := SFmul 24 128.
Definition f_neg : f32 -> f32 := SFopp.
Definition f_abs : f32 -> f32 := SFabs.
Definition f_eqb : f32 -> f32 -> bool := SFeqb.
Definition f_ltb : f32 -> f32 -> bool := SFltb.
Definition f_sqrt : f32 -> f32 := SFsqrt 24 128.
(* integer "as f32" *)
Definition f_of_Z (z : Z) : f32 := binary_normalize 24 128 z 0 false.

(* cgmath::Quaternion<f32> (external crate) *)
Record fquat := FQuat { f_s : f32; f_x : f32; f_y : f32; f_z : f32 }.
Definition fq_add (p q : fquat) : fquat :=
  FQuat (f_add (f_s p) (f_s q)) (f_add (f_x p) (f_x q)) (f_add (f_y p) (f_y q)) (f_add (f_z p) (f_z q)).
Definition fq_neg (p : fquat) : fquat := FQuat (f_neg (f_s p)) (f_neg (f_x p)) (f_neg (f_y p)) (f_neg (f_z p)).
Definition fq_conj (p : fquat) : fquat := FQuat (f_s p) (f_neg (f_x p)) (f_neg (f_y p)) (f_neg (f_z p)).
Definition fq_scale (c : f32) (p : fquat) : fquat := FQuat (f_mul (f_s p) c) (f_mul (f_x p) c) (f_mul (f_y p) c) (f_mul (f_z p) c).
Definition fq_mul (p q : fquat) : fquat :=
  let '(FQuat a b c d) := p in let '(FQuat s x y z) := q in
  FQuat (f_sub (f_sub (f_sub (f_mul a s) (f_mul b x)) (f_mul c y)) (f_mul d z))
        (f_sub (f_add (f_add (f_mul a x) (f_mul b s)) (f_mul c z)) (f_mul d y))
        (f_sub (f_add (f_add (f_mul a y) (f_mul c s)) (f_mul d x)) (f_mul b z))
        (f_sub (f_add (f_add (f_mul a z) (f_mul d s)) (f_mul b y)) (f_mul c x)).
Definition fq_eqb (p q : fquat) : bool :=
  f_eqb (f_s p) (f_s q) && f_eqb (f_x p) (f_x q) && f_eqb (f_y p) (f_y q) && f_eqb (f_z p) (f_z q).

(* the literals 0., 1. and 0.5 *)
Definition f_zero : f32 := S754_zero false.
Definition f_one : f32 := f_of_Z 1.
Definition f_half : f32 := binary_normalize 24 128 1 (-1) false.

(* sequence.rs:9-15 *)
Definition FQ0 : fquat := FQuat f_zero f_zero f_zero f_zero.
Definition FQ1 : fquat := FQuat f_one f_zero f_zero f_zero.
Definition FQI : fquat := FQuat f_zero f_one f_zero f_zero.
Definition FQJ : fquat := FQuat f_zero f_zero f_one f_zero.
Definition FQK : fquat := FQuat f_zero f_zero f_zero f_one.
Definition FQQ : fquat := FQuat f_half f_half f_half f_half.
Definition FQS : fquat := FQuat f_half (f_neg f_half) (f_neg f_half) (f_neg f_half).

(* sequence.rs:21-25 *)
Definition FQ24 : list fquat :=
  [ FQ1; fq_neg FQ1; FQI; fq_neg FQI; FQJ; fq_neg FQJ; FQK; fq_neg FQK;
    FQQ; fq_scale (f_neg f_one) FQQ; fq_mul FQQ FQI; fq_mul FQQ (fq_neg FQI); fq_mul FQQ FQJ; fq_mul FQQ (fq_neg FQJ);
    fq_mul FQQ FQK; fq_mul FQQ (fq_neg FQK);
    FQS; fq_scale (f_neg f_one) FQS; fq_mul FQS FQI; fq_mul FQS (fq_neg FQI); fq_mul FQS FQJ; fq_mul FQS (fq_neg FQJ);
    fq_mul FQS FQK; fq_mul FQS (fq_neg FQK) ].

(* QS::periodic_autocorrelation, sequence.rs:110-117 (size = number of values) *)
Definition F_periodic_autocorrelation (values : list fquat) (t : nat) : option fquat :=
  fold_m (fun acc i =>
            let* x := vget values i in
            let* y := vget values ((i + t) mod length values) in
            Some (fq_add acc (fq_mul x (fq_conj y))))
         (range 0 (length values)) FQ0.

(* (-1).pow(k) as f32, sequence.rs:124 *)
Definition f_power (k : nat) : f32 := f_of_Z (if Nat.even k then 1 else -1).
(* QS::odd_periodic_autocorrelation, sequence.rs:119-128 *)
Definition F_odd_periodic_autocorrelation (values : list fquat) (t : nat) : option fquat :=
  fold_m (fun acc i =>
            let* x := vget values i in
            let* y := vget values ((i + t) mod length values) in
            Some (fq_add acc (fq_scale (f_power ((i + t) / length values)) (fq_mul x (fq_conj y)))))
         (range 0 (length values)) FQ0.

(* QS::is_perfect and is_odd_perfect, sequence.rs:131-151 *)
Definition F_is_perfect (values : list fquat) : option bool :=
  if length values =? 1 then Some true
  else all_m (fun t => let* r := F_periodic_autocorrelation values t in Some (fq_eqb r FQ0))
             (range_incl 1 ((length values + 1) / 2)).
Definition F_is_odd_perfect (values : list fquat) : option bool :=
  if length values =? 1 then Some true
  else all_m (fun t => let* r := F_odd_periodic_autocorrelation values t in Some (fq_eqb r FQ0))
             (range_incl 1 ((length values + 1) / 2)).

(* f32::EPSILON = 2^-23; matrices.rs:142 *)
Definition f_tolerance : f32 := f_sqrt (binary_normalize 24 128 1 (-23) false).
(* QHM::verify, matrices.rs:140-181 *)
Definition F_inner (n : nat) (r1 r2 : list fquat) : option fquat :=
  for_m n (fun result i => let* x := vget r1 i in let* y := vget r2 i in Some (fq_add result (fq_mul x (fq_conj y)))) FQ0.
Definition F_verify (n : nat) (matrix : list (list fquat)) : option bool :=
  all_m (fun row1 => all_m (fun row2 =>
    let* row1_vec := vget matrix row1 in
    let* row2_vec := vget matrix row2 in
    let* result := F_inner n row1_vec row2_vec in
    let real_match := if Nat.eqb row1 row2
      then f_ltb (f_abs (f_sub (f_s result) (f_of_Z (Z.of_nat n)))) f_tolerance
      else f_ltb (f_abs (f_s result)) f_tolerance in
    let imaginary_match := f_ltb (f_abs (f_x result)) f_tolerance &&
      f_ltb (f_abs (f_y result)) f_tolerance && f_ltb (f_abs (f_z result)) f_tolerance in
    Some (real_match && imaginary_match)) (range 0 n)) (range 0 n).
