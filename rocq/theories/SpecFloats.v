(* Independent specification of the numbers denoted by f32 values. *)
From Coq Require Import List ZArith QArith Qcanon Bool SpecFloat.
From Verif Require Import Quat ModelFloat.
Import ListNotations.

(* 2^e *)
Definition two_power (e : Z) : Qc :=
  match e with
  | Zneg p => Q2Qc (1 # (2 ^ p))
  | _ => Q2Qc (inject_Z (2 ^ e))
  end.
(* the number denoted by a finite f32 *)
Definition value (x : f32) : Qc :=
  match x with
  | S754_finite s m e => Q2Qc (inject_Z (if s then Zneg m else Zpos m)) * two_power e
  | _ => 0
  end.
(* finite, and stored the way binary32 stores numbers *)
Definition finite32 (x : f32) : Prop :=
  valid_binary 24 128 x = true /\ match x with S754_zero _ | S754_finite _ _ _ => True | _ => False end.

Definition finite_quat (q : fquat) : Prop := finite32 (f_s q) /\ finite32 (f_x q) /\ finite32 (f_y q) /\ finite32 (f_z q).
Definition quat_value (q : fquat) : quat := Quat (value (f_s q)) (value (f_x q)) (value (f_y q)) (value (f_z q)).
(* denotes an element of the 24-element alphabet *)
Definition in_alphabet (q : fquat) : Prop := finite_quat q /\ In (quat_value q) Q24.
