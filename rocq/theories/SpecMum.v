(* Independent specification of matrices over the complex numbers. *)
From Coq Require Import List ZArith QArith Qcanon Bool Arith.
From Verif Require Import Sums Quat ModelMatrices ModelMum SpecMatrix.
Import ListNotations.
Open Scope nat_scope.

Definition csum (n : nat) (f : nat -> cplx) : cplx := gsum C0 cadd n f.
(* the entry in row i and column j *)
Definition at2 (a : Operator) (i j : nat) : cplx := cell C0 (op_values a) i j.
Definition op_wf (n : nat) (a : Operator) : Prop := op_size a = n /\ square n (op_values a).
Definition creal (n : nat) : cplx := Cplx (qc_of_nat n) 0.
(* the complex number c when the condition holds, otherwise 0 *)
Definition cdelta (b : bool) (c : cplx) : cplx := if b then c else C0.

(* c = a b *)
Definition is_product (n : nat) (a b c : Operator) : Prop :=
  op_wf n a /\ op_wf n b /\ op_wf n c /\
  forall i j, i < n -> j < n -> at2 c i j = csum n (fun k => cmul (at2 a i k) (at2 b k j)).
(* c = a + b *)
Definition is_sum (n : nat) (a b c : Operator) : Prop :=
  op_wf n a /\ op_wf n b /\ op_wf n c /\ forall i j, i < n -> j < n -> at2 c i j = cadd (at2 a i j) (at2 b i j).
(* b is the conjugate transpose of a *)
Definition is_adjoint (n : nat) (a b : Operator) : Prop :=
  op_wf n a /\ op_wf n b /\ forall i j, i < n -> j < n -> at2 b i j = cconj (at2 a j i).

(* A family of d x d matrices which, divided by the real number c, is a projective measurement:
   self-adjoint, Q_b Q_b = c Q_b, Q_b Q_b' = 0 for different b, b', and the sum is c times the identity. *)
Definition projective (d : nat) (c : cplx) (l : list Operator) : Prop :=
  Forall (op_wf d) l /\
  (forall b i j, b < length l -> i < d -> j < d -> at2 (nth b l OP0) i j = cconj (at2 (nth b l OP0) j i)) /\
  (forall b b' i j, b < length l -> b' < length l -> i < d -> j < d ->
     csum d (fun k => cmul (at2 (nth b l OP0) i k) (at2 (nth b' l OP0) k j)) =
     cdelta (b =? b') (cmul c (at2 (nth b l OP0) i j))) /\
  (forall i j, i < d -> j < d -> csum (length l) (fun b => at2 (nth b l OP0) i j) = cdelta (i =? j) c).
