(* Independent specification of Hadamard matrices. *)
From Coq Require Import List ZArith QArith Qcanon Bool Arith.
From Verif Require Import Sums Quat Spec ModelMatrices.
Import ListNotations.
Open Scope nat_scope.

(* n rows of length n *)
Definition square {A} (n : nat) (m : list (list A)) : Prop := length m = n /\ Forall (fun r => length r = n) m.
(* the entry in row i and column j *)
Definition cell {A} (d : A) (m : list (list A)) (i j : nat) : A := nth j (nth i m []) d.
(* inner product of two rows of integers *)
Definition dot (x y : list Z) : Z := sumZ (length x) (fun i => nth i x 0 * nth i y 0)%Z.
Definition orthogonal_rows (n : nat) (m : list (list Z)) : Prop :=
  forall i j, i < n -> j < n -> i <> j -> dot (nth i m []) (nth j m []) = 0%Z.
Definition pm_matrix (n : nat) (m : list (list Z)) : Prop := square n m /\ Forall pm1 m.
Definition hadamard (n : nat) (m : list (list Z)) : Prop := pm_matrix n m /\ orthogonal_rows n m.

(* inner product of two rows of quaternions; H H* = n I *)
Definition qdot (x y : list quat) : quat := qsum (length x) (fun i => qmul (nth i x Q0) (qconj (nth i y Q0))).
Definition qhadamard (n : nat) (m : list (list quat)) : Prop :=
  square n m /\ forall i j, i < n -> j < n ->
    qdot (nth i m []) (nth j m []) = if i =? j then qscale (qc_of_nat n) Q1 else Q0.

(* first row and first column equal to one *)
Definition normalised {A} (one : A) (n : nat) (m : list (list A)) : Prop :=
  forall k, k < n -> cell one m 0 k = one /\ cell one m k 0 = one.
