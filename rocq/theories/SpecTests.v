(* Specification for the checks that the project's unit tests make on samples. *)
From Coq Require Import List ZArith.
Import ListNotations.

(* Pascal's triangle: the number of ways to choose k of n things *)
Fixpoint binom (n k : nat) : nat :=
  match n, k with
  | _, 0 => 1
  | 0, S _ => 0
  | S n', S k' => binom n' k' + binom n' k
  end.
