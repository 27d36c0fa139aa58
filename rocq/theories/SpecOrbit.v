(* Specification: the number of symmetries of each type. *)
From Coq Require Import List Arith.
From Verif Require Import ModelWilliamson.
Import ListNotations.

(* Euler's function: the numbers from 1 to n prime to n *)
Definition totient (n : nat) : nat := length (filter (fun k => Nat.gcd n k =? 1) (seq 1 n)).
Definition symmetries (t : SequenceType) (n : nat) : nat :=
  match t with
  | QuaternionType => (if Nat.even n then 1536 else 192) * (n * totient n)
  | WilliamsonType => (if Nat.even n then 6144 else 384) * (n * totient n)
  | Williamson => (if Nat.even n then 12288 else 384) * totient n
  | _ => 1
  end.
