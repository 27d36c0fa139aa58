(* Independent specification for the exploratory searches. *)
From Coq Require Import List Arith.
From Verif Require Import Quat ModelSequence.
Import ListNotations.
Open Scope nat_scope.

(* 1, i, j, k and their negatives *)
Definition Q8 : list quat := [Q1; qneg Q1; QI; qneg QI; QJ; qneg QJ; QK; qneg QK].
(* the even lengths at which a search with this symmetry can list anything *)
Definition possible (s : Symmetry) (n : nat) : Prop :=
  match s with SymI => True | SymII => n mod 4 = 0 | SymIII => n mod 8 = 0 | SymIV => n = 4 end.
(* the lengths find_pqs leaves out *)
Definition skipped (symmetry : option Symmetry) (n : nat) : Prop :=
  match symmetry with None | Some SymI => False | _ => Nat.odd n = true end.
