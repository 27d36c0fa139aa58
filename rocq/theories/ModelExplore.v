(* Model of the exploratory functions of rust/src/main.rs, which the command line does not call. *)
From Coq Require Import List ZArith Bool Arith Ascii.
From Verif Require Import Base Quat ModelSequence ModelWilliamson ModelEquivalence ModelFind.
Import ListNotations.
Open Scope nat_scope.

(* find_pqs_of_type, main.rs:28-43: None for a length that is skipped, otherwise the count in the message and
   the lines printed.  The elapsed time is left out. *)
Definition find_pqs_of_type (sc : Schedule) (i : nat) (symmetry : option Symmetry) : option (option (nat * Lines)) :=
  let run := let* r := optim_find sc i symmetry in Some (Some r) in
  match symmetry with
  | None | Some SymI => run
  | _ => if i mod 2 =? 1 then Some None else run
  end.
(* find_pqs, main.rs:22-26; every length has its own schedule *)
Definition find_pqs (sc : nat -> Schedule) (symmetry : option Symmetry) : option (list (option (nat * Lines))) :=
  traverse (fun i => find_pqs_of_type (sc i) i symmetry) (seq 1 17).

(* find_williamson and find_williamson_type, main.rs:47-51 and 61-65 *)
Definition find_williamson : option (list (nat * Lines)) := traverse find_williamson_of_size (seq 1 14).
Definition find_williamson_type : option (list (nat * Lines)) := traverse find_williamson_type_of_size (seq 1 14).

(* find_unique_williamson_type_of_size, main.rs:77-91: the contents of results/sequences/unique_wts/<i>.seq;
   File::create fails when this directory is missing *)
Definition find_unique_williamson_type_of_size (fuel : nat) (ord : Order) (p : list nat) (directory : bool) (i : nat) : option (list ascii) :=
  let* result := unique_find fuel ord p i in
  guard directory (Some result).
