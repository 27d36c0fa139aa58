(* Independent specification of runs on a disk that fills up. *)
From Coq Require Import Ascii String List Arith.
From Verif Require Import Base ModelWrite ModelJobs.
Import ListNotations.
Open Scope nat_scope.

(* the number of bytes a program writes *)
Fixpoint bytes_written (l : list Action) : nat :=
  match l with
  | [] => 0
  | WriteAt _ _ _ s :: r => List.length s + bytes_written r
  | _ :: r => bytes_written r
  end.
Definition contents (st : Store) (d f : list ascii) : option (list ascii) := match st d with Some files => files f | None => None end.
(* the program has no bytes to write *)
Definition idle (l : list Action) : Prop := forall d f o s, In (WriteAt d f o s) l -> s = [].
(* none of the files the program makes is there *)
Definition fresh (l : list Action) (st : Store) : Prop := forall d f, In (MakeFile d f) l -> contents st d f = None.
