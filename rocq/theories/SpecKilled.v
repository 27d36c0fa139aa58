(* Independent specification of programs that are killed. *)
From Coq Require Import Ascii List.
From Verif Require Import Base ModelWrite ModelJobs.
Import ListNotations.

(* the steps a program has made when it is killed: some of its steps, and possibly a part of a write *)
Inductive cut_short : list Action -> list Action -> Prop :=
  | cut_here l : cut_short [] l
  | cut_write dir file offset bytes lost l : cut_short [WriteAt dir file offset bytes] (WriteAt dir file offset (bytes ++ lost) :: l)
  | cut_later a k l : cut_short k l -> cut_short (a :: k) (a :: l).
