(* Independent specification of programs that run at the same time on one folder. *)
From Coq Require Import Ascii String List.
From Verif Require Import Base ModelWrite ModelJobs SpecPrint SpecMain.
Import ListNotations.

(* the steps of several programs, each in its own order, mixed in any way *)
Inductive interleaved {A} : list (list A) -> list A -> Prop :=
  | il_done programs : Forall (fun p => p = []) programs -> interleaved programs []
  | il_step before a p after tr : interleaved (before ++ p :: after) tr -> interleaved (before ++ (a :: p) :: after) (a :: tr).

(* the disk holds exactly the directories and files of the folder, every line followed by a line break *)
Definition on_disk (st : Store) (f : Folder) : Prop :=
  NoDup (map fst f) /\ (forall name d, In (name, d) f -> NoDup (map fst d)) /\
  forall name, match st name with
  | None => ~ In name (map fst f)
  | Some files => exists d, In (name, d) f /\ forall file, match files file with
      | None => ~ In file (map fst d)
      | Some bytes => exists lines, In (file, lines) d /\ bytes = stacked lines
      end
  end.
(* the lines of the files are lines *)
Definition tidy (f : Folder) : Prop := forall name d file lines s, In (name, d) f -> In (file, lines) d -> In s lines -> ~ In newline s.
(* nothing on the disk *)
Definition empty_disk : Store := fun _ => None.
