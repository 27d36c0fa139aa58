(* Independent specification of what a panicking run leaves behind. *)
From Coq Require Import Ascii String List ZArith.
From Verif Require Import Base ModelSequence ModelWilliamson ModelRowsum ModelMatching ModelWrite ModelMain SpecMain Spec.
Import ListNotations.

(* a line of a .seq file that the program can read: letters of the 24 quaternions *)
Definition readable (line : list ascii) : Prop := forall c, In c line -> In c Q24_STRING.
Definition usable (line : list ascii) : Prop := line <> [] /\ readable line.
(* the result files of an earlier run, if there are any *)
Definition old_results_usable (pl : Place) : Prop :=
  (forall lines, pl_seq pl = Some lines -> Forall usable lines) /\ (forall lines, pl_qts pl = Some lines -> Forall usable lines).
(* the directories hold no pair: every file is empty or one of the four lists of sequences *)
Definition no_pairs (f : list (list ascii * list (list ascii * list (list ascii)))) : Prop :=
  forall name d file lines, In (name, d) f -> In (file, lines) d -> lines = [] \/ exists c, In c ["W"; "X"; "Y"; "Z"]%char /\ file = list_ascii_of_string "seq_" ++ c :: list_ascii_of_string ".seq".
