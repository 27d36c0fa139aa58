(* Independent specification: files of matrices that agree. *)
From Coq Require Import Ascii String List Permutation.
From Verif Require Import ModelMatrices SpecGraph SpecMain.
Import ListNotations.

(* the two files list matrices that match, up to order and Hadamard equivalence *)
Definition same_matrices (N : nat) (mat mat' : option (list ascii)) : Prop :=
  exists ms ms' l, lists_matrices mat ms /\ lists_matrices mat' ms' /\ Permutation l ms' /\ Forall2 (hm_equivalent N) ms l.
