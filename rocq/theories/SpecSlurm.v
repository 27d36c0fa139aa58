(* Independent specification of the flag -s: values of $SLURM_TMPDIR, and what is left of a folder. *)
From Coq Require Import Ascii String List ZArith Bool Arith Permutation.
From Verif Require Import Base Quat ModelSequence ModelEquivalence ModelWrite ModelMain SpecMain SpecFiles SpecPrint Spec.
Import ListNotations.
Open Scope nat_scope.

Definition blank (a : ascii) : Prop := a = " "%char \/ a = "009"%char \/ a = "010"%char.
(* the variable is unset, empty or blank *)
Definition no_word (v : option (list ascii)) : Prop := v = None \/ exists s, v = Some s /\ Forall blank s.
(* one word, such as the path of a directory *)
Definition one_word (v : option (list ascii)) : Prop :=
  exists s a w b, v = Some s /\ s = a ++ w ++ b /\ Forall blank a /\ Forall blank b /\ w <> [] /\ Forall (fun c => ~ blank c) w.
(* two words at least: a path with a blank in it *)
Definition more_words (v : option (list ascii)) : Prop :=
  exists s a b c d e, v = Some s /\ s = a ++ b :: c ++ d :: e /\ ~ blank b /\ ~ blank d /\ exists g, In g c /\ blank g.

Definition is_pair_file (name : list ascii) : Prop := exists k, name = k ++ chars ".pair".
(* the directories a and b have the same files, apart from the *.pair files of a; for each of these b has an empty
   *.pair.sorted file, and the *.pair file itself if it was kept *)
Definition nothing_sorted (kept : bool) (a b : Dir) : Prop := forall name l,
  In (name, l) b <-> (In (name, l) a /\ (is_pair_file name -> kept = true)) \/
                     (l = [] /\ exists k l0, name = k ++ chars ".sorted" /\ is_pair_file k /\ In (k, l0) a).
Definition folder_lost (kept : bool) (f g : Folder) : Prop := Forall2 (fun a b => fst b = fst a /\ nothing_sorted kept (snd a) (snd b)) f g.
