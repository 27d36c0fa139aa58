(* Independent specification of files of pairs that have lost some of their lines. *)
From Coq Require Import Ascii String List ZArith.
From Verif Require Import Base Quat ModelSequence ModelWilliamson ModelRowsum ModelMatching ModelWrite SpecPrint SpecMain SpecFiles SpecRowsum ModelLog SpecSplit SpecMixed SpecPrinted.
Import ListNotations.

(* seq_W.seq *)
Definition seq_name (t : Tag) : list ascii := list_ascii_of_string ("seq_" ++ letter t ++ ".seq").
(* the same files; files of pairs may have lost lines, the remaining ones may be in another order *)
Definition fewer_lines (d d' : Dir) : Prop :=
  Forall2 (fun x x' => fst x' = fst x /\ (snd x' = snd x \/ (exists p, fst x = pair_name p) /\ incl (snd x') (snd x))) d d'.
Definition thinned (f f' : Folder) : Prop :=
  Forall2 (fun x x' => fst x' = fst x /\ fewer_lines (snd x) (snd x')) f f'.

(* the directory has a line for the two sequences of q named by p: it ends with the numbers of their lines in
   the two files of sequences *)
Definition has_line (d : Dir) (p : Tag * Tag) (q : QuadSeq) : Prop :=
  exists la lb lines key i j si sj, In (seq_name (fst p), la) d /\ In (seq_name (snd p), lb) d /\ In (pair_name p, lines) d /\
    nth_error la i = Some (map sign_char (sequence q (fst p))) /\ nth_error lb j = Some (map sign_char (sequence q (snd p))) /\
    canonical_numeral si i /\ canonical_numeral sj j /\ ~ In ":"%char key /\
    In (key ++ chars "_:_" ++ si ++ chars "_" ++ sj) lines.
(* both lines of q are still there *)
Definition both_lines (f : Folder) (pr : RowsumPairing) (q : QuadSeq) : Prop :=
  exists name d, sums_dir (totals q) name /\ In (name, d) f /\ forall p, In p (pairs_of pr Both) -> has_line d p q.
