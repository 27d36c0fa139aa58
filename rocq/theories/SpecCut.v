(* Independent specification of files of pairs that have been cut. *)
From Coq Require Import Ascii String List ZArith.
From Verif Require Import Base Quat ModelSequence ModelWilliamson ModelRowsum ModelMatching ModelWrite SpecPrint SpecMain SpecFiles SpecRowsum ModelLog SpecSplit SpecMixed SpecPrinted SpecThinned.
Import ListNotations.

(* the same files; every line of a file of pairs is the beginning of a line that was written *)
Definition cut_lines (l l' : Lines) : Prop := forall x', In x' l' -> exists x lost, In x l /\ x = x' ++ lost.
Definition cut_dir (d d' : Dir) : Prop :=
  Forall2 (fun x x' => fst x' = fst x /\ (snd x' = snd x \/ (exists p, fst x = pair_name p) /\ cut_lines (snd x) (snd x'))) d d'.
Definition cut (f f' : Folder) : Prop :=
  Forall2 (fun x x' => fst x' = fst x /\ cut_dir (snd x) (snd x')) f f'.

(* the line for the two sequences of q named by p was written and is still there *)
Definition has_whole_line (d d' : Dir) (p : Tag * Tag) (q : QuadSeq) : Prop :=
  exists la lb lines lines' key i j si sj, In (seq_name (fst p), la) d' /\ In (seq_name (snd p), lb) d' /\ In (pair_name p, lines) d /\ In (pair_name p, lines') d' /\
    nth_error la i = Some (map sign_char (sequence q (fst p))) /\ nth_error lb j = Some (map sign_char (sequence q (snd p))) /\
    canonical_numeral si i /\ canonical_numeral sj j /\ ~ In ":"%char key /\
    let line := key ++ chars "_:_" ++ si ++ chars "_" ++ sj in In line lines /\ In line lines'.
Definition both_whole (f f' : Folder) (pr : RowsumPairing) (q : QuadSeq) : Prop :=
  exists name d d', sums_dir (totals q) name /\ In (name, d) f /\ In (name, d') f' /\ forall p, In p (pairs_of pr Both) -> has_whole_line d d' p q.
(* the lines a program reads in a file: the last one need not be followed by a line break *)
Definition text_lines (bytes : list ascii) (lines : Lines) : Prop :=
  Forall (fun x => ~ In newline x) lines /\
  (bytes = stacked lines \/ exists l last, last <> [] /\ lines = l ++ [last] /\ bytes = stacked l ++ last).
