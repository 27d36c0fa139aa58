(* Independent specification of a split search whose jobs do not use the same pairing. *)
From Coq Require Import Ascii String List.
From Verif Require Import Base Quat ModelSequence ModelWilliamson ModelRowsum ModelMatching ModelWrite ModelMain SpecSplit.
Import ListNotations.

(* a job with its options *)
Definition MixedJob : Type := (Quad * Part) * (MatchOption * RowsumPairing).
(* the pairs of sequences a job writes *)
Definition pairs_of (pr : RowsumPairing) (h : Part) : list (Tag * Tag) :=
  let '(first, second) := match pr with WX => ((TW, TX), (TY, TZ)) | WY => ((TW, TY), (TX, TZ)) | WZ => ((TW, TZ), (TX, TY)) end in
  match h with Both => [first; second] | First => [first] | Second => [second] end.
(* the jobs write the pair for the row sums r *)
Definition wrote (jobs : list MixedJob) (r : Quad) (pair : Tag * Tag) : Prop :=
  exists h m pr, In ((r, h), (m, pr)) jobs /\ In pair (pairs_of pr h).
(* the pairs written for r are the two pairs of one pairing *)
Definition one_pairing (jobs : list MixedJob) (r : Quad) : Prop :=
  exists pr, forall pair, wrote jobs r pair <-> In pair (pairs_of pr Both).
(* the number of pairs written for r *)
Definition pairs_written (jobs : list MixedJob) (r : Quad) (k : nat) : Prop :=
  exists l, NoDup l /\ (forall pair, In pair l <-> wrote jobs r pair) /\ List.length l = k.
(* jobs of the same row sums have the same match option and pairing *)
Definition settled (jobs : list MixedJob) : Prop := forall r h o h' o', In ((r, h), o) jobs -> In ((r, h'), o') jobs -> o = o'.
(* the command line of a job with its options *)
Definition mixed_line (t : SequenceType) (y : list ascii) (j : MixedJob) (args : list (list ascii)) : Prop :=
  job_line t y (fst (snd j)) (snd (snd j)) (fst j) args.
