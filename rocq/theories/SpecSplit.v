(* Independent specification of a search split over several jobs. *)
From Coq Require Import Ascii String List ZArith Arith Relations Permutation.
From Verif Require Import Base Quat ModelSequence ModelWilliamson ModelEquivalence ModelRowsum ModelMatching ModelWrite ModelMain ModelScripts SpecEquiv SpecRowsum SpecFiles SpecMatrix SpecPrint SpecMain SpecSearch Spec.
Import ListNotations.
Open Scope nat_scope.

(* a job writes both pairs of a row sum, or one of them *)
Inductive Part := Both | First | Second.
(* the command line of a job *)
Definition job_line (t : SequenceType) (y : list ascii) (m : MatchOption) (pr : RowsumPairing) (job : Quad * Part) (args : list (list ascii)) : Prop :=
  exists a b c d, rowsums_arg a b c d (fst job) /\
    args = match snd job with
           | Both => [chars "rust"; chars "pairs_rowsum"; type_word t; y; a; b; c; d; match_word m; pairing_word pr]
           | First => [chars "rust"; chars "pair_single"; type_word t; y; a; b; c; d; match_word m; pairing_word pr; chars "1"]
           | Second => [chars "rust"; chars "pair_single"; type_word t; y; a; b; c; d; match_word m; pairing_word pr; chars "2"]
           end.
(* the two pairs of the row sums are written by the jobs *)
Definition done (jobs : list (Quad * Part)) (r : Quad) : Prop :=
  In (r, Both) jobs \/ In (r, First) jobs /\ In (r, Second) jobs.
(* the jobs work on feasible row sums and finish what they begin *)
Definition complete_jobs (n : nat) (jobs : list (Quad * Part)) : Prop :=
  forall r h, In (r, h) jobs -> feasible n r /\ done jobs r.

(* programs run one after the other *)
Inductive runs {L} (fuel : nat) (e : Env L) : list (list (list ascii)) -> World -> World -> Prop :=
  | runs_nil w : runs fuel e [] w w
  | runs_cons args l w w1 w2 : run_main fuel e args w = Some w1 -> runs fuel e l w1 w2 -> runs fuel e (args :: l) w w2.

(* the same directories with the same files *)
Definition same_dirs (f f' : Folder) : Prop :=
  NoDup (map fst f) /\ NoDup (map fst f') /\ (forall name, In name (map fst f) <-> In name (map fst f')) /\
  forall name d d', In (name, d) f -> In (name, d') f' -> same_files d d'.

(* one representative, the least, of every class with a member among the quadruples in P *)
Definition one_per_class_of (P : QuadSeq -> Prop) (t : SequenceType) (r : list QuadSeq) : Prop :=
  NoDup r /\
  (forall x, In x r -> least (reach (type_ops t) x) x /\ exists q, P q /\ reach (type_ops t) q x) /\
  (forall q, P q -> exists x, In x r /\ reach (type_ops t) q x /\ forall x', In x' r -> reach (type_ops t) q x' -> x' = x).

(* the scripts that follow the pairs, one after the other; convert_hm.sh is optional *)
Definition after_sorting {L} (fuel : nat) (e : Env L) (x y : list ascii) (h : bool) (w : World) : World :=
  let w := join_sh fuel e x y w in
  let w := if h then hm_sh fuel e x y w else w in
  qhm_sh fuel e x y w.
Definition remaining {L} (fuel : nat) (e : Env L) (x y : list ascii) (h : bool) (w : World) : World :=
  after_sorting fuel e x y h (sort_sh x y w).
