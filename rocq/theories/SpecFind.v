(* Independent specification of the exhaustive searches. *)
From Coq Require Import List ZArith Bool Arith Ascii Permutation QArith Qcanon.
From Verif Require Import Base Quat ModelSequence ModelWilliamson Spec ModelFind.
Import ListNotations.
Open Scope nat_scope.

(* s is the text of the sequence v *)
Definition prints (v : list quat) (s : list ascii) : Prop :=
  QS_to_string_raw (mkQS (length v) v None) = Some s.

(* the result (count, lines) lists each sequence satisfying P exactly once *)
Definition lists_exactly (P : list quat -> Prop) (r : nat * Lines) : Prop :=
  exists L, NoDup L /\ (forall v, In v L <-> P v) /\ fst r = length L /\ Forall2 prints L (snd r).

(* every schedule of the parallel iterators: any cutting, any interleaving of the lines *)
Definition schedule_ok (sc : Schedule) : Prop := forall p l, Permutation (weave sc p l) l.

(* the symmetries: relation between the entries of a sequence v of length n at index i, for
   0 <= i < (n+1)/2 *)
Definition sign (k : nat) (q : quat) : quat := if Nat.even k then q else qneg q.
Definition symmetric_at (s : Symmetry) (n : nat) (v : list quat) (i : nat) : Prop :=
  match s with
  | SymI => nth (n - 1 - i) v Q0 = nth i v Q0
  | SymII => nth (n / 2 + i) v Q0 = sign i (nth i v Q0)
  | SymIII => nth (n / 2 + i) v Q0 = sign (i / 2) (nth i v Q0)
  | SymIV => nth (n / 2 + i) v Q0 = qneg (nth i v Q0)
  end.
(* what is known about the entries that the search never sets: index 0, and its mirror image when that
   one is not itself searched *)
Definition fixed_entries (s : Symmetry) (n : nat) (v : list quat) : Prop :=
  hd Q1 v = Q1 /\
  match s with
  | SymI => nth (n - 1) v Q1 = Q1
  | _ => Nat.even n = true -> nth (n / 2) v Q1 = Q1
  end.

(* the sequences listed by a search with symmetry s over the letters al *)
Definition listed_sym (s : Symmetry) (n : nat) (al : list quat) (v : list quat) : Prop :=
  length v = n /\ incl v al /\ fixed_entries s n v /\
  (forall i, 1 <= i < (n + 1) / 2 -> symmetric_at s n v i) /\ perfect v.

(* s is the text of the quaternion sequence of the quadruple q *)
Definition quad_text (q : QuadSeq) (s : list ascii) : Prop :=
  exists v, to_qs q = Some v /\ QS_to_string_raw v = Some s.
(* the lines, each followed by a line feed *)
Definition unlines (ls : Lines) : list ascii := concat (map (fun s => s ++ [newline]) ls).
(* the result (count, lines) lists each quadruple satisfying P exactly once *)
Definition lists_quads (P : QuadSeq -> Prop) (r : nat * Lines) : Prop :=
  exists L, NoDup L /\ (forall q, In q L <-> P q) /\ fst r = length L /\ Forall2 quad_text L (snd r).
(* all four sequences start with -1 *)
Definition starts_minus (q : QuadSeq) : Prop :=
  nth 0 (q_a q) 0%Z = (-1)%Z /\ nth 0 (q_b q) 0%Z = (-1)%Z /\ nth 0 (q_c q) 0%Z = (-1)%Z /\ nth 0 (q_d q) 0%Z = (-1)%Z.
