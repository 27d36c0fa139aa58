(* Independent specification of row sums. *)
From Coq Require Import List ZArith Bool Arith.
From Verif Require Import Base ModelWilliamson.
Import ListNotations.
Open Scope Z_scope.

(* the sum of the entries *)
Definition total (l : list Z) : Z := fold_right Z.add 0 l.
Definition totals (q : QuadSeq) : Z * Z * Z * Z := (total (q_a q), total (q_b q), total (q_c q), total (q_d q)).

(* (a,b,c,d) can be the row sums of a quadruple of length n *)
Definition feasible (n : nat) (r : Z * Z * Z * Z) : Prop :=
  let '(a, b, c, d) := r in
  a * a + b * b + c * c + d * d = 4 * Z.of_nat n /\
  a mod 2 = Z.of_nat n mod 2 /\ b mod 2 = Z.of_nat n mod 2 /\
  c mod 2 = Z.of_nat n mod 2 /\ d mod 2 = Z.of_nat n mod 2.

(* normal form of row sums: increasing and non-negative; for QT the last one may be negative when the
   four absolute values are distinct and non-zero *)
Definition normal_rowsums (t : SequenceType) (r : Z * Z * Z * Z) : Prop :=
  let '(a, b, c, d) := r in
  0 <= a <= b /\ b <= c <= Z.abs d /\ (d < 0 -> t = QuaternionType /\ 0 < a < b /\ b < c < - d).

(* rearrangements of four numbers: p lists the old position of every new entry *)
Definition quad_list (q : Z * Z * Z * Z) : list Z := let '(a, b, c, d) := q in [a; b; c; d].
(* the pairs of positions whose order is reversed *)
Definition inversions (p : list nat) : nat :=
  List.length (filter (fun '(i, j) => (Nat.ltb i j && Nat.ltb (nth j p 0%nat) (nth i p 0%nat))%bool) (list_prod (seq 0 4) (seq 0 4))).
Definition rearranged (p : list nat) (q r : Z * Z * Z * Z) : Prop :=
  NoDup p /\ incl p [0; 1; 2; 3]%nat /\ List.length p = 4%nat /\ quad_list r = map (fun i => nth i (quad_list q) 0) p.
(* lexicographic order *)
Definition quad_lex_le (q r : Z * Z * Z * Z) : Prop :=
  let '(a, b, c, d) := q in let '(a', b', c', d') := r in
  a < a' \/ (a = a' /\ (b < b' \/ (b = b' /\ (c < c' \/ (c = c' /\ d <= d'))))).
(* the rearrangements that keep the equivalence class of a quadruple with these row sums *)
Definition free_order (t : SequenceType) (q : Z * Z * Z * Z) : Prop :=
  t <> QuaternionType \/ In 0 (quad_list q) \/ ~ NoDup (quad_list q).
Definition same_sums (t : SequenceType) (q r : Z * Z * Z * Z) : Prop :=
  exists p, rearranged p q r /\ (free_order t q \/ Nat.even (inversions p) = true).
