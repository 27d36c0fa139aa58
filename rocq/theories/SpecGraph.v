(* Independent specification: graph isomorphism and Hadamard equivalence. *)
From Coq Require Import List ZArith Bool Arith.
From Verif Require Import ModelMatrices ModelGraph SpecMatrix.
Import ListNotations.
Open Scope nat_scope.

Definition adjacent (g : Graph) (u v : nat) : Prop := In (u, v) (g_edges g) \/ In (v, u) (g_edges g).
(* a permutation of 0, ..., n-1 *)
Definition permutes (n : nat) (f : nat -> nat) : Prop :=
  (forall i, i < n -> f i < n) /\ (forall i j, i < n -> j < n -> f i = f j -> i = j).
(* a bijection of the nodes which preserves and reflects edges *)
Definition isomorphic (g1 g2 : Graph) : Prop :=
  g_nodes g1 = g_nodes g2 /\
  exists f, permutes (g_nodes g1) f /\
    forall u v, u < g_nodes g1 -> v < g_nodes g1 -> (adjacent g1 u v <-> adjacent g2 (f u) (f v)).
Definition sign (z : Z) : Prop := z = 1%Z \/ z = (-1)%Z.
(* b is obtained from a by permuting and negating rows and columns *)
Definition hadamard_equivalent (n : nat) (a b : list (list Z)) : Prop :=
  exists (r c : nat -> nat) (s t : nat -> Z), permutes n r /\ permutes n c /\
    (forall i, i < n -> sign (s i) /\ sign (t i)) /\
    forall i j, i < n -> j < n -> cell 1%Z b i j = (s i * t j * cell 1%Z a (r i) (c j))%Z.
(* b is the transpose of a *)
Definition transposed (n : nat) (a b : list (list Z)) : Prop :=
  square n b /\ forall i j, i < n -> j < n -> cell 1%Z b i j = cell 1%Z a j i.
(* what is assumed about the canonical labelling: equal labels exactly for isomorphic graphs *)
Definition canonical {L} (canon : Graph -> L) (same : L -> L -> bool) : Prop :=
  forall g1 g2, same (canon g1) (canon g2) = true <-> isomorphic g1 g2.

Definition hm_hadamard (n : nat) (h : HM) : Prop := hm_size h = n /\ hadamard n (hm_matrix h).
Definition hm_equivalent (n : nat) (a b : HM) : Prop := hadamard_equivalent n (hm_matrix a) (hm_matrix b).
(* r consists of members of mats; every member of mats is equivalent to one in r; no two positions of r hold equivalent matrices *)
Definition one_per_class (n : nat) (mats r : list HM) : Prop :=
  incl r mats /\ (forall m, In m mats -> exists k, In k r /\ hm_equivalent n m k) /\
  (forall i j d, i < length r -> j < length r -> hm_equivalent n (nth i r d) (nth j r d) -> i = j).
