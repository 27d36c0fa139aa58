(* Independent specification of the sums of a quadruple that its class determines. *)
From Coq Require Import List ZArith.
From Verif Require Import Base ModelWilliamson SpecRowsum.
Import ListNotations.
Open Scope Z_scope.

(* x0 - x1 + x2 - x3 + ... *)
Fixpoint alternating (l : list Z) : Z := match l with [] => 0 | x :: r => x - alternating r end.
Definition four (q : QuadSeq) : list (list Z) := [q_a q; q_b q; q_c q; q_d q].
(* the row sums without their signs *)
Definition sum_sizes (q : QuadSeq) : list Z := map (fun s => Z.abs (total s)) (four q).
(* the same together with the alternating sums *)
Definition both_sizes (q : QuadSeq) : list (Z * Z) := map (fun s => (Z.abs (total s), Z.abs (alternating s))) (four q).
Definition flipped (p : Z * Z) : Z * Z := (snd p, fst p).
