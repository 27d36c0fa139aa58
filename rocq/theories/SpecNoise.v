(* Independent specification of rounding errors. *)
From Coq Require Import List ZArith Arith Reals.
From Verif Require Import Base ModelWilliamson ModelFourier ModelMatching ModelRowsum ModelWrite ModelNoise SpecFourier Spec.
Import ListNotations.
Notation length := List.length.
Open Scope R_scope.

Definition close (e x y : R) : Prop := Rabs (x - y) <= e.
Definition at_most (B x : R) : Prop := Rabs x <= B.

(* On the numbers that occur in a search of length n every operation is within e of the exact result. *)
Definition accurate (n : nat) (e : R) (A : Arith) : Prop :=
  (* the spectrum of a sequence of +-1: sum_j s[j] exp(-2 pi i j k / n) for k = 0, ..., n/2 *)
  (forall s, length s = n -> pm1 s -> length (a_dft A s) = (n / 2 + 1)%nat /\
     forall k, (k <= n / 2)%nat ->
       close e (fst (nth k (a_dft A s) (0, 0))) (fourier_sum s cos k) /\
       close e (snd (nth k (a_dft A s) (0, 0))) (- fourier_sum s sin k)) /\
  (* the inverse transform of bounded coefficients *)
  (forall X, length X = (n / 2 + 1)%nat -> (forall x, In x X -> at_most (100 * INR n ^ 2) (fst x) /\ at_most (100 * INR n ^ 2) (snd x)) ->
     length (a_idft A n X) = n /\
     forall t, (t < n)%nat -> close e (nth t (a_idft A n X) 0) (nth t (c2r n X) 0 / INR n)) /\
  (* sums, differences and products of bounded numbers *)
  (forall x y, at_most (100 * INR n ^ 2) x -> at_most (100 * INR n ^ 2) y ->
     close e (a_add A x y) (x + y) /\ close e (a_sub A x y) (x - y)) /\
  (forall x y, at_most (2 * INR n) x -> at_most (2 * INR n) y -> close e (a_mul A x y) (x * y)) /\
  close e (a_tiny A) (1 / 10000).

(* the two pairs of a pairing of the four sequences: the files are written for (W,Z) and (X,Y) unless told otherwise *)
Definition pairs_of (p : option RowsumPairing) : (Tag * Tag) * (Tag * Tag) :=
  match p with
  | Some WX => ((TW, TX), (TY, TZ))
  | Some WY => ((TW, TY), (TX, TZ))
  | Some WZ | None => ((TW, TZ), (TX, TY))
  end.
Definition is_pair (p : option RowsumPairing) (ab : Tag * Tag) : Prop := ab = fst (pairs_of p) \/ ab = snd (pairs_of p).
(* both pairs stay below the bound of the filter by the margin d, at every frequency *)
Definition below (n : nat) (p : option RowsumPairing) (d : R) (q : QuadSeq) : Prop :=
  forall a b k, is_pair p (a, b) -> (1 <= k <= n / 2)%nat ->
    psd (sequence q a) k + psd (sequence q b) k <= 4 * INR n - d.
(* one of the pairs reaches the bound *)
Definition tie (n : nat) (p : option RowsumPairing) (q : QuadSeq) : Prop :=
  exists a b k, is_pair p (a, b) /\ (1 <= k <= n / 2)%nat /\ psd (sequence q a) k + psd (sequence q b) k = 4 * INR n.

(* ---- the lines of a pair file ---- *)

Definition signed (side : EquationSide) (x : Z) : Z := match side with LEFT => x | RIGHT => (- x)%Z end.
Definition cross_difference (b : bool) (s1 s2 : list Z) (k : nat) : Z :=
  if b then (ccf s1 s2 (Z.of_nat k) - ccf s2 s1 (Z.of_nat k))%Z else (ccf s2 s1 (Z.of_nat k) - ccf s1 s2 (Z.of_nat k))%Z.
(* the line of the pair (s1, s2) with indices i and j when the correlations are compared *)
Definition correlation_line (n : nat) (t : SequenceType) (side : EquationSide) (b : bool) (i : nat) (s1 : list Z) (j : nat) (s2 : list Z) : text :=
  pair_line (concat (map field
    (map (fun k => signed side (paf s1 (Z.of_nat k) + paf s2 (Z.of_nat k))) (seq 1 (n / 2)) ++
     match t with QuaternionType => map (fun k => signed side (cross_difference b s1 s2 k)) (seq 1 (n / 2)) | _ => [] end))) i j.
(* a Williamson-type search leaves out the pairs whose two cross-correlations differ *)
Definition listed (n : nat) (t : SequenceType) (s1 s2 : list Z) : Prop :=
  t = WilliamsonType -> forall k, (1 <= k <= n / 2)%nat -> ccf s1 s2 (Z.of_nat k) = ccf s2 s1 (Z.of_nat k).
(* the pair stays below the bound by the margin d *)
Definition pair_below (n : nat) (d : R) (s1 s2 : list Z) : Prop :=
  forall k, (1 <= k <= n / 2)%nat -> psd s1 k + psd s2 k <= 4 * INR n - d.
Definition pair_tie (n : nat) (s1 s2 : list Z) : Prop :=
  exists k, (1 <= k <= n / 2)%nat /\ psd s1 k + psd s2 k = 4 * INR n.

(* ---- the values of the option PSD ---- *)

Definition power_value (n : nat) (side : EquationSide) (s1 s2 : list Z) (k : nat) : R :=
  match side with LEFT => psd s1 k + psd s2 k | RIGHT => 4 * INR n - (psd s1 k + psd s2 k) end.
(* the imaginary part of the product of a coefficient and the conjugate of another *)
Definition cross_im (s1 s2 : list Z) (k : nat) : R :=
  fourier_sum s1 cos k * fourier_sum s2 sin k - fourier_sum s1 sin k * fourier_sum s2 cos k.
Definition cross_value (b : bool) (s1 s2 : list Z) (k : nat) : R :=
  if b then cross_im s1 s2 k - cross_im s2 s1 k else cross_im s2 s1 k - cross_im s1 s2 k.
