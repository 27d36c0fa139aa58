(* Model of rust/src/sequences/fourier.rs over the real numbers.

   f64 is modelled by R and the FFTW transforms by the sums they are documented to compute: rounding
   errors are not modelled.  Both plans are created by the first call and then reused: [plan] is the
   length for which they were created; a call with another length gets an error from FFTW and
   unwrap panics, and so does the creation of a plan of length 0. *)
From Coq Require Import List ZArith Bool Arith Reals.
From Verif Require Import Base.
Import ListNotations.
Open Scope R_scope.

(* num_complex::Complex<f64> *)
Definition CR : Type := R * R.
Definition cr_mul (x y : CR) : CR :=
  (fst x * fst y - snd x * snd y, fst x * snd y + snd x * fst y).
Definition cr_sub (x y : CR) : CR := (fst x - fst y, snd x - snd y).
Definition cr_conj (x : CR) : CR := (fst x, - snd x).
Definition norm_sqr (x : CR) : R := fst x * fst x + snd x * snd x.

(* sum of f(0), ..., f(n-1) *)
Definition sumR (n : nat) (f : nat -> R) : R := fold_right Rplus 0 (map f (seq 0 n)).
(* the angle of the k-th power of the j-th n-th root of unity *)
Definition angle (n : nat) (j k : nat) : R := 2 * PI * INR (j * k) / INR n.

(* FFTW r2c: coefficients 0..n/2 of sum_j s_j exp(-2 pi i j k / n) *)
Definition r2c (s : list R) : list CR :=
  let n := length s in
  map (fun k => (sumR n (fun j => nth j s 0 * cos (angle n j k)),
                 - sumR n (fun j => nth j s 0 * sin (angle n j k)))) (seq 0 (n / 2 + 1)).
(* FFTW c2r: the coefficients above n/2 are the conjugates of those below, and
   y_t = sum_k X_k exp(2 pi i t k / n), which is real *)
Definition c2r (n : nat) (a : list CR) : list R :=
  map (fun t => sumR n (fun k =>
         let x := if (k <=? n / 2)%nat then nth k a (0, 0) else cr_conj (nth (n - k) a (0, 0)) in
         fst x * cos (angle n t k) - snd x * sin (angle n t k))) (seq 0 n).

(* dft_sequence, fourier.rs:12-27 *)
Definition dft_sequence (plan : nat) (s : list Z) : option (list CR) :=
  guard ((1 <=? plan) && (length s =? plan))%nat (Some (r2c (map IZR s))).

(* inverse_dft, fourier.rs:29-43 *)
Definition inverse_dft (plan : nat) (freq : list CR) (n : nat) : option (list R) :=
  guard ((1 <=? plan) && (n =? plan))%nat
    (let* a := vbuild (n / 2 + 1) (vget freq) in
     Some (map (fun x => x / INR n) (c2r n a))).

(* x > y on f64 *)
Definition gtR (x y : R) : bool := if Rlt_dec y x then true else false.

(* iter_over_filtered_dft, fourier.rs:46-56: the items of the iterator *)
Fixpoint filter_m {A} (f : A -> option bool) (l : list A) : option (list A) :=
  match l with
  | [] => Some []
  | x :: r => let* b := f x in let* r' := filter_m f r in Some (if b then x :: r' else r')
  end.
Definition iter_over_filtered_dft (plan : nat) (sequences : list (list Z)) (bound : R) : option (list (list Z)) :=
  let bound_sqr := bound * bound in
  filter_m (fun s => let* dft := dft_sequence plan s in
                     Some (forallb (fun elm => negb (gtR (norm_sqr elm) bound_sqr)) dft)) sequences.

(* iproduct!(l, m) *)
Definition iproduct {A B} (l : list A) (m : list B) : list (A * B) := list_prod l m.
(* .iter().enumerate() *)
Definition enumerate {A} (l : list A) : list (nat * A) := combine (seq 0 (length l)) l.

(* the test of fourier.rs:63-68 and 78-83 *)
Definition couple_within (plan : nat) (bound : R) (s1 s2 : list Z) : option bool :=
  let* dft1 := dft_sequence plan s1 in
  let* dft2 := dft_sequence plan s2 in
  Some (forallb (fun '(elm1, elm2) => negb (gtR (norm_sqr elm1 + norm_sqr elm2) bound)) (combine dft1 dft2)).

(* iter_over_filtered_couples, fourier.rs:59-70 *)
Definition iter_over_filtered_couples (plan : nat) (sequences1 sequences2 : list (list Z)) (bound : R)
    : option (list (list Z * list Z)) :=
  filter_m (fun '(s1, s2) => couple_within plan bound s1 s2) (iproduct sequences1 sequences2).

(* iter_over_enumerate_filtered_couples, fourier.rs:74-85 *)
Definition iter_over_enumerate_filtered_couples (plan : nat) (sequences1 sequences2 : list (list Z)) (bound : R)
    : option (list ((nat * list Z) * (nat * list Z))) :=
  filter_m (fun '((_, s1), (_, s2)) => couple_within plan bound s1 s2)
    (iproduct (enumerate sequences1) (enumerate sequences2)).

(* SequencePairData, fourier.rs:87-94 *)
Record SequencePairData := mkPair {
  seq_enum1 : nat * list Z; seq_enum2 : nat * list Z;
  dft1 : list CR; norm1 : list R; dft2 : list CR; norm2 : list R }.

(* iter_over_enumerate_filtered_couples_psds, fourier.rs:96-121 *)
Definition couple_psds (plan : nat) (bound : R) (e1 e2 : nat * list Z) : option (option SequencePairData) :=
  let* d1 := dft_sequence plan (snd e1) in
  let* d2 := dft_sequence plan (snd e2) in
  let n1 := map norm_sqr d1 in
  let n2 := map norm_sqr d2 in
  let bound_exceeded :=
    existsb (fun '((i1, x1), (i2, x2)) => negb (i1 =? 0)%nat && negb (i2 =? 0)%nat && gtR (x1 + x2) bound)
      (combine (enumerate n1) (enumerate n2)) in
  Some (if bound_exceeded then None else Some (mkPair e1 e2 d1 n1 d2 n2)).
Definition somes {A} (l : list (option A)) : list A :=
  flat_map (fun x => match x with Some y => [y] | None => [] end) l.
Definition iter_over_enumerate_filtered_couples_psds (plan : nat) (sequences1 sequences2 : list (list Z)) (bound : R)
    : option (list SequencePairData) :=
  let* l := traverse (fun '(e1, e2) => couple_psds plan bound e1 e2)
              (iproduct (enumerate sequences1) (enumerate sequences2)) in
  Some (somes l).
