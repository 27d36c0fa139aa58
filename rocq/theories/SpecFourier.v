(* Independent specification of power spectra. *)
From Coq Require Import List ZArith Arith Reals.
Import ListNotations.
Open Scope R_scope.

(* |sum_j s[j] exp(-2 pi i j k / n)|^2, where n is the length of s *)
Definition fourier_sum (s : list Z) (f : R -> R) (k : nat) : R :=
  fold_right Rplus 0 (map (fun j => IZR (nth j s 0%Z) * f (2 * PI * INR (j * k) / INR (length s))) (seq 0 (length s))).
Definition psd (s : list Z) (k : nat) : R := (fourier_sum s cos k) ^ 2 + (fourier_sum s sin k) ^ 2.
