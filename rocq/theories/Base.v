(* Shared vocabulary of the model: panics, vectors, fixed-width integers.
   Nothing here is specific to one source file. *)
From Coq Require Import List ZArith Lia Arith Bool Permutation.
Import ListNotations.

(* A Rust computation that may panic: [None] is a panic. *)
Definition bind {A B} (x : option A) (k : A -> option B) : option B :=
  match x with Some a => k a | None => None end.
Notation "'let*' x := e 'in' k" := (bind e (fun x => k))
  (at level 200, x pattern, e at level 100, k at level 200, right associativity).

(* [assert!(b); k] and the other explicit guards. *)
Definition guard {A} (b : bool) (k : option A) : option A := if b then k else None.

(* Vec<T> : v[i] (panics when out of range), v[i] = x, and the loop
   "for i in 0..n { v.push(f(i)) }". *)
Definition vget {A} (v : list A) (i : nat) : option A := nth_error v i.

Fixpoint vset {A} (v : list A) (i : nat) (x : A) : option (list A) :=
  match v, i with
  | [], _ => None
  | _ :: r, 0 => Some (x :: r)
  | y :: r, S j => let* r' := vset r j x in Some (y :: r')
  end.

Fixpoint traverse {A B} (f : A -> option B) (l : list A) : option (list B) :=
  match l with
  | [] => Some []
  | x :: r => let* y := f x in let* ys := traverse f r in Some (y :: ys)
  end.

Definition vbuild {A} (n : nat) (f : nat -> option A) : option (list A) := traverse f (seq 0 n).

(* "for x in l { if !f(x) { return false } } true" *)
Fixpoint all_m {A} (f : A -> option bool) (l : list A) : option bool :=
  match l with
  | [] => Some true
  | x :: r => let* b := f x in if b then all_m f r else Some false
  end.

(* "for x in l { if f(x) { return true } } false" *)
Fixpoint any_m {A} (f : A -> option bool) (l : list A) : option bool :=
  match l with
  | [] => Some false
  | x :: r => let* b := f x in if b then Some true else any_m f r
  end.

(* "for x in l { acc = f(acc, x) }" *)
Fixpoint fold_m {A B} (f : A -> B -> option A) (l : list B) (acc : A) : option A :=
  match l with
  | [] => Some acc
  | x :: r => let* acc' := f acc x in fold_m f r acc'
  end.

(* "let mut res = 0; for i in l { res += f(i) }" on isize (unbounded). *)
Definition sum_m {A} (f : A -> option Z) (l : list A) : option Z :=
  fold_m (fun acc x => let* y := f x in Some (acc + y)%Z) l 0%Z.

(* lo..hi, that is lo <= i < hi, and lo..=hi *)
Definition range (lo hi : nat) : list nat := seq lo (hi - lo).
Definition range_incl (lo hi : nat) : list nat := seq lo (S hi - lo).

(* two's complement reduction to i8 (release-mode i8 arithmetic and "as i8" casts) *)
Definition wrap8 (z : Z) : Z := ((z + 128) mod 256 - 128)%Z.

(* i8 multiplication, negation, absolute value in release mode *)
Definition mul8 (x y : Z) : Z := wrap8 (x * y).
Definition neg8 (x : Z) : Z := wrap8 (- x).
Definition abs8 (x : Z) : Z := wrap8 (Z.abs x).
Definition add8 (x y : Z) : Z := wrap8 (x + y).

(* "loop { step }" with fuel: [inl] continues, [inr] leaves the loop.
   The outer option is the fuel, the inner one a panic inside the step. *)
Fixpoint loop {S R} (fuel : nat) (step : S -> option (S + R)) (s : S) : option (option R) :=
  match fuel with
  | 0 => None
  | Datatypes.S k =>
      match step s with
      | None => Some None
      | Some (inr r) => Some (Some r)
      | Some (inl s') => loop k step s'
      end
  end.

(* The loop terminates with result r (r = None: it panics). *)
Definition runs {S R} (step : S -> option (S + R)) (s : S) (r : option R) : Prop :=
  exists fuel, loop fuel step s = Some r.
