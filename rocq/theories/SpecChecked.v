(* Independent specification of the overflow checks of a debug build. *)
From Coq Require Import List ZArith Bool Arith.
From Verif Require Import Base Sums ModelSequence ModelWilliamson ModelEquivalence ModelDebug ModelChecked SpecDebug SpecEquiv Spec.
Import ListNotations.
Open Scope nat_scope.

(* the operations of such a build *)
Definition checked_op (o : Op) : DebugOp :=
  match o with
  | NegateSwap => checked_negate_swap
  | Negate => checked_negate
  | DoubleNegate => checked_double_negate
  | AlternatedNegation => checked_alternated_negation
  | EvenAlternatedNegation => checked_even_alternated_negation
  | _ => debug_op o
  end.

(* the entries of a quadruple that an operation negates in one of its variants *)
Definition negates (o : Op) (q : QuadSeq) (x : Z) : Prop :=
  match o with
  | NegateSwap | Negate | DoubleNegate => exists t, In x (slot q t)
  | AlternatedNegation => exists t i, nth_error (slot q t) i = Some x /\ Nat.odd i = true
  | EvenAlternatedNegation => Nat.even (q_size q) = true /\ exists t i, nth_error (slot q t) i = Some x /\ Nat.odd i = true
  | _ => False
  end.

(* the sum of the first k products of two rows *)
Definition partial_dot (x y : list Z) (k : nat) : Z := sumZ k (fun i => nth i x 0 * nth i y 0)%Z.
