(* Independent specification of the assertions of a debug build. *)
From Coq Require Import List ZArith Bool Arith.
From Verif Require Import Base ModelSequence ModelWilliamson ModelEquivalence ModelDebug SpecEquiv Spec.
Import ListNotations.
Open Scope nat_scope.

(* the quadruples whose type an operation asserts: the variants it produces, except that the half shifts
   of an even length assert the type of their argument *)
Definition asserted (o : Op) (q y : QuadSeq) : Prop :=
  match o with
  | DualHalfShift | SingleHalfShift => Nat.even (q_size q) = true /\ y = q
  | _ => exists w, In w (variants o (q_size q)) /\ y = wact w q
  end.

(* the fourteen operations of a debug build *)
Definition debug_op (o : Op) : DebugOp :=
  match o with
  | NegateSwap => debug_negate_swap
  | Reorder => debug_reorder
  | DoubleReorder => debug_double_reorder
  | UniformHalfShift => debug_uniform_half_shift
  | UniformShift => debug_uniform_shift
  | DualHalfShift => debug_dual_half_shift
  | SingleHalfShift => debug_single_half_shift
  | Reverse => debug_reverse
  | Negate => debug_negate
  | DoubleNegate => debug_double_negate
  | AlternatedNegation => debug_alternated_negation
  | EvenAlternatedNegation => debug_even_alternated_negation
  | Automorphism => debug_automorphism
  | DisjointSwaps => debug_disjoint_swaps
  end.
