(* Independent specification of the equivalence operations: each documented operation is a list of
   words over elementary transformations of a quadruple.  Nothing here refers to the model's
   functions; only the data type of quadruples and two's complement negation are shared. *)
From Coq Require Import List ZArith Bool Arith Relations.
From Verif Require Import Base Sums ModelSequence ModelWilliamson Spec.
Import ListNotations.
Open Scope Z_scope.

Definition i8 (x : Z) : Prop := -128 <= x <= 127.
(* a quadruple of length n with i8 entries *)
Definition i8_quad (n : nat) (q : QuadSeq) : Prop :=
  wf n q /\ Forall i8 (q_a q) /\ Forall i8 (q_b q) /\ Forall i8 (q_c q) /\ Forall i8 (q_d q).

(* transformations of one sequence *)
Inductive lop :=
  | Rot (k : nat)   (* new[i] = old[i+k], indices modulo the length *)
  | Dil (k : nat)   (* new[i] = old[i*k] *)
  | Alt             (* new[i] = -old[i] for odd i *)
  | Rev             (* new[i] = old[n-1-i] *)
  | Neg.            (* new[i] = -old[i] *)

Definition lidx (f : lop) (n : nat) (i : Z) : Z :=
  match f with
  | Rot k => i + Z.of_nat k
  | Dil k => i * Z.of_nat k
  | Rev => Z.of_nat n - 1 - i
  | Alt | Neg => i
  end.
Definition lneg (f : lop) (i : Z) : bool :=
  match f with Alt => Z.odd i | Neg => true | _ => false end.
Definition sneg (b : bool) (x : Z) : Z := if b then neg8 x else x.
Definition lact (f : lop) (l : list Z) : list Z :=
  map (fun i => sneg (lneg f (Z.of_nat i)) (entry l (lidx f (length l) (Z.of_nat i)))) (seq 0 (length l)).

(* transformations of a quadruple *)
Inductive gen :=
  | All (f : lop)          (* f applied to all four sequences *)
  | At (t : Tag) (f : lop) (* f applied to the sequence t *)
  | Ex (s t : Tag).        (* the sequences s and t exchanged *)

Definition slot (q : QuadSeq) (t : Tag) : list Z :=
  match t with TW => q_a q | TX => q_b q | TY => q_c q | TZ => q_d q end.
Definition tag_eq (s t : Tag) : bool :=
  match s, t with TW, TW | TX, TX | TY, TY | TZ, TZ => true | _, _ => false end.
(* the quadruple whose sequence t is f t *)
Definition of_slots (n : nat) (f : Tag -> list Z) : QuadSeq := mkQuad n (f TW) (f TX) (f TY) (f TZ).
Definition exchange (s t u : Tag) : Tag := if tag_eq u s then t else if tag_eq u t then s else u.

Definition gact (g : gen) (q : QuadSeq) : QuadSeq :=
  of_slots (q_size q) (fun u =>
    match g with
    | All f => lact f (slot q u)
    | At t f => if tag_eq u t then lact f (slot q u) else slot q u
    | Ex s t => slot q (exchange s t u)
    end).
(* the generators of a word are applied from left to right *)
Definition word := list gen.
Definition wact (w : word) (q : QuadSeq) : QuadSeq := fold_left (fun q g => gact g q) w q.

(* the fourteen operations of the module *)
Inductive Op :=
  | NegateSwap | Reorder | DoubleReorder | UniformHalfShift | UniformShift | DualHalfShift
  | SingleHalfShift | Reverse | Negate | DoubleNegate | AlternatedNegation | EvenAlternatedNegation
  | Automorphism | DisjointSwaps.

Definition all_tags : list Tag := [TW; TX; TY; TZ].
Definition all_pairs : list (Tag * Tag) := [(TW,TX); (TW,TY); (TW,TZ); (TX,TY); (TX,TZ); (TY,TZ)].

(* the variants an operation produces for quadruples of length n, besides the quadruple itself *)
Definition variants (o : Op) (n : nat) : list word :=
  match o with
  | NegateSwap => map (fun '((s, t), u) => [At u Neg; Ex s t]) (list_prod all_pairs all_tags)
  | Reorder => map (fun '(s, t) => [Ex s t]) all_pairs
  | DoubleReorder => map (fun '((s, t), (s', t')) => [Ex s t; Ex s' t']) (list_prod all_pairs all_pairs)
  | UniformHalfShift | SingleHalfShift =>
      if Nat.even n then map (fun t => [At t (Rot (n / 2))]) all_tags else []
  | UniformShift => map (fun k => [All (Rot k)]) (seq 1 (n - 1))
  | DualHalfShift =>
      if Nat.even n
      then [All (Rot (n / 2))] :: map (fun '(s, t) => [At s (Rot (n / 2)); At t (Rot (n / 2))]) all_pairs
      else []
  | Reverse => [[All Rev]]
  | Negate => map (fun t => [At t Neg]) all_tags
  | DoubleNegate => map (fun '(s, t) => [At s Neg; At t Neg]) all_pairs
  | AlternatedNegation => [[All Alt]]
  | EvenAlternatedNegation => if Nat.even n then [[All Alt]] else []
  | Automorphism => map (fun k => [All (Dil k)]) (filter (fun k => Nat.gcd n k =? 1)%nat (seq 1 n))
  | DisjointSwaps => [[Ex TW TX; Ex TY TZ]; [Ex TW TY; Ex TX TZ]; [Ex TW TZ; Ex TX TY]]
  end.

(* y is q itself or one of the documented variants of q *)
Definition variant (o : Op) (q y : QuadSeq) : Prop :=
  y = q \/ exists w, In w (variants o (q_size q)) /\ y = wact w q.

(* y is reachable from x by finitely many applications of the operations ops *)
Definition reach (ops : list Op) : relation QuadSeq :=
  clos_refl_trans _ (fun x y => exists o, In o ops /\ variant o x y).

(* the operations under which each type is considered *)
Definition type_ops (t : SequenceType) : list Op :=
  match t with
  | QuaternionType => [UniformShift; EvenAlternatedNegation; Automorphism; NegateSwap; DualHalfShift]
  | WilliamsonType => [Negate; UniformShift; Reorder; EvenAlternatedNegation; Automorphism; SingleHalfShift]
  | Williamson => [Negate; Reorder; EvenAlternatedNegation; Automorphism; SingleHalfShift]
  | _ => []
  end.

(* same set, whatever the order *)
Definition same_set (l m : list QuadSeq) : Prop := forall x, In x l <-> In x m.

(* lexicographic order: the four sequences one after the other *)
Definition flat (q : QuadSeq) : list Z := q_a q ++ q_b q ++ q_c q ++ q_d q.
Inductive lex : list Z -> list Z -> Prop :=
  | lex_here x y l m : x < y -> lex (x :: l) (y :: m)
  | lex_later x l m : lex l m -> lex (x :: l) (x :: m).
Definition quad_lt (x y : QuadSeq) : Prop := lex (flat x) (flat y).
Definition quad_le (x y : QuadSeq) : Prop := x = y \/ quad_lt x y.
(* m is the least element of the set P *)
Definition least (P : QuadSeq -> Prop) (m : QuadSeq) : Prop := P m /\ forall y, P y -> quad_le m y.
