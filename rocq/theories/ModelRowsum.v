(* Model of rust/src/sequences/rowsum.rs and of filter_by_rowsums in equivalence.rs.

   isize and usize are 64-bit.  Sums, squares and counts are modelled by unbounded integers: they are
   bounded by a few times the sequence length or the argument p.  The conversion "as usize" of a count
   that can be negative (rowsum.rs:66) wraps, and is modelled as such. *)
From Coq Require Import List ZArith Bool Arith Ascii.
From Verif Require Import Base Quat ModelSequence ModelWilliamson ModelEquivalence.
Import ListNotations.
Open Scope Z_scope.

(* rowsum.rs:10 *)
Definition Quad : Type := Z * Z * Z * Z.

(* quad_contains_zero, rowsum.rs:12-14 *)
Definition quad_contains_zero (q : Quad) : bool :=
  let '(a, b, c, d) := q in (a =? 0) || (b =? 0) || (c =? 0) || (d =? 0).
(* quad_contains_dup, rowsum.rs:16-18 *)
Definition quad_contains_dup (q : Quad) : bool :=
  let '(a, b, c, d) := q in
  (a =? b) || (a =? c) || (a =? d) || (b =? c) || (b =? d) || (c =? d).

(* sequence_to_string, rowsum.rs:20-33 *)
Definition plus_char : ascii := "+"%char.
Definition minus_char : ascii := "-"%char.
Definition sequence_to_string (seq : list Z) : option (list ascii) :=
  traverse (fun i => if i =? 1 then Some plus_char else if i =? -1 then Some minus_char else None) seq.

(* rowsum, rowsum.rs:37-40 *)
Definition rowsum (seq : list Z) : Z := fold_left Z.add seq 0.

(* has_sorted_rowsums, rowsum.rs:43-51 *)
Definition has_sorted_rowsums (q : QuadSeq) : bool :=
  let '(a, b, c, d) := (rowsum (sequence q TW), rowsum (sequence q TX), rowsum (sequence q TY), rowsum (sequence q TZ)) in
  if quad_contains_dup (a, b, c, d) || quad_contains_zero (a, b, c, d)
  then (0 <=? a) && (a <=? b) && (b <=? c) && (c <=? d)
  else (0 <=? a) && (a <=? b) && (b <=? c) && (c <=? Z.abs d).

(* filter_by_rowsums, equivalence.rs:265-267 *)
Definition filter_by_rowsums (sequences : list QuadSeq) : list QuadSeq := filter has_sorted_rowsums sequences.

(* gen_seq_rec, rowsum.rs:70-94.  seq is a &mut that is restored before returning, so it is passed by
   value here; remaining_ones is a usize.  The recursion depth is at most size + 1. *)
Fixpoint gen_seq_rec (fuel : nat) (seq : list Z) (remaining_ones : Z) (current_pos : nat) : option (list (list Z)) :=
  match fuel with
  | O => None
  | S k =>
      if remaining_ones =? 0 then Some [seq]
      else if Z.of_nat (List.length seq) <? Z.of_nat current_pos + remaining_ones then Some []
      else
        let* results2 := gen_seq_rec k seq remaining_ones (current_pos + 1) in
        let* seq1 := vset seq current_pos 1 in
        let* results1 := gen_seq_rec k seq1 (remaining_ones - 1) (current_pos + 1) in
        Some (results1 ++ results2)
  end.

(* "as usize" *)
Definition as_usize (z : Z) : Z := z mod 2 ^ 64.

(* generate_sequences_with_rowsum, rowsum.rs:53-68 *)
Definition generate_sequences_with_rowsum (rowsum : Z) (size : nat) : option (list (list Z)) :=
  if negb (as_usize (Z.rem (Z.abs rowsum) 2) =? Z.of_nat size mod 2) then Some []
  else
    let nb_ones := Z.quot (Z.of_nat size + rowsum) 2 in
    gen_seq_rec (size + 1) (repeat (-1) size) (as_usize nb_ones) 0.

(* square_sum, rowsum.rs:101-103 *)
Definition square_sum (s : Quad) : Z := let '(a, b, c, d) := s in a * a + b * b + c * c + d * d.

(* increment_squares, rowsum.rs:105-131 *)
Definition increment_squares (s : Quad) (bound : Z) : Quad :=
  let '(a, b, c, d) := s in
  let s := (a, b, c, d + 1) in
  if square_sum s <=? bound then s else
  let s := (a, b, c + 1, c + 1) in
  if square_sum s <=? bound then s else
  let s := (a, b + 1, b + 1, b + 1) in
  if square_sum s <=? bound then s else
  (a + 1, a + 1, a + 1, a + 1).

(* sum_of_four_squares, rowsum.rs:135-151: the loop body on (squares, squares_list) *)
Definition squares_step (p : Z) (st : Quad * list Quad) : option ((Quad * list Quad) + list Quad) :=
  let '(s, l) := st in
  let '(a, _, _, _) := s in
  if a * a <=? p then
    let l := if square_sum s =? p then l ++ [s] else l in
    Some (inl (increment_squares s p, l))
  else Some (inr l).
Definition sum_of_four_squares (fuel : nat) (p : Z) : option (list Quad) :=
  run fuel (squares_step p) ((0, 0, 0, 0), []).

(* generate_rowsums, rowsum.rs:280-303 *)
Definition generate_rowsums (fuel : nat) (p : nat) (t : SequenceType) : option (list Quad) :=
  let* quads := sum_of_four_squares fuel (4 * Z.of_nat p) in
  let parity := Z.of_nat p mod 2 in
  Some (fold_left (fun total elm =>
    let '(a, b, c, d) := elm in
    if (parity =? Z.rem a 2) && (parity =? Z.rem b 2) && (parity =? Z.rem c 2) && (parity =? Z.rem d 2) then
      let total := total ++ [elm] in
      if negb (a =? 0) && negb (a =? b) && negb (b =? c) && negb (c =? d)
         && match t with QuaternionType => true | _ => false end
      then total ++ [(a, b, c, - d)] else total
    else total) quads []).

(* swap, rowsum.rs:186-217, for the index pairs used (all below 4) *)
Definition quad_get (q : Quad) (i : nat) : option Z :=
  let '(a, b, c, d) := q in
  match i with 0%nat => Some a | 1%nat => Some b | 2%nat => Some c | 3%nat => Some d | _ => None end.
Definition quad_set (q : Quad) (i : nat) (x : Z) : option Quad :=
  let '(a, b, c, d) := q in
  match i with
  | 0%nat => Some (x, b, c, d) | 1%nat => Some (a, x, c, d) | 2%nat => Some (a, b, x, d) | 3%nat => Some (a, b, c, x)
  | _ => None
  end.
Definition quad_swap (q : Quad) (i1 i2 : nat) : option Quad :=
  let* val1 := quad_get q i1 in
  let* val2 := quad_get q i2 in
  let* q := quad_set q i1 val2 in
  quad_set q i2 val1.

(* better_than, rowsum.rs:219-235 *)
Definition better_than (q1 q2 : Quad) : bool :=
  let '(a, b, c, d) := q1 in
  let '(a', b', c', d') := q2 in
  if a <? a' then true else if a' <? a then false else
  if b <? b' then true else if b' <? b then false else
  if c <? c' then true else if c' <? c then false else
  if d <? d' then true else false.

(* equivalent, rowsum.rs:237-276 *)
Definition equivalent (quad : Quad) (t : SequenceType) : option Quad :=
  if match t with QuaternionType => false | _ => true end || quad_contains_zero quad || quad_contains_dup quad then
    let '(a, b, c, d) := quad in
    let* v := fold_m (fun v i =>
        let* min_ind := fold_m (fun min_ind j =>
            let* x := vget v j in let* y := vget v min_ind in
            Some (if x <? y then j else min_ind)) (range (i + 1) 4) i in
        if negb (Nat.eqb min_ind i) then
          let* temp := vget v i in
          let* m := vget v min_ind in
          let* v := vset v i m in
          vset v min_ind temp
        else Some v) (range 0 3) [a; b; c; d] in
    let* a := vget v 0 in let* b := vget v 1 in let* c := vget v 2 in let* d := vget v 3 in
    Some (a, b, c, d)
  else
    fold_m (fun final swaps =>
        let '(i, j, k, l) := swaps in
        let* test := quad_swap quad i j in
        let* test := quad_swap test k l in
        Some (if better_than test final then test else final))
      [(0,1,0,1); (0,1,0,2); (0,1,0,3); (0,1,1,2); (0,1,1,3); (0,1,2,3); (0,2,0,3); (0,2,1,3); (0,2,2,3);
       (0,3,1,2); (1,2,2,3); (1,3,3,2)]%nat quad.
