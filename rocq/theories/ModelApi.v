(* Model of the remaining functions on sequences which no command calls: QS::set_values of
   sequences/sequence.rs, the iterator of QuadSeq of sequences/williamson.rs, and equals and contains
   of find/find_unique.rs. *)
From Coq Require Import List ZArith Bool Arith.
From Verif Require Import Base Quat ModelSequence ModelWilliamson.
Import ListNotations.
Open Scope nat_scope.

(* QS::set_values, sequence.rs:72-75: the field size keeps its value *)
Definition QS_set_values (q : QS) (values : list quat) : QS := mkQS (qs_size q) values (qs_symmetry q).

(* IntoIterator for QuadSeq, williamson.rs:356-363: the iterator as the list of what it yields *)
Definition Quad_into_iter (q : QuadSeq) : list Z :=
  ((sequence q TW ++ sequence q TX) ++ sequence q TY) ++ sequence q TZ.

(* equals, find_unique.rs:12-19 *)
Definition equals (seq1 seq2 : list Z) : option bool :=
  all_m (fun index => let* x := vget seq1 index in let* y := vget seq2 index in Some (Z.eqb x y))
    (range 0 (List.length seq1)).

(* "a && b" where the evaluation of b may panic *)
Definition and_m (a : option bool) (b : option bool) : option bool :=
  let* x := a in if x then b else Some false.

(* contains, find_unique.rs:23-32 *)
Definition contains (set : list QuadSeq) (q : QuadSeq) : option bool :=
  any_m (fun elm =>
    and_m (and_m (and_m (equals (q_a q) (q_a elm)) (equals (q_b q) (q_b elm))) (equals (q_c q) (q_c elm))) (equals (q_d q) (q_d elm))) set.
