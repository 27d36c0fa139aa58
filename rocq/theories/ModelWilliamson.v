(* Model of rust/src/sequences/williamson.rs and the SequenceType enum of symmetries.rs. *)
From Coq Require Import List ZArith Bool Ascii String Arith.
From Verif Require Import Base Quat ModelSequence.
Import ListNotations.
Open Scope nat_scope.

(* williamson.rs:10-13 *)
Inductive Tag := TW | TX | TY | TZ.

(* symmetries.rs:16-18 *)
Inductive SequenceType :=
  Williamson | WilliamsonType | QuaternionType | ItoType | ExtraTypeI | ExtraTypeII | ExtraTypeIII.

(* williamson.rs:26-43 *)
Definition QUADRUPLETS : list (Z * Z * Z * Z) :=
  [ (-1,-1,-1,-1); (1,1,1,1); (1,-1,-1,1); (-1,1,1,-1); (1,1,-1,-1); (-1,-1,1,1); (1,-1,1,-1);
    (-1,1,-1,1); (1,-1,-1,-1); (-1,1,1,1); (1,1,-1,1); (-1,-1,1,-1); (1,1,1,-1); (-1,-1,-1,1);
    (1,-1,1,1); (-1,1,-1,-1) ]%Z.

(* quaternion_to_quad, williamson.rs:45-54 (the table has 16 entries, Q24 has 24) *)
Definition quaternion_to_quad (q : quat) : option (Z * Z * Z * Z) :=
  let* i := position (fun p => quat_eqb p q) Q24 in vget QUADRUPLETS i.

(* williamson.rs:61-67 *)
Record QuadSeq := mkQuad { q_size : nat; q_a : list Z; q_b : list Z; q_c : list Z; q_d : list Z }.

(* QuadSeq::new, williamson.rs:74-82 *)
Definition Quad_new (n : nat) : QuadSeq :=
  mkQuad n (repeat (-1)%Z n) (repeat (-1)%Z n) (repeat (-1)%Z n) (repeat (-1)%Z n).

(* QuadSeq::sequence, williamson.rs:94-101 *)
Definition sequence (q : QuadSeq) (t : Tag) : list Z :=
  match t with TW => q_a q | TX => q_b q | TY => q_c q | TZ => q_d q end.

(* QuadSeq::values, williamson.rs:107-110 *)
Definition values (q : QuadSeq) (i : nat) : option (Z * Z * Z * Z) :=
  let* a := vget (q_a q) i in let* b := vget (q_b q) i in
  let* c := vget (q_c q) i in let* d := vget (q_d q) i in Some (a, b, c, d).

(* QuadSeq::set_all_values, williamson.rs:112-119 *)
Definition set_all_values (q : QuadSeq) (a b c d : list Z) : QuadSeq := mkQuad (q_size q) a b c d.

(* QuadSeq::set_sequence, williamson.rs:121-129 *)
Definition set_sequence (q : QuadSeq) (s : list Z) (t : Tag) : QuadSeq :=
  match t with
  | TW => mkQuad (q_size q) s (q_b q) (q_c q) (q_d q)
  | TX => mkQuad (q_size q) (q_a q) s (q_c q) (q_d q)
  | TY => mkQuad (q_size q) (q_a q) (q_b q) s (q_d q)
  | TZ => mkQuad (q_size q) (q_a q) (q_b q) (q_c q) s
  end.

(* QuadSeq::set_single_value, williamson.rs:131-139 *)
Definition set_single_value (q : QuadSeq) (v : Z) (t : Tag) (i : nat) : option QuadSeq :=
  let* s := vset (sequence q t) i v in Some (set_sequence q s t).

(* QuadSeq::set_sequence_value, williamson.rs:141-148 *)
Definition set_sequence_value (q : QuadSeq) (v : Z * Z * Z * Z) (i : nat) : option QuadSeq :=
  let '(w, x, y, z) := v in
  let* a := vset (q_a q) i w in let* b := vset (q_b q) i x in
  let* c := vset (q_c q) i y in let* d := vset (q_d q) i z in
  Some (mkQuad (q_size q) a b c d).

(* QuadSeq::from_pqs, williamson.rs:151-168 *)
Definition from_pqs (p : QS) : option QuadSeq :=
  let* vs := traverse quaternion_to_quad (qs_values p) in
  Some (set_all_values (Quad_new (qs_size p))
          (map (fun '(w,_,_,_) => w) vs) (map (fun '(_,x,_,_) => x) vs)
          (map (fun '(_,_,y,_) => y) vs) (map (fun '(_,_,_,z) => z) vs)).

(* periodic_autocorrelation, williamson.rs:301-310 (i8 product, isize sum) *)
Definition periodic_autocorrelation (s : list Z) (offset : nat) : option Z :=
  let n := List.length s in
  sum_m (fun i => let* x := vget s i in let* y := vget s ((i + offset) mod n) in Some (mul8 x y))
        (range 0 n).

(* cross_correlation, williamson.rs:313-324.  "i + n - offset" underflows when offset > i + n
   (debug panic; no caller passes offset > n): None. *)
Definition cross_correlation (s1 s2 : list Z) (offset : nat) : option Z :=
  guard (List.length s1 =? List.length s2)
    (let n := List.length s1 in
     sum_m (fun i => guard (offset <=? i + n)
                       (let* x := vget s1 i in let* y := vget s2 ((i + n - offset) mod n) in
                        Some (mul8 x y)))
           (range 0 n)).

(* QuadSeq::is_periodic_complementary, williamson.rs:202-210.  "self.size - 1" underflows for size 0
   (debug panic; a release build loops 2^64 times): None. *)
Definition is_periodic_complementary (q : QuadSeq) : option bool :=
  guard (1 <=? q_size q)
    (all_m (fun o =>
       let* w := periodic_autocorrelation (q_a q) o in
       let* x := periodic_autocorrelation (q_b q) o in
       let* y := periodic_autocorrelation (q_c q) o in
       let* z := periodic_autocorrelation (q_d q) o in
       Some (w + x + y + z =? 0)%Z) (range_incl 1 (q_size q - 1))).

(* short-circuiting && of two equalities whose operands may panic *)
Definition and_m (x : option bool) (y : option bool) : option bool :=
  let* b := x in if b then y else Some false.
Definition eq_m (x y : option Z) : option bool := let* a := x in let* b := y in Some (a =? b)%Z.
Definition sub_m (x y : option Z) : option Z := let* a := x in let* b := y in Some (a - b)%Z.

(* QuadSeq::is_amicable, williamson.rs:212-226 *)
Definition is_amicable (q : QuadSeq) : option bool :=
  all_m (fun o =>
    let cc := fun s t => cross_correlation s t o in
    and_m (eq_m (cc (q_a q) (q_b q)) (cc (q_b q) (q_a q)))
   (and_m (eq_m (cc (q_a q) (q_c q)) (cc (q_c q) (q_a q)))
   (and_m (eq_m (cc (q_a q) (q_d q)) (cc (q_d q) (q_a q)))
   (and_m (eq_m (cc (q_b q) (q_c q)) (cc (q_c q) (q_b q)))
   (and_m (eq_m (cc (q_b q) (q_d q)) (cc (q_d q) (q_b q)))
          (eq_m (cc (q_c q) (q_d q)) (cc (q_d q) (q_c q))))))))
  (range 1 (q_size q)).

(* QuadSeq::verify_cross_correlation, williamson.rs:228-239 *)
Definition verify_cross_correlation (q : QuadSeq) : option bool :=
  all_m (fun o =>
    let cc := fun s t => cross_correlation s t o in
    and_m (eq_m (sub_m (cc (q_a q) (q_b q)) (cc (q_b q) (q_a q)))
                (sub_m (cc (q_d q) (q_c q)) (cc (q_c q) (q_d q))))
   (and_m (eq_m (sub_m (cc (q_a q) (q_c q)) (cc (q_c q) (q_a q)))
                (sub_m (cc (q_b q) (q_d q)) (cc (q_d q) (q_b q))))
          (eq_m (sub_m (cc (q_a q) (q_d q)) (cc (q_d q) (q_a q)))
                (sub_m (cc (q_c q) (q_b q)) (cc (q_b q) (q_c q))))))
  (range 0 (q_size q)).

Definition quad4_eqb (x y : Z * Z * Z * Z) : bool :=
  let '(a1,b1,c1,d1) := x in let '(a2,b2,c2,d2) := y in
  ((a1 =? a2) && (b1 =? b2) && (c1 =? c2) && (d1 =? d2))%Z.

(* QuadSeq::is_symmetric, williamson.rs:241-250 *)
Definition is_symmetric (q : QuadSeq) : option bool :=
  all_m (fun t => let* x := values q t in let* y := values q (q_size q - t) in
                  Some (quad4_eqb x y))
        (range_incl 1 (q_size q / 2)).

(* verify_qts, verify_wts, verify_ws, verify: williamson.rs:171-200 *)
Definition verify_qts (q : QuadSeq) : option bool :=
  and_m (is_periodic_complementary q) (verify_cross_correlation q).
Definition verify_wts (q : QuadSeq) : option bool :=
  and_m (is_periodic_complementary q) (is_amicable q).
Definition verify_ws (q : QuadSeq) : option bool :=
  and_m (is_periodic_complementary q) (is_symmetric q).
Definition verify (q : QuadSeq) (t : SequenceType) : option bool :=
  match t with
  | QuaternionType => verify_qts q
  | WilliamsonType => verify_wts q
  | Williamson => verify_ws q
  | _ => Some false
  end.

(* == on Vec<i8> and on QuadSeq (derive PartialEq, williamson.rs:60) *)
Fixpoint list_eqb (x y : list Z) : bool :=
  match x, y with
  | [], [] => true
  | a :: r, b :: s => (a =? b)%Z && list_eqb r s
  | _, _ => false
  end.
Definition quad_eqb (x y : QuadSeq) : bool :=
  (q_size x =? q_size y) && list_eqb (q_a x) (q_a y) && list_eqb (q_b x) (q_b y) &&
  list_eqb (q_c x) (q_c y) && list_eqb (q_d x) (q_d y).

(* QuadSeq::has_duplicate_seq, williamson.rs:252-259 *)
Definition has_duplicate_seq (q : QuadSeq) : bool :=
  list_eqb (q_a q) (q_b q) || list_eqb (q_a q) (q_c q) || list_eqb (q_a q) (q_d q) ||
  list_eqb (q_b q) (q_c q) || list_eqb (q_b q) (q_d q) || list_eqb (q_c q) (q_d q).

(* the match of QuadSeq::to_qs, williamson.rs:271-289: index into QPLUS *)
Definition to_qs_index (v : Z * Z * Z * Z) : option nat :=
  match v with
  | (1,1,1,1) => Some 1%nat | (1,1,1,-1) => Some 12%nat | (1,1,-1,1) => Some 10%nat | (1,1,-1,-1) => Some 4%nat
  | (1,-1,1,1) => Some 14%nat | (1,-1,1,-1) => Some 6%nat | (1,-1,-1,1) => Some 2%nat | (1,-1,-1,-1) => Some 8%nat
  | (-1,1,1,1) => Some 9%nat | (-1,1,1,-1) => Some 3%nat | (-1,1,-1,1) => Some 7%nat | (-1,1,-1,-1) => Some 15%nat
  | (-1,-1,1,1) => Some 5%nat | (-1,-1,1,-1) => Some 11%nat | (-1,-1,-1,1) => Some 13%nat
  | (-1,-1,-1,-1) => Some 0%nat
  | _ => None
  end%Z.

(* QuadSeq::to_qs, williamson.rs:266-293 *)
Definition to_qs (q : QuadSeq) : option QS :=
  fold_m (fun qs i =>
            let* v := values q i in
            let* k := to_qs_index v in
            let* p := vget QPLUS k in
            QS_set_value qs p i)
         (range 0 (q_size q)) (QS_new (q_size q) None).
