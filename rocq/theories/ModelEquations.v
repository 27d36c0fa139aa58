(* Model of rust/src/sequences/equations.rs: pseudo-Boolean equations for the two sequences that are
   missing from a quadruple, as the text that is returned.  isize and usize are unbounded; i8 arithmetic
   wraps as in a release build. *)
From Coq Require Import Ascii String List ZArith Bool Arith.
From Verif Require Import Base ModelSequence ModelWilliamson ModelEquivalence ModelRowsum ModelWrite.
Import ListNotations.
Notation length := List.length.
Open Scope nat_scope.

(* OpType and AddType, equations.rs:5-11 *)
Inductive OpType := LeftPlus | LeftMinus | RightPlus | RightMinus.
Inductive AddType := Plus | Minus.

Definition nl : text := [ascii_of_nat 10].
(* to_string of a usize *)
Definition num (k : nat) : text := usize_to_string (Z.of_nat k).

(* ---- linear equations ---- *)

(* i8 subtraction in release mode *)
Definition sub8 (x y : Z) : Z := wrap8 (x - y).

(* the two indices of op_left_plus to op_right_minus, equations.rs:84-97.  n > 0 wherever these are
   called (inside "for t in 0..n") and t < n, so that the subtraction does not underflow. *)
Definition back (s : list Z) (k t n : nat) : option Z := vget s ((k + n - t) mod n).
Definition ahead (s : list Z) (k t n : nat) : option Z := vget s ((k + t) mod n).
(* op_left_plus, op_right_plus, op_left_minus, op_right_minus, equations.rs:84-97 *)
Definition op_at (o : OpType) (s : list Z) (k t n : nat) : option Z :=
  match o with
  | LeftPlus => let* x := back s k t n in let* y := ahead s k t n in Some (add8 x y)
  | RightPlus => let* x := ahead s k t n in let* y := back s k t n in Some (add8 x y)
  | LeftMinus => let* x := back s k t n in let* y := ahead s k t n in Some (sub8 x y)
  | RightMinus => let* x := ahead s k t n in let* y := back s k t n in Some (sub8 x y)
  end.

(* generate_equation_from, equations.rs:151-185.  The state is (result, variable_counter,
   all_zero_coeff). *)
Definition generate_equation_from (coefficients : list Z) (rightside_value : Z) : text :=
  let '(result, _, all_zero_coeff) :=
    fold_left (fun '(result, variable_counter, all_zero_coeff) elm =>
      let '(result, all_zero_coeff) :=
        if (0 <? elm)%Z
        then ((if negb all_zero_coeff then result ++ lit "+" else result)
                ++ isize_to_string elm ++ lit " x" ++ num variable_counter ++ lit " ", false)
        else (result, all_zero_coeff) in
      let '(result, all_zero_coeff) :=
        if (elm <? 0)%Z
        then (result ++ isize_to_string elm ++ lit " x" ++ num variable_counter ++ lit " ", false)
        else (result, all_zero_coeff) in
      (result, variable_counter + 1, all_zero_coeff)) coefficients ([], 1, true) in
  if all_zero_coeff then [] else result ++ lit "= " ++ isize_to_string rightside_value ++ lit ";" ++ nl.

(* equations_crosscorrelation, equations.rs:101-148.  The vector values is overwritten in every
   round of the loop: it is built anew here. *)
Definition equations_crosscorrelation (seq1 : list Z) (op_type1 : OpType) (seq2 : list Z) (op_type2 : OpType)
    (add_type : AddType) : option text :=
  let n := length seq1 in
  fold_m (fun result t =>
    let* values1 := vbuild n (fun k => op_at op_type1 seq1 k t n) in
    let* values2 := vbuild n (fun k => let* v := op_at op_type2 seq2 k t n in
                                       Some (match add_type with Plus => v | Minus => neg8 v end)) in
    let values := values1 ++ values2 in
    let rightside_value := fold_left (fun r v => (r + Z.quot v 2)%Z) values 0%Z in
    Some (result ++ generate_equation_from values rightside_value)) (range 0 n) [].

(* equations_rowsum, equations.rs:190-203 *)
Definition equations_rowsum (n : nat) (rs1 rs2 : Z) : option text :=
  let* (coeff1, coeff2) := fold_m (fun '(coeff1, coeff2) i =>
      let* coeff1 := vset coeff1 i 2%Z in
      let* coeff2 := vset coeff2 (2 * n - 1 - i) 2%Z in
      Some (coeff1, coeff2)) (range 0 n) (repeat 0%Z (2 * n), repeat 0%Z (2 * n)) in
  Some (generate_equation_from coeff1 (rs1 + Z.of_nat n) ++ generate_equation_from coeff2 (rs2 + Z.of_nat n)).

(* ---- quadratic equations ---- *)

(* the loop "for index in 1..=size" with the plus sign before every block but the first,
   equations.rs:227-244 and 350-359 *)
Definition blocks (size : nat) (block : nat -> text) : text :=
  fst (fold_left (fun '(result, first_time) index =>
         ((if negb first_time then result ++ lit "+" else result) ++ block index, false))
       (range_incl 1 size) ([], true)).

(* the text of equations.rs:234-238, 299-303, 312-316 and 325-329:
   4 times a product of two variables and -2 times each, in the three ways they are signed *)
Definition product_plain (i j : nat) : text :=
  lit "4 x" ++ num i ++ lit " x" ++ num j ++ lit " " ++ lit "-2 x" ++ num i ++ lit " -2 x" ++ num j ++ lit " ".
Definition product_minus (i j : nat) : text :=
  lit "-4 x" ++ num i ++ lit " x" ++ num j ++ lit " " ++ lit "+2 x" ++ num i ++ lit " +2 x" ++ num j ++ lit " ".

(* generate_equation_autocorrelation, equations.rs:224-247 *)
Definition generate_equation_autocorrelation (size offset : nat) (rightside_value : Z) : text :=
  blocks size (fun index =>
    let index_offset := (index + offset) mod size in
    product_plain index index_offset ++ lit "+" ++ product_plain (index + size) (index_offset + size))
  ++ lit "= " ++ isize_to_string (rightside_value - 2 * Z.of_nat size) ++ lit ";" ++ nl.

(* equations_autocorrelation, equations.rs:211-222 *)
Definition equations_autocorrelation (seq1 seq2 : list Z) : option text :=
  let n := length seq1 in
  fold_m (fun result offset =>
    let* r1 := periodic_autocorrelation seq1 offset in
    let* r2 := periodic_autocorrelation seq2 offset in
    Some (result ++ generate_equation_autocorrelation n offset (- (r1 + r2))%Z)) (range 1 n) [].

(* op_minus and op_plus, equations.rs:256-262 *)
Definition op_minus (seqa seqb : list Z) (offset : nat) : option Z :=
  let* x := cross_correlation seqa seqb offset in
  let* y := cross_correlation seqa seqb offset in Some (x - y)%Z.
Definition op_plus (seqa seqb : list Z) (offset : nat) : option Z :=
  let* x := cross_correlation seqa seqb offset in
  let* y := cross_correlation seqa seqb offset in Some (x + y)%Z.

(* generator_left_minus, generator_right_minus, generator_plus, equations.rs:295-332 *)
Definition line_generator (o : OpType) (index offset size : nat) : text :=
  let index_offset := (index + offset) mod size in
  match o with
  | LeftMinus => product_plain index (index_offset + size) ++ product_minus (index + size) index_offset
  | RightMinus => product_plain (index + size) index_offset ++ product_minus index (index_offset + size)
  | LeftPlus | RightPlus =>
      product_plain index (index_offset + size) ++ lit "+" ++ product_plain (index + size) index_offset
  end.

(* generate_equation_non_linear_crosscorrelation, equations.rs:338-363 *)
Definition generate_equation_non_linear_crosscorrelation (size offset : nat) (op_type : OpType) (rightside_value : Z)
    : text :=
  blocks size (fun index => line_generator op_type index offset size)
  ++ lit "= " ++ isize_to_string rightside_value ++ lit ";" ++ nl.

(* equations_nonlinear_crosscorrelation, equations.rs:266-290 *)
Definition equations_nonlinear_crosscorrelation (seq1 seq2 : list Z) (op_type1 op_type2 : OpType) (add_type : AddType)
    : option text :=
  let n := length seq1 in
  let op := match op_type1 with
            | LeftPlus | RightPlus => fun s1 s2 offset => op_plus s1 s2 offset
            | LeftMinus => fun s1 s2 offset => op_minus s1 s2 offset
            | RightMinus => fun s1 s2 offset => op_minus s2 s1 offset
            end in
  let op2 := match add_type with Minus => fun x => (- x)%Z | Plus => fun x : Z => x end in
  fold_m (fun result offset =>
    let* v := op seq1 seq2 offset in
    let rightside_value := op2 (- v)%Z in
    Some (result ++ generate_equation_non_linear_crosscorrelation n offset op_type2 (- rightside_value)%Z))
    (range 1 n) [].

(* ---- the whole system ---- *)

(* additional_comment, equations.rs:368-370 *)
Definition additional_comment (tag1 tag2 : Tag) : text :=
  nl ++ lit "* x1 ... xn is " ++ tag_to_string tag1 ++ lit ", xn+1 ... x2n is " ++ tag_to_string tag2 ++ nl.

(* the five parts of one arm of the match, equations.rs:31-73 *)
Definition arm (n : nat) (tag1 tag2 : Tag) (cross1 cross2 nonlinear : option text) (rs1 rs2 : Z) : option text :=
  let* c1 := cross1 in
  let* c2 := cross2 in
  let* q := nonlinear in
  let* r := equations_rowsum n rs1 rs2 in
  Some (additional_comment tag1 tag2 ++ c1 ++ c2 ++ q ++ r).

(* equations_williamson_type, equations.rs:26-79 *)
Definition equations_williamson_type (seq1 : list Z) (tag1 : Tag) (seq2 : list Z) (tag2 : Tag) (rowsum : Quad)
    : option text :=
  let n := length seq1 in
  let '(rs0, rs1, rs2, rs3) := rowsum in
  let cross := fun s o s' o' => equations_crosscorrelation s o s' o' Plus in
  let nonlin := fun o o' => equations_nonlinear_crosscorrelation seq1 seq2 o o' Plus in
  let* result :=
    match tag1, tag2 with
    | TW, TX => arm n TZ TY (cross seq1 RightMinus seq2 LeftMinus) (cross seq2 RightMinus seq1 RightMinus)
                  (nonlin LeftMinus LeftMinus) rs3 rs2
    | TW, TY => arm n TZ TX (cross seq1 RightMinus seq2 RightMinus) (cross seq2 RightMinus seq1 LeftMinus)
                  (nonlin RightMinus LeftMinus) rs3 rs1
    | TW, TZ => arm n TX TY (cross seq2 LeftMinus seq1 RightMinus) (cross seq1 LeftMinus seq2 LeftMinus)
                  (nonlin RightMinus LeftMinus) rs1 rs2
    | TX, TY => arm n TZ TW (cross seq1 RightMinus seq2 LeftMinus) (cross seq2 RightMinus seq1 RightMinus)
                  (nonlin LeftMinus LeftMinus) rs3 rs0
    | TX, TZ => arm n TW TY (cross seq2 LeftMinus seq1 LeftMinus) (cross seq1 RightMinus seq2 LeftMinus)
                  (nonlin RightMinus RightMinus) rs0 rs2
    | TY, TZ => arm n TW TX (cross seq2 LeftMinus seq1 RightMinus) (cross seq1 LeftMinus seq2 LeftMinus)
                  (nonlin RightMinus LeftMinus) rs0 rs1
    | _, _ => None
    end in
  let* auto := equations_autocorrelation seq1 seq2 in
  Some (result ++ auto).

(* generate_equations, equations.rs:14-23 *)
Definition generate_equations (seq1 : list Z) (tag1 : Tag) (seq2 : list Z) (tag2 : Tag) (seqtype : SequenceType)
    (rowsum : Quad) : option text :=
  match seqtype with
  | QuaternionType => equations_williamson_type seq1 tag1 seq2 tag2 rowsum
  | _ => None
  end.
