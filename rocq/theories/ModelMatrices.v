(* Model of rust/src/sequences/matrices.rs: quaternionic matrices (QHM) and +-1 matrices (HM).
   A Vec<Vec<T>> is the list of its rows.  Quaternions are exact (see Quat.v). *)
From Coq Require Import List ZArith QArith Qcanon Qabs Bool Arith Ascii String.
From Verif Require Import Base Quat ModelSequence ModelWilliamson.
Import ListNotations.
Open Scope nat_scope.

(* m[i][j] and m[i][j] = x *)
Definition mget {A} (m : list (list A)) (i j : nat) : option A := let* r := vget m i in vget r j.
Definition mset {A} (m : list (list A)) (i j : nat) (x : A) : option (list (list A)) :=
  let* r := vget m i in let* r' := vset r j x in vset m i r'.
(* vec![vec![x; n]; n] *)
Definition mconst {A} (n : nat) (x : A) : list (list A) := repeat (repeat x n) n.
(* "for i in 0..n { body }" *)
Definition for_m {A} (n : nat) (body : A -> nat -> option A) (acc : A) : option A := fold_m body (range 0 n) acc.

(* ---- QHM ---- *)
(* matrices.rs:7-10 *)
Record QHM := mkQHM { qhm_size : nat; qhm_matrix : list (list quat) }.

(* QHM::new, matrices.rs:15-21 *)
Definition QHM_new (size : nat) : QHM := mkQHM size (mconst size Q1).
(* QHM::get, row, col, matrices.rs:24-40 *)
Definition QHM_get (h : QHM) (i j : nat) : option quat := mget (qhm_matrix h) i j.
Definition QHM_row (h : QHM) (i : nat) : option (list quat) := vget (qhm_matrix h) i.
Definition QHM_col (h : QHM) (j : nat) : option (list quat) :=
  vbuild (qhm_size h) (fun i => mget (qhm_matrix h) i j).

(* QHM::from_pqs, matrices.rs:46-61 *)
Definition QHM_from_pqs (pqs : QS) : option QHM :=
  let size := qs_size pqs in
  let* matrix := vbuild size (fun row => vbuild size (fun col => vget (qs_values pqs) ((col + size - row) mod size))) in
  Some (mkQHM size matrix).

(* the second pass of dephase and dephased, matrices.rs:78-84, 98-104 *)
Definition qhm_dephase_rows (size : nat) (m : list (list quat)) : option (list (list quat)) :=
  for_m size (fun m row => for_m size (fun m inv_col =>
    let col := size - 1 - inv_col in
    let* x := mget m row 0 in let* y := mget m row col in
    mset m row col (qmul (qconj x) y)) m) m.

(* QHM::dephase, matrices.rs:70-85 *)
Definition QHM_dephase (h : QHM) : option QHM :=
  let size := qhm_size h in
  let* m := for_m size (fun m col => for_m size (fun m inv_row =>
    let row := size - 1 - inv_row in
    let* x := mget m row col in let* y := mget m 0 col in
    mset m row col (qmul x (qconj y))) m) (qhm_matrix h) in
  let* m := qhm_dephase_rows size m in
  Some (mkQHM size m).

(* QHM::dephased, matrices.rs:88-107 *)
Definition QHM_dephased (h : QHM) : option QHM :=
  let size := qhm_size h in
  let* m := for_m size (fun m col => for_m size (fun m inv_row =>
    let row := size - 1 - inv_row in
    let* x := mget (qhm_matrix h) row col in let* y := mget (qhm_matrix h) 0 col in
    mset m row col (qmul x (qconj y))) m) (mconst size Q0) in
  let* m := qhm_dephase_rows size m in
  Some (mkQHM size m).

(* QHM::contains_non_commuting_elements, matrices.rs:110-137.  The loops are flattened into one loop
   over the index pairs in the same order; the state is the list of elements met so far. *)
Fixpoint non_commuting_from (h : QHM) (cells : list (nat * nat)) (unique_elements : list quat) : option bool :=
  match cells with
  | [] => Some false
  | (i, j) :: rest =>
      let* new := QHM_get h i j in
      if existsb (fun e => quat_eqb e new) unique_elements then non_commuting_from h rest unique_elements
      else if existsb (fun elm => negb (quat_eqb (qmul new elm) (qmul elm new))) unique_elements then Some true
      else non_commuting_from h rest (unique_elements ++ [new])
  end.
Definition contains_non_commuting_elements (h : QHM) : option bool :=
  non_commuting_from h (list_prod (range 1 (qhm_size h)) (range 1 (qhm_size h))) [].

(* f32::EPSILON.sqrt(), matrices.rs:142: the f32 nearest to 2^(-23/2) *)
Definition f32_tolerance : Qc := Q2Qc (11863283 # 34359738368).
(* x.abs() < y *)
Definition qc_abs (x : Qc) : Qc := if Qclt_le_dec x 0 then (- x)%Qc else x.
Definition qc_ltb (x y : Qc) : bool := if Qclt_le_dec x y then true else false.
Definition qc_of_nat (n : nat) : Qc := Q2Qc (inject_Z (Z.of_nat n)).

(* QHM::verify, matrices.rs:140-181 *)
Definition qhm_inner (n : nat) (r1 r2 : list quat) : option quat :=
  for_m n (fun result i => let* x := vget r1 i in let* y := vget r2 i in Some (qadd result (qmul x (qconj y)))) Q0.
Definition QHM_verify (h : QHM) : option bool :=
  let n := qhm_size h in
  all_m (fun row1 => all_m (fun row2 =>
    let* row1_vec := QHM_row h row1 in
    let* row2_vec := QHM_row h row2 in
    let* result := qhm_inner n row1_vec row2_vec in
    let real_match := if Nat.eqb row1 row2
      then qc_ltb (qc_abs (q_s result - qc_of_nat n)%Qc) f32_tolerance
      else qc_ltb (qc_abs (q_s result)) f32_tolerance in
    let imaginary_match := qc_ltb (qc_abs (q_x result)) f32_tolerance &&
      qc_ltb (qc_abs (q_y result)) f32_tolerance && qc_ltb (qc_abs (q_z result)) f32_tolerance in
    Some (real_match && imaginary_match)) (range 0 n)) (range 0 n).

(* QHM::to_string, matrices.rs:184-199 *)
Definition nl : ascii := Ascii.ascii_of_nat 10.
Definition QHM_to_string (h : QHM) : option (list ascii) :=
  let n := qhm_size h in
  for_m n (fun result row =>
    let* result := for_m n (fun result col =>
      let* q := mget (qhm_matrix h) row col in
      let* c := quaternion_to_string q in
      Some (result ++ [c; " "%char])) (result ++ ["|"%char; " "%char]) in
    Some (result ++ ["|"%char; nl])) [].

(* ---- HM ---- *)
(* matrices.rs:204-212 *)
Record HM := mkHM { hm_size : nat; hm_matrix : list (list Z) }.
Inductive OpMat := OpNone | OpMinus | OpTranspose | OpMinusTranspose.

(* HM::new, get, set_value, row, matrices.rs:217-232, 444-446 *)
Definition HM_new (size : nat) : HM := mkHM size (mconst size 1%Z).
Definition HM_get (h : HM) (i j : nat) : option Z := mget (hm_matrix h) i j.
Definition HM_set_value (h : HM) (row col : nat) (value : Z) : option HM :=
  let* m := mset (hm_matrix h) row col value in Some (mkHM (hm_size h) m).
Definition HM_row (h : HM) (row : nat) : option (list Z) := vget (hm_matrix h) row.

(* HM::from_sequence, matrices.rs:235-247 *)
Definition HM_from_sequence (s : list Z) : option HM :=
  let size := List.length s in
  for_m size (fun hm index =>
    let* elm := vget s index in
    for_m size (fun hm i => HM_set_value hm i ((i + index) mod size) elm) hm) (HM_new size).

(* HM::get_with_op_mat, matrices.rs:310-317 *)
Definition HM_get_with_op_mat (h : HM) (row col : nat) (op : OpMat) : option Z :=
  match op with
  | OpNone => mget (hm_matrix h) row col
  | OpMinus => let* x := mget (hm_matrix h) row col in Some (neg8 x)
  | OpTranspose => mget (hm_matrix h) col row
  | OpMinusTranspose => let* x := mget (hm_matrix h) col row in Some (neg8 x)
  end.

(* HM::copy_block_to, matrices.rs:288-294 *)
Definition HM_copy_block_to (h block : HM) (row_offset col_offset : nat) (op : OpMat) : option HM :=
  for_m (hm_size block) (fun h row => for_m (hm_size block) (fun h col =>
    let* x := HM_get_with_op_mat block row col op in
    HM_set_value h (row + row_offset) (col + col_offset) x) h) h.

(* HM::from_williamson, matrices.rs:250-283 *)
Definition HM_from_williamson (will : QuadSeq) (seqtype : SequenceType) : option HM :=
  let size := q_size will in
  let hm := HM_new (4 * size) in
  let* matw := HM_from_sequence (sequence will TW) in
  let* matx := HM_from_sequence (sequence will TX) in
  let* maty := HM_from_sequence (sequence will TY) in
  let* matz := HM_from_sequence (sequence will TZ) in
  match seqtype with
  | QuaternionType =>
      let* hm := HM_copy_block_to hm matw 0 0 OpNone in
      let* hm := HM_copy_block_to hm matx size 0 OpNone in
      let* hm := HM_copy_block_to hm maty (2 * size) 0 OpNone in
      let* hm := HM_copy_block_to hm matz (3 * size) 0 OpNone in
      let* hm := HM_copy_block_to hm matx 0 size OpNone in
      let* hm := HM_copy_block_to hm matw size size OpMinus in
      let* hm := HM_copy_block_to hm matz (2 * size) size OpNone in
      let* hm := HM_copy_block_to hm maty (3 * size) size OpMinus in
      let* hm := HM_copy_block_to hm maty 0 (2 * size) OpNone in
      let* hm := HM_copy_block_to hm matz size (2 * size) OpMinus in
      let* hm := HM_copy_block_to hm matw (2 * size) (2 * size) OpMinus in
      let* hm := HM_copy_block_to hm matx (3 * size) (2 * size) OpNone in
      let* hm := HM_copy_block_to hm matz 0 (3 * size) OpNone in
      let* hm := HM_copy_block_to hm maty size (3 * size) OpNone in
      let* hm := HM_copy_block_to hm matx (2 * size) (3 * size) OpMinus in
      HM_copy_block_to hm matw (3 * size) (3 * size) OpMinus
  | _ => None
  end.

(* HM::get_qts, matrices.rs:296-308 *)
Definition HM_get_qts (h : HM) : option QuadSeq :=
  let len := hm_size h / 4 in
  let* seq_w := vbuild len (fun i => HM_get h 0 i) in
  let* seq_x := vbuild len (fun i => HM_get h len i) in
  let* seq_y := vbuild len (fun i => HM_get h (2 * len) i) in
  let* seq_z := vbuild len (fun i => HM_get h (3 * len) i) in
  Some (set_all_values (Quad_new len) seq_w seq_x seq_y seq_z).

(* HM::dephase, matrices.rs:328-343 *)
Definition HM_dephase (h : HM) : option HM :=
  let size := hm_size h in
  let* m := for_m size (fun m inv_row => for_m size (fun m col =>
    let row := size - 1 - inv_row in
    let* x := mget m 0 col in let* y := mget m row col in
    mset m row col (mul8 x y)) m) (hm_matrix h) in
  let* m := for_m size (fun m inv_col => for_m size (fun m row =>
    let col := size - 1 - inv_col in
    let* x := mget m row 0 in let* y := mget m row col in
    mset m row col (mul8 x y)) m) m in
  Some (mkHM size m).

(* HM::dephased, matrices.rs:346-365 *)
Definition HM_dephased (h : HM) : option HM :=
  let size := hm_size h in
  let* m := for_m size (fun m inv_row => for_m size (fun m col =>
    let row := size - 1 - inv_row in
    let* x := mget (hm_matrix h) 0 col in let* y := mget (hm_matrix h) row col in
    mset m row col (mul8 x y)) m) (mconst size 1%Z) in
  let* m := for_m size (fun m inv_col => for_m size (fun m row =>
    let col := size - 1 - inv_col in
    let* x := mget (hm_matrix h) row 0 in let* y := mget (hm_matrix h) row col in
    mset m row col (mul8 x y)) m) m in
  Some (mkHM size m).

(* HM::to_string, matrices.rs:372-392 *)
Definition HM_to_string (h : HM) : option (list ascii) :=
  let n := hm_size h in
  for_m n (fun result row =>
    let* result := for_m n (fun result col =>
      let* x := mget (hm_matrix h) row col in
      Some (result ++ [if (x =? 1)%Z then "+"%char else "-"%char; " "%char])) (result ++ ["|"%char; " "%char]) in
    Some (result ++ ["|"%char; nl])) [].

(* HM::to_string_magma, matrices.rs:394-441.  With size 0 the range 0..size-1 wraps to 0..2^64-1 and the
   first access panics. *)
Definition magma_entry (x : Z) : list ascii := if (x =? 1)%Z then ["1"%char] else ["-"%char; "1"%char].
Definition magma_row (h : HM) (row : nat) (result : list ascii) : option (list ascii) :=
  let n := hm_size h in
  let* result := for_m (n - 1) (fun result col =>
    let* x := mget (hm_matrix h) row col in Some (result ++ magma_entry x ++ [","%char])) (result ++ ["["%char]) in
  let* x := mget (hm_matrix h) row (n - 1) in
  Some (result ++ magma_entry x).
Definition HM_to_string_magma (h : HM) : option (list ascii) :=
  let n := hm_size h in
  guard (negb (Nat.eqb n 0)) (
    let* result := for_m (n - 1) (fun result row =>
      let* result := magma_row h row result in Some (result ++ ["]"%char; ","%char]))
      (list_ascii_of_string "M := Matrix([") in
    let* result := magma_row h (n - 1) result in
    Some (result ++ list_ascii_of_string "]]);")).

(* HM::verify, matrices.rs:449-472.  The accumulator has type i8: in a release build it wraps. *)
Definition hm_inner (n : nat) (r1 r2 : list Z) : option Z :=
  for_m n (fun result i => let* x := vget r1 i in let* y := vget r2 i in Some (add8 result (mul8 x y))) 0%Z.
Definition HM_verify (h : HM) : option bool :=
  let n := hm_size h in
  all_m (fun row1 => all_m (fun row2 =>
    let* row1_vec := HM_row h row1 in
    let* row2_vec := HM_row h row2 in
    let* result := hm_inner n row1_vec row2_vec in
    Some (result =? 0)%Z) (range (row1 + 1) n)) (range 0 n).
