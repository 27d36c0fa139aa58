(* Model of /repo/rust/src/sequences/product.rs and mum.rs.
   Complex<f32> is modelled by pairs of exact rationals, as quaternions are (see Quat.v). *)
From Coq Require Import List ZArith QArith Qcanon Bool Arith.
From Verif Require Import Base Quat ModelSequence ModelMatrices.
Import ListNotations.
Open Scope nat_scope.

(* sequence_product, product.rs:4-23.  % p and % q are only evaluated inside the loops, where p, q > 0. *)
Definition sequence_product (qs1 qs2 : QS) : option QS :=
  let p := qs_size qs1 in
  let q := qs_size qs2 in
  let v1 := qs_values qs1 in
  let v2 := qs_values qs2 in
  for_m p (fun result i => for_m q (fun result j =>
    let index := i * q + j in
    let* x := vget v1 (index mod p) in
    let* y := vget v2 (index mod q) in
    QS_set_value result (qmul x y) index) result) (QS_new (p * q) None).

(* num_complex::Complex<f32>: re, im and its ring operations *)
Record cplx := Cplx { re : Qc; im : Qc }.
Definition cadd (a b : cplx) : cplx := Cplx (re a + re b) (im a + im b).
Definition cmul (a b : cplx) : cplx := Cplx (re a * re b - im a * im b) (re a * im b + im a * re b).
Definition cconj (a : cplx) : cplx := Cplx (re a) (- im a).
Definition C0 : cplx := Cplx 0 0.
Definition C1 : cplx := Cplx 1 0.

(* Operator, mum.rs:46-50 *)
Record Operator := mkOp { op_size : nat; op_values : list (list cplx) }.

(* make_operator, mum.rs:10-14 *)
Definition make_operator (a b c d : cplx) : Operator := mkOp 2 [[a; b]; [c; d]].
(* OP0, OP1, OPX, OPY, OPZ, mum.rs:18-26 *)
Definition OP0 := make_operator C0 C0 C0 C0.
Definition OP1 := make_operator C1 C0 C0 C1.
Definition OPX := make_operator C0 C1 C1 C0.
Definition OPY := make_operator C0 (Cplx 0 (-(1))) (Cplx 0 1) C0.
Definition OPZ := make_operator C1 C0 C0 (Cplx (-(1)) 0).

(* Operator::empty, mum.rs:57-59 *)
Definition Operator_empty (size : nat) : Operator := mkOp size (mconst size C0).

(* computational_basis, mum.rs:38-43 *)
Definition computational_basis (size j k : nat) : option Operator :=
  let* values := mset (mconst size C0) j k C1 in Some (mkOp size values).

(* Operator::conjugate_transpose, mum.rs:61-73 *)
Definition conjugate_transpose (a : Operator) : option Operator :=
  let* values := vbuild (op_size a) (fun i => vbuild (op_size a) (fun j =>
    let* x := mget (op_values a) j i in Some (cconj x))) in
  Some (mkOp (op_size a) values).

(* Operator::tensor, mum.rs:75-86.  iproduct! runs with the last index fastest. *)
Definition tensor (a b : Operator) : option Operator :=
  let size := op_size a * op_size b in
  let* values := for_m (op_size a) (fun m i => for_m (op_size a) (fun m j =>
    for_m (op_size b) (fun m p => for_m (op_size b) (fun m q =>
      let* x := mget (op_values a) i j in
      let* y := mget (op_values b) p q in
      mset m (i * op_size b + p) (j * op_size b + q) (cmul x y)) m) m) m) (mconst size C0) in
  Some (mkOp size values).

(* Add for Operator, mum.rs:107-121 *)
Definition op_add (a b : Operator) : option Operator :=
  let* values := vbuild (op_size a) (fun i => vbuild (op_size a) (fun j =>
    let* x := mget (op_values a) i j in let* y := mget (op_values b) i j in Some (cadd x y))) in
  Some (mkOp (op_size a) values).
(* Mul<Complex<f32>> for Operator, mum.rs:123-137 *)
Definition op_scale (a : Operator) (c : cplx) : option Operator :=
  let* values := vbuild (op_size a) (fun i => vbuild (op_size a) (fun j =>
    let* x := mget (op_values a) i j in Some (cmul x c))) in
  Some (mkOp (op_size a) values).

(* quaternion_to_operator, mum.rs:31-35 *)
Definition quaternion_to_operator (q : quat) : option Operator :=
  let* a := op_scale OP1 (Cplx (q_s q) 0) in
  let* b := op_scale OPX (Cplx 0 (q_x q)) in
  let* c := op_scale OPY (Cplx 0 (- q_y q)) in
  let* d := op_scale OPZ (Cplx 0 (q_z q)) in
  let* r := op_add a b in
  let* r := op_add r c in
  op_add r d.

(* MUM, mum.rs:141-171 *)
Record MUM := mkMUM { mum_matrix_size : nat; mum_sequence : list Operator }.
Definition MUM_new (matrix_size : nat) (sequence : list Operator) : MUM := mkMUM matrix_size sequence.
Definition MUM_empty (len matrix_size : nat) : MUM := mkMUM matrix_size (repeat (Operator_empty matrix_size) len).
Definition mum_length (m : MUM) : nat := List.length (mum_sequence m).

(* MUM::from_qhm, mum.rs:173-190 *)
Definition MUM_from_qhm (h : QHM) : option MUM :=
  let n := qhm_size h in
  let matrix_size := n * 2 in
  let* sequence := vbuild n (fun b =>
    for_m n (fun q_b j => for_m n (fun q_b k =>
      let* x := QHM_get h b j in
      let* y := QHM_get h b k in
      let* basis_elm := computational_basis n j k in
      let* o := quaternion_to_operator (qmul x (qconj y)) in
      let* t := tensor o basis_elm in
      op_add q_b t) q_b) (Operator_empty matrix_size)) in
  Some (mkMUM matrix_size sequence).

(* mum_product, product.rs:25-44 *)
Definition mum_product (m1 m2 : MUM) : option MUM :=
  let p := mum_length m1 in
  let q := mum_length m2 in
  let* values := for_m p (fun values i => for_m q (fun values j =>
    let index := i * q + j in
    let* x := vget (mum_sequence m1) (index mod p) in
    let* y := vget (mum_sequence m2) (index mod q) in
    let* value := tensor x y in
    Some (values ++ [value])) values) [] in
  Some (MUM_new (mum_matrix_size m1 * mum_matrix_size m2) values).

(* HMUO, mum.rs:204-227 *)
Record HMUO := mkHMUO { hmuo_matrix_size : nat; hmuo_operator : Operator }.
Definition HMUO_new (matrix_size : nat) (operator : Operator) : HMUO := mkHMUO matrix_size operator.
Definition HMUO_empty (matrix_size : nat) : HMUO := mkHMUO matrix_size (Operator_empty matrix_size).
(* HMUO::from_qhm, mum.rs:229-239 *)
Definition HMUO_from_qhm (h : QHM) : option HMUO :=
  let n := qhm_size h in
  let* mat := for_m n (fun mat j => for_m n (fun mat k =>
    let* x := QHM_get h j k in
    let* basis_elm := computational_basis n j k in
    let* o := quaternion_to_operator (qconj x) in
    let* t := tensor basis_elm o in
    op_add mat t) mat) (Operator_empty (2 * n)) in
  Some (mkHMUO (2 * n) mat).
(* HMUO::tensor, mum.rs:242-244 *)
Definition HMUO_tensor (a b : HMUO) : option HMUO :=
  let* o := tensor (hmuo_operator a) (hmuo_operator b) in
  Some (mkHMUO (hmuo_matrix_size a + hmuo_matrix_size b) o).
