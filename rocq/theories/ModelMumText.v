(* Model of the printed forms of mum.rs. *)
From Coq Require Import Ascii String List ZArith Bool Arith.
From Verif Require Import Base ModelMatrices ModelMum.
Import ListNotations.
Open Scope nat_scope.

(* Display of Complex<f32> is the parameter show: the text of a number depends on the number only. *)
Definition space : ascii := " "%char.
Definition bar : ascii := "|"%char.
Definition endl : ascii := ascii_of_nat 10.

(* Operator::to_string, mum.rs:88-103 *)
Definition op_to_string (show : cplx -> list ascii) (a : Operator) : option (list ascii) :=
  let* rows := vbuild (op_size a) (fun row =>
    let* cells := vbuild (op_size a) (fun col => let* x := mget (op_values a) row col in Some (show x ++ [space])) in
    Some ([bar; space] ++ concat cells ++ [bar; endl])) in
  Some (concat rows).

(* MUM::to_string, mum.rs:192-200 *)
Definition MUM_to_string (show : cplx -> list ascii) (m : MUM) : option (list ascii) :=
  let* parts := traverse (fun mat => let* s := op_to_string show mat in Some (s ++ [endl; endl])) (mum_sequence m) in
  Some (concat parts).

(* HMUO::to_string, mum.rs:246-248 *)
Definition HMUO_to_string (show : cplx -> list ascii) (h : HMUO) : option (list ascii) :=
  let* s := op_to_string show (hmuo_operator h) in Some (s ++ [endl; endl]).
