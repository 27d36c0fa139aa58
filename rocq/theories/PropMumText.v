(* Property theorems C102: printed operators and measurements. *)
From Coq Require Import Ascii String List ZArith Lia Arith Bool.
From Verif Require Import Base Quat ModelSequence ModelMatrices SpecMatrix ModelMum SpecMum ModelMumText MumText.
Import ListNotations.
Notation length := List.length.
Open Scope nat_scope.

(* whatever the text of a number is, as long as it determines the number and contains neither a space nor a bar *)
Theorem C102_operator_text : forall show, (forall x y, show x = show y -> x = y) -> (forall x c, In c (show x) -> c <> " "%char /\ c <> "|"%char) ->
  forall n n' a b, op_wf n a -> op_wf n' b -> op_to_string show a = op_to_string show b -> a = b.
Proof. exact op_text_inj. Qed.
Print Assumptions C102_operator_text.
Theorem C102_operator_never_panics : forall show n a, op_wf n a -> exists s, op_to_string show a = Some s.
Proof. exact (fun show n a H => ex_intro _ _ (op_text show n a H)). Qed.
Print Assumptions C102_operator_never_panics.
Theorem C102_measurement_text : forall show, (forall x y, show x = show y -> x = y) -> (forall x c, In c (show x) -> c <> " "%char /\ c <> "|"%char) ->
  forall m m', mum_matrix_size m = mum_matrix_size m' ->
  (forall a, In a (mum_sequence m) -> op_wf (op_size a) a) -> (forall a, In a (mum_sequence m') -> op_wf (op_size a) a) ->
  MUM_to_string show m = MUM_to_string show m' -> m = m'.
Proof. exact (fun show I C m m' S H H' => mum_text_inj show I C m m' S (proj2 (Forall_forall _ _) H) (proj2 (Forall_forall _ _) H')). Qed.
Print Assumptions C102_measurement_text.
Theorem C102_unitary_text : forall show, (forall x y, show x = show y -> x = y) -> (forall x c, In c (show x) -> c <> " "%char /\ c <> "|"%char) ->
  forall h h' n n', hmuo_matrix_size h = n -> hmuo_matrix_size h' = n' -> op_wf n (hmuo_operator h) -> op_wf n' (hmuo_operator h') ->
  HMUO_to_string show h = HMUO_to_string show h' -> h = h'.
Proof. exact hmuo_text_inj. Qed.
Print Assumptions C102_unitary_text.
(* the size of a measurement is not printed: two measurements without outcomes look the same *)
Theorem C102_size_not_printed_refuted : exists m m', m <> m' /\ forall show, MUM_to_string show m = MUM_to_string show m'.
Proof. exists (MUM_empty 0 2), (MUM_empty 0 4). split; [discriminate|reflexivity]. Qed.
Theorem C102_empty : forall len n, (mum_length (MUM_empty len n) = len /\ mum_matrix_size (MUM_empty len n) = n /\
    forall a, In a (mum_sequence (MUM_empty len n)) -> op_wf n a /\ forall i j, at2 a i j = C0) /\
  hmuo_matrix_size (HMUO_empty n) = n /\ op_wf n (hmuo_operator (HMUO_empty n)) /\ forall i j, at2 (hmuo_operator (HMUO_empty n)) i j = C0.
Proof. exact (fun len n => conj (mum_empty len n) (hmuo_empty n)). Qed.
Print Assumptions C102_empty.
(* HMUO::new keeps the size and the operator it is given, and prints as that operator and an empty line *)
Theorem C102_new : forall show k n a, op_wf k a -> hmuo_matrix_size (HMUO_new n a) = n /\ hmuo_operator (HMUO_new n a) = a /\
  exists s, op_to_string show a = Some s /\ HMUO_to_string show (HMUO_new n a) = Some (s ++ [ascii_of_nat 10; ascii_of_nat 10]).
Proof. exact hmuo_new. Qed.
Print Assumptions C102_new.
Example C102_instance : (forall x y, show_q x = show_q y -> x = y) /\ (forall x c, In c (show_q x) -> c <> " "%char /\ c <> "|"%char) /\
  op_wf 2 OPY /\ op_to_string (fun x => if Qcanon.Qc_eq_bool (im x) (re C0) then ["0"%char] else if Qcanon.Qc_eq_bool (im x) (re C1) then ["i"%char] else ["I"%char]) OPY =
    Some (list_ascii_of_string "| 0 I |" ++ [ascii_of_nat 10] ++ list_ascii_of_string "| i 0 |" ++ [ascii_of_nat 10]).
Proof.
  split; [exact show_q_inj|]. split; [exact show_q_chars|]. split; [repeat constructor|]. vm_compute. reflexivity.
Qed.
