(* C88: the files of equations for a solver. *)
From Coq Require Import Ascii String List ZArith Bool Arith Lia.
From Verif Require Import Base ModelSequence ModelWilliamson ModelEquivalence ModelRowsum ModelEquations ModelSolver
  SeqFacts EquivThms RowsumFacts SolverFacts SolverThms SpecRowsum SpecPrint SpecMain SpecEquations Spec SpecSolver.
Import ListNotations.
Open Scope nat_scope.
Notation length := List.length.

(* the two row sums by which the sequences given to the solver are chosen: two largest ones *)
Theorem C88_two_best : forall r, (forall i x, entry4 r i = Some x -> - 2 ^ 63 <= x)%Z ->
  exists v1 i v2 j, get_two_best r = ((v1, i), (v2, j)) /\ i < j <= 3 /\ entry4 r i = Some v1 /\ entry4 r j = Some v2 /\
    forall k x, entry4 r k = Some x -> k <> i -> k <> j -> (x <= v1 /\ x <= v2)%Z.
Proof. exact two_best_any. Qed.
Print Assumptions C88_two_best.
(* the files after a run: for row sums that no later ones overwrite, one for each pair of sequences with
   the two largest row sums; no others but those that were there before, and other directories are unchanged *)
Theorem C88_files : forall p tree, 1 <= p -> (Z.of_nat p < 2 ^ 62)%Z -> exists fuel0, forall fuel, fuel0 <= fuel ->
  exists tree' rows, find_equations fuel p QuaternionType tree = Some tree' /\ generate_rowsums fuel p QuaternionType = Some rows /\
    (forall r, not_overwritten rows r -> exists d pairs, equation_dir r d /\ NoDup pairs /\ (forall s1 s2, In (s1, s2) pairs <-> given p r s1 s2) /\
       forall k s1 s2, nth_error pairs k = Some (s1, s2) ->
         exists f x, equation_file k f /\ file_at tree' d f = Some x /\ equation_text r s1 s2 x) /\
    (forall d f x, file_at tree' d f = Some x -> file_at tree d f = Some x \/
       exists r k s1 s2, not_overwritten rows r /\ equation_dir r d /\ equation_file k f /\ given p r s1 s2 /\ equation_text r s1 s2 x) /\
    (forall d f, (forall r, In r rows -> ~ equation_dir r d) -> file_at tree' d f = file_at tree d f).
Proof. exact find_equations_spec. Qed.
Print Assumptions C88_files.
(* a quadruple of quaternion type with normalised row sums has its file, whose linear equations it satisfies *)
Theorem C88_complete : forall p q tree, 1 <= p -> (Z.of_nat p < 2 ^ 62)%Z -> pm_quad p q -> is_QT q ->
  normal_rowsums QuaternionType (totals q) -> exists fuel0, forall fuel, fuel0 <= fuel ->
  exists tree' rows, find_equations fuel p QuaternionType tree = Some tree' /\ generate_rowsums fuel p QuaternionType = Some rows /\
    In (totals q) rows /\
    (not_overwritten rows (totals q) ->
     exists d k f x t1 t2 u1 u2 C N R A, equation_dir (totals q) d /\ equation_file k f /\ file_at tree' d f = Some x /\
       equation_text (totals q) (sequence q t1) (sequence q t2) x /\
       best_positions (totals q) = (t1, t2) /\ missing t1 t2 = Some (u1, u2) /\
       read_opb x = Some (C ++ N ++ R ++ A) /\ length N = p - 1 /\ length R = 2 /\ length A = p - 1 /\
       forall v, encodes p (sequence q u1) (sequence q u2) v -> Forall (holds v) C /\ Forall (holds v) R).
Proof. exact find_equations_complete. Qed.
Print Assumptions C88_complete.
(* row sums with the same two largest entries share a directory, and the later ones overwrite the earlier ones:
   at length 45 no file is left for (1,7,7,9) *)
Theorem C88_all_rowsums_refuted : exists p r, feasible p r /\ normal_rowsums QuaternionType r /\
  exists fuel0, forall fuel, fuel0 <= fuel -> exists tree', find_equations fuel p QuaternionType [] = Some tree' /\
    forall d f x l, file_at tree' d f = Some x -> rowsum_line r l -> nth_error (pieces line_break x) 2 <> Some l.
Proof. exact equations_lost. Qed.
Print Assumptions C88_all_rowsums_refuted.
(* other types are not implemented *)
Theorem C88_other_types : forall fuel p t tree, t <> QuaternionType -> find_equations fuel p t tree = None.
Proof. intros fuel p t tree H. unfold find_equations. destruct (generate_rowsums fuel p t); [|reflexivity]. destruct t; congruence || reflexivity. Qed.
Print Assumptions C88_other_types.

Definition q3 : QuadSeq := mkQuad 3 [-1;1;1]%Z [-1;1;1]%Z [-1;1;1]%Z [1;1;1]%Z.
Example C88_instance : pm_quad 3 q3 /\ is_QT q3 /\ normal_rowsums QuaternionType (totals q3) /\
  generate_rowsums 1000 3 QuaternionType = Some [(1, 1, 1, 3)%Z] /\ not_overwritten [(1, 1, 1, 3)%Z] (totals q3) /\
  equation_dir (totals q3) (chars "rowsum_1-3_at_2-3") /\ equation_file 12 (chars "num_12.opb") /\
  rowsum_line (1, 7, 7, -9)%Z (chars "* rowsum: (1,7,7,-9)") /\ given 3 (totals q3) [-1;1;1]%Z [1;1;1]%Z /\
  get_two_best (5, -3, 5, 1)%Z = ((5%Z, 0), (5%Z, 2)).
Proof.
  assert (P : pm_quad 3 q3) by (repeat split; repeat constructor; auto).
  split; auto. split; [apply (verify_true 3 q3 QuaternionType P); [lia|vm_compute; reflexivity]|].
  split; [vm_compute; repeat split; discriminate|]. split; [vm_compute; reflexivity|].
  split; [exists [], []; split; [reflexivity|intros ? []]|].
  split; [exact (dir_spec (totals q3) ltac:(vm_compute; repeat split; discriminate))|].
  split; [exact (file_spec 12)|]. split; [exact (rowsum_line_text 1 7 7 (-9))|].
  split; [|reflexivity]. unfold given. cbn. repeat (split; [reflexivity || (repeat (apply Forall_cons; [lia|]); constructor)|]). reflexivity.
Qed.
