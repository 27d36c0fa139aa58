(* Property theorems C101: the functions of the API which no command calls. *)
From Coq Require Import Ascii String List ZArith Lia Arith Bool Reals Lra Permutation.
From Verif Require Import Base BaseFacts Sums Quat ModelSequence ModelWilliamson ModelEquivalence ModelFourier SpecFourier ModelMatrices SpecMatrix
  ModelGraph SpecGraph ModelRowsum SpecRowsum ModelMatching ModelWrite ModelMain ModelApi ApiThms PropSequences PropGraph PropMain SpecMain SpecSplit SpecSearch Spec.
Import ListNotations.
Notation length := List.length.
Open Scope nat_scope.

Theorem C101_couples_with_positions : forall n l1 l2 bound, 1 <= n -> (forall s, In s l1 \/ In s l2 -> length s = n) ->
  exists ps, iter_over_enumerate_filtered_couples n l1 l2 bound = Some ps /\ NoDup ps /\
    (forall i s1 j s2, In ((i, s1), (j, s2)) ps <-> nth_error l1 i = Some s1 /\ nth_error l2 j = Some s2 /\ forall k, k <= n / 2 -> (psd s1 k + psd s2 k <= bound)%R) /\
    iter_over_filtered_couples n l1 l2 bound = Some (map (fun c => (snd (fst c), snd (snd c))) ps).
Proof. exact enum_spec. Qed.
Print Assumptions C101_couples_with_positions.
(* a couple is kept or dropped according to the bound *)
Example C101_couples_instance : (forall s, In s [[1; -1; 1]; [1; 1; 1]]%Z \/ In s [[1; 1; -1]]%Z -> length s = 3) /\
  exists p0 p1, (0 <= p0 < p1)%R /\ (psd [1; -1; 1]%Z 0 + psd [1; 1; -1]%Z 0 = p0)%R /\ (psd [1; 1; 1]%Z 0 + psd [1; 1; -1]%Z 0 = p1)%R.
Proof.
  split; [intros s [[<-|[<-|[]]]|[<-|[]]]; reflexivity|]. exists 2%R, 10%R. split; [lra|].
  unfold psd. cbn. rewrite ?Rmult_0_r, ?Rmult_0_l. unfold Rdiv. rewrite ?Rmult_0_l, ?Rmult_0_r, ?cos_0, ?sin_0. split; ring.
Qed.

Theorem C101_two_graphs : forall (L : Type) (canon : Graph -> L) same n a b, SpecGraph.canonical canon same -> hm_hadamard n a -> hm_hadamard n b ->
  exists ga gb, graph_from_hm a = Some ga /\ graph_from_hm b = Some gb /\
    (are_isomorphic canon same ga gb = true <-> hadamard_equivalent n (hm_matrix a) (hm_matrix b)).
Proof. exact isomorphic_spec. Qed.
Print Assumptions C101_two_graphs.
Example C101_two_graphs_instance : SpecGraph.canonical (e_canon env0) (e_same env0) /\ hm_hadamard 2 h2 /\ hm_hadamard 2 h2' /\ h2 <> h2'.
Proof. split; [apply C72_instance|]. split; [apply C41_instance|]. split; [apply C41_instance|discriminate]. Qed.

(* both halves of all row sums, in either order, give the files of write_pairs *)
Theorem C101_both_halves : forall t m n pr, t = QuaternionType \/ t = WilliamsonType \/ t = Williamson -> 1 <= n -> (Z.of_nat n < 2 ^ 62)%Z ->
  exists fuel0, forall fuel, fuel0 <= fuel -> forall i j, (i, j) = (1, 2) \/ (i, j) = (2, 1) ->
  exists f0 f1 f2 c, write_pair_single fuel t n m (Some pr) i [] = Some f0 /\ write_pair_single fuel t n m (Some pr) j f0 = Some f1 /\
    write_pairs fuel n t m (Some pr) [] = Some (f2, c) /\ same_dirs f2 f1.
Proof. exact both_halves. Qed.
Print Assumptions C101_both_halves.

(* equals compares the first sequence with the beginning of the second and panics when the second ends first *)
Theorem C101_equals : forall x y, (equals x y = Some true <-> exists r, y = x ++ r) /\ (equals x y = None <-> exists a r, x = y ++ a :: r).
Proof. exact (fun x y => conj (equals_true x y) (equals_none x y)). Qed.
Print Assumptions C101_equals.
Theorem C101_equals_prefix_refuted : exists x y, x <> y /\ equals x y = Some true.
Proof. exists [1]%Z, [1; -1]%Z. split; [discriminate|reflexivity]. Qed.
Theorem C101_contains : forall n set q, wf n q -> (forall s, In s set -> wf n s) ->
  contains set q = Some true /\ In q set \/ contains set q = Some false /\ ~ In q set.
Proof. exact contains_spec. Qed.
Print Assumptions C101_contains.
Example C101_contains_instance : wf 3 w3 /\ contains [w3] w3 = Some true /\ contains [Quad_new 3] w3 = Some false.
Proof. split; [apply w3_pm|]. split; reflexivity. Qed.

Theorem C101_iterator : forall n q, wf n q -> length (Quad_into_iter q) = 4 * n /\ forall i, i < n ->
  nth_error (Quad_into_iter q) i = nth_error (q_a q) i /\ nth_error (Quad_into_iter q) (n + i) = nth_error (q_b q) i /\
  nth_error (Quad_into_iter q) (2 * n + i) = nth_error (q_c q) i /\ nth_error (Quad_into_iter q) (3 * n + i) = nth_error (q_d q) i.
Proof. exact into_iter_spec. Qed.
Print Assumptions C101_iterator.

(* set_values leaves the size alone: extra values are printed and otherwise ignored, missing values panic *)
Theorem C101_set_values_extra : forall q v e, length v = qs_size q ->
  (forall t, QS_periodic_autocorrelation (QS_set_values q (v ++ e)) t = QS_periodic_autocorrelation (QS_set_values q v) t) /\
  (forall t, QS_odd_periodic_autocorrelation (QS_set_values q (v ++ e)) t = QS_odd_periodic_autocorrelation (QS_set_values q v) t) /\
  QS_is_perfect (QS_set_values q (v ++ e)) = QS_is_perfect (QS_set_values q v) /\
  QS_is_odd_perfect (QS_set_values q (v ++ e)) = QS_is_odd_perfect (QS_set_values q v) /\
  QS_is_symmetric (QS_set_values q (v ++ e)) = QS_is_symmetric (QS_set_values q v) /\
  forall x y, QS_to_string_raw (QS_set_values q v) = Some x -> traverse quaternion_to_string e = Some y -> QS_to_string_raw (QS_set_values q (v ++ e)) = Some (x ++ y).
Proof. exact set_long. Qed.
Print Assumptions C101_set_values_extra.
Theorem C101_set_values_missing : forall q v, length v < qs_size q ->
  (forall t, QS_periodic_autocorrelation (QS_set_values q v) t = None) /\ (forall t, QS_odd_periodic_autocorrelation (QS_set_values q v) t = None) /\
  (2 <= qs_size q -> QS_is_perfect (QS_set_values q v) = None /\ QS_is_odd_perfect (QS_set_values q v) = None).
Proof. exact set_short. Qed.
Print Assumptions C101_set_values_missing.
Example C101_set_values_instance : QS_is_perfect (QS_set_values (QS_new 2 None) [Q1; QI]) = Some true /\
  QS_is_perfect (QS_set_values (QS_new 2 None) [Q1; Q1]) = Some false /\ QS_is_perfect (QS_set_values (QS_new 2 None) [Q1]) = None.
Proof. vm_compute. auto. Qed.

Theorem C101_new_matrix : forall n i j, QHM_get (QHM_new n) i j = if (i <? n) && (j <? n) then Some Q1 else None.
Proof. exact new_matrix. Qed.
Print Assumptions C101_new_matrix.
Theorem C101_column : forall n h j, qhm_size h = n -> square n (qhm_matrix h) ->
  (j < n -> exists l, QHM_col h j = Some l /\ length l = n /\ forall i, i < n -> nth_error l i = QHM_get h i j) /\
  (1 <= n <= j -> QHM_col h j = None).
Proof. exact (fun n h j S Q => conj (column n h j S Q) (no_column n h j S Q)). Qed.
Print Assumptions C101_column.
Example C101_column_instance : square 2 (qhm_matrix (mkQHM 2 [[Q1; QI]; [QJ; QK]])) /\ QHM_col (mkQHM 2 [[Q1; QI]; [QJ; QK]]) 1 = Some [QI; QK].
Proof. split; [repeat constructor|reflexivity]. Qed.
Example C101_both_halves_instance : generate_rowsums 100 5 QuaternionType = Some [(1, 1, 3, 3)%Z].
Proof. vm_compute. reflexivity. Qed.
