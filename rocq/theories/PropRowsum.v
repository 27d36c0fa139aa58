(* Property theorems C23-C26, C58, C69: row sums. *)
From Coq Require Import List ZArith Lia Arith Bool Permutation Relations Ascii String.
From Verif Require Import Base Quat ModelSequence ModelWilliamson Spec ModelEquivalence SpecEquiv OpFacts EquivFacts TypeFacts OrderFacts FastFacts EquivThms
  ModelRowsum SpecRowsum RowsumFacts RowsumOrder PropSequences PropEquivalence.
Import ListNotations.
Open Scope Z_scope.
Notation length := List.length.

(* C23 *)
Theorem C23_rowsum_squares : forall n q t, pm_quad n q -> (1 <= n)%nat -> verify q t = Some true ->
  let r := fun tag => rowsum (sequence q tag) in
  r TW * r TW + r TX * r TX + r TY * r TY + r TZ * r TZ = 4 * Z.of_nat n /\
  forall tag, (r tag) mod 2 = Z.of_nat n mod 2.
Proof. exact verify_rowsums. Qed.
Print Assumptions C23_rowsum_squares.
Theorem C23_rowsum_total : forall l, rowsum l = total l.
Proof. exact rowsum_total. Qed.
Print Assumptions C23_rowsum_total.
Example C23_instance : pm_quad 3 w3 /\ verify w3 Williamson = Some true /\
  map (fun t => rowsum (sequence w3 t)) [TW; TX; TY; TZ] = [-3; 1; 1; 1].
Proof. split; [exact w3_pm|]. split; vm_compute; reflexivity. Qed.

(* C24 *)
Theorem C24_sum_of_four_squares : forall p, 0 <= p -> exists fuel0, forall fuel, (fuel0 <= fuel)%nat ->
  exists l, sum_of_four_squares fuel p = Some l /\ NoDup l /\
  forall a b c d, In (a, b, c, d) l <-> 0 <= a <= b /\ b <= c <= d /\ a * a + b * b + c * c + d * d = p.
Proof. exact sum_of_four_squares_spec. Qed.
Print Assumptions C24_sum_of_four_squares.
Example C24_instance : sum_of_four_squares 200 12 = Some [(0, 2, 2, 2); (1, 1, 1, 3)] /\
  sum_of_four_squares 100 7 = Some [(1, 1, 1, 2)].
Proof. split; vm_compute; reflexivity. Qed.

(* C25 *)
Theorem C25_generate_rowsums_exact : forall n t, exists fuel0, forall fuel, (fuel0 <= fuel)%nat ->
  exists l, generate_rowsums fuel n t = Some l /\ NoDup l /\
  forall r, In r l <-> feasible n r /\ normal_rowsums t r.
Proof. exact generate_rowsums_spec. Qed.
Print Assumptions C25_generate_rowsums_exact.
Theorem C25_generate_rowsums_covers : forall n t, (1 <= n)%nat -> exists fuel0, forall fuel, (fuel0 <= fuel)%nat ->
  exists l, generate_rowsums fuel n t = Some l /\
  forall q, pm_quad n q -> verify q t = Some true -> exists y, reach (type_ops t) q y /\
    verify y t = Some true /\
    In (rowsum (sequence y TW), rowsum (sequence y TX), rowsum (sequence y TY), rowsum (sequence y TZ)) l.
Proof. exact generate_rowsums_cover. Qed.
Print Assumptions C25_generate_rowsums_covers.
(* length 21 is the first odd length at which a negative last row sum is listed *)
Example C25_instance : generate_rowsums 1000 3 Williamson = Some [(1, 1, 1, 3)] /\
  generate_rowsums 2000 21 QuaternionType
    = Some [(1, 1, 1, 9); (1, 3, 5, 7); (1, 3, 5, -7); (3, 5, 5, 5)] /\
  generate_rowsums 2000 21 WilliamsonType = Some [(1, 1, 1, 9); (1, 3, 5, 7); (3, 5, 5, 5)] /\
  pm_quad 3 w3 /\ verify w3 Williamson = Some true.
Proof. split; [vm_compute; reflexivity|]. split; [vm_compute; reflexivity|]. split; [vm_compute; reflexivity|].
  split; [exact w3_pm|vm_compute; reflexivity]. Qed.

(* C26 *)
Theorem C26_generate_sequences_with_rowsum : forall r n, Z.abs r < 2 ^ 62 -> Z.of_nat n < 2 ^ 62 ->
  exists l, generate_sequences_with_rowsum r n = Some l /\ NoDup l /\
  forall s, In s l <-> length s = n /\ pm1 s /\ total s = r.
Proof. exact generate_sequences_spec. Qed.
Print Assumptions C26_generate_sequences_with_rowsum.
Example C26_instance : generate_sequences_with_rowsum (-1) 3 = Some [[1; -1; -1]; [-1; 1; -1]; [-1; -1; 1]] /\
  generate_sequences_with_rowsum (-5) 3 = Some [] /\ generate_sequences_with_rowsum 5 3 = Some [] /\
  generate_sequences_with_rowsum 2 3 = Some [].
Proof. repeat split; vm_compute; reflexivity. Qed.

(* C58 *)
Theorem C58_has_sorted_rowsums : forall n, (1 <= n)%nat -> exists fuel0, forall fuel, (fuel0 <= fuel)%nat ->
  exists l, generate_rowsums fuel n QuaternionType = Some l /\
  forall q, pm_quad n q -> verify q QuaternionType = Some true ->
    (has_sorted_rowsums q = true <->
      In (totals q) l \/ exists a b c, totals q = (a, b, c, - c) /\ 0 < a < b /\ b < c).
Proof. exact has_sorted_rowsums_listed. Qed.
Print Assumptions C58_has_sorted_rowsums.
Theorem C58_filter_keeps_classes : forall n ord t l, ord_ok ord -> (1 <= n <= 100)%nat ->
  Forall (fun q => pm_quad n q /\ verify q t = Some true) l ->
  exists fuel0, forall fuel p, (fuel0 <= fuel)%nat -> exists r,
    generate_equivalent_quad_seqs fuel ord p l t = Some r /\
    (forall y, In y (filter_by_rowsums r) -> has_sorted_rowsums y = true /\ exists q, In q l /\ reach (type_ops t) q y) /\
    (forall q, In q l -> exists y, reach (type_ops t) q y /\ In y (filter_by_rowsums r)).
Proof. exact filtered_classes. Qed.
Print Assumptions C58_filter_keeps_classes.
Example C58_filter_instance : Forall (fun q => pm_quad 3 q /\ verify q Williamson = Some true) [w3] /\
  option_map (fun r => (List.length r, List.length (filter_by_rowsums r)))
    (generate_equivalent_quad_seqs 10 ord_id [] [w3] Williamson) = Some (64, 1)%nat.
Proof. split; [constructor; [split; [exact w3_pm|vm_compute; reflexivity]|constructor]|vm_compute; reflexivity]. Qed.

(* wts-results/find_15/result-qts.qseq contains this quadruple up to order and signs *)
Definition pm_text (s : string) : list Z :=
  map (fun c => if Ascii.eqb c "+"%char then 1 else -1) (list_ascii_of_string s).
Definition q15 : QuadSeq := mkQuad 15 (pm_text "+++-+++--+--+--") (pm_text "+++++++--+--+--")
  (pm_text "+-+-+-++++--+++") (pm_text "-+-+-+----++---").
Theorem C58_has_sorted_refuted : exists q, pm_quad 15 q /\ verify q QuaternionType = Some true /\
  has_sorted_rowsums q = true /\
  forall fuel l, generate_rowsums fuel 15 QuaternionType = Some l -> ~ In (totals q) l.
Proof.
  exists q15. split; [pm_tac|]. split; [vm_compute; reflexivity|]. split; [vm_compute; reflexivity|].
  intros fuel l E Hin. destruct (generate_rowsums_spec 15 QuaternionType) as (f0 & H).
  destruct (H (max f0 fuel) ltac:(lia)) as (l' & E' & _ & Hl').
  apply (generate_rowsums_mono _ (max f0 fuel)) in E; [|lia]. rewrite E in E'. injection E' as <-.
  apply Hl' in Hin as [_ (_ & _ & N)]. vm_compute in N. destruct (N eq_refl) as (_ & _ & _ & C). discriminate C.
Qed.
Print Assumptions C58_has_sorted_refuted.
Example C58_instance : totals q15 = (1, 3, 5, -5) /\ has_sorted_rowsums q15 = true /\ has_sorted_rowsums w3 = false.
Proof. repeat split; vm_compute; reflexivity. Qed.

(* C69 *)
Theorem C69_equivalent_is_least : forall q t, exists r,
  equivalent q t = Some r /\ same_sums t q r /\ forall s, same_sums t q s -> quad_lex_le r s.
Proof. exact equivalent_least. Qed.
Print Assumptions C69_equivalent_is_least.
Theorem C69_equivalent_iff : forall q q' t r r', equivalent q t = Some r -> equivalent q' t = Some r' ->
  (r = r' <-> same_sums t q q').
Proof. exact equivalent_class. Qed.
Print Assumptions C69_equivalent_iff.
(* exchanging two of 5, 3, 1, -7 gives another class for QT, the same one for the other types *)
Example C69_instance : equivalent (5, 3, 1, -7) QuaternionType = Some (-7, 1, 3, 5) /\
  equivalent (3, 5, 1, -7) QuaternionType = Some (-7, 1, 5, 3) /\
  equivalent (5, 3, 1, -7) WilliamsonType = Some (-7, 1, 3, 5) /\
  equivalent (5, 3, 0, -7) QuaternionType = Some (-7, 0, 3, 5).
Proof. repeat split; vm_compute; reflexivity. Qed.
Example C69_classes : ~ same_sums QuaternionType (5, 3, 1, -7) (3, 5, 1, -7) /\ same_sums WilliamsonType (5, 3, 1, -7) (3, 5, 1, -7).
Proof.
  split.
  - intros H. apply (C69_equivalent_iff _ _ _ (-7, 1, 3, 5) (-7, 1, 5, 3)) in H; [discriminate H|vm_compute; reflexivity..].
  - apply (C69_equivalent_iff _ _ _ (-7, 1, 3, 5) (-7, 1, 3, 5)); vm_compute; reflexivity.
Qed.
