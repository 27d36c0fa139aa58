(* Property theorems C99: what the unit tests check on samples holds for every length. *)
From Coq Require Import List ZArith Lia Arith Bool Permutation Relations.
From Verif Require Import Base ModelSequence ModelWilliamson ModelEquivalence ModelRowsum ModelFind ModelMatching SpecEquiv EquivFacts SpecRowsum PropSequences PropEquivalence TestThms SpecTests Spec.
Import ListNotations.
Open Scope nat_scope.

(* C99: the three identities hold exactly when the six pairs are amicable, complementary or not *)
Theorem C99_identities_amicable : forall n q, 1 <= n -> pm_quad n q ->
  exists b, verify_cross_correlation q = Some b /\ is_amicable q = Some b /\
    (b = true <-> amicable (q_a q) (q_b q) /\ amicable (q_a q) (q_c q) /\ amicable (q_a q) (q_d q) /\
                  amicable (q_b q) (q_c q) /\ amicable (q_b q) (q_d q) /\ amicable (q_c q) (q_d q)).
Proof. exact cross_is_amicable. Qed.
Print Assumptions C99_identities_amicable.
(* the join of two pairs by their cross-correlations together with the check after it decides amicability *)
Theorem C99_matching_amicable : forall n q a b c d, 1 <= n -> pm_quad n q -> NoDup [a; b; c; d] ->
  exists C v, compute_complementary_cross_correlations (sequence q c) (sequence q d) (c, d) = Some C /\
    matching_verify_cross_correlation [sequence q a; sequence q b; sequence q c; sequence q d] [a; b; c; d] = Some v /\
    (is_amicable q = Some true <-> compute_cross_correlations (sequence q a) (sequence q b) (a, b) = Some C /\ v = true).
Proof. exact matching_amicable. Qed.
Print Assumptions C99_matching_amicable.
(* the check after the join alone does not *)
Theorem C99_check_alone_refuted : exists q, pm_quad 3 q /\
  matching_verify_cross_correlation [q_a q; q_b q; q_c q; q_d q] [TW; TX; TY; TZ] = Some true /\ is_amicable q = Some false.
Proof. exact check_alone. Qed.
Print Assumptions C99_check_alone_refuted.
(* the number of sequences with a given sum is a binomial coefficient *)
Theorem C99_rowsum_count : forall r n, (Z.abs r < 2 ^ 62)%Z -> (Z.of_nat n < 2 ^ 62)%Z ->
  exists l, generate_sequences_with_rowsum r n = Some l /\
    (forall k, r = (2 * Z.of_nat k - Z.of_nat n)%Z -> length l = binom n k) /\
    ((forall k, r <> (2 * Z.of_nat k - Z.of_nat n)%Z) -> l = []).
Proof. exact rowsum_count. Qed.
Print Assumptions C99_rowsum_count.
(* filtering all equivalent quadruples by their row sums before the reduction loses no class *)
Theorem C99_filter_then_reduce : forall n ord t l, ord_ok ord -> 1 <= n <= 31 -> l <> [] ->
  Forall (fun q => pm_quad n q /\ verify q t = Some true) l ->
  exists fuel0, forall fuel p p' p'', fuel0 <= fuel -> exists all reduced filtered_reduced,
    generate_equivalent_quad_seqs fuel ord p l t = Some all /\
    reduce_to_equivalence fuel ord p' all (equivalences t) = Some reduced /\
    reduce_to_equivalence fuel ord p'' (filter_by_rowsums all) (equivalences t) = Some filtered_reduced /\
    Permutation reduced filtered_reduced.
Proof. exact filter_then_reduce_equivalences. Qed.
Print Assumptions C99_filter_then_reduce.
(* the number of quadruples the negations return *)
Theorem C99_negate_counts : forall n q, 1 <= n -> pm_quad n q ->
  (exists l, equivalent_negate q = Some l /\ length l = 5) /\ (exists l, equivalent_double_negate q = Some l /\ length l = 7) /\
  (exists l, equivalent_alternated_negation q = Some l /\ length l = if n =? 1 then 1 else 2) /\
  (exists l, equivalent_even_alternated_negation q = Some l /\ length l = if Nat.even n then 2 else 1).
Proof. exact negate_counts. Qed.
Print Assumptions C99_negate_counts.

Example C99_instance : pm_quad 3 w3 /\ verify w3 QuaternionType = Some true /\ is_amicable w3 = Some true /\ NoDup [TX; TZ; TW; TY] /\
  binom 6 4 = 15 /\ (2 = 2 * Z.of_nat 4 - Z.of_nat 6)%Z /\ option_map (@length _) (generate_sequences_with_rowsum 2 6) = Some 15 /\
  generate_sequences_with_rowsum 4 3 = Some [] /\ ord_ok ord_mix /\ option_map (@length _) (equivalent_double_negate w3) = Some 7.
Proof.
  split; [apply w3_pm|]. do 2 (split; [vm_compute; reflexivity|]). split; [repeat constructor; cbn; intuition discriminate|].
  do 4 (split; [vm_compute; reflexivity|]). split; [apply ord_mix_ok|vm_compute; reflexivity].
Qed.
