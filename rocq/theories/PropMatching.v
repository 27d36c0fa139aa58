(* Property theorems C27-C29 and C47: the spectral filter, the keys of pairs, their files, the table
   of pairs. *)
From Coq Require Import Ascii String List ZArith Lia Arith Bool Reals.
From Verif Require Import Base BaseFacts Sums Quat ModelSequence ModelWilliamson ModelEquivalence ModelFourier ModelMatching
  ModelRowsum SpecFourier MatchFacts SpecRowsum ModelWrite TextFacts WriteFacts SpecSearch MatchThms ComplFacts PsdSame DriverFacts PropSequences Spec.
Import ListNotations.
Notation length := List.length.
Open Scope nat_scope.

(* C27: psd s k is |sum_j s[j] exp(-2 pi i j k / n)|^2 *)
Theorem C27_psd_bound : forall n q k a b, 1 <= n -> pm_quad n q -> complementary q -> a <> b ->
  (psd (sequence q a) k + psd (sequence q b) k <= 4 * INR n)%R.
Proof. exact psd_two. Qed.
Print Assumptions C27_psd_bound.
Theorem C27_filter_keeps_solutions : forall n l1 l2 q a b i j, 1 <= n ->
  (forall s, In s l1 -> length s = n) -> (forall s, In s l2 -> length s = n) ->
  pm_quad n q -> complementary q -> a <> b ->
  nth_error l1 i = Some (sequence q a) -> nth_error l2 j = Some (sequence q b) ->
  exists ps d, iter_over_enumerate_filtered_couples_psds n l1 l2 (4 * INR n) = Some ps /\ In d ps /\
    seq_enum1 d = (i, sequence q a) /\ seq_enum2 d = (j, sequence q b).
Proof. exact psd_filter_valid. Qed.
Print Assumptions C27_filter_keeps_solutions.
Theorem C27_filter_exact : forall n l1 l2 bound, 1 <= n ->
  (forall s, In s l1 -> length s = n) -> (forall s, In s l2 -> length s = n) ->
  exists ps, iter_over_enumerate_filtered_couples_psds n l1 l2 bound = Some ps /\
    forall i s1 j s2, (exists d, In d ps /\ seq_enum1 d = (i, s1) /\ seq_enum2 d = (j, s2)) <->
      nth_error l1 i = Some s1 /\ nth_error l2 j = Some s2 /\
      forall k, 1 <= k <= n / 2 -> (psd s1 k + psd s2 k <= bound)%R.
Proof. exact psd_filter_spec. Qed.
Print Assumptions C27_filter_exact.
Theorem C27_couples_keep_solutions : forall n l1 l2 q a b, 1 <= n ->
  (forall s, In s l1 -> length s = n) -> (forall s, In s l2 -> length s = n) ->
  pm_quad n q -> complementary q -> a <> b -> In (sequence q a) l1 -> In (sequence q b) l2 ->
  exists ps, iter_over_filtered_couples n l1 l2 (4 * INR n) = Some ps /\ In (sequence q a, sequence q b) ps.
Proof. exact couple_filter_valid. Qed.
Print Assumptions C27_couples_keep_solutions.
Theorem C27_couples_exact : forall n l1 l2 bound, 1 <= n ->
  (forall s, In s l1 -> length s = n) -> (forall s, In s l2 -> length s = n) ->
  exists ps, iter_over_filtered_couples n l1 l2 bound = Some ps /\
    forall s1 s2, In (s1, s2) ps <-> In s1 l1 /\ In s2 l2 /\ forall k, k <= n / 2 -> (psd s1 k + psd s2 k <= bound)%R.
Proof. exact couple_filter_spec. Qed.
Print Assumptions C27_couples_exact.
(* the filter of single sequences compares with the square of its bound *)
Theorem C27_single_exact : forall n l bound, 1 <= n -> (forall s, In s l -> length s = n) ->
  exists keep, iter_over_filtered_dft n l bound = Some (filter keep l) /\
    forall s, In s l -> (keep s = true <-> forall k, k <= n / 2 -> (psd s k <= bound * bound)%R).
Proof. exact single_filter. Qed.
Print Assumptions C27_single_exact.

(* lists with the sequences of a Williamson quadruple and others *)
Definition l3 : list (list Z) := ([[1;1;1]; [-1;-1;-1]; [1;1;-1]])%Z.
Definition m3 : list (list Z) := ([[-1;1;1]; [1;-1;1]])%Z.
Lemma w3_complementary : complementary w3.
Proof.
  assert (is_type Williamson w3) as [H _]; [|exact H]. apply (verify_type 3); [exact w3_pm|lia|]. vm_compute. reflexivity.
Qed.
Example C27_instance : (forall s, In s l3 -> length s = 3) /\ (forall s, In s m3 -> length s = 3) /\
  pm_quad 3 w3 /\ complementary w3 /\ TW <> TY /\
  nth_error l3 1 = Some (sequence w3 TW) /\ nth_error m3 0 = Some (sequence w3 TY).
Proof.
  split; [intros s [<-|[<-|[<-|[]]]]; reflexivity|]. split; [intros s [<-|[<-|[]]]; reflexivity|].
  split; [exact w3_pm|]. split; [exact w3_complementary|]. split; [discriminate|]. split; reflexivity.
Qed.

(* C28 *)
Theorem C28_keys_agree : forall n q t m a b c d (L : Tag -> list (list Z)) (ix : Tag -> nat) dir, 1 <= n -> three_types t ->
  pm_quad n q -> is_type t q -> In ((a, b), (c, d)) pairings ->
  (forall tg s, In s (L tg) -> length s = n /\ total s = total (sequence q tg)) ->
  (forall tg, nth_error (L tg) (ix tg) = Some (sequence q tg)) ->
  exists dl cl fl dr cr fr k left right,
    write_seq_pairs n (L a) (L b) (a, b) t (totals q) n dir LEFT m = Some (dl, cl) /\
    write_seq_pairs n (L c) (L d) (c, d) t (totals q) n dir RIGHT m = Some (dr, cr) /\
    get dl (pair_file a b) = Some fl /\ get dr (pair_file c d) = Some fr /\
    In left fl /\ In right fr /\
    get_line_from left = Some (k, (ix a, ix b)) /\ get_line_from right = Some (k, (ix c, ix d)).
Proof. exact keys_in_files. Qed.
Print Assumptions C28_keys_agree.

Definition L3 (tg : Tag) : list (list Z) :=
  (match tg with TW => [[-1;-1;-1]] | _ => [[1;1;-1]; [1;-1;1]; [-1;1;1]] end)%Z.
Definition ix3 (tg : Tag) : nat := match tg with TW => 0 | _ => 2 end.
Example C28_instance : three_types QuaternionType /\ three_types WilliamsonType /\ three_types Williamson /\
  pm_quad 3 w3 /\ (forall t, three_types t -> is_type t w3) /\
  (forall tg s, In s (L3 tg) -> length s = 3 /\ total s = total (sequence w3 tg)) /\
  (forall tg, nth_error (L3 tg) (ix3 tg) = Some (sequence w3 tg)).
Proof.
  unfold three_types. split; [tauto|]. split; [tauto|]. split; [tauto|]. split; [exact w3_pm|]. split.
  { intros t Ht. apply (verify_type 3); [exact w3_pm|lia|]. destruct Ht as [->|[->| ->]]; vm_compute; reflexivity. }
  split.
  - intros [] s; cbn; intros Hs; intuition subst; reflexivity.
  - intros []; reflexivity.
Qed.

(* C29 *)
Theorem C29_pair_line_round_trip : forall fs gs i j i' j', exists k k',
  get_line_from (pair_line (concat (map field fs)) i j) = Some (k, (i, j)) /\
  get_line_from (pair_line (concat (map field gs)) i' j') = Some (k', (i', j')) /\ (k = k' <-> fs = gs).
Proof. exact line_round_trip. Qed.
Print Assumptions C29_pair_line_round_trip.
Theorem C29_sequence_file_round_trip : forall l, (forall s, In s l -> pm1 s) ->
  exists lines, traverse sequence_to_string l = Some lines /\ file_to_sequences lines = Some l /\
    forall d tg, write_sequences l d tg = Some (put d (seq_file tg) lines).
Proof. exact sequence_file_round_trip. Qed.
Print Assumptions C29_sequence_file_round_trip.
Theorem C29_numbers : forall x y, (isize_to_string x = isize_to_string y -> x = y) /\
  ((0 <= x)%Z -> parse_usize (usize_to_string x) = Some x).
Proof. intros x y. exact (conj (isize_inj x y) (parse_usize_to_string x)). Qed.
Print Assumptions C29_numbers.
Example C29_instance :
  pair_line (concat (map field [-4; 0; 12]%Z)) 7 130 = lit "-4_0_12_:_7_130" /\
  get_line_from (lit "-4_0_12_:_7_130") = Some (lit "-4_0_12", (7, 130)) /\
  pair_line (concat (map field [])) 7 130 = lit "_:_7_130" /\
  file_to_sequences [lit "++-"; lit "-++"] = Some [[1; 1; -1]; [-1; 1; 1]]%Z.
Proof. repeat split; vm_compute; reflexivity. Qed.

(* C47: the first pair of each key is missing from the table *)
Theorem C47_match_data : forall n s1 s2 tags b, 1 <= n -> length s1 = n -> length s2 = n -> pm1 s1 -> pm1 s2 -> tag_sign tags = Some b ->
  MatchData_from s1 s2 tags =
  Some (map (fun k => (paf s1 (Z.of_nat k) + paf s2 (Z.of_nat k))%Z) (seq 1 (n / 2)),
        map (fun k => if b then (ccf s1 s2 (Z.of_nat k) - ccf s2 s1 (Z.of_nat k))%Z
                      else (ccf s2 s1 (Z.of_nat k) - ccf s1 s2 (Z.of_nat k))%Z) (seq 1 (n / 2))).
Proof. exact match_data_spec. Qed.
Print Assumptions C47_match_data.
Theorem C47_table_drops_first : forall n s1 s2 tags p b, 1 <= n -> seqs_ok n s1 -> seqs_ok n s2 -> tag_sign tags = Some b ->
  exists couples T key, iter_over_filtered_couples n s1 s2 (4 * INR p) = Some couples /\
    generate_matching_table n s1 s2 tags p = Some T /\
    (forall c, In c couples -> MatchData_from (fst c) (snd c) tags = Some (key c)) /\
    forall k, table_get T k = all_but_first (with_key key k couples).
Proof. exact table_spec. Qed.
Print Assumptions C47_table_drops_first.
Theorem C47_single_pair_refuted : forall n q a b, 1 <= n -> pm_quad n q -> complementary q -> a <> b ->
  exists T k, generate_matching_table n [sequence q a] [sequence q b] (a, b) n = Some T /\
    MatchData_from (sequence q a) (sequence q b) (a, b) = Some k /\ table_get T k = Some [].
Proof. exact table_single. Qed.
Print Assumptions C47_single_pair_refuted.
Example C47_instance : seqs_ok 3 l3 /\ seqs_ok 3 m3 /\ tag_sign (TZ, TX) = Some true /\
  MatchData_from [1;1;1]%Z [-1;1;1]%Z (TZ, TX) = Some ([2%Z], [0%Z]) /\
  all_but_first (with_key (fun _ => ([], [])) ([], []) [([1], [1]); ([1], [-1])]%Z) = Some [([1], [-1])]%Z.
Proof.
  assert (forall l, forallb (fun s => (length s =? 3) && forallb (fun x => (x =? 1)%Z || (x =? -1)%Z) s) l = true -> seqs_ok 3 l) as H.
  { intros l H s Hs. rewrite forallb_forall in H. specialize (H s Hs). apply andb_true_iff in H as [A B].
    apply Nat.eqb_eq in A. split; auto. apply Forall_forall. intros x Hx. rewrite forallb_forall in B. specialize (B x Hx).
    apply orb_true_iff in B as [B|B]; apply Z.eqb_eq in B; auto. }
  split; [now apply H|]. split; [now apply H|]. repeat split; vm_compute; reflexivity.
Qed.

(* C67: spectral and correlation files join the same pairs *)
Theorem C67_options_agree : forall n t a b c d e1 e2 sd1 sd2 (L : Tag -> list (list Z)) rs dir, (1 <= n)%nat -> three_types t ->
  tag_sign (a, b) = Some e1 -> tag_sign (c, d) = Some e2 ->
  (forall tg, seqs_ok n (L tg)) -> (forall tg s, In s (L tg) -> total s = rowsum_of_tag rs tg) ->
  exists dc1 dp1 dc2 dp2 n1 n2 fc1 fp1 fc2 fp2,
    write_seq_pairs n (L a) (L b) (a, b) t rs n dir sd1 CORRELATION = Some (dc1, n1) /\ get dc1 (pair_file a b) = Some fc1 /\
    write_seq_pairs n (L a) (L b) (a, b) t rs n dir sd1 PSD = Some (dp1, n1) /\ get dp1 (pair_file a b) = Some fp1 /\
    write_seq_pairs n (L c) (L d) (c, d) t rs n dir sd2 CORRELATION = Some (dc2, n2) /\ get dc2 (pair_file c d) = Some fc2 /\
    write_seq_pairs n (L c) (L d) (c, d) t rs n dir sd2 PSD = Some (dp2, n2) /\ get dp2 (pair_file c d) = Some fp2 /\
    (forall i j, (exists k, has_line fc1 k i j) <-> (exists k, has_line fp1 k i j)) /\
    (forall i j, (exists k, has_line fc2 k i j) <-> (exists k, has_line fp2 k i j)) /\
    (forall i j i' j', (exists k, has_line fc1 k i j /\ has_line fc2 k i' j') <-> (exists k, has_line fp1 k i j /\ has_line fp2 k i' j')).
Proof. exact same_pairs. Qed.
Print Assumptions C67_options_agree.
(* the lists of C28_instance, in which a line of one file matches one of the other *)
Example C67_instance : three_types QuaternionType /\ tag_sign (TW, TX) = Some true /\ tag_sign (TY, TZ) = Some false /\
  (forall tg, seqs_ok 3 (L3 tg)) /\ (forall tg s, In s (L3 tg) -> total s = rowsum_of_tag (totals w3) tg).
Proof.
  split; [unfold three_types; tauto|]. split; [reflexivity|]. split; [reflexivity|]. split.
  - intros tg s Hs.
    assert (G : Forall (fun s => length s = 3 /\ pm1 s) (L3 tg)).
    { destruct tg; repeat (apply Forall_cons; [split; [reflexivity|repeat (apply Forall_cons; [auto|]); apply Forall_nil]|]); apply Forall_nil. }
    rewrite Forall_forall in G. now apply G.
  - intros [] s; cbn; intros Hs; intuition subst; reflexivity.
Qed.

(* C93: matching one pair with the complement of the other; the tags name the four positions in any order *)
Theorem C93_complement_exact : forall n q a b c d, 1 <= n -> pm_quad n q -> NoDup [a; b; c; d] ->
  exists A C v, compute_complementary_auto_correlations (sequence q c) (sequence q d) = Some A /\
    compute_complementary_cross_correlations (sequence q c) (sequence q d) (c, d) = Some C /\
    matching_verify_cross_correlation [sequence q a; sequence q b; sequence q c; sequence q d] [a; b; c; d] = Some v /\
    (is_QT q <-> MatchData_from (sequence q a) (sequence q b) (a, b) = Some (A, C) /\ v = true).
Proof. exact complement_exact. Qed.
Print Assumptions C93_complement_exact.
Theorem C93_bad_tags : forall s0 s1 s2 s3 a b c d, ~ NoDup [a; b; c; d] ->
  matching_verify_cross_correlation [s0; s1; s2; s3] [a; b; c; d] = None.
Proof. exact verify_bad_tags. Qed.
Print Assumptions C93_bad_tags.
(* two equal tags W, X or Y are a panic, two tags Z are not; the order of two sequences with different tags does not matter *)
Theorem C93_equal_tags : forall n s1 s2 a b, 1 <= n -> length s1 = n -> length s2 = n -> pm1 s1 -> pm1 s2 ->
  (compute_cross_correlations s1 s2 (a, b) = None <-> a = b /\ a <> TZ) /\
  (compute_complementary_cross_correlations s1 s2 (a, b) = None <-> a = b /\ a <> TZ).
Proof. exact equal_tags. Qed.
Print Assumptions C93_equal_tags.
Theorem C93_tags_swapped : forall s1 s2 a b, a <> b -> length s1 = length s2 ->
  compute_cross_correlations s1 s2 (a, b) = compute_cross_correlations s2 s1 (b, a) /\
  compute_complementary_cross_correlations s1 s2 (a, b) = compute_complementary_cross_correlations s2 s1 (b, a).
Proof. exact tags_swapped. Qed.
Print Assumptions C93_tags_swapped.
Definition q10 (w : list Z) : QuadSeq := mkQuad 10 w [1;-1;-1;-1;1;1;-1;1;-1;1]%Z [-1;1;1;1;-1;1;-1;-1;-1;1]%Z [1;1;1;1;1;-1;-1;1;-1;-1]%Z.
Example C93_instance : NoDup [TZ; TX; TW; TY] /\ ~ NoDup [TZ; TX; TZ; TY] /\
  let q := q10 [1;1;-1;1;1;1;1;-1;1;1]%Z in
  let p := q10 [1;1;-1;1;1;1;1;-1;-1;1]%Z in
  matching_verify_cross_correlation [q_d q; q_b q; q_a q; q_c q] [TZ; TX; TW; TY] = Some true /\
  verify q QuaternionType = Some true /\
  matching_verify_cross_correlation [q_d p; q_b p; q_a p; q_c p] [TZ; TX; TW; TY] = Some false /\
  verify p QuaternionType = Some false.
Proof.
  split; [repeat constructor; cbn; intuition discriminate|]. split; [rewrite !NoDup_cons_iff; cbn; tauto|]. cbv zeta. repeat split; vm_compute; reflexivity.
Qed.
