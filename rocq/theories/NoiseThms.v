(* Files and searches with computed spectra. *)
From Coq Require Import Ascii String List ZArith Lia Arith Bool Reals Lra Permutation Relations.
From Verif Require Import Base BaseFacts Sums ModelSequence ModelWilliamson ModelEquivalence SpecEquiv OpFacts EquivFacts TypeFacts
  OrderFacts FastFacts EquivThms CanonFacts NsFacts ReduceFacts WsFacts ModelFourier ModelMatching
  ModelRowsum SeqFacts FourierFacts SpecFourier MatchFacts SpecRowsum RowsumFacts QtWt GraphFacts Convert ModelWrite TextFacts
  JoinFacts WriteFacts DirFacts FolderFacts SearchThms SpecSearch ModelNoise SpecNoise NoiseFacts NoiseKeys NoiseSearch Spec.
Import ListNotations.
Notation length := List.length.
Open Scope R_scope.

(* ---- accurate enough ---- *)

Lemma small_e n e : (1 <= n)%nat -> 0 <= e -> 100 * INR n * e <= 1 -> 0 <= e <= 1.
Proof. intros Hn He Hs. apply (le_INR 1) in Hn. change (INR 1) with 1 in Hn. nra. Qed.

Lemma threshold n : (1 <= n)%nat -> exists e, 0 < e /\ 100 * INR n * e <= 1 /\
  forall s1 s2 k, good n s1 -> good n s2 -> (k <= n / 2)%nat -> stable n (20 * INR n * e) ((s1, s2), k).
Proof.
  intros Hn. destruct (all_stable n Hn) as (d & Hd & H). pose proof (N1 n Hn) as N.
  assert (P1 : 0 < d / (20 * INR n)) by (apply Rmult_lt_0_compat; [lra|apply Rinv_0_lt_compat; nra]).
  assert (P2 : 0 < 1 / (100 * INR n)) by (apply Rmult_lt_0_compat; [lra|apply Rinv_0_lt_compat; nra]).
  exists (Rmin (d / (20 * INR n)) (1 / (100 * INR n))). split; [|split].
  - now apply Rmin_glb_lt.
  - pose proof (Rmin_r (d / (20 * INR n)) (1 / (100 * INR n))) as M.
    apply Rle_trans with (100 * INR n * (1 / (100 * INR n))); [|right; field; lra]. apply Rmult_le_compat_l; nra.
  - intros s1 s2 k (L1 & G1) (L2 & G2) Hk. destruct (H s1 s2 k L1 L2 G1 G2 Hk L1 L2) as (A & B & C & D).
    pose proof (Rmin_l (d / (20 * INR n)) (1 / (100 * INR n))) as M.
    assert (M2 : 20 * INR n * Rmin (d / (20 * INR n)) (1 / (100 * INR n)) <= d).
    { apply Rle_trans with (20 * INR n * (d / (20 * INR n))); [|right; field; lra]. apply Rmult_le_compat_l; nra. }
    intros _ _. split; [|split; [|split]]; intros; [apply A|apply B|apply (C b)|apply D]; auto; eapply close_weak; eauto.
Qed.

Lemma correlation_keys n e A : (1 <= n)%nat -> 0 <= e <= 1 -> accurate n e A -> 100 * INR n * e <= 1 ->
  forall tags t side i s1 j s2, good n s1 -> good n s2 ->
  pair_key_f A n tags t n side CORRELATION (pair_f n A i s1 j s2) = pair_key n tags t n side CORRELATION (pair_of i s1 j s2).
Proof. intros. now apply (correlation_key n e A). Qed.
Lemma all_keys n e A m : (1 <= n)%nat -> 0 <= e <= 1 -> accurate n e A -> 100 * INR n * e <= 1 ->
  (forall s1 s2 k, good n s1 -> good n s2 -> (k <= n / 2)%nat -> stable n (20 * INR n * e) ((s1, s2), k)) ->
  forall tags t side i s1 j s2, good n s1 -> good n s2 ->
  pair_key_f A n tags t n side m (pair_f n A i s1 j s2) = pair_key n tags t n side m (pair_of i s1 j s2).
Proof. intros. destruct m; [now apply (correlation_key n e A)|]. apply (psd_key n e A); auto. Qed.

(* ---- one file ---- *)

Lemma range_seq k : range_incl 1 k = seq 1 k.
Proof. unfold range_incl. f_equal. lia. Qed.
Lemma line_of_correlation n t side b i s1 j s2 : length s1 = n ->
  line_of t CORRELATION side b i s1 j s2 = correlation_line n t side b i s1 j s2.
Proof.
  intros L. unfold line_of, correlation_line, key_fields, auto_fields, cross_fields. rewrite L, range_seq.
  destruct side, t; reflexivity.
Qed.
Lemma kept_listed n t b s1 s2 : length s1 = n -> kept t CORRELATION b s1 s2 = true <-> listed n t s1 s2.
Proof.
  intros L. unfold kept, listed. rewrite L. destruct t; try (split; [intros _ C; discriminate C|reflexivity]).
  rewrite forallb_forall. split.
  - intros H _ k Hk. specialize (H k ltac:(apply in_range_incl; lia)). apply Z.eqb_eq in H. unfold cdiff in H. destruct b; lia.
  - intros H k Hk. apply in_range_incl in Hk. specialize (H eq_refl k ltac:(lia)). apply Z.eqb_eq. unfold cdiff. destruct b; lia.
Qed.

Theorem correlation_file n e A t a b bo side l1 l2 rs d : (1 <= n)%nat -> 0 <= e -> 100 * INR n * e <= 1 -> accurate n e A ->
  three_types t -> tag_sign (a, b) = Some bo -> seqs_ok n l1 -> seqs_ok n l2 ->
  (forall s, In s l1 -> total s = rowsum_of_tag rs a) -> (forall s, In s l2 -> total s = rowsum_of_tag rs b) ->
  exists file, write_seq_pairs_f A n l1 l2 (a, b) t rs n d side CORRELATION = Some (put d (pair_file a b) file, Z.of_nat (length file)) /\
    (forall line, In line file -> exists i s1 j s2, nth_error l1 i = Some s1 /\ nth_error l2 j = Some s2 /\
       line = correlation_line n t side bo i s1 j s2 /\ listed n t s1 s2 /\ pair_below n (- (20 * INR n * e)) s1 s2) /\
    (forall i s1 j s2, nth_error l1 i = Some s1 -> nth_error l2 j = Some s2 -> listed n t s1 s2 -> pair_below n (20 * INR n * e) s1 s2 ->
       In (correlation_line n t side bo i s1 j s2) file).
Proof.
  intros Hn He Hs HA Ht Hb O1 O2 R1 R2. pose proof (small_e n e Hn He Hs) as He'.
  eexists. split; [|split].
  - apply (write_seq_pairs_f_spec n A Hn e HA CORRELATION (correlation_keys n e A Hn He' HA Hs) (a, b) bo); auto.
  - intros line Hl. apply in_lines_w in Hl as (i & j & s1 & s2 & E1 & E2 & W & K & ->).
    pose proof (O1 _ (nth_error_In _ _ E1)) as G1. pose proof (O2 _ (nth_error_In _ _ E2)) as G2.
    exists i, s1, j, s2. split; auto. split; auto. split; [apply line_of_correlation, G1|]. split; [apply (kept_listed n t bo); auto; apply G1|].
    intros k Hk. pose proof (within_above n e A Hn He' HA s1 s2 G1 G2 W k Hk). lra.
  - intros i s1 j s2 E1 E2 K W. pose proof (O1 _ (nth_error_In _ _ E1)) as G1. pose proof (O2 _ (nth_error_In _ _ E2)) as G2.
    apply in_lines_w. exists i, j, s1, s2. split; auto. split; auto. split; [apply (within_below n e A Hn He' HA); auto|].
    split; [apply (kept_listed n t bo); auto; apply G1|]. symmetry. apply line_of_correlation, G1.
Qed.

Lemma pair_lines_w t m side b n l1 l2 : pair_lines t m side b n l1 l2 = lines_w (within (4 * INR n)) t m side b l1 l2.
Proof.
  unfold pair_lines, filtered_pairs, lines_w. apply somes_somes. intros [[i s1] [j s2]].
  destruct (within (4 * INR n) s1 s2); reflexivity.
Qed.

Theorem computed_file n : (1 <= n)%nat -> exists e, 0 < e /\ forall A, accurate n e A ->
  forall t m a b bo side l1 l2 rs d, three_types t -> tag_sign (a, b) = Some bo -> seqs_ok n l1 -> seqs_ok n l2 ->
  (forall s, In s l1 -> total s = rowsum_of_tag rs a) -> (forall s, In s l2 -> total s = rowsum_of_tag rs b) ->
  exists exact file,
    write_seq_pairs n l1 l2 (a, b) t rs n d side m = Some (put d (pair_file a b) exact, Z.of_nat (length exact)) /\
    write_seq_pairs_f A n l1 l2 (a, b) t rs n d side m = Some (put d (pair_file a b) file, Z.of_nat (length file)) /\
    (forall k i j, has_line file k i j -> has_line exact k i j) /\
    (forall k i s1 j s2, nth_error l1 i = Some s1 -> nth_error l2 j = Some s2 -> ~ pair_tie n s1 s2 ->
       has_line exact k i j -> has_line file k i j) /\
    ((forall s1 s2, In s1 l1 -> In s2 l2 -> ~ pair_tie n s1 s2) -> file = exact).
Proof.
  intros Hn. destruct (threshold n Hn) as (e & He & Hs & St). exists e. split; auto.
  intros A HA t m a b bo side l1 l2 rs d Ht Hb O1 O2 R1 R2. pose proof (small_e n e Hn (Rlt_le _ _ He) Hs) as He'.
  exists (pair_lines t m side bo n l1 l2), (lines_w (within_f n A) t m side bo l1 l2). split; [|split; [|split; [|split]]].
  - apply (write_seq_pairs_spec n (a, b) bo); auto; intros s Hs'; [apply O1|apply O2]; auto.
  - apply (write_seq_pairs_f_spec n A Hn e HA m (all_keys n e A m Hn He' HA Hs St) (a, b) bo); auto.
  - intros k i j (line & Hl & Ek). exists line. split; auto. rewrite pair_lines_w. apply in_lines_w in Hl as (i' & j' & s1 & s2 & E1 & E2 & W & K & ->).
    pose proof (O1 _ (nth_error_In _ _ E1)) as G1. pose proof (O2 _ (nth_error_In _ _ E2)) as G2.
    apply in_lines_w. exists i', j', s1, s2. repeat split; auto. apply (within_stable n e A Hn He' HA s1 s2); auto.
  - intros k i s1 j s2 E1 E2 NT (line & Hl & Ek). exists line. split; auto. rewrite pair_lines_w in Hl.
    apply in_lines_w in Hl as (i' & j' & s1' & s2' & E1' & E2' & W & K & ->).
    unfold line_of in Ek. rewrite get_line_pair_line in Ek. injection Ek as <- <- <-.
    rewrite E1 in E1'. rewrite E2 in E2'. injection E1' as <-. injection E2' as <-.
    pose proof (O1 _ (nth_error_In _ _ E1)) as G1. pose proof (O2 _ (nth_error_In _ _ E2)) as G2.
    apply in_lines_w. exists i', j', s1, s2. repeat split; auto. apply (within_stable n e A Hn He' HA s1 s2); auto.
    intros k Hk C. apply NT. exists k. auto.
  - intros NT. rewrite pair_lines_w. unfold lines_w. f_equal. apply map_ext_in. intros [[i s1] [j s2]] Hin. apply in_prod_iff in Hin as [E1 E2].
    apply in_enumerate in E1, E2. apply nth_error_In in E1, E2.
    destruct (within_stable n e A Hn He' HA s1 s2) as [W1 W2]; [now apply O1|now apply O2|intros k Hk; apply St; auto; [now apply O1|now apply O2]|].
    assert (E : within_f n A s1 s2 = within (4 * INR n) s1 s2); [|cbv beta iota; now rewrite E].
    destruct (within (4 * INR n) s1 s2); [apply W2; auto; intros k Hk C; apply (NT s1 s2 E1 E2); exists k; auto|].
    destruct (within_f n A s1 s2); auto. symmetry. now apply W1.
Qed.

(* ---- the search ---- *)

Lemma accepted_pairs n A p q : accepted n A p q <-> forall a b, is_pair p (a, b) -> within_f n A (sequence q a) (sequence q b) = true.
Proof.
  unfold accepted, is_pair, pairs_of, pairing_tags. destruct p as [[| |]|]; cbn [fst snd]; split.
  all: try (intros (W1 & W2) a b [E|E]; injection E as -> ->; auto).
  all: intros H; split; apply H; auto.
Qed.
Lemma good_seq n q a : pm_quad n q -> good n (sequence q a).
Proof. intros H. split; [now apply seq_len|now apply (seq_pm n)]. Qed.

Lemma pair_solution n q p a b k : (1 <= n)%nat -> pm_quad n q -> complementary q -> is_pair p (a, b) -> (k <= n / 2)%nat ->
  psd (sequence q a) k + psd (sequence q b) k <= 4 * INR n.
Proof.
  intros Hn Hq Hc Hp Hk. assert (N : a <> b) by (destruct p as [[| |]|]; destruct Hp as [E|E]; injection E as -> ->; discriminate).
  apply (psd_two n q); auto.
Qed.

Theorem correlation_search n e A t p ls : (1 <= n)%nat -> (Z.of_nat n < 2 ^ 62)%Z -> 0 <= e -> 100 * INR n * e <= 1 -> accurate n e A ->
  three_types t -> any_listing ls ->
  exists fuel0, forall fuel, (fuel0 <= fuel)%nat -> exists f c r,
    write_pairs_f A fuel n t CORRELATION p [] = Some (f, c) /\ match_pairs ls t (sortpairs f) = Some r /\
    (forall q, In q r -> pm_quad n q /\ is_type t q /\ normal_rowsums t (totals q)) /\
    (forall q, pm_quad n q -> is_type t q -> normal_rowsums t (totals q) -> below n p (20 * INR n * e) q -> In q r).
Proof.
  intros Hn Hn2 He Hs HA Ht Hls. pose proof (small_e n e Hn He Hs) as He'.
  destruct (search_f n A Hn e He' HA CORRELATION (correlation_keys n e A Hn He' HA Hs) t p ls Hn2 Ht Hls) as (f0 & H).
  exists f0. intros fuel Hf. destruct (H fuel Hf) as (f & c & r & Ew & Em & Hr). exists f, c, r. split; auto. split; auto. split.
  - intros q Hq. apply Hr in Hq. tauto.
  - intros q Pq Tq Nq Bq. apply Hr. repeat (split; auto); try apply Pq. 1-2: apply within_below with e; auto using good_seq; intros k Hk; apply Bq; auto.
    + left. unfold pairs_of, pairing_tags. destruct p as [[| |]|]; reflexivity.
    + right. unfold pairs_of, pairing_tags. destruct p as [[| |]|]; reflexivity.
Qed.

Lemma accepted_iff n e A p q : (1 <= n)%nat -> 0 <= e <= 1 -> accurate n e A ->
  (forall s1 s2 k, good n s1 -> good n s2 -> (k <= n / 2)%nat -> stable n (20 * INR n * e) ((s1, s2), k)) ->
  pm_quad n q -> complementary q -> ~ tie n p q -> accepted n A p q.
Proof.
  intros Hn He HA St Pq Cq NT. apply accepted_pairs. intros a b Hp.
  assert (G1 := good_seq n q a Pq). assert (G2 := good_seq n q b Pq).
  apply (within_stable n e A Hn He HA _ _ G1 G2); auto.
  - intros k Hk C. apply NT. exists a, b, k. auto.
  - apply within_iff. intros k Hk. rewrite (proj1 G1) in Hk. apply (pair_solution n q p); auto. lia.
Qed.

Theorem computed_search n : (1 <= n)%nat -> (Z.of_nat n < 2 ^ 62)%Z -> exists e, 0 < e /\ forall A, accurate n e A ->
  forall t m p ls, three_types t -> any_listing ls ->
  exists fuel0, forall fuel, (fuel0 <= fuel)%nat -> exists f c r,
    write_pairs_f A fuel n t m p [] = Some (f, c) /\ match_pairs ls t (sortpairs f) = Some r /\
    (forall q, In q r -> pm_quad n q /\ is_type t q /\ normal_rowsums t (totals q)) /\
    (forall q, pm_quad n q -> is_type t q -> normal_rowsums t (totals q) -> ~ tie n p q -> In q r).
Proof.
  intros Hn Hn2. destruct (threshold n Hn) as (e & He & Hs & St). exists e. split; auto.
  intros A HA t m p ls Ht Hls. pose proof (small_e n e Hn (Rlt_le _ _ He) Hs) as He'.
  destruct (search_f n A Hn e He' HA m (all_keys n e A m Hn He' HA Hs St) t p ls Hn2 Ht Hls) as (f0 & H).
  exists f0. intros fuel Hf. destruct (H fuel Hf) as (f & c & r & Ew & Em & Hr). exists f, c, r. split; auto. split; auto. split.
  - intros q Hq. apply Hr in Hq. tauto.
  - intros q Pq Tq Nq Bq. apply Hr. split; [exact Pq|]. split; [exact Tq|]. split; [exact Nq|]. apply (accepted_iff n e A p q Hn He' HA St Pq); auto.
    now apply (type_WT n q t).
Qed.

(* ---- one representative per class ---- *)

Theorem computed_classes n : (1 <= n <= 31)%nat -> exists e, 0 < e /\ forall A, accurate n e A ->
  forall t m p ls ord, t = QuaternionType \/ t = WilliamsonType -> any_listing ls -> ord_ok ord ->
  (exists q, pm_quad n q /\ verify q t = Some true /\ normal_rowsums t (totals q) /\ ~ tie n p q) ->
  exists fuel0, forall fuel path, (fuel0 <= fuel)%nat -> exists f c r, write_pairs_f A fuel n t m p [] = Some (f, c) /\
    join_pairs fuel ord path ls t (sortpairs f) = Some r /\ NoDup r /\
    (forall x, In x r -> pm_quad n x /\ verify x t = Some true /\ least (reach (type_ops t) x) x) /\
    (forall q q', pm_quad n q -> verify q t = Some true -> reach (type_ops t) q q' -> normal_rowsums t (totals q') -> ~ tie n p q' ->
       exists x, In x r /\ reach (type_ops t) q x /\ forall x', In x' r -> reach (type_ops t) q x' -> x' = x).
Proof.
  intros Hn. destruct (computed_search n ltac:(lia) ltac:(lia)) as (e & He & HS). exists e. split; auto.
  intros A HA t m p ls ord Ht Hls Ho (q0 & P0 & V0 & N0 & T0).
  assert (Ht' : searchable t) by (unfold searchable; tauto).
  destruct (HS A HA t m p ls Ht' Hls) as (f0 & H).
  destruct (H f0 (le_n _)) as (f & c & r & Ew & Em & Snd & Cmp).
  destruct (canonical_list n t r Ht' ltac:(lia)) as (l & El & LA & LB). { intros q Hq. now apply Snd. }
  assert (Ej : forall fuel path, join_pairs fuel ord path ls t (sortpairs f) = reduce_to_canonical_reps fuel ord path (unique l) t).
  { intros. rewrite join_pairs_eq by auto. rewrite Em. cbn [bind]. rewrite El. reflexivity. }
  assert (VT : forall q, pm_quad n q -> (verify q t = Some true <-> is_type t q)) by (intros q Pq; apply (verify_type n); [exact Pq|lia]).
  assert (S : forall x, In x l -> pm_quad n x /\ is_type t x).
  { intros x Hxl. destruct (LB x Hxl) as (q & Hq & R). destruct (Snd q Hq) as (Pq & Tq & _). apply (reach_type n t q); auto; lia. }
  assert (C : forall q, pm_quad n q -> is_type t q -> normal_rowsums t (totals q) -> ~ tie n p q -> exists x, In x l /\ reach (type_ops t) q x).
  { intros q Pq Tq Nq NT. apply LA. now apply Cmp. }
  destruct (reduce_complete n ord (unique l) t Ho Ht Hn) as (f1 & R).
  - apply unique_nonempty. destruct (C q0) as (x & I & _); auto; [now apply VT|]. intros ->. exact I.
  - apply Forall_forall. intros x Hxl. apply (proj1 (proj2 (unique_spec l) _)) in Hxl. destruct (S x Hxl) as [B1 B2]. split; auto. now apply VT.
  - exists (max f0 f1). intros fuel path Hf. destruct (R fuel path ltac:(lia)) as (r' & Er & Nd & RA & RB & RD).
    exists f, c, r'. split.
    { unfold write_pairs_f in *. apply bind_some in Ew as (rss & Es & Ew). rewrite (generate_rowsums_mono f0 fuel _ _ _ ltac:(lia) Es). exact Ew. }
    split; [now rewrite Ej|]. split; auto. split.
    + intros x Hxr. destruct (RA x Hxr) as (Px & Vx & _). split; auto.
    + intros q q' Pq Vq Rq Nq NT. apply VT in Vq; auto. destruct (reach_type n t q q' Pq ltac:(lia) Rq) as (Pq' & Tq'); [auto..|].
      destruct (C q' Pq' Tq' Nq NT) as (x & I & Rx).
      destruct (RB x) as (y & Iy & Ry & U); [now apply unique_spec|].
      exists y. split; auto. split; [apply rt_trans with q'; auto; now apply rt_trans with x|]. intros x' I' R'. apply U; auto.
      apply rt_trans with q; auto. apply (reach_sym n); auto; [now apply pm_i8|]. now apply rt_trans with q'.
Qed.
