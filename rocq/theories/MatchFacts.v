(* Spectra of valid quadruples, the filter on spectra and the matching keys. *)
From Coq Require Import List ZArith Lia Arith Bool Reals Lra.
From Verif Require Import Base BaseFacts Sums Spec ModelSequence ModelWilliamson ModelEquivalence SeqFacts
  ModelFourier ModelMatching FourierFacts SpecFourier.
Import ListNotations.
Open Scope R_scope.

Lemma Int_part_half z : Int_part (IZR z + / 2) = z.
Proof.
  unfold Int_part. assert (E : (z + 1)%Z = up (IZR z + / 2)); [|lia].
  apply tech_up; rewrite plus_IZR; lra.
Qed.
Lemma roundR_IZR z : roundR (IZR z) = z.
Proof.
  unfold roundR. destruct (Rlt_dec (IZR z) 0); [|apply Int_part_half].
  rewrite <- opp_IZR, Int_part_half. lia.
Qed.
Lemma roundR_0 : roundR 0 = 0%Z. Proof. exact (roundR_IZR 0). Qed.
Lemma roundR_opp x : roundR (- x) = (- roundR x)%Z.
Proof.
  unfold roundR. destruct (Rlt_dec (- x) 0), (Rlt_dec x 0); try lra.
  - now rewrite Ropp_involutive.
  - lia.
  - assert (x = 0) as -> by lra. rewrite Ropp_0. change 0 with (IZR 0). rewrite Int_part_half. reflexivity.
Qed.

(* ---- spectra ---- *)

Lemma psd_norm s k : norm_sqr (dft_at s k) = psd s k.
Proof.
  unfold psd, norm_sqr, dft_at, dft_re, dft_im, fourier_sum. cbn [fst snd].
  assert (E : forall (f : R -> R) (g : nat -> Z -> R) ,
    (forall j, f (angle (length s) j k) = g (length s) (Z.of_nat j * Z.of_nat k)%Z) ->
    fold_right Rplus 0 (map (fun j => IZR (nth j s 0%Z) * f (2 * PI * INR (j * k) / INR (length s))) (seq 0 (length s)))
    = sumR (length s) (fun j => IZR (entry s (Z.of_nat j)) * g (length s) (Z.of_nat j * Z.of_nat k)%Z)).
  { intros f g H. unfold sumR. f_equal. apply map_ext_in. intros j Hj. apply in_seq in Hj.
    rewrite <- H. rewrite entry_nat by lia. reflexivity. }
  rewrite (E cos cosn), (E sin sinn); [ring| |]; intros; [apply sin_angle | apply cos_angle].
Qed.

Lemma psd_nonneg s k : 0 <= psd s k.
Proof. unfold psd. pose proof (pow2_ge_0 (fourier_sum s cos k)). pose proof (pow2_ge_0 (fourier_sum s sin k)). lra. Qed.

Lemma psd_paf s k : (1 <= length s)%nat ->
  psd s k = sumR (length s) (fun t => IZR (paf s (Z.of_nat t)) * cosn (length s) (Z.of_nat t * Z.of_nat k)).
Proof.
  intros Hn. rewrite <- psd_norm, norm_xre, xre_ccf by auto. apply sumR_ext; intros t Ht.
  rewrite <- paf_opp, paf_ccf, Z.opp_involutive. reflexivity.
Qed.

Lemma psd_complementary n q k : (1 <= n)%nat -> pm_quad n q -> complementary q ->
  psd (q_a q) k + psd (q_b q) k + psd (q_c q) k + psd (q_d q) k = 4 * INR n.
Proof.
  intros Hn ((Hs & Ha & Hb & Hc & Hd) & Pa & Pb & Pc & Pd) C.
  rewrite !psd_paf by lia. rewrite Ha, Hb, Hc, Hd. rewrite <- !sumR_add.
  destruct n as [|n]; [lia|].
  rewrite (sumR_ext _ _ (fun t => if (t =? 0)%nat then 4 * INR (S n) else 0)).
  - unfold sumR. rewrite <- cons_seq. cbn [map fold_right Nat.eqb].
    enough (fold_right Rplus 0 (map (fun t => if (t =? 0)%nat then 4 * INR (S n) else 0) (seq 1 n)) = 0) as -> by lra.
    assert (G : forall m l, (1 <= l)%nat -> fold_right Rplus 0 (map (fun t => if (t =? 0)%nat then 4 * INR (S n) else 0) (seq l m)) = 0).
    { induction m; intros l Hl; [reflexivity|]. cbn [seq map fold_right]. rewrite IHm by lia.
      destruct l; [lia|]. cbn. lra. }
    now apply G.
  - intros t Ht. destruct (Nat.eqb_spec t 0) as [->|Nt].
    + cbn [Z.of_nat]. rewrite Z.mul_0_l, cosn_0. rewrite !paf_0 by auto. rewrite Ha, Hb, Hc, Hd, <- INR_IZR_INZ. lra.
    + rewrite <- !Rmult_plus_distr_r, <- !plus_IZR. rewrite C by (rewrite Hs; lia). lra.
Qed.

Lemma gtR_true x y : gtR x y = true <-> y < x.
Proof. unfold gtR. destruct (Rlt_dec y x); split; intros; try discriminate; auto; lra. Qed.
Lemma gtR_false x y : gtR x y = false <-> x <= y.
Proof. unfold gtR. destruct (Rlt_dec y x); split; intros; try discriminate; auto; lra. Qed.

(* ---- the filter ---- *)

Definition spectrum (s : list Z) : list CR := map (dft_at s) (seq 0 (length s / 2 + 1)).
Definition power (s : list Z) : list R := map (psd s) (seq 0 (length s / 2 + 1)).
Definition pair_of (i : nat) (s1 : list Z) (j : nat) (s2 : list Z) : SequencePairData :=
  mkPair (i, s1) (j, s2) (spectrum s1) (power s1) (spectrum s2) (power s2).
Definition within (bound : R) (s1 s2 : list Z) : bool :=
  forallb (fun k => negb (gtR (psd s1 k + psd s2 k) bound)) (seq 1 (length s1 / 2)).

Lemma norm_spectrum s : map norm_sqr (spectrum s) = power s.
Proof. unfold spectrum, power. rewrite map_map. apply map_ext. intros; apply psd_norm. Qed.

Lemma combine_map {A B C} (f : A -> B) (g : A -> C) l : combine (map f l) (map g l) = map (fun x => (f x, g x)) l.
Proof. induction l; cbn; congruence. Qed.

Lemma enumerate_map {A} (f : nat -> A) m : enumerate (map f (seq 0 m)) = map (fun k => (k, f k)) (seq 0 m).
Proof.
  unfold enumerate. rewrite map_length, seq_length. rewrite <- (map_id (seq 0 m)) at 1. now rewrite combine_map.
Qed.

Lemma forallb_map {A B} (f : A -> B) p l : forallb p (map f l) = forallb (fun x => p (f x)) l.
Proof. induction l; cbn; congruence. Qed.
Lemma existsb_map {A B} (f : A -> B) p l : existsb p (map f l) = existsb (fun x => p (f x)) l.
Proof. induction l; cbn; congruence. Qed.
Lemma existsb_ext_in {A} (f g : A -> bool) l : (forall x, In x l -> f x = g x) -> existsb f l = existsb g l.
Proof. induction l; cbn; intros H; auto. rewrite H, IHl; auto. Qed.
Lemma forallb_ext_in {A} (f g : A -> bool) l : (forall x, In x l -> f x = g x) -> forallb f l = forallb g l.
Proof. induction l; cbn; intros H; auto. rewrite H, IHl; auto. Qed.
Lemma existsb_negb {A} (f : A -> bool) l : existsb f l = negb (forallb (fun x => negb (f x)) l).
Proof. induction l; cbn; auto. rewrite IHl. now destruct (f a), (forallb _ l). Qed.

Lemma couple_psds_spec n bound i j s1 s2 : (1 <= n)%nat -> length s1 = n -> length s2 = n ->
  couple_psds n bound (i, s1) (j, s2) = Some (if within bound s1 s2 then Some (pair_of i s1 j s2) else None).
Proof.
  intros Hn H1 H2. unfold couple_psds. cbn [fst snd].
  rewrite <- H1 at 1. rewrite dft_sequence_spec by lia. cbn [bind].
  rewrite <- H2 at 1. rewrite dft_sequence_spec by lia. cbn [bind].
  fold (spectrum s1) (spectrum s2). rewrite !norm_spectrum. unfold pair_of.
  assert (E : existsb (fun '((i1, x1), (i2, x2)) => negb (i1 =? 0)%nat && negb (i2 =? 0)%nat && gtR (x1 + x2) bound)
      (combine (enumerate (power s1)) (enumerate (power s2))) = negb (within bound s1 s2)).
  { unfold power. rewrite H1, H2. rewrite !enumerate_map, combine_map, existsb_map.
    unfold within. rewrite H1. rewrite existsb_negb. f_equal.
    rewrite Nat.add_1_r. rewrite <- cons_seq. cbn [forallb Nat.eqb negb andb].
    apply forallb_ext_in. intros k Hk. apply in_seq in Hk. destruct k; [lia|]. reflexivity. }
  rewrite E. now destruct (within bound s1 s2).
Qed.

Lemma in_enumerate {A} (l : list A) i x : In (i, x) (enumerate l) <-> nth_error l i = Some x.
Proof.
  unfold enumerate. enough (G : forall s, In (i, x) (combine (seq s (length l)) l) <-> (s <= i)%nat /\ nth_error l (i - s) = Some x).
  { rewrite G. rewrite Nat.sub_0_r. split; [tauto|intros; split; [lia|auto]]. }
  induction l as [|y l IH]; intros s.
  - cbn. split; [tauto|]. intros [_ H]. destruct (i - s)%nat; discriminate.
  - cbn [length seq combine In]. rewrite IH. split.
    + intros [E|[Hs H]]; [injection E as <- <-; split; [lia|now rewrite Nat.sub_diag]|].
      split; [lia|]. replace (i - s)%nat with (S (i - S s)) by lia. exact H.
    + intros [Hs H]. destruct (Nat.eq_dec s i) as [->|N].
      * left. rewrite Nat.sub_diag in H. cbn in H. congruence.
      * right. split; [lia|]. replace (i - s)%nat with (S (i - S s)) in H by lia. exact H.
Qed.

Lemma in_somes {A} (l : list (option A)) x : In x (somes l) <-> In (Some x) l.
Proof.
  unfold somes. rewrite in_flat_map. split.
  - intros ([y|] & H & Hx); [|contradiction]. destruct Hx as [->|[]]. exact H.
  - intros H. exists (Some x). split; auto. now left.
Qed.

Definition all_len (n : nat) (l : list (list Z)) : Prop := forall s, In s l -> length s = n.

Definition filtered_pairs (bound : R) (l1 l2 : list (list Z)) : list SequencePairData :=
  somes (map (fun '((i, s1), (j, s2)) => if within bound s1 s2 then Some (pair_of i s1 j s2) else None)
    (iproduct (enumerate l1) (enumerate l2))).

Lemma iter_psds_spec n l1 l2 bound : (1 <= n)%nat -> all_len n l1 -> all_len n l2 ->
  iter_over_enumerate_filtered_couples_psds n l1 l2 bound = Some (filtered_pairs bound l1 l2).
Proof.
  intros Hn H1 H2. unfold iter_over_enumerate_filtered_couples_psds, filtered_pairs.
  rewrite (traverse_map _ (fun '((i, s1), (j, s2)) => if within bound s1 s2 then Some (pair_of i s1 j s2) else None)).
  - reflexivity.
  - intros [[i s1] [j s2]] Hin. apply in_prod_iff in Hin as [A B].
    apply in_enumerate in A, B. apply nth_error_In in A, B. now apply couple_psds_spec; auto.
Qed.

Lemma in_filtered_pairs bound l1 l2 d : In d (filtered_pairs bound l1 l2) <->
  exists i j s1 s2, nth_error l1 i = Some s1 /\ nth_error l2 j = Some s2 /\ within bound s1 s2 = true /\ d = pair_of i s1 j s2.
Proof.
  unfold filtered_pairs. rewrite in_somes, in_map_iff. split.
  - intros ([[i s1] [j s2]] & E & Hin). apply in_prod_iff in Hin as [A B]. apply in_enumerate in A, B.
    destruct (within bound s1 s2) eqn:W; [|discriminate]. injection E as <-. exists i, j, s1, s2. auto.
  - intros (i & j & s1 & s2 & A & B & W & ->). exists ((i, s1), (j, s2)). rewrite W. split; auto.
    apply in_prod_iff. rewrite !in_enumerate. auto.
Qed.

Lemma within_iff bound s1 s2 : within bound s1 s2 = true <->
  forall k, (1 <= k <= length s1 / 2)%nat -> psd s1 k + psd s2 k <= bound.
Proof.
  unfold within. rewrite forallb_forall. split.
  - intros H k Hk. specialize (H k ltac:(apply in_seq; lia)). apply negb_true_iff in H. now apply gtR_false.
  - intros H k Hk. apply in_seq in Hk. apply negb_true_iff, gtR_false, H. lia.
Qed.

(* the couples filter includes frequency 0 *)
Lemma couple_within_spec n bound s1 s2 : (1 <= n)%nat -> length s1 = n -> length s2 = n ->
  exists b, couple_within n bound s1 s2 = Some b /\
  (b = true <-> forall k, (k <= n / 2)%nat -> psd s1 k + psd s2 k <= bound).
Proof.
  intros Hn H1 H2. unfold couple_within.
  assert (E1 := dft_sequence_spec s1 ltac:(lia)). assert (E2 := dft_sequence_spec s2 ltac:(lia)).
  rewrite H1 in E1. rewrite H2 in E2. rewrite E1, E2. cbn [bind].
  rewrite combine_map. eexists; split; [reflexivity|]. rewrite forallb_map, forallb_forall. split.
  - intros H k Hk. specialize (H k ltac:(apply in_seq; lia)). apply negb_true_iff, gtR_false in H.
    now rewrite !psd_norm in H.
  - intros H k Hk. apply in_seq in Hk. apply negb_true_iff, gtR_false. rewrite !psd_norm. apply H. lia.
Qed.

Lemma filter_m_filter {A} (f : A -> option bool) (g : A -> bool) l :
  (forall x, In x l -> f x = Some (g x)) -> filter_m f l = Some (filter g l).
Proof.
  induction l as [|x l IH]; intros H; [reflexivity|]. cbn. rewrite H by now left. cbn.
  rewrite IH by (intros; apply H; now right). cbn. now destruct (g x).
Qed.

Lemma filter_m_in {A} (f : A -> option bool) l r : filter_m f l = Some r ->
  forall x, In x r <-> In x l /\ f x = Some true.
Proof.
  revert r. induction l as [|y l IH]; cbn; intros r E x.
  - injection E as <-. cbn. tauto.
  - apply bind_some in E as (b & Eb & E). apply bind_some in E as (r' & Er & E). injection E as <-.
    specialize (IH _ Er x). destruct b; cbn; rewrite ?IH; split; intros H.
    + destruct H as [->|[H ?]]; auto.
    + destruct H as [[->|H] ?]; auto.
    + destruct H; auto.
    + destruct H as [[->|H] ?]; auto. congruence.
Qed.

(* ---- correlations through spectra ---- *)

Lemma power_cross s : map (fun x => (x, 0)) (power s) =
  map (fun k => (xre s s (Z.of_nat k), xim s s (Z.of_nat k))) (seq 0 (length s / 2 + 1)).
Proof.
  unfold power. rewrite map_map. apply map_ext. intros k. now rewrite xim_self, <- norm_xre, psd_norm.
Qed.

Lemma inverse_spectrum a b : length a = length b -> (1 <= length a)%nat ->
  inverse_dft (length a) (map (fun k => (xre a b (Z.of_nat k), xim a b (Z.of_nat k))) (seq 0 (length a / 2 + 1))) (length a)
  = Some (map (fun t => IZR (ccf a b (Z.of_nat t))) (seq 0 (length a))).
Proof.
  intros E Hn. apply inverse_cross; auto.
  - now rewrite map_length, seq_length.
  - intros k Hk. rewrite nth_map_seq by lia. reflexivity.
Qed.

Lemma auto_dft_spec s n : length s = n -> (1 <= n)%nat ->
  compute_auto_correlation_dft n (power s) n = Some (map (fun t => paf s (Z.of_nat t)) (seq 0 n)).
Proof.
  intros <- Hn. unfold compute_auto_correlation_dft. rewrite power_cross, inverse_spectrum by auto. cbn [bind].
  rewrite map_map. f_equal. apply map_ext. intros t. rewrite roundR_IZR.
  now rewrite <- paf_opp, paf_ccf, Z.opp_involutive.
Qed.

Lemma half_lt n o : (1 <= n)%nat -> (1 <= o <= n / 2)%nat -> (o < n)%nat.
Proof. intros Hn Ho. pose proof (Nat.div_lt n 2). lia. Qed.

Lemma auto_pair_dft_spec s1 s2 n : length s1 = n -> length s2 = n -> (1 <= n)%nat ->
  compute_auto_correlation_pair_dft n (power s1) n (power s2) n =
  Some (map (fun t => (paf s1 (Z.of_nat t) + paf s2 (Z.of_nat t))%Z) (range_incl 1 (n / 2))).
Proof.
  intros H1 H2 Hn. unfold compute_auto_correlation_pair_dft. rewrite !auto_dft_spec by auto. cbn [bind].
  rewrite map_length, seq_length. apply traverse_map. intros o Ho. apply in_range_incl in Ho.
  pose proof (half_lt n o Hn Ho).
  rewrite !(vget_nth _ o 0%Z) by (rewrite map_length, seq_length; lia). cbn [bind].
  rewrite !nth_map_seq by lia. reflexivity.
Qed.

Lemma mul_spectrum a b : length a = length b ->
  seq_multiply_pointwise_complex (spectrum a) (map cr_conj (spectrum b)) =
  map (fun k => (xre a b (Z.of_nat k), xim a b (Z.of_nat k))) (seq 0 (length a / 2 + 1)).
Proof.
  intros E. unfold seq_multiply_pointwise_complex, spectrum. rewrite <- E, map_map, combine_map, map_map.
  apply map_ext. intros k. now apply cross_product.
Qed.

(* the signed difference of cross-correlations *)
Definition cdiff (b : bool) (s1 s2 : list Z) (t : Z) : Z :=
  if b then (ccf s1 s2 t - ccf s2 s1 t)%Z else (ccf s2 s1 t - ccf s1 s2 t)%Z.

Lemma cross_dft_spec tags b s1 s2 n : length s1 = n -> length s2 = n -> (1 <= n)%nat -> tag_sign tags = Some b ->
  compute_cross_correlations_dft n (spectrum s1) (spectrum s2) tags n =
  Some (map (fun t => cdiff b s1 s2 (Z.of_nat t)) (range_incl 1 (n / 2))).
Proof.
  intros H1 H2 Hn Hb. unfold compute_cross_correlations_dft. rewrite !mul_spectrum by congruence.
  assert (E1 := inverse_spectrum s1 s2 ltac:(congruence) ltac:(lia)).
  assert (E2 := inverse_spectrum s2 s1 ltac:(congruence) ltac:(lia)).
  rewrite H1 in *. rewrite H2 in *. rewrite E1. cbn [bind]. rewrite E2. cbn [bind]. rewrite Hb. cbn [bind].
  apply traverse_map. intros o Ho. apply in_range_incl in Ho. pose proof (half_lt n o Hn Ho).
  rewrite !(vget_nth _ o 0) by (rewrite map_length, seq_length; lia). cbn [bind]. rewrite !nth_map_seq by lia.
  f_equal. unfold cdiff. destruct b; rewrite <- minus_IZR; apply roundR_IZR.
Qed.

(* the spectral computation of the cross-correlations agrees with the direct one *)
Lemma cross_direct tags b s1 s2 n : pm1 s1 -> pm1 s2 -> length s1 = n -> length s2 = n -> (1 <= n)%nat ->
  tag_sign tags = Some b ->
  compute_cross_correlations s1 s2 tags = Some (map (fun t => cdiff b s1 s2 (Z.of_nat t)) (range_incl 1 (n / 2))).
Proof.
  intros P1 P2 H1 H2 Hn Hb. unfold compute_cross_correlations. rewrite Hb. cbn [bind]. rewrite H1.
  apply traverse_map. intros o Ho. apply in_range_incl in Ho. pose proof (half_lt n o Hn Ho).
  unfold crossc_at. rewrite !cross_correlation_spec by (auto; lia). destruct b; reflexivity.
Qed.
Lemma auto_pair_direct s1 s2 n : pm1 s1 -> pm1 s2 -> length s1 = n -> length s2 = n ->
  compute_auto_correlation_pair s1 s2 =
  Some (map (fun t => (paf s1 (Z.of_nat t) + paf s2 (Z.of_nat t))%Z) (range_incl 1 (n / 2))).
Proof.
  intros P1 P2 H1 H2. unfold compute_auto_correlation_pair, compute_auto_correlation. rewrite H1, H2.
  rewrite (traverse_map _ (fun t => paf s1 (Z.of_nat t))) by (intros; now apply periodic_autocorrelation_spec).
  rewrite (traverse_map _ (fun t => paf s2 (Z.of_nat t))) by (intros; now apply periodic_autocorrelation_spec).
  cbn [bind]. now rewrite combine_map, map_map.
Qed.

Lemma vget_map_seq {A} (f : nat -> A) m k : (k < m)%nat -> vget (map f (seq 0 m)) k = Some (f k).
Proof. intros H. rewrite (vget_nth _ k (f 0%nat)) by (now rewrite map_length, seq_length). now rewrite nth_map_seq. Qed.

(* the signed imaginary part of the cross spectrum *)
Definition xdiff (b : bool) (s1 s2 : list Z) (k : Z) : R :=
  if b then xim s1 s2 k - xim s2 s1 k else xim s2 s1 k - xim s1 s2 k.

Lemma cross_psd_spec a b : length a = length b ->
  compute_cross_psd (spectrum a) (spectrum b) =
  map (fun k => (xre a b (Z.of_nat k), xim a b (Z.of_nat k))) (seq 0 (length a / 2 + 1)).
Proof.
  intros E. unfold compute_cross_psd, spectrum. rewrite <- E, combine_map, map_map. apply map_ext.
  intros k. now apply cross_product.
Qed.

Lemma cross_psd_pair_spec tags b s1 s2 n : length s1 = n -> length s2 = n -> tag_sign tags = Some b ->
  exists l, compute_cross_psd_pair (spectrum s1) (spectrum s2) tags n = Some l /\
  map snd l = map (fun k => xdiff b s1 s2 (Z.of_nat k)) (range_incl 1 (n / 2)).
Proof.
  intros H1 H2 Hb. unfold compute_cross_psd_pair. rewrite Hb. cbn [bind].
  rewrite !cross_psd_spec by congruence. rewrite H1, H2.
  eexists. split.
  - apply (traverse_map _ (fun k => let x := (xre s1 s2 (Z.of_nat k), xim s1 s2 (Z.of_nat k)) in
        let y := (xre s2 s1 (Z.of_nat k), xim s2 s1 (Z.of_nat k)) in if b then cr_sub x y else cr_sub y x)).
    intros o Ho. apply in_range_incl in Ho.
    rewrite !vget_map_seq by lia. reflexivity.
  - rewrite map_map. apply map_ext. intros k. unfold xdiff. destruct b; reflexivity.
Qed.

Lemma xdiff_amicable b s1 s2 k : length s1 = length s2 -> (1 <= length s1)%nat -> amicable s1 s2 -> xdiff b s1 s2 k = 0.
Proof.
  intros E Hn A. assert (X : xim s1 s2 k = xim s2 s1 k).
  { rewrite !xim_ccf by (auto; lia). rewrite <- E. f_equal. apply sumR_ext; intros. now rewrite (A (Z.of_nat i)). }
  unfold xdiff. rewrite X. destruct b; lra.
Qed.
Lemma cdiff_amicable b s1 s2 t : amicable s1 s2 -> cdiff b s1 s2 t = 0%Z.
Proof. intros A. unfold cdiff. rewrite (A t). destruct b; lia. Qed.

Lemma psd_pair_spec s1 s2 n side : length s1 = n -> length s2 = n ->
  compute_psd_pair (power s1) (power s2) n side =
  map (fun k => match side with LEFT => psd s1 k + psd s2 k | RIGHT => 4 * INR n - (psd s1 k + psd s2 k) end)
    (range_incl 1 (n / 2)).
Proof.
  intros H1 H2. unfold compute_psd_pair, power, range_incl. rewrite H1, H2.
  replace (S (n / 2) - 1)%nat with (n / 2)%nat by lia.
  rewrite Nat.add_1_r, <- cons_seq. cbn [map skipn]. rewrite combine_map.
  destruct side; rewrite map_map; [reflexivity|]. apply map_ext. intros k. rewrite mult_INR. simpl (INR 4). lra.
Qed.
