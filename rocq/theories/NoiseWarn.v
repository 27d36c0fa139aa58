(* The warnings about roundings. *)
From Coq Require Import Ascii String List ZArith Lia Arith Bool Reals Lra.
From Verif Require Import Base BaseFacts Sums ModelSequence ModelWilliamson ModelFourier ModelMatching
  ModelRowsum SeqFacts FourierFacts SpecFourier MatchFacts SpecRowsum RowsumFacts ModelWrite TextFacts
  PsdKeys PsdSame WriteFacts DirFacts FolderFacts SpecSearch ModelNoise SpecNoise NoiseFacts KernelFacts NoiseKeys NoiseSearch NoiseThms NoiseTies Spec.
Import ListNotations.
Notation length := List.length.
Open Scope R_scope.

Lemma cross_im_xim s1 s2 k : length s1 = length s2 -> cross_im s1 s2 k = xim s1 s2 (Z.of_nat k).
Proof.
  intros E. unfold cross_im. pose proof (cross_product s1 s2 k E) as C. injection C as _ C. rewrite <- C.
  unfold dft_at, cr_conj. cbn [fst snd]. rewrite <- !fourier_cos, <- !fourier_sin. ring.
Qed.
Lemma cross_value_xdiff b s1 s2 k : length s1 = length s2 -> cross_value b s1 s2 k = xdiff b s1 s2 (Z.of_nat k).
Proof. intros E. unfold cross_value, xdiff. rewrite !cross_im_xim by congruence. reflexivity. Qed.
Lemma power_value_fside n side s1 s2 k : length s1 = n -> power_value n side s1 s2 k = fside side s1 s2 k.
Proof. intros <-. reflexivity. Qed.

(* no value is a half *)
Theorem never_half n s1 s2 k z : (1 <= n)%nat -> length s1 = n -> length s2 = n ->
  (forall side, power_value n side s1 s2 k <> IZR z + 1 / 2) /\ (forall b, cross_value b s1 s2 k <> IZR z + 1 / 2).
Proof.
  intros Hn L1 L2. assert (O : Z.even (2 * z + 1) = false) by (rewrite Z.even_add, Z.even_mul; reflexivity). split.
  - intros side E. rewrite power_value_fside in E by auto.
    apply (fside_not_fraction n side s1 s2 k (2 * z + 1) 2 Hn L1 L2 eq_refl O). rewrite E, plus_IZR, mult_IZR. lra.
  - intros b E. rewrite cross_value_xdiff in E by congruence.
    apply (xdiff_not_fraction n b s1 s2 (Z.of_nat k) (2 * z + 1) 2 Hn L1 L2 eq_refl O). rewrite E, plus_IZR, mult_IZR. lra.
Qed.

Lemma round_agree d x y : 0 <= d -> d < / 8 -> close d y x -> (0 <= y /\ d < Rabs (frac_part y - 1 / 2)) \/ (- / 4 <= y < 0) -> roundR y = roundR x.
Proof.
  intros Hd0 Hd C H. unfold close in C. assert (- d <= y - x <= d) as [C1 C2] by (revert C; unfold Rabs; destruct (Rcase_abs _); lra).
  assert (K : forall z r, r < / 2 -> close r y (IZR z) -> close r x (IZR z) -> roundR y = roundR x).
  { intros z r Hr Hy Hx. rewrite (round_close r y z), (round_close r x z); auto. }
  destruct H as [[Hy Hf]|Hy].
  - destruct (base_fp y) as [F1 F2]. unfold frac_part in *. set (z := Int_part y) in *.
    destruct (Rle_dec (y - IZR z) (1 / 2)) as [L|L].
    + rewrite Rabs_left1 in Hf by lra. apply (K z (y - IZR z + d)); [lra| |]; unfold close, Rabs; destruct (Rcase_abs _); lra.
    + rewrite Rabs_right in Hf by lra. apply (K (z + 1)%Z (IZR z + 1 - y + d)); [lra| |]; rewrite plus_IZR; unfold close, Rabs; destruct (Rcase_abs _); lra.
  - apply (K 0%Z (/ 4 + d)); [lra| |]; unfold close, Rabs; destruct (Rcase_abs _); lra.
Qed.

Section Min.
Context (A : Arith).
Let diff (a : R) := Rabs (a_sub A (fractR a) (1 / 2)).
Lemma min_difference_le l m : min_difference A m l <= m /\ forall a, In a l -> min_difference A m l <= diff a.
Proof.
  revert m. induction l as [|x l IH]; intros m; cbn [min_difference fold_left].
  - split; [lra|intros _ []].
  - unfold min_difference in IH. fold (diff x). destruct (Rlt_dec (diff x) m) as [L|L].
    + destruct (IH (diff x)) as [I1 I2]. split; [lra|]. intros a [<-|Ha]; auto.
    + destruct (IH m) as [I1 I2]. split; auto. intros a [<-|Ha]; auto. lra.
Qed.
Lemma min_difference_ge l m c : c <= m -> (forall a, In a l -> c <= diff a) -> c <= min_difference A m l.
Proof.
  revert m. induction l as [|x l IH]; intros m Hm H; cbn [min_difference fold_left]; auto.
  unfold min_difference in IH. fold (diff x). apply IH.
  - pose proof (H x ltac:(now left)). destruct (Rlt_dec _ _); auto.
  - intros a Ha. apply H. now right.
Qed.
End Min.

Lemma tolerance_pos : 0 < tolerance < / 1000000.
Proof.
  unfold tolerance. assert (E : 2 ^ 26 = 67108864) by (cbn; lra). rewrite E. split; [lra|]. apply Rinv_lt_contravar; lra.
Qed.
Lemma fract_bound a : -1 < fractR a < 1.
Proof. unfold fractR. destruct (Rlt_dec a 0); [destruct (base_fp (- a))|destruct (base_fp a)]; lra. Qed.

Section Warn.
Context (n : nat) (e : R) (A : Arith).
Context (Hn : (1 <= n)%nat) (He : 0 <= e <= 1) (HA : accurate n e A).

Lemma small_args x : -1 <= x <= 1 -> at_most (100 * INR n ^ 2) x.
Proof. intros H. pose proof (N1 n Hn). unfold at_most, Rabs. destruct (Rcase_abs _); nra. Qed.
Lemma sub_half a : close e (a_sub A (fractR a) (1 / 2)) (fractR a - 1 / 2).
Proof. destruct HA as (_ & _ & H & _). apply H; apply small_args; pose proof (fract_bound a); lra. Qed.

Lemma negative_quiet l : e <= / 4 -> (forall a, In a l -> a < 0) -> gtR tolerance (min_difference A 1 l) = false.
Proof.
  intros He4 H. pose proof tolerance_pos. apply gtR_false. apply min_difference_ge; [lra|]. intros a Ha. specialize (H a Ha).
  pose proof (sub_half a) as C. assert (F : fractR a <= 0) by (unfold fractR; destruct (Rlt_dec a 0); [destruct (base_fp (- a)); lra|lra]).
  unfold close in C. revert C. unfold Rabs. repeat destruct (Rcase_abs _); lra.
Qed.

Lemma no_warning_value l m a : tolerance <= min_difference A m l -> In a l -> 0 <= a -> tolerance - e <= Rabs (frac_part a - 1 / 2).
Proof.
  intros H Ha Pa. destruct (min_difference_le A l m) as [_ M]. specialize (M a Ha). pose proof (sub_half a) as C.
  assert (F : fractR a = frac_part a) by (unfold fractR; destruct (Rlt_dec a 0); [lra|auto]). rewrite F in *.
  unfold close in C. revert M C. unfold Rabs. repeat destruct (Rcase_abs _); lra.
Qed.

(* the loop over the pairs *)
Lemma warnings_spec l1 l2 a b bo t side w1 w2 : three_types t -> tag_sign (a, b) = Some bo -> seqs_ok n l1 -> seqs_ok n l2 ->
  warnings A n l1 l2 (a, b) t n side = Some (w1, w2) ->
  forall s1 s2, In s1 l1 -> In s2 l2 -> within_f n A s1 s2 = true -> forall k, (1 <= k <= n / 2)%nat ->
  (w1 = false -> 0 <= psd_f n A side s1 s2 k -> tolerance - e <= Rabs (frac_part (psd_f n A side s1 s2 k) - 1 / 2)) /\
  (w2 = false -> t = QuaternionType -> 0 <= im_f A bo s1 s2 k -> tolerance - e <= Rabs (frac_part (im_f A bo s1 s2 k) - 1 / 2)).
Proof.
  intros Ht Hb O1 O2 E s1 s2 I1 I2 W k Hk. unfold warnings, iter_psds_f in E.
  set (f := fun '((i, s1), (j, s2)) => if within_f n A s1 s2 then Some (pair_f n A i s1 j s2) else None) in *.
  rewrite (traverse_map _ f) in E.
  2:{ intros [[i x1] [j x2]] Hin. apply in_prod_iff in Hin as [B C].
      apply in_enumerate in B, C. apply nth_error_In in B, C. apply (couple_psds_f_spec n e A Hn HA); [now apply O1|now apply O2]. }
  cbn [bind] in E.
  assert (IP : exists i j, In (pair_f n A i s1 j s2) (somes (map f (iproduct (enumerate l1) (enumerate l2))))).
  { destruct (In_nth_error _ _ I1) as (i & Hi), (In_nth_error _ _ I2) as (j & Hj). exists i, j. apply in_somes, in_map_iff.
    exists ((i, s1), (j, s2)). split; [unfold f; now rewrite W|]. apply in_prod_iff. rewrite !in_enumerate. auto. }
  assert (AP : forall d, In d (somes (map f (iproduct (enumerate l1) (enumerate l2)))) -> exists i x1 j x2, d = pair_f n A i x1 j x2 /\ good n x1 /\ good n x2).
  { intros d Hd. apply in_somes, in_map_iff in Hd as ([[i x1] [j x2]] & Ed & Hin). apply in_prod_iff in Hin as [B C].
    apply in_enumerate in B, C. apply nth_error_In in B, C. unfold f in Ed. destruct (within_f n A x1 x2); [|discriminate]. injection Ed as <-.
    exists i, x1, j, x2. split; auto. split; [now apply O1|now apply O2]. }
  destruct IP as (i & j & IP). revert E AP IP. generalize (somes (map f (iproduct (enumerate l1) (enumerate l2)))). intros ps E AP IP.
  apply bind_some in E as ([m1 m2] & E & Er).
  assert (G : forall ps m1 m2 r1 r2, (forall d, In d ps -> exists i x1 j x2, d = pair_f n A i x1 j x2 /\ good n x1 /\ good n x2) ->
    fold_m (fun '(m1, m2) pair =>
      let psd := compute_psd_pair_f A (norm1 pair) (norm2 pair) n side in
      let* cpsd := compute_cross_psd_pair_f A (dft1 pair) (dft2 pair) (a, b) (length (snd (seq_enum1 pair))) in
      Some (min_difference A m1 psd, match t with QuaternionType => min_difference A m2 (map snd cpsd) | _ => m2 end)) ps (m1, m2) = Some (r1, r2) ->
    r1 <= m1 /\ r2 <= m2 /\ forall i j s1 s2, In (pair_f n A i s1 j s2) ps ->
      (exists m, r1 <= min_difference A m (map (psd_f n A side s1 s2) (range_incl 1 (n / 2)))) /\
      (t = QuaternionType -> exists m, r2 <= min_difference A m (map (im_f A bo s1 s2) (range_incl 1 (n / 2))))).
  { clear - Hn Hb He HA. induction ps as [|d ps IH]; intros m1 m2 r1 r2 AP E.
    - injection E as <- <-. split; [lra|]. split; [lra|]. intros ? ? ? ? [].
    - destruct (AP d ltac:(now left)) as (i & x1 & j & x2 & -> & G1 & G2). cbn [fold_m] in E. apply bind_some in E as ([m1' m2'] & E1 & E).
      cbn [pair_f norm1 norm2 dft1 dft2 seq_enum1 snd] in E1. rewrite (proj1 G1) in E1. rewrite psd_pair_f_spec in E1 by exact Hn.
      destruct (cross_psd_pair_f_spec n A Hn (a, b) bo x1 x2 Hb) as (l & El & Hl). rewrite El in E1. cbn [bind] in E1. rewrite Hl in E1.
      injection E1 as <- <-. apply IH in E as (B1 & B2 & B3); [|intros d Hd; apply AP; now right].
      destruct (min_difference_le A (map (psd_f n A side x1 x2) (range_incl 1 (n / 2))) m1) as [M1 _].
      destruct (min_difference_le A (map (im_f A bo x1 x2) (range_incl 1 (n / 2))) m2) as [M2 _].
      split; [eapply Rle_trans; [exact B1|exact M1]|]. split; [destruct t; try exact B2; eapply Rle_trans; [exact B2|exact M2]|]. intros i' j' s1 s2 [Ep|Ip].
      + unfold pair_f in Ep. injection Ep as -> -> -> -> _ _ _ _. split; [exists m1; exact B1|]. intros ->. exists m2. exact B2.
      + apply B3 in Ip. exact Ip. }
  destruct (G ps 1 1 m1 m2 AP E) as (_ & _ & H). destruct (H i j s1 s2 IP) as [(c1 & H1) H2]. cbn [bind] in Er. injection Er as <- <-. split.
  - intros W1 P. apply gtR_false in W1. eapply no_warning_value; [eapply Rle_trans; [exact W1|exact H1]| |exact P].
    apply in_map. apply in_range_incl. lia.
  - intros W2 Tq P. apply gtR_false in W2. destruct (H2 Tq) as (c2 & H2'). eapply no_warning_value; [eapply Rle_trans; [exact W2|exact H2']| |exact P].
    apply in_map. apply in_range_incl. lia.
Qed.
End Warn.

(* ---- the lines of the option PSD ---- *)

Lemma map_field_map {X} (f : X -> Z) l : map (fun a => field (f a)) l = map field (map f l).
Proof. now rewrite map_map. Qed.

Definition kept_f (n : nat) (A : Arith) (t : SequenceType) (bo : bool) (s1 s2 : list Z) : bool :=
  match t with WilliamsonType => negb (existsb (fun k => gtR (Rabs (im_f A bo s1 s2 k)) (a_tiny A)) (range_incl 1 (n / 2))) | _ => true end.
Definition fields_f (n : nat) (A : Arith) (t : SequenceType) (side : EquationSide) (bo : bool) (s1 s2 : list Z) : list Z :=
  map (fun k => roundR (psd_f n A side s1 s2 k)) (range_incl 1 (n / 2)) ++
  match t with QuaternionType => map (fun k => op_side side (roundR (im_f A bo s1 s2 k))) (range_incl 1 (n / 2)) | _ => [] end.

Lemma psd_key_f n A tags t side bo i s1 j s2 : (1 <= n)%nat -> three_types t -> good n s1 -> tag_sign tags = Some bo ->
  pair_key_f A n tags t n side PSD (pair_f n A i s1 j s2) =
  Some (if kept_f n A t bo s1 s2 then Some (concat (map field (fields_f n A t side bo s1 s2))) else None).
Proof.
  intros Hn Ht G1 Hb. unfold pair_key_f, pair_f. cbn [seq_enum1 seq_enum2 dft1 norm1 dft2 norm2 snd]. rewrite (proj1 G1).
  rewrite psd_pair_f_spec by exact Hn. destruct (cross_psd_pair_f_spec n A Hn tags bo s1 s2 Hb) as (l & El & Hl). rewrite El. cbn [bind].
  rewrite !map_map. unfold kept_f, fields_f. rewrite map_app, concat_app, !map_map. destruct Ht as [->|[->| ->]]; cbn [map concat].
  - do 4 f_equal. rewrite <- (map_map snd (fun c => field (op_side side (roundR c)))), Hl, !map_map. reflexivity.
  - rewrite app_nil_r. rewrite <- (existsb_map snd (fun v => gtR (Rabs v) (a_tiny A))), Hl, existsb_map.
    destruct (existsb _ _); reflexivity.
  - rewrite app_nil_r. reflexivity.
Qed.

Lemma psd_file_f n e A t a b bo side l1 l2 rs d : (1 <= n)%nat -> accurate n e A -> three_types t -> tag_sign (a, b) = Some bo ->
  seqs_ok n l1 -> seqs_ok n l2 ->
  (forall s, In s l1 -> total s = rowsum_of_tag rs a) -> (forall s, In s l2 -> total s = rowsum_of_tag rs b) ->
  exists file, write_seq_pairs_f A n l1 l2 (a, b) t rs n d side PSD = Some (put d (pair_file a b) file, Z.of_nat (length file)) /\
  forall line, In line file -> exists i s1 j s2, nth_error l1 i = Some s1 /\ nth_error l2 j = Some s2 /\ within_f n A s1 s2 = true /\
    line = pair_line (concat (map field (fields_f n A t side bo s1 s2))) i j.
Proof.
  intros Hn HA Ht Hb H1 H2 R1 R2. unfold write_seq_pairs_f.
  replace (verify_rowsums l1 l2 (a, b) rs) with true.
  2:{ unfold verify_rowsums. symmetry.
      rewrite (proj2 (forallb_forall _ l1)) by (intros s Hs; rewrite rowsum_total; apply Z.eqb_eq; cbn [fst]; auto).
      cbn [negb]. apply forallb_forall. intros s Hs. rewrite rowsum_total. apply Z.eqb_eq; cbn [snd]; auto. }
  cbn [guard]. unfold iter_psds_f.
  set (f := fun '((i, s1), (j, s2)) => if within_f n A s1 s2 then Some (pair_f n A i s1 j s2) else None).
  rewrite (traverse_map _ f).
  2:{ intros [[i s1] [j s2]] Hin. apply in_prod_iff in Hin as [B C].
      apply in_enumerate in B, C. apply nth_error_In in B, C. apply (couple_psds_f_spec n e A Hn HA); [now apply H1|now apply H2]. }
  cbn [bind].
  destruct (buffer_loop (pair_key_f A n (a, b) t n side PSD) (fun pair k => pair_line k (fst (seq_enum1 pair)) (fst (seq_enum2 pair)))
    (fun d => let '(i, s1) := seq_enum1 d in let '(j, s2) := seq_enum2 d in
              if kept_f n A t bo s1 s2 then Some (pair_line (concat (map field (fields_f n A t side bo s1 s2))) i j) else None)
    (somes (map f (iproduct (enumerate l1) (enumerate l2)))) [] [] 0%Z) as (f' & b' & c' & E & Ef & Ec).
  - intros x Hx. apply in_somes in Hx. apply in_map_iff in Hx as ([[i s1] [j s2]] & Ex & Hin). apply in_prod_iff in Hin as [B C].
    apply in_enumerate in B, C. apply nth_error_In in B, C. unfold f in Ex. destruct (within_f n A s1 s2); [|discriminate]. injection Ex as <-.
    rewrite (psd_key_f n A (a, b) t side bo) by (auto; now apply H1).
    eexists. split; [reflexivity|]. cbn [pair_f seq_enum1 seq_enum2 fst snd]. destruct (kept_f n A t bo s1 s2); reflexivity.
  - eexists. split.
    + refine (eq_trans (f_equal (fun o => let* (file, buffer, counter) := o in
        Some (put d (pair_file (fst (a, b)) (snd (a, b))) (file ++ buffer), counter)) E) _).
      cbn [bind app fst snd] in *. rewrite Ef, Ec. reflexivity.
    + intros line Hl. cbn [app] in Hl. apply in_somes, in_map_iff in Hl as (x & Ex & Hx).
      apply in_somes in Hx. apply in_map_iff in Hx as ([[i s1] [j s2]] & Ed & Hin). apply in_prod_iff in Hin as [B C].
      apply in_enumerate in B, C. unfold f in Ed. destruct (within_f n A s1 s2) eqn:W; [|discriminate]. injection Ed as <-.
      cbn [pair_f seq_enum1 seq_enum2] in Ex. destruct (kept_f n A t bo s1 s2); [|discriminate]. injection Ex as <-.
      exists i, s1, j, s2. auto.
Qed.

Theorem no_warning n e A t a b bo side l1 l2 rs d w : (1 <= n)%nat -> 0 <= e -> 21 * INR n * e < / 2 ^ 26 -> accurate n e A ->
  three_types t -> tag_sign (a, b) = Some bo -> seqs_ok n l1 -> seqs_ok n l2 ->
  (forall s, In s l1 -> total s = rowsum_of_tag rs a) -> (forall s, In s l2 -> total s = rowsum_of_tag rs b) ->
  warnings A n l1 l2 (a, b) t n side = Some (false, w) ->
  exists file, write_seq_pairs_f A n l1 l2 (a, b) t rs n d side PSD = Some (put d (pair_file a b) file, Z.of_nat (length file)) /\
  forall line, In line file -> exists i s1 j s2 zs, nth_error l1 i = Some s1 /\ nth_error l2 j = Some s2 /\
    line = pair_line (concat (map field (map (fun k => roundR (power_value n side s1 s2 k)) (seq 1 (n / 2)) ++ zs))) i j /\
    (t <> QuaternionType -> zs = []) /\
    (t = QuaternionType -> length zs = (n / 2)%nat /\
       (w = false -> forall k, (1 <= k <= n / 2)%nat -> 20 * INR n * e <= cross_value bo s1 s2 k ->
          nth (k - 1) zs 0%Z = signed side (roundR (cross_value bo s1 s2 k)))).
Proof.
  intros Hn He Hs HA Ht Hb O1 O2 R1 R2 Hw. pose proof (N1 n Hn) as N. pose proof tolerance_pos as Tp. fold tolerance in Hs.
  assert (He' : 0 <= e <= 1) by nra. assert (Hd : 0 <= 20 * INR n * e < / 8) by nra.
  destruct (psd_file_f n e A t a b bo side l1 l2 rs d Hn HA Ht Hb O1 O2 R1 R2) as (file & Ef & HF). exists file. split; auto.
  intros line Hl. destruct (HF line Hl) as (i & s1 & j & s2 & E1 & E2 & W & ->).
  pose proof (nth_error_In _ _ E1) as I1. pose proof (nth_error_In _ _ E2) as I2. pose proof (O1 _ I1) as G1. pose proof (O2 _ I2) as G2.
  pose proof (warnings_spec n e A Hn He' HA l1 l2 a b bo t side false w Ht Hb O1 O2 Hw s1 s2 I1 I2 W) as WS.
  exists i, s1, j, s2, (match t with QuaternionType => map (fun k => op_side side (roundR (im_f A bo s1 s2 k))) (seq 1 (n / 2)) | _ => [] end).
  split; auto. split; auto. split; [|split].
  - unfold fields_f. rewrite range_seq. do 4 f_equal. apply map_ext_in. intros k Hk. apply in_seq in Hk.
    pose proof (psd_f_close n e A Hn He' HA side s1 s2 k G1 G2 ltac:(lia)) as C.
    assert (C' : close (20 * INR n * e) (psd_f n A side s1 s2 k) (power_value n side s1 s2 k)) by (destruct side; exact C).
    apply (round_agree (20 * INR n * e)); auto; [lra|lra|]. destruct (Rle_dec 0 (psd_f n A side s1 s2 k)) as [P|P].
    + left. split; auto. destruct (WS k ltac:(lia)) as [W1 _]. specialize (W1 eq_refl P). nra.
    + right. split; [|lra]. assert (V : - (20 * INR n * e) <= power_value n side s1 s2 k).
      { destruct side; cbn [power_value].
        - unfold psd. assert (0 <= fourier_sum s1 cos k ^ 2 + fourier_sum s1 sin k ^ 2 + (fourier_sum s2 cos k ^ 2 + fourier_sum s2 sin k ^ 2)) by nra. lra.
        - pose proof (within_above n e A Hn He' HA s1 s2 G1 G2 W k ltac:(lia)). lra. }
      unfold close in C'. revert C'. unfold Rabs. destruct (Rcase_abs _); lra.
  - intros Nt. destruct t; congruence.
  - intros ->. rewrite map_length, seq_length. split; auto. intros Ew k Hk Pk.
    rewrite (nth_indep _ _ ((fun k => op_side side (roundR (im_f A bo s1 s2 k))) 0%nat)) by (rewrite map_length, seq_length; lia).
    rewrite (map_nth (fun k => op_side side (roundR (im_f A bo s1 s2 k)))), seq_nth by lia. replace (1 + (k - 1))%nat with k by lia.
    rewrite cross_value_xdiff in * by (destruct G1, G2; congruence).
    pose proof (im_f_close n e A Hn He' HA bo s1 s2 k G1 G2 ltac:(lia)) as C.
    assert (E : roundR (im_f A bo s1 s2 k) = roundR (xdiff bo s1 s2 (Z.of_nat k))); [|now rewrite E].
    apply (round_agree (20 * INR n * e)); auto; [lra|lra|].
    destruct (WS k ltac:(lia)) as [_ W2]. left.
    assert (P : 0 <= im_f A bo s1 s2 k) by (unfold close in C; revert C; unfold Rabs; destruct (Rcase_abs _); lra).
    split; auto. specialize (W2 Ew eq_refl P). nra.
Qed.
Lemma warnings_quiet n e A a b bo t side l1 l2 : (1 <= n)%nat -> accurate n e A ->
  tag_sign (a, b) = Some bo -> seqs_ok n l1 -> seqs_ok n l2 ->
  (forall s1 s2 k, In s1 l1 -> In s2 l2 -> (1 <= k <= n / 2)%nat -> tolerance <= Rabs (a_sub A (fractR (im_f A bo s1 s2 k)) (1 / 2))) ->
  exists w, warnings A n l1 l2 (a, b) t n side = Some (w, false) /\
    ((forall s1 s2 k, In s1 l1 -> In s2 l2 -> (1 <= k <= n / 2)%nat -> tolerance <= Rabs (a_sub A (fractR (psd_f n A side s1 s2 k)) (1 / 2))) -> w = false).
Proof.
  intros Hn HA Hb O1 O2 Q2. pose proof tolerance_pos as Tp.
  unfold warnings, iter_psds_f. set (f := fun '((i, s1), (j, s2)) => if within_f n A s1 s2 then Some (pair_f n A i s1 j s2) else None) in *.
  rewrite (traverse_map _ f).
  2:{ intros [[i x1] [j x2]] Hin. apply in_prod_iff in Hin as [B C].
      apply in_enumerate in B, C. apply nth_error_In in B, C. apply (couple_psds_f_spec n e A Hn HA); [now apply O1|now apply O2]. }
  cbn [bind].
  assert (AP : forall d, In d (somes (map f (iproduct (enumerate l1) (enumerate l2)))) -> exists i x1 j x2, d = pair_f n A i x1 j x2 /\ In x1 l1 /\ In x2 l2).
  { intros d Hd. apply in_somes, in_map_iff in Hd as ([[i x1] [j x2]] & Ed & Hin). apply in_prod_iff in Hin as [B C].
    apply in_enumerate in B, C. apply nth_error_In in B, C. unfold f in Ed. destruct (within_f n A x1 x2); [|discriminate]. injection Ed as <-.
    exists i, x1, j, x2. auto. }
  revert AP. generalize (somes (map f (iproduct (enumerate l1) (enumerate l2)))). intros ps AP.
  assert (G : forall m1 m2, tolerance <= m2 -> exists r1 r2, tolerance <= r2 /\
    ((forall s1 s2 k, In s1 l1 -> In s2 l2 -> (1 <= k <= n / 2)%nat -> tolerance <= Rabs (a_sub A (fractR (psd_f n A side s1 s2 k)) (1 / 2))) -> tolerance <= m1 -> tolerance <= r1) /\
    fold_m (fun '(m1, m2) pair =>
      let psd := compute_psd_pair_f A (norm1 pair) (norm2 pair) n side in
      let* cpsd := compute_cross_psd_pair_f A (dft1 pair) (dft2 pair) (a, b) (length (snd (seq_enum1 pair))) in
      Some (min_difference A m1 psd, match t with QuaternionType => min_difference A m2 (map snd cpsd) | _ => m2 end)) ps (m1, m2) = Some (r1, r2)).
  { induction ps as [|d ps IH]; intros m1 m2 Hm; [exists m1, m2; auto|].
    destruct (AP d ltac:(now left)) as (i & x1 & j & x2 & -> & I1 & I2). cbn [fold_m].
    cbn [pair_f norm1 norm2 dft1 dft2 seq_enum1 snd]. rewrite (proj1 (O1 _ I1)).
    destruct (cross_psd_pair_f_spec n A Hn (a, b) bo x1 x2 Hb) as (l & El & Hl). rewrite El. cbn [bind]. rewrite Hl. rewrite psd_pair_f_spec by exact Hn.
    destruct (IH ltac:(intros d Hd; apply AP; now right) (min_difference A m1 (map (psd_f n A side x1 x2) (range_incl 1 (n / 2))))
      (match t with QuaternionType => min_difference A m2 (map (im_f A bo x1 x2) (range_incl 1 (n / 2))) | _ => m2 end)) as (r1 & r2 & H2 & H1 & E).
    - destruct t; try exact Hm. apply min_difference_ge; auto. intros y Hy. apply in_map_iff in Hy as (k & <- & Hk). apply in_range_incl in Hk.
      apply Q2; auto; lia.
    - exists r1, r2. split; auto. split; [|exact E]. intros Q1 Hm1. apply H1; auto. apply min_difference_ge; auto. intros y Hy.
      apply in_map_iff in Hy as (k & <- & Hk). apply in_range_incl in Hk. apply Q1; auto; lia. }
  destruct (G 1 1 ltac:(lra)) as (r1 & r2 & Hr & Hr1 & E). exists (gtR tolerance r1). split.
  - refine (eq_trans (f_equal (fun o => let* (m1, m2) := o in Some (gtR tolerance m1, gtR tolerance m2)) E) _). cbn [bind]. do 2 f_equal. now apply gtR_false.
  - intros Q1. apply gtR_false. apply Hr1; auto. lra.
Qed.

(* the second warning does not look at negative values *)
Theorem negative_never_warns n e A a b bo t side l1 l2 : (1 <= n)%nat -> 0 <= e -> 100 * INR n * e <= 1 -> accurate n e A ->
  tag_sign (a, b) = Some bo -> seqs_ok n l1 -> seqs_ok n l2 ->
  (forall s1 s2 k, In s1 l1 -> In s2 l2 -> (1 <= k <= n / 2)%nat -> cross_value bo s1 s2 k < - (20 * INR n * e)) ->
  exists w, warnings A n l1 l2 (a, b) t n side = Some (w, false).
Proof.
  intros Hn He Hs HA Hb O1 O2 Neg. pose proof (small_e n e Hn He Hs) as He'. pose proof (N1 n Hn) as N. pose proof tolerance_pos as Tp.
  destruct (warnings_quiet n e A a b bo t side l1 l2 Hn HA Hb O1 O2) as (w & E & _); [|eauto].
  intros x1 x2 k I1 I2 Hk. pose proof (im_f_close n e A Hn He' HA bo x1 x2 k (O1 _ I1) (O2 _ I2) ltac:(lia)) as C.
  specialize (Neg x1 x2 k I1 I2 ltac:(lia)). rewrite cross_value_xdiff in Neg by (destruct (O1 _ I1), (O2 _ I2); congruence).
  assert (P : im_f A bo x1 x2 k < 0) by (unfold close in C; revert C; unfold Rabs; destruct (Rcase_abs _); lra).
  pose proof (sub_half n e A Hn HA (im_f A bo x1 x2 k)) as C2.
  assert (F : fractR (im_f A bo x1 x2 k) <= 0) by (unfold fractR; destruct (Rlt_dec _ 0); [destruct (base_fp (- im_f A bo x1 x2 k)); lra|lra]).
  assert (e <= / 100) by nra.
  unfold close in C2. revert C2. unfold Rabs. repeat destruct (Rcase_abs _); lra.
Qed.

(* without rounding errors there is no warning when the values are integers *)
Lemma integers_quiet n a b bo t side l1 l2 : (1 <= n)%nat -> tag_sign (a, b) = Some bo -> seqs_ok n l1 -> seqs_ok n l2 ->
  (forall s1 s2 k, In s1 l1 -> In s2 l2 -> (1 <= k <= n / 2)%nat ->
     (exists z, power_value n side s1 s2 k = IZR z) /\ (exists z, cross_value bo s1 s2 k = IZR z)) ->
  warnings exact_arith n l1 l2 (a, b) t n side = Some (false, false).
Proof.
  intros Hn Hb O1 O2 H. assert (HA : accurate n 0 exact_arith) by (apply accurate_exact; [exact Hn|lra]). pose proof tolerance_pos as Tp.
  assert (Cl : forall x y, close (20 * INR n * 0) x y -> x = y).
  { intros x y C. unfold close in C. rewrite Rmult_0_r in C. revert C. unfold Rabs. destruct (Rcase_abs _); lra. }
  assert (F : forall z, tolerance <= Rabs (a_sub exact_arith (fractR (IZR z)) (1 / 2))).
  { intros z. assert (E : fractR (IZR z) = 0).
    { unfold fractR. assert (I : forall z, frac_part (IZR z) = 0).
      { clear. intros z. unfold frac_part. rewrite (Int_part_unique (IZR z) z); lra. }
      destruct (Rlt_dec _ _); [rewrite <- opp_IZR|]; rewrite I; lra. }
    rewrite E. cbn [a_sub exact_arith]. rewrite Rabs_left1 by lra. lra. }
  destruct (warnings_quiet n 0 exact_arith a b bo t side l1 l2 Hn HA Hb O1 O2) as (w & E & W).
  - intros s1 s2 k I1 I2 Hk. destruct (H s1 s2 k I1 I2 Hk) as [_ (z & Ez)]. rewrite cross_value_xdiff in Ez by (destruct (O1 _ I1), (O2 _ I2); congruence).
    rewrite (Cl _ _ (im_f_close n 0 exact_arith Hn ltac:(lra) HA bo s1 s2 k (O1 _ I1) (O2 _ I2) ltac:(lia))), Ez. apply F.
  - rewrite E. do 2 f_equal. apply W. intros s1 s2 k I1 I2 Hk. destruct (H s1 s2 k I1 I2 Hk) as [(z & Ez) _].
    pose proof (psd_f_close n 0 exact_arith Hn ltac:(lra) HA side s1 s2 k (O1 _ I1) (O2 _ I2) ltac:(lia)) as C. apply Cl in C.
    change (psd_f n exact_arith side s1 s2 k = power_value n side s1 s2 k) in C. rewrite C, Ez. apply F.
Qed.
