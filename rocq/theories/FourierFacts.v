(* Real sums, roots of unity, and the transforms of fourier.rs. *)
From Coq Require Import List ZArith Bool Arith Lia Reals Lra.
From Verif Require Import Base BaseFacts Sums Spec SeqFacts ModelFourier.
Import ListNotations.
Open Scope R_scope.

Lemma sumR_ext n f g : (forall i, (i < n)%nat -> f i = g i) -> sumR n f = sumR n g.
Proof. apply gsum_ext. Qed.
Lemma sumR_S n f : sumR (S n) f = sumR n f + f n.
Proof. apply (gsum_S 0 Rplus); intros; lra. Qed.
Lemma sumR_add n f g : sumR n (fun i => f i + g i) = sumR n f + sumR n g.
Proof. apply (gsum_add 0 Rplus); intros; lra. Qed.
Lemma sumR_zero n f : (forall i, (i < n)%nat -> f i = 0) -> sumR n f = 0.
Proof. apply (gsum_zero 0 Rplus); intros; lra. Qed.
Lemma sumR_mul_l n c f : sumR n (fun i => c * f i) = c * sumR n f.
Proof. induction n; [unfold sumR; simpl; lra|]. rewrite !sumR_S, IHn; lra. Qed.
Lemma sumR_mul_r n c f : sumR n (fun i => f i * c) = sumR n f * c.
Proof. induction n; [unfold sumR; simpl; lra|]. rewrite !sumR_S, IHn; lra. Qed.
Lemma sumR_opp n f : sumR n (fun i => - f i) = - sumR n f.
Proof. induction n; [unfold sumR; simpl; lra|]. rewrite !sumR_S, IHn; lra. Qed.
Lemma sumR_sub n f g : sumR n (fun i => f i - g i) = sumR n f - sumR n g.
Proof. induction n; [unfold sumR; simpl; lra|]. rewrite !sumR_S, IHn; lra. Qed.
Lemma sumR_const n c : sumR n (fun _ => c) = INR n * c.
Proof. induction n; [unfold sumR; simpl; lra|]. rewrite sumR_S, IHn, S_INR; lra. Qed.
Lemma sumR_swap n m (f : nat -> nat -> R) :
  sumR n (fun i => sumR m (fun j => f i j)) = sumR m (fun j => sumR n (fun i => f i j)).
Proof. apply (gsum_swap 0 Rplus); intros; lra. Qed.
Lemma sumR_shift n (f : Z -> R) k :
  periodic n f -> sumR n (fun i => f (Z.of_nat i + k)%Z) = sumR n (fun i => f (Z.of_nat i)).
Proof. apply (psum_shift 0 Rplus); intros; lra. Qed.
Lemma sumR_neg n (f : Z -> R) :
  periodic n f -> sumR n (fun i => f (- Z.of_nat i)%Z) = sumR n (fun i => f (Z.of_nat i)).
Proof. apply (psum_opp 0 Rplus); intros; lra. Qed.
Lemma sumR_IZR n f : sumR n (fun i => IZR (f i)) = IZR (sumZ n f).
Proof. induction n; [reflexivity|]. rewrite sumR_S, sumZ_S, IHn, plus_IZR; lra. Qed.

(* cos and sin of 2 pi m / n *)
Definition cosn (n : nat) (m : Z) : R := cos (2 * PI * IZR m / INR n).
Definition sinn (n : nat) (m : Z) : R := sin (2 * PI * IZR m / INR n).

Lemma INR_pos n : (1 <= n)%nat -> 0 < INR n.
Proof. intros; apply lt_0_INR; lia. Qed.

Lemma cos_2PI_nat x k : cos (x + 2 * PI * INR k) = cos x.
Proof. rewrite <- (cos_period x k). f_equal; lra. Qed.
Lemma sin_2PI_nat x k : sin (x + 2 * PI * INR k) = sin x.
Proof. rewrite <- (sin_period x k). f_equal; lra. Qed.
Lemma cos_2PI_Z x k : cos (x + 2 * PI * IZR k) = cos x.
Proof.
  destruct (Z_le_gt_dec 0 k).
  - rewrite <- (Z2Nat.id k) by lia. rewrite <- INR_IZR_INZ. apply cos_2PI_nat.
  - replace k with (- Z.of_nat (Z.to_nat (- k)))%Z by lia. rewrite opp_IZR, <- INR_IZR_INZ.
    rewrite <- (cos_2PI_nat (x + _) (Z.to_nat (- k))). f_equal; lra.
Qed.
Lemma sin_2PI_Z x k : sin (x + 2 * PI * IZR k) = sin x.
Proof.
  destruct (Z_le_gt_dec 0 k).
  - rewrite <- (Z2Nat.id k) by lia. rewrite <- INR_IZR_INZ. apply sin_2PI_nat.
  - replace k with (- Z.of_nat (Z.to_nat (- k)))%Z by lia. rewrite opp_IZR, <- INR_IZR_INZ.
    rewrite <- (sin_2PI_nat (x + _) (Z.to_nat (- k))). f_equal; lra.
Qed.

Lemma angle_mod n i : (1 <= n)%nat ->
  2 * PI * IZR i / INR n = 2 * PI * IZR (i mod Z.of_nat n) / INR n + 2 * PI * IZR (i / Z.of_nat n).
Proof.
  intros Hn. pose proof (INR_pos n Hn) as P.
  rewrite (Z.div_mod i (Z.of_nat n)) at 1 by lia.
  rewrite plus_IZR, mult_IZR, <- INR_IZR_INZ. field. lra.
Qed.
Lemma cosn_mod n i : (1 <= n)%nat -> cosn n i = cosn n (i mod Z.of_nat n).
Proof. intros Hn. unfold cosn. now rewrite (angle_mod n i Hn), cos_2PI_Z. Qed.
Lemma sinn_mod n i : (1 <= n)%nat -> sinn n i = sinn n (i mod Z.of_nat n).
Proof. intros Hn. unfold sinn. now rewrite (angle_mod n i Hn), sin_2PI_Z. Qed.
Lemma cosn_periodic n : (1 <= n)%nat -> periodic n (cosn n).
Proof. intros Hn i j E. now rewrite cosn_mod, E, <- cosn_mod. Qed.
Lemma sinn_periodic n : (1 <= n)%nat -> periodic n (sinn n).
Proof. intros Hn i j E. now rewrite sinn_mod, E, <- sinn_mod. Qed.
Lemma cosn_opp n i : cosn n (- i) = cosn n i.
Proof. unfold cosn. rewrite opp_IZR, <- cos_neg. f_equal. unfold Rdiv. ring. Qed.
Lemma sinn_opp n i : sinn n (- i) = - sinn n i.
Proof. unfold sinn. rewrite opp_IZR, <- sin_neg. f_equal. unfold Rdiv. ring. Qed.
Lemma cosn_sub n i j : cosn n (i - j) = cosn n i * cosn n j + sinn n i * sinn n j.
Proof. unfold cosn, sinn. rewrite <- cos_minus, minus_IZR. f_equal. unfold Rdiv. ring. Qed.
Lemma sinn_sub n i j : sinn n (i - j) = sinn n i * cosn n j - cosn n i * sinn n j.
Proof. unfold cosn, sinn. rewrite <- sin_minus, minus_IZR. f_equal. unfold Rdiv. ring. Qed.
Lemma cosn_0 n : cosn n 0 = 1.
Proof. unfold cosn. rewrite <- cos_0. f_equal. unfold Rdiv. ring. Qed.

Lemma cos_angle n j k : cos (angle n j k) = cosn n (Z.of_nat j * Z.of_nat k).
Proof. unfold angle, cosn. rewrite INR_IZR_INZ, Nat2Z.inj_mul. reflexivity. Qed.
Lemma sin_angle n j k : sin (angle n j k) = sinn n (Z.of_nat j * Z.of_nat k).
Proof. unfold angle, sinn. rewrite INR_IZR_INZ, Nat2Z.inj_mul. reflexivity. Qed.

(* the telescoping identity for sum_k cos(k x) *)
Lemma sum_cos_telescope x N :
  2 * sin (x / 2) * sumR N (fun k => cos (INR k * x)) = sin (INR N * x - x / 2) + sin (x / 2).
Proof.
  induction N as [|N IH].
  - unfold sumR; simpl. replace (0 * x - x / 2) with (- (x / 2)) by lra. rewrite sin_neg. lra.
  - rewrite sumR_S, Rmult_plus_distr_l, IH, S_INR.
    assert (E : 2 * sin (x / 2) * cos (INR N * x) = sin (INR N * x + x / 2) - sin (INR N * x - x / 2)).
    { rewrite sin_plus, sin_minus. ring. }
    rewrite E. replace ((INR N + 1) * x - x / 2) with (INR N * x + x / 2) by lra. ring.
Qed.

(* sum over all n-th roots of unity *)
Lemma sum_cosn n m : (1 <= n)%nat ->
  sumR n (fun k => cosn n (m * Z.of_nat k)) = (if (m mod Z.of_nat n =? 0)%Z then INR n else 0).
Proof.
  intros Hn. pose proof (INR_pos n Hn) as P.
  rewrite (sumR_ext _ _ (fun k => cosn n ((m mod Z.of_nat n) * Z.of_nat k))).
  2:{ intros k _. apply cosn_periodic; auto. apply mod_mul_cong. rewrite Z.mod_mod; lia. }
  set (r := (m mod Z.of_nat n)%Z). assert (Hr : (0 <= r < Z.of_nat n)%Z) by (apply Z.mod_pos_bound; lia).
  destruct (Z.eqb_spec r 0) as [E|E].
  - rewrite E. rewrite (sumR_ext _ _ (fun _ => 1)); [rewrite sumR_const; lra|]. intros; simpl. apply cosn_0.
  - set (x := 2 * PI * IZR r / INR n).
    rewrite (sumR_ext _ _ (fun k => cos (INR k * x))).
    2:{ intros k _. unfold cosn, x. rewrite mult_IZR, <- INR_IZR_INZ. f_equal. unfold Rdiv; ring. }
    pose proof (sum_cos_telescope x n) as T.
    assert (S0 : sin (x / 2) <> 0).
    { assert (Hx : x / 2 = PI * (IZR r / INR n)) by (unfold x; field; lra).
      assert (0 < IZR r) by (apply IZR_lt; lia).
      assert (IZR r < INR n) by (rewrite INR_IZR_INZ; apply IZR_lt; lia).
      assert (0 < IZR r / INR n < 1).
      { split; [apply Rdiv_lt_0_compat; lra|]. apply (Rmult_lt_reg_r (INR n)); [lra|].
        unfold Rdiv. rewrite Rmult_assoc, Rinv_l by lra. lra. }
      pose proof PI_RGT_0.
      apply Rgt_not_eq. rewrite Hx. apply sin_gt_0; nra. }
    assert (Z0 : sin (INR n * x - x / 2) = - sin (x / 2)).
    { replace (INR n * x - x / 2) with (- (x / 2) + 2 * PI * IZR r) by (unfold x; field; lra).
      rewrite sin_2PI_Z. apply sin_neg. }
    rewrite Z0 in T. replace (- sin (x / 2) + sin (x / 2)) with 0 in T by ring.
    apply Rmult_integral in T as [T|T]; [exfalso; lra|exact T].
Qed.

(* --- the transform of a sequence --- *)
Definition dft_re (s : list Z) (k : Z) : R :=
  sumR (length s) (fun j => IZR (entry s (Z.of_nat j)) * cosn (length s) (Z.of_nat j * k)).
Definition dft_im (s : list Z) (k : Z) : R :=
  - sumR (length s) (fun j => IZR (entry s (Z.of_nat j)) * sinn (length s) (Z.of_nat j * k)).
Definition dft_at (s : list Z) (k : nat) : CR := (dft_re s (Z.of_nat k), dft_im s (Z.of_nat k)).

Lemma nth_map_IZR s j : (j < length s)%nat -> nth j (map IZR s) 0 = IZR (entry s (Z.of_nat j)).
Proof.
  intros Hj. rewrite entry_nat by auto. exact (map_nth IZR s 0%Z j).
Qed.
Lemma dft_sequence_spec s : (1 <= length s)%nat ->
  dft_sequence (length s) s = Some (map (dft_at s) (seq 0 (length s / 2 + 1))).
Proof.
  intros Hn. unfold dft_sequence. rewrite Nat.eqb_refl. rewrite (proj2 (Nat.leb_le 1 (length s)) Hn).
  simpl. f_equal. unfold r2c. rewrite map_length. apply map_ext. intros k. unfold dft_at, dft_re, dft_im.
  f_equal; [|f_equal]; apply sumR_ext; intros j Hj; rewrite nth_map_IZR by auto.
  - now rewrite cos_angle.
  - now rewrite sin_angle.
Qed.
Lemma dft_sequence_none plan s : length s <> plan \/ plan = 0%nat -> dft_sequence plan s = None.
Proof.
  intros H. unfold dft_sequence. destruct (1 <=? plan)%nat eqn:E; [|reflexivity].
  destruct (length s =? plan)%nat eqn:E'; [|reflexivity]. apply Nat.leb_le in E. apply Nat.eqb_eq in E'. lia.
Qed.

(* X(k) = sum_ij a_i b_j exp(-2 pi i (i-j) k / n), the product of one transform and the conjugate of another *)
Definition xre (a b : list Z) (k : Z) : R :=
  let n := length a in
  sumR n (fun i => sumR n (fun j =>
    IZR (entry a (Z.of_nat i) * entry b (Z.of_nat j)) * cosn n ((Z.of_nat i - Z.of_nat j) * k))).
Definition xim (a b : list Z) (k : Z) : R :=
  let n := length a in
  - sumR n (fun i => sumR n (fun j =>
    IZR (entry a (Z.of_nat i) * entry b (Z.of_nat j)) * sinn n ((Z.of_nat i - Z.of_nat j) * k))).

Lemma sumR_prod n m f g : sumR n f * sumR m g = sumR n (fun i => sumR m (fun j => f i * g j)).
Proof.
  rewrite <- sumR_mul_r. apply sumR_ext; intros. now rewrite sumR_mul_l.
Qed.
Lemma cross_product a b k : length a = length b ->
  cr_mul (dft_at a k) (cr_conj (dft_at b k)) = (xre a b (Z.of_nat k), xim a b (Z.of_nat k)).
Proof.
  intros E. unfold cr_mul, cr_conj, dft_at, dft_re, dft_im, xre, xim. cbn [fst snd]. rewrite <- E. f_equal.
  - rewrite Ropp_involutive.
    match goal with |- ?a * ?b - - ?c * ?d = _ => replace (a * b - - c * d) with (a * b + c * d) by ring end.
    rewrite !sumR_prod, <- sumR_add. apply sumR_ext; intros i Hi. rewrite <- sumR_add. apply sumR_ext; intros j Hj.
    rewrite Z.mul_sub_distr_r, cosn_sub, mult_IZR. ring.
  - rewrite Ropp_involutive.
    match goal with |- ?a * ?b + - ?c * ?d = _ => replace (a * b + - c * d) with (- (c * d - a * b)) by ring end.
    f_equal. rewrite !sumR_prod, <- sumR_sub. apply sumR_ext; intros i Hi. rewrite <- sumR_sub. apply sumR_ext; intros j Hj.
    rewrite Z.mul_sub_distr_r, sinn_sub, mult_IZR. ring.
Qed.
Lemma norm_xre a k : norm_sqr (dft_at a k) = xre a a (Z.of_nat k).
Proof.
  pose proof (f_equal fst (cross_product a a k eq_refl)) as E. cbn [fst] in E. rewrite <- E.
  unfold norm_sqr, cr_mul, cr_conj; cbn [fst snd]. ring.
Qed.
Lemma xim_self a k : xim a a k = 0.
Proof.
  unfold xim. set (n := length a).
  set (S := sumR n _). assert (E : S = - S); [|lra].
  unfold S at 1. rewrite sumR_swap. unfold S. rewrite <- sumR_opp. apply sumR_ext; intros i Hi.
  rewrite <- sumR_opp. apply sumR_ext; intros j Hj.
  replace ((Z.of_nat j - Z.of_nat i) * k)%Z with (- ((Z.of_nat i - Z.of_nat j) * k))%Z by ring.
  rewrite sinn_opp, Z.mul_comm. ring.
Qed.

(* the spectra in terms of correlations *)
Lemma xre_ccf a b k : length a = length b -> (1 <= length a)%nat ->
  xre a b k = sumR (length a) (fun t => IZR (ccf a b (Z.of_nat t)) * cosn (length a) (Z.of_nat t * k)).
Proof.
  intros E Hn. unfold xre, ccf. set (n := length a) in *.
  rewrite (sumR_ext _ _ (fun i => sumR n (fun t => IZR (entry a (Z.of_nat i) * entry b (Z.of_nat i - Z.of_nat t)) * cosn n (Z.of_nat t * k)))).
  - rewrite sumR_swap. apply sumR_ext; intros t Ht. rewrite <- sumR_IZR, <- sumR_mul_r. reflexivity.
  - intros i Hi.
    pose (f := fun u => IZR (entry a (Z.of_nat i) * entry b (Z.of_nat i - u)) * cosn n (u * k)).
    assert (Pf : periodic n f).
    { intros u v H. unfold f. f_equal.
      - f_equal. f_equal. apply entry_periodic. rewrite <- E.
        replace (Z.of_nat i - u)%Z with (- u + Z.of_nat i)%Z by ring. replace (Z.of_nat i - v)%Z with (- v + Z.of_nat i)%Z by ring.
        apply mod_add_cong, mod_opp_cong. exact H.
      - apply cosn_periodic; auto. now apply mod_mul_cong. }
    transitivity (sumR n (fun t => f (Z.of_nat t))); [|reflexivity].
    rewrite <- (sumR_neg n f Pf).
    pose (g := fun u => f (- u)%Z). assert (Pg : periodic n g) by (intros u v H; apply Pf; now apply mod_opp_cong).
    change (sumR n (fun j => IZR (entry a (Z.of_nat i) * entry b (Z.of_nat j)) * cosn n ((Z.of_nat i - Z.of_nat j) * k)) = sumR n (fun t => g (Z.of_nat t))).
    rewrite <- (sumR_shift n g (- Z.of_nat i) Pg). apply sumR_ext; intros j Hj. unfold g, f. f_equal.
    + f_equal. f_equal. f_equal. ring.
    + f_equal. ring.
Qed.
Lemma xim_ccf a b k : length a = length b -> (1 <= length a)%nat ->
  xim a b k = - sumR (length a) (fun t => IZR (ccf a b (Z.of_nat t)) * sinn (length a) (Z.of_nat t * k)).
Proof.
  intros E Hn. unfold xim, ccf. set (n := length a) in *. f_equal.
  rewrite (sumR_ext _ _ (fun i => sumR n (fun t => IZR (entry a (Z.of_nat i) * entry b (Z.of_nat i - Z.of_nat t)) * sinn n (Z.of_nat t * k)))).
  - rewrite sumR_swap. apply sumR_ext; intros t Ht. rewrite <- sumR_IZR, <- sumR_mul_r. reflexivity.
  - intros i Hi.
    pose (f := fun u => IZR (entry a (Z.of_nat i) * entry b (Z.of_nat i - u)) * sinn n (u * k)).
    assert (Pf : periodic n f).
    { intros u v H. unfold f. f_equal.
      - f_equal. f_equal. apply entry_periodic. rewrite <- E.
        replace (Z.of_nat i - u)%Z with (- u + Z.of_nat i)%Z by ring. replace (Z.of_nat i - v)%Z with (- v + Z.of_nat i)%Z by ring.
        apply mod_add_cong, mod_opp_cong. exact H.
      - apply sinn_periodic; auto. now apply mod_mul_cong. }
    transitivity (sumR n (fun t => f (Z.of_nat t))); [|reflexivity].
    rewrite <- (sumR_neg n f Pf).
    pose (g := fun u => f (- u)%Z). assert (Pg : periodic n g) by (intros u v H; apply Pf; now apply mod_opp_cong).
    change (sumR n (fun j => IZR (entry a (Z.of_nat i) * entry b (Z.of_nat j)) * sinn n ((Z.of_nat i - Z.of_nat j) * k)) = sumR n (fun t => g (Z.of_nat t))).
    rewrite <- (sumR_shift n g (- Z.of_nat i) Pg). apply sumR_ext; intros j Hj. unfold g, f. f_equal.
    + f_equal. f_equal. f_equal. ring.
    + f_equal. ring.
Qed.

(* the inverse transform of a cross spectrum is the cross-correlation *)
Lemma inverse_cross a b X : length a = length b -> (1 <= length a)%nat ->
  length X = (length a / 2 + 1)%nat ->
  (forall k, (k <= length a / 2)%nat -> nth k X (0, 0) = (xre a b (Z.of_nat k), xim a b (Z.of_nat k))) ->
  inverse_dft (length a) X (length a) = Some (map (fun t => IZR (ccf a b (Z.of_nat t))) (seq 0 (length a))).
Proof.
  intros E Hn HX Hnth. unfold inverse_dft. rewrite Nat.eqb_refl.
  rewrite (proj2 (Nat.leb_le 1 (length a)) Hn). cbn [andb guard].
  rewrite (vbuild_map _ _ (fun k => nth k X (0, 0))).
  2:{ intros i Hi. apply vget_nth. lia. }
  replace (map (fun k => nth k X (0, 0)) (seq 0 (length a / 2 + 1))) with X.
  2:{ rewrite <- HX. symmetry. apply map_nth_seq. }
  cbn [bind]. f_equal. unfold c2r. rewrite map_map. apply map_ext_in. intros t Ht. apply in_seq in Ht.
  set (n := length a) in *. pose proof (INR_pos n Hn) as P.
  rewrite (sumR_ext _ _ (fun k => xre a b (Z.of_nat k) * cosn n (Z.of_nat t * Z.of_nat k) - xim a b (Z.of_nat k) * sinn n (Z.of_nat t * Z.of_nat k))).
  2:{ intros k Hk. rewrite cos_angle, sin_angle. destruct (Nat.leb_spec k (n / 2)) as [L|L].
      - rewrite Hnth by lia. reflexivity.
      - assert ((n - k <= n / 2)%nat).
        { pose proof (Nat.div_mod n 2 ltac:(lia)). pose proof (Nat.mod_upper_bound n 2 ltac:(lia)). lia. }
        rewrite Hnth by lia. cbn [cr_conj fst snd]. f_equal; f_equal.
        + rewrite !xre_ccf by auto. apply sumR_ext; intros u Hu. f_equal. rewrite <- (cosn_opp _ (_ * Z.of_nat k)).
          apply cosn_periodic; auto. fold n. replace (Z.of_nat u * Z.of_nat (n - k))%Z with (- (Z.of_nat u * Z.of_nat k) + Z.of_nat u * Z.of_nat n)%Z by lia.
          now rewrite Z.mod_add by lia.
        + rewrite !xim_ccf by auto. f_equal. fold n. rewrite <- sumR_opp. apply sumR_ext; intros u Hu.
          rewrite Ropp_mult_distr_r. f_equal. rewrite <- sinn_opp.
          apply sinn_periodic; auto. replace (- (Z.of_nat u * Z.of_nat (n - k)))%Z with ((Z.of_nat u * Z.of_nat k) + (- Z.of_nat u) * Z.of_nat n)%Z by lia.
          now rewrite Z.mod_add by lia. }
  rewrite (sumR_ext _ _ (fun k => sumR n (fun u => IZR (ccf a b (Z.of_nat u)) * cosn n ((Z.of_nat t - Z.of_nat u) * Z.of_nat k)))).
  2:{ intros k Hk. rewrite xre_ccf, xim_ccf by auto. fold n. rewrite <- !sumR_mul_r. unfold Rminus.
      rewrite Ropp_mult_distr_l_reverse, Ropp_involutive, <- sumR_mul_r, <- sumR_add. apply sumR_ext; intros u Hu.
      rewrite Z.mul_sub_distr_r, cosn_sub. ring. }
  rewrite sumR_swap.
  rewrite (sumR_ext _ _ (fun u => if (u =? t)%nat then IZR (ccf a b (Z.of_nat t)) * INR n else 0)).
  2:{ intros u Hu. rewrite sumR_mul_l, sum_cosn by auto. destruct (Nat.eqb_spec u t) as [->|D].
      - replace (Z.of_nat t - Z.of_nat t)%Z with 0%Z by lia. rewrite Z.mod_0_l by lia. reflexivity.
      - destruct (Z.eqb_spec ((Z.of_nat t - Z.of_nat u) mod Z.of_nat n) 0) as [D0|]; [|ring]. exfalso.
        apply Z.mod_divide in D0 as [c Hc]; [|lia].
        assert (c = 0 \/ c <= -1 \/ 1 <= c)%Z as [C|[C|C]] by lia; [subst c; lia| |]; clear - Hc C Hu Ht; nia. }
  assert (Delta : forall (m : nat) (c : R), (t < m)%nat -> sumR m (fun u => if (u =? t)%nat then c else 0) = c).
  { intros m c. induction m; intros L; [lia|]. rewrite sumR_S. destruct (Nat.eqb_spec m t) as [->|D].
    - rewrite sumR_zero; [ring|]. intros i Hi. destruct (Nat.eqb_spec i t); [lia|reflexivity].
    - rewrite IHm by lia. ring. }
  rewrite Delta by lia. field. lra.
Qed.
