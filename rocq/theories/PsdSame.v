(* Spectral matching and correlation matching agree: the same pairs are kept, and two keys are equal
   for one option exactly when they are for the other. *)
From Coq Require Import Ascii String List ZArith Lia Arith Bool Reals Lra.
From Verif Require Import Base BaseFacts Sums ModelSequence ModelWilliamson ModelEquivalence SeqFacts
  ModelFourier ModelMatching FourierFacts SpecFourier MatchFacts SpecRowsum RowsumFacts GraphFacts ModelWrite TextFacts WriteFacts PsdKeys
  SpecSearch MatchThms Spec.
Import ListNotations.
Notation length := List.length.
Open Scope R_scope.

(* the sine transform of an odd function, and its inverse *)
Definition str (n : nat) (D : Z -> Z) (k : Z) : R := sumR n (fun u => IZR (D (Z.of_nat u)) * sinn n (Z.of_nat u * k)).
Lemma str_inverse n D t : (1 <= n)%nat -> periodic n D -> (forall u, D (- u)%Z = (- D u)%Z) ->
  sumR n (fun k => str n D (Z.of_nat k) * sinn n (t * Z.of_nat k)) = INR n * IZR (D t).
Proof.
  intros Hn PD OD. unfold str.
  rewrite (sumR_ext _ _ (fun k => sumR n (fun u => IZR (D (Z.of_nat u)) * (sinn n (Z.of_nat u * Z.of_nat k) * sinn n (t * Z.of_nat k))))).
  2:{ intros k _. rewrite <- sumR_mul_r. apply sumR_ext. intros. lra. }
  rewrite sumR_swap.
  rewrite (sumR_ext _ _ (fun u => (INR n / 2) * ((if ((Z.of_nat u - t) mod Z.of_nat n =? 0)%Z then IZR (D (Z.of_nat u)) else 0) -
     (if ((Z.of_nat u - - t) mod Z.of_nat n =? 0)%Z then IZR (D (Z.of_nat u)) else 0)))).
  2:{ intros u _. rewrite sumR_mul_l.
      rewrite (sumR_ext _ _ (fun k => / 2 * (cosn n ((Z.of_nat u - t) * Z.of_nat k) - cosn n ((Z.of_nat u - - t) * Z.of_nat k)))).
      2:{ intros k _. rewrite !Z.mul_sub_distr_r, !cosn_sub. replace (- t * Z.of_nat k)%Z with (- (t * Z.of_nat k))%Z by lia.
          rewrite cosn_opp, sinn_opp. lra. }
      rewrite sumR_mul_l, sumR_sub, !sum_cosn by auto.
      destruct ((Z.of_nat u - t) mod Z.of_nat n =? 0)%Z, ((Z.of_nat u - - t) mod Z.of_nat n =? 0)%Z; lra. }
  rewrite sumR_mul_l, sumR_sub.
  assert (PR : periodic n (fun z => IZR (D z))) by (intros a b E; now rewrite (PD a b E)).
  rewrite (delta_sum n (fun z => IZR (D z)) t Hn PR), (delta_sum n (fun z => IZR (D z)) (- t) Hn PR), OD, opp_IZR. lra.
Qed.
Lemma str_mirror n D k : (1 <= n)%nat -> (k <= n)%nat -> str n D (Z.of_nat (n - k)) = - str n D (Z.of_nat k).
Proof.
  intros Hn Hk. unfold str. rewrite <- sumR_opp. apply sumR_ext. intros u _. rewrite Ropp_mult_distr_r. f_equal. rewrite <- sinn_opp.
  apply sinn_periodic; auto. rewrite Nat2Z.inj_sub by lia.
  replace (Z.of_nat u * (Z.of_nat n - Z.of_nat k))%Z with (- (Z.of_nat u * Z.of_nat k) + Z.of_nat u * Z.of_nat n)%Z by lia.
  now rewrite Z.mod_add by lia.
Qed.
Lemma sinn_bound n z : -1 <= sinn n z <= 1.
Proof. unfold sinn. apply SIN_bound. Qed.

Lemma half_cases n k : (1 <= k < n)%nat -> (1 <= k <= n / 2 \/ 1 <= n - k <= n / 2)%nat.
Proof. intros H. pose proof (Nat.div_mod n 2 ltac:(lia)). pose proof (Nat.mod_upper_bound n 2 ltac:(lia)). lia. Qed.

Lemma small_str_zero n D : (1 <= n)%nat -> periodic n D -> (forall u, D (- u)%Z = (- D u)%Z) ->
  (forall k, (1 <= k <= n / 2)%nat -> Rabs (str n D (Z.of_nat k)) <= 1) -> forall t, D t = 0%Z.
Proof.
  intros Hn PD OD H t. assert (P := INR_pos n Hn).
  assert (B : Rabs (INR n * IZR (D t)) <= (INR n - 1) * 1).
  { rewrite <- (str_inverse n D t) by auto. eapply Rle_trans; [apply Rabs_sumR|]. rewrite <- (sumR_off_0 n 1) by lia. apply sumR_le. intros k Hk.
    destruct (Nat.eqb_spec k 0) as [->|Nk].
    { cbn [Z.of_nat]. rewrite Z.mul_0_r. replace (sinn n 0) with 0; [rewrite Rmult_0_r, Rabs_R0; lra|].
      unfold sinn. replace (2 * PI * 0 / INR n) with 0 by (unfold Rdiv; ring). now rewrite sin_0. }
    rewrite Rabs_mult.
    assert (A : Rabs (str n D (Z.of_nat k)) <= 1).
    { destruct (half_cases n k ltac:(lia)) as [L|L]; [now apply H|].
      rewrite <- Rabs_Ropp, <- str_mirror by lia. now apply H. }
    assert (C : Rabs (sinn n (t * Z.of_nat k)) <= 1) by (pose proof (sinn_bound n (t * Z.of_nat k)); apply Rabs_le; lra).
    pose proof (Rabs_pos (str n D (Z.of_nat k))). pose proof (Rabs_pos (sinn n (t * Z.of_nat k))). nra. }
  rewrite Rabs_mult, (Rabs_pos_eq (INR n)) in B by lra.
  assert (B2 : Rabs (IZR (D t)) < 1) by (apply (Rmult_lt_reg_l (INR n)); lra).
  rewrite <- abs_IZR in B2. apply lt_IZR in B2. lia.
Qed.

(* without the row sums, when all the rounded values agree *)
Lemma small_ctr_zero_all n D : (1 <= n)%nat -> periodic n D -> (forall u, D (- u)%Z = D u) -> (forall u, Z.even (D u) = true) ->
  D 0%Z = 0%Z -> (forall k, (1 <= k <= n / 2)%nat -> Rabs (ctr n D (Z.of_nat k)) <= 1) -> forall t, D t = 0%Z.
Proof.
  intros Hn PD ED EV D0 H t. assert (P := INR_pos n Hn).
  assert (S0 : sumR n (fun k => ctr n D (Z.of_nat k)) = 0).
  { transitivity (sumR n (fun k => ctr n D (Z.of_nat k) * cosn n (0 * Z.of_nat k))).
    - apply sumR_ext. intros. rewrite Z.mul_0_l, cosn_0. lra.
    - rewrite ctr_inverse, D0 by (auto; lia). lra. }
  assert (E : INR n * IZR (D t) = sumR n (fun k => ctr n D (Z.of_nat k) * (cosn n (t * Z.of_nat k) - 1))).
  { rewrite <- (ctr_inverse n D t) by (auto; lia).
    rewrite (sumR_ext _ (fun k => _ * (_ - _)) (fun k => ctr n D (Z.of_nat k) * cosn n (t * Z.of_nat k) - ctr n D (Z.of_nat k))) by (intros; lra).
    rewrite sumR_sub, S0. lra. }
  assert (B : Rabs (INR n * IZR (D t)) <= (INR n - 1) * 2).
  { rewrite E. eapply Rle_trans; [apply Rabs_sumR|]. rewrite <- (sumR_off_0 n 2) by lia. apply sumR_le. intros k Hk.
    destruct (Nat.eqb_spec k 0) as [->|Nk].
    { cbn [Z.of_nat]. rewrite Z.mul_0_r, cosn_0, Rminus_eq_0, Rmult_0_r, Rabs_R0. lra. }
    rewrite Rabs_mult.
    assert (A : Rabs (ctr n D (Z.of_nat k)) <= 1).
    { destruct (half_cases n k ltac:(lia)) as [L|L]; [now apply H|]. rewrite <- ctr_mirror by lia. now apply H. }
    assert (C : Rabs (cosn n (t * Z.of_nat k) - 1) <= 2) by (pose proof (cosn_bound n (t * Z.of_nat k)); apply Rabs_le; lra).
    pose proof (Rabs_pos (ctr n D (Z.of_nat k))). pose proof (Rabs_pos (cosn n (t * Z.of_nat k) - 1)). nra. }
  rewrite Rabs_mult, (Rabs_pos_eq (INR n)) in B by lra.
  assert (B2 : Rabs (IZR (D t)) < 2) by (apply (Rmult_lt_reg_l (INR n)); lra).
  rewrite <- abs_IZR in B2. apply lt_IZR in B2. specialize (EV t). apply Z.even_spec in EV as [c Hc]. lia.
Qed.

(* ---- the fields ---- *)

Lemma map_range_eq (f g : nat -> Z) n : map f (range_incl 1 n) = map g (range_incl 1 n) <-> forall k, (1 <= k <= n)%nat -> f k = g k.
Proof.
  split; intros H.
  - intros k Hk. assert (E := ext_in_map H). apply E. apply in_range_incl. lia.
  - apply map_ext_in. intros k Hk. apply in_range_incl in Hk. apply H. lia.
Qed.

Lemma auto_corr_gside n side s1 s2 : length s1 = n ->
  auto_fields CORRELATION side s1 s2 = map (fun k => gside n side s1 s2 (Z.of_nat k)) (range_incl 1 (n / 2)).
Proof.
  intros H. unfold auto_fields. rewrite H. apply map_ext_in. intros k Hk. apply in_range_incl in Hk. unfold gside.
  pose proof (Nat.div_mod n 2 ltac:(lia)). destruct side; cbn [op_side]; auto. rewrite Z.mod_small by lia.
  destruct (Z.eqb_spec (Z.of_nat k) 0); lia.
Qed.
Lemma gside_all n side side' s1 s2 s1' s2' : (1 <= n)%nat -> length s1 = n -> length s2 = n -> length s1' = n -> length s2' = n ->
  pm1 s1 -> pm1 s2 -> pm1 s1' -> pm1 s2' ->
  (forall k, (1 <= k <= n / 2)%nat -> gside n side s1 s2 (Z.of_nat k) = gside n side' s1' s2' (Z.of_nat k)) ->
  forall t, gside n side s1 s2 t = gside n side' s1' s2' t.
Proof.
  intros Hn H1 H2 H1' H2' P1 P2 P1' P2' H t.
  assert (M : forall sd u v, length u = n -> length v = n -> gside n sd u v t = gside n sd u v (t mod Z.of_nat n)%Z).
  { intros. apply (gside_periodic n); auto. now rewrite Z.mod_mod by lia. }
  rewrite !M by auto. pose proof (Z.mod_pos_bound t (Z.of_nat n) ltac:(lia)) as B. set (r := (t mod Z.of_nat n)%Z) in *.
  replace r with (Z.of_nat (Z.to_nat r)) by lia. set (k := Z.to_nat r).
  destruct (Nat.eq_dec k 0) as [->|N]; [cbn [Z.of_nat]; rewrite !gside_0 by auto; reflexivity|].
  destruct (half_cases n k ltac:(lia)) as [L|L]; [now apply H|].
  assert (Mi : forall sd u v, length u = n -> length v = n -> gside n sd u v (Z.of_nat k) = gside n sd u v (Z.of_nat (n - k))).
  { intros. rewrite <- gside_even_fun by lia. apply (gside_periodic n); auto. rewrite Nat2Z.inj_sub by lia.
    replace (Z.of_nat n - Z.of_nat k)%Z with (- Z.of_nat k + 1 * Z.of_nat n)%Z by lia. now rewrite Z.mod_add by lia. }
  rewrite !Mi by auto. now apply H.
Qed.

Lemma auto_same n side side' s1 s2 s1' s2' : (1 <= n)%nat -> length s1 = n -> length s2 = n -> length s1' = n -> length s2' = n ->
  pm1 s1 -> pm1 s2 -> pm1 s1' -> pm1 s2' ->
  (auto_fields PSD side s1 s2 = auto_fields PSD side' s1' s2' <-> auto_fields CORRELATION side s1 s2 = auto_fields CORRELATION side' s1' s2').
Proof.
  intros Hn H1 H2 H1' H2' P1 P2 P1' P2'. rewrite !(auto_corr_gside n) by auto. rewrite map_range_eq.
  assert (F : forall sd u v, length u = n -> auto_fields PSD sd u v = map (fun k => roundR (fside sd u v k)) (range_incl 1 (n / 2))).
  { intros sd u v <-. unfold auto_fields. apply map_ext. intros k. unfold fside. now destruct sd. }
  rewrite !F by auto. rewrite map_range_eq. split; intros H.
  - enough (A : forall t, (gside n side s1 s2 t - gside n side' s1' s2' t)%Z = 0%Z) by (intros k _; specialize (A (Z.of_nat k)); lia).
    apply (small_ctr_zero_all n); auto.
    + intros i j E. f_equal; apply (gside_periodic n); auto.
    + intros u. f_equal; apply gside_even_fun; lia.
    + intros u. rewrite Z.even_sub, !gside_even by auto. reflexivity.
    + rewrite !gside_0 by auto. lia.
    + intros k Hk. rewrite ctr_sub, <- !fside_ctr by auto. apply roundR_close. auto.
  - intros k Hk. f_equal. apply (fside_same n); auto. now apply gside_all.
Qed.

Lemma xdiff_str n b s1 s2 k : (1 <= n)%nat -> length s1 = n -> length s2 = n -> xdiff b s1 s2 k = - str n (cdiff b s1 s2) k.
Proof.
  intros Hn H1 H2. unfold xdiff, cdiff, str. rewrite !xim_ccf by lia. rewrite H1, H2.
  destruct b; rewrite <- !sumR_opp, <- sumR_sub; apply sumR_ext; intros; rewrite minus_IZR; lra.
Qed.
Lemma cdiff_periodic n b s1 s2 : (1 <= n)%nat -> length s1 = n -> length s2 = n -> periodic n (cdiff b s1 s2).
Proof.
  intros Hn H1 H2 i j E. unfold cdiff.
  assert (C : forall x y, length x = n -> length y = n -> ccf x y i = ccf x y j).
  { intros x y Hx Hy. rewrite <- (ccf_mod x y i), <- (ccf_mod x y j) by congruence. now rewrite Hx, E. }
  rewrite !C by auto. reflexivity.
Qed.
Lemma cdiff_odd b s1 s2 t : length s1 = length s2 -> cdiff b s1 s2 (- t) = (- cdiff b s1 s2 t)%Z.
Proof.
  intros E. unfold cdiff. rewrite (ccf_opp s1 s2), (ccf_opp s2 s1) by auto. destruct b; lia.
Qed.
Lemma Int_part_unique x z : IZR z <= x < IZR z + 1 -> Int_part x = z.
Proof.
  intros H. pose proof (Int_part_bounds x) as B. assert (A : IZR z < IZR (Int_part x + 1)) by (rewrite plus_IZR; lra).
  assert (C : IZR (Int_part x) < IZR (z + 1)) by (rewrite plus_IZR; lra). apply lt_IZR in A, C. lia.
Qed.
Lemma roundR_0 : roundR 0 = 0%Z.
Proof. unfold roundR. destruct (Rlt_dec 0 0); [lra|]. apply Int_part_unique. lra. Qed.
Lemma roundR_opp x : roundR (- x) = (- roundR x)%Z.
Proof.
  destruct (Req_dec x 0) as [->|N]; [now rewrite Ropp_0, roundR_0|].
  unfold roundR. destruct (Rlt_dec (- x) 0), (Rlt_dec x 0); try lra; rewrite ?Ropp_involutive; lia.
Qed.
Definition opR (side : EquationSide) (x : R) : R := match side with LEFT => x | RIGHT => - x end.
Lemma op_round side x : op_side side (roundR x) = roundR (opR side x).
Proof. destruct side; cbn [op_side opR]; auto. now rewrite roundR_opp. Qed.
Definition dside (side : EquationSide) (b : bool) (s1 s2 : list Z) (t : Z) : Z := op_side side (cdiff b s1 s2 t).
Lemma opR_str n side b s1 s2 k : (1 <= n)%nat -> length s1 = n -> length s2 = n ->
  opR side (xdiff b s1 s2 k) = - str n (dside side b s1 s2) k.
Proof.
  intros. rewrite (xdiff_str n) by auto. unfold dside. destruct side; cbn [opR op_side]; auto.
  unfold str. rewrite <- !sumR_opp. apply sumR_ext. intros. rewrite opp_IZR. lra.
Qed.
Lemma str_sub n D E k : str n (fun t => D t - E t)%Z k = str n D k - str n E k.
Proof. unfold str. rewrite <- sumR_sub. apply sumR_ext. intros. rewrite minus_IZR. lra. Qed.

Lemma dside_periodic n side b s1 s2 : (1 <= n)%nat -> length s1 = n -> length s2 = n -> periodic n (dside side b s1 s2).
Proof. intros Hn H1 H2 i j E. unfold dside. f_equal. now apply (cdiff_periodic n). Qed.
Lemma dside_odd side b s1 s2 t : length s1 = length s2 -> dside side b s1 s2 (- t) = (- dside side b s1 s2 t)%Z.
Proof. intros E. unfold dside. rewrite cdiff_odd by auto. destruct side; cbn [op_side]; lia. Qed.
Lemma dside_all n side side' b b' s1 s2 s1' s2' : (1 <= n)%nat -> length s1 = n -> length s2 = n -> length s1' = n -> length s2' = n ->
  (forall k, (1 <= k <= n / 2)%nat -> dside side b s1 s2 (Z.of_nat k) = dside side' b' s1' s2' (Z.of_nat k)) ->
  forall t, dside side b s1 s2 t = dside side' b' s1' s2' t.
Proof.
  intros Hn H1 H2 H1' H2' H t.
  assert (M : forall sd c u v, length u = n -> length v = n -> dside sd c u v t = dside sd c u v (t mod Z.of_nat n)%Z).
  { intros. apply (dside_periodic n); auto. now rewrite Z.mod_mod by lia. }
  rewrite !M by auto. pose proof (Z.mod_pos_bound t (Z.of_nat n) ltac:(lia)) as B. set (r := (t mod Z.of_nat n)%Z) in *.
  replace r with (Z.of_nat (Z.to_nat r)) by lia. set (k := Z.to_nat r).
  destruct (Nat.eq_dec k 0) as [->|N].
  { cbn [Z.of_nat]. assert (Z0 : forall sd c u v, length u = length v -> dside sd c u v 0 = 0%Z).
    { intros. pose proof (dside_odd sd c u v 0 H0) as O. cbn [Z.opp] in O. lia. }
    rewrite !Z0 by congruence. reflexivity. }
  destruct (half_cases n k ltac:(lia)) as [L|L]; [now apply H|].
  assert (Mi : forall sd c u v, length u = n -> length v = n -> dside sd c u v (Z.of_nat k) = (- dside sd c u v (Z.of_nat (n - k)))%Z).
  { intros. rewrite <- dside_odd by congruence. apply (dside_periodic n); auto. rewrite Nat2Z.inj_sub by lia.
    replace (- (Z.of_nat n - Z.of_nat k))%Z with (Z.of_nat k + (-1) * Z.of_nat n)%Z by lia. now rewrite Z.mod_add by lia. }
  rewrite !Mi by auto. f_equal. now apply H.
Qed.

Lemma cross_same n side side' b b' s1 s2 s1' s2' : (1 <= n)%nat -> length s1 = n -> length s2 = n -> length s1' = n -> length s2' = n ->
  (cross_fields PSD side b s1 s2 = cross_fields PSD side' b' s1' s2' <->
   cross_fields CORRELATION side b s1 s2 = cross_fields CORRELATION side' b' s1' s2').
Proof.
  intros Hn H1 H2 H1' H2'. unfold cross_fields. rewrite H1, H1', !map_range_eq. split; intros H.
  - enough (A : forall t, (dside side b s1 s2 t - dside side' b' s1' s2' t)%Z = 0%Z).
    { intros k _. specialize (A (Z.of_nat k)). unfold dside in A. lia. }
    apply (small_str_zero n); auto.
    + intros i j E. f_equal; apply (dside_periodic n); auto.
    + intros u. rewrite !dside_odd by congruence. lia.
    + intros k Hk. specialize (H k Hk). cbn beta in H. rewrite !op_round in H. apply roundR_close in H.
      rewrite !(opR_str n) in H by auto. rewrite str_sub, <- Rabs_Ropp.
      replace (- (str n (dside side b s1 s2) (Z.of_nat k) - str n (dside side' b' s1' s2') (Z.of_nat k))) with
        (- str n (dside side b s1 s2) (Z.of_nat k) - - str n (dside side' b' s1' s2') (Z.of_nat k)) by lra. exact H.
  - intros k Hk. rewrite !op_round, !(opR_str n) by auto. do 2 f_equal. unfold str. apply sumR_ext. intros u _. f_equal. f_equal.
    now apply (dside_all n).
Qed.

Lemma app_inj_length {A} (u v u' v' : list A) : length u = length u' -> u ++ v = u' ++ v' -> u = u' /\ v = v'.
Proof.
  revert u'. induction u as [|x u IH]; intros [|y u'] L E; cbn in *; try discriminate; auto. injection E as -> E.
  injection L as L. destruct (IH u' L E) as [-> ->]. auto.
Qed.

Lemma keys_same n t side side' b b' s1 s2 s1' s2' : (1 <= n)%nat -> length s1 = n -> length s2 = n -> length s1' = n -> length s2' = n ->
  pm1 s1 -> pm1 s2 -> pm1 s1' -> pm1 s2' ->
  (key_fields t PSD side b s1 s2 = key_fields t PSD side' b' s1' s2' <-> key_fields t CORRELATION side b s1 s2 = key_fields t CORRELATION side' b' s1' s2').
Proof.
  intros Hn H1 H2 H1' H2' P1 P2 P1' P2'.
  pose proof (auto_same n side side' s1 s2 s1' s2' Hn H1 H2 H1' H2' P1 P2 P1' P2') as A.
  pose proof (cross_same n side side' b b' s1 s2 s1' s2' Hn H1 H2 H1' H2') as C.
  assert (L : forall m, length (auto_fields m side s1 s2) = length (auto_fields m side' s1' s2')).
  { intros m. unfold auto_fields. rewrite !map_length, H1, H1'. reflexivity. }
  unfold key_fields. destruct t; rewrite ?app_nil_r; auto.
  split; intros E; apply app_inj_length in E as [E1 E2]; auto; f_equal; tauto.
Qed.

Lemma kept_same n t b s1 s2 : (1 <= n)%nat -> length s1 = n -> length s2 = n -> kept t PSD b s1 s2 = kept t CORRELATION b s1 s2.
Proof.
  intros Hn H1 H2. unfold kept. destruct t; auto. rewrite H1. apply eq_true_iff_eq. rewrite !forallb_forall. split; intros H.
  - intros k Hk. apply Z.eqb_eq. revert k Hk. enough (A : forall t, cdiff b s1 s2 t = 0%Z) by (intros; apply A).
    apply (small_str_zero n); auto.
    + now apply cdiff_periodic.
    + intros u. apply cdiff_odd. congruence.
    + intros k Hk. specialize (H k). rewrite in_range_incl in H. specialize (H ltac:(lia)). cbn beta in H.
      rewrite (xdiff_str n), Rabs_Ropp in H by auto. apply negb_true_iff in H. apply gtR_false in H. lra.
  - intros k Hk. assert (A : forall t, dside LEFT b s1 s2 t = 0%Z).
    { intros t. transitivity (dside LEFT true s1 s1 t); [|unfold dside, cdiff, op_side; lia].
      apply (dside_all n); auto. intros j Hj. unfold dside, op_side. rewrite (proj1 (Z.eqb_eq _ _) (H j (proj2 (in_range_incl _ _ _) Hj))).
      unfold cdiff. lia. }
    rewrite (xdiff_str n) by auto. unfold str. rewrite (sumR_ext _ _ (fun _ => 0)).
    + rewrite sumR_const, Rmult_0_r, Ropp_0, Rabs_R0. apply negb_true_iff, gtR_false. lra.
    + intros u _. change (cdiff b s1 s2 (Z.of_nat u)) with (dside LEFT b s1 s2 (Z.of_nat u)). rewrite A. lra.
Qed.

(* ---- the files ---- *)

Lemma has_pair_line t m side b n l1 l2 k i j : has_line (pair_lines t m side b n l1 l2) k i j <->
  exists s1 s2, nth_error l1 i = Some s1 /\ nth_error l2 j = Some s2 /\ within (4 * INR n) s1 s2 = true /\
    kept t m b s1 s2 = true /\ k = join (key_fields t m side b s1 s2).
Proof.
  unfold has_line. split.
  - intros (line & Hl & E). apply in_pair_lines in Hl as (i' & j' & s1 & s2 & A & B & W & K & ->).
    unfold line_of in E. rewrite get_line_pair_line in E. injection E as <- <- <-. eauto 10.
  - intros (s1 & s2 & A & B & W & K & ->). exists (line_of t m side b i s1 j s2). split.
    + apply in_pair_lines. eauto 10.
    + apply get_line_pair_line.
Qed.

Lemma pair_lines_count t side b n l1 l2 : (1 <= n)%nat -> seqs_ok n l1 -> seqs_ok n l2 ->
  length (pair_lines t PSD side b n l1 l2) = length (pair_lines t CORRELATION side b n l1 l2).
Proof.
  intros Hn H1 H2. unfold pair_lines.
  assert (G : forall ps, (forall d, In d ps -> In d (filtered_pairs (4 * INR n) l1 l2)) ->
    length (somes (map (fun d => let '(i, s1) := seq_enum1 d in let '(j, s2) := seq_enum2 d in
      if kept t PSD b s1 s2 then Some (line_of t PSD side b i s1 j s2) else None) ps)) =
    length (somes (map (fun d => let '(i, s1) := seq_enum1 d in let '(j, s2) := seq_enum2 d in
      if kept t CORRELATION b s1 s2 then Some (line_of t CORRELATION side b i s1 j s2) else None) ps))).
  { induction ps as [|d ps IH]; intros H; [reflexivity|]. cbn [map].
    assert (IH' := IH ltac:(intros; apply H; now right)). specialize (H d ltac:(now left)).
    apply in_filtered_pairs in H as (i & j & s1 & s2 & A & B & _ & ->). cbn [pair_of seq_enum1 seq_enum2].
    apply nth_error_In in A, B. destruct (H1 _ A) as [La _], (H2 _ B) as [Lb _].
    rewrite (kept_same n) by auto. destruct (kept t CORRELATION b s1 s2); unfold somes in *; cbn [flat_map app length]; [f_equal; exact IH'|exact IH']. }
  apply G. auto.
Qed.

Theorem same_pairs n t a b c d e1 e2 sd1 sd2 (L : Tag -> list (list Z)) rs dir : (1 <= n)%nat -> three_types t ->
  tag_sign (a, b) = Some e1 -> tag_sign (c, d) = Some e2 ->
  (forall tg, seqs_ok n (L tg)) -> (forall tg s, In s (L tg) -> total s = rowsum_of_tag rs tg) ->
  exists dc1 dp1 dc2 dp2 n1 n2 fc1 fp1 fc2 fp2,
    write_seq_pairs n (L a) (L b) (a, b) t rs n dir sd1 CORRELATION = Some (dc1, n1) /\ get dc1 (pair_file a b) = Some fc1 /\
    write_seq_pairs n (L a) (L b) (a, b) t rs n dir sd1 PSD = Some (dp1, n1) /\ get dp1 (pair_file a b) = Some fp1 /\
    write_seq_pairs n (L c) (L d) (c, d) t rs n dir sd2 CORRELATION = Some (dc2, n2) /\ get dc2 (pair_file c d) = Some fc2 /\
    write_seq_pairs n (L c) (L d) (c, d) t rs n dir sd2 PSD = Some (dp2, n2) /\ get dp2 (pair_file c d) = Some fp2 /\
    (forall i j, (exists k, has_line fc1 k i j) <-> (exists k, has_line fp1 k i j)) /\
    (forall i j, (exists k, has_line fc2 k i j) <-> (exists k, has_line fp2 k i j)) /\
    (forall i j i' j', (exists k, has_line fc1 k i j /\ has_line fc2 k i' j') <-> (exists k, has_line fp1 k i j /\ has_line fp2 k i' j')).
Proof.
  intros Hn Ht E1 E2 HL HR.
  assert (Len : forall tg, all_len n (L tg)) by (intros tg s Hs; now apply (HL tg)).
  assert (WS : forall x y e sd m, tag_sign (x, y) = Some e -> write_seq_pairs n (L x) (L y) (x, y) t rs n dir sd m =
    Some (put dir (pair_file x y) (pair_lines t m sd e n (L x) (L y)), Z.of_nat (length (pair_lines t m sd e n (L x) (L y))))).
  { intros x y e sd m He. rewrite (write_seq_pairs_spec n (x, y) e) by (auto; apply HR). reflexivity. }
  assert (One : forall x y e sd i j, (exists k, has_line (pair_lines t CORRELATION sd e n (L x) (L y)) k i j) <->
                                     (exists k, has_line (pair_lines t PSD sd e n (L x) (L y)) k i j)).
  { intros x y e sd i j. split; intros (k & H); apply has_pair_line in H as (s1 & s2 & A & B & W & K & ->);
      destruct (HL x _ (nth_error_In _ _ A)) as [La _], (HL y _ (nth_error_In _ _ B)) as [Lb _];
      [rewrite <- (kept_same n) in K by auto|rewrite (kept_same n) in K by auto]; eexists; apply has_pair_line; eauto 10. }
  do 10 eexists.
  split; [apply (WS _ _ e1); auto|]. split; [apply get_put|].
  split; [rewrite (WS _ _ e1), pair_lines_count by auto; reflexivity|]. split; [apply get_put|].
  split; [apply (WS _ _ e2); auto|]. split; [apply get_put|].
  split; [rewrite (WS _ _ e2), pair_lines_count by auto; reflexivity|]. split; [apply get_put|].
  split; [intros; apply One|]. split; [intros; apply One|].
  intros i j i' j'. split; intros (k & H1 & H2); apply has_pair_line in H1 as (s1 & s2 & A & B & W & K & ->);
    apply has_pair_line in H2 as (s3 & s4 & A' & B' & W' & K' & E); apply join_inj in E;
    destruct (HL _ _ (nth_error_In _ _ A)) as [La Pa], (HL _ _ (nth_error_In _ _ B)) as [Lb Pb],
      (HL _ _ (nth_error_In _ _ A')) as [Lc Pc], (HL _ _ (nth_error_In _ _ B')) as [Ld Pd].
  - rewrite <- (kept_same n) in K, K' by auto. apply (keys_same n) in E; auto.
    exists (join (key_fields t PSD sd1 e1 s1 s2)). split; apply has_pair_line; [eauto 10|]. exists s3, s4. repeat split; auto. now rewrite E.
  - rewrite (kept_same n) in K, K' by auto. apply (keys_same n) in E; auto.
    exists (join (key_fields t CORRELATION sd1 e1 s1 s2)). split; apply has_pair_line; [eauto 10|]. exists s3, s4. repeat split; auto. now rewrite E.
Qed.
