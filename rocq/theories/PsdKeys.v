(* Rounding the spectra loses nothing: rounded spectra determine the correlations. *)
From Coq Require Import List ZArith Lia Arith Bool Reals Lra.
From Verif Require Import Base BaseFacts Sums ModelSequence ModelWilliamson ModelEquivalence SeqFacts
  ModelFourier ModelMatching FourierFacts SpecFourier MatchFacts SpecRowsum RowsumFacts GraphFacts ModelWrite WriteFacts Spec.
Import ListNotations.
Open Scope R_scope.

Lemma Int_part_bounds x : IZR (Int_part x) <= x < IZR (Int_part x) + 1.
Proof. destruct (base_Int_part x). lra. Qed.
Lemma roundR_bounds x : IZR (roundR x) - / 2 <= x <= IZR (roundR x) + / 2.
Proof.
  unfold roundR. destruct (Rlt_dec x 0).
  - rewrite opp_IZR. pose proof (Int_part_bounds (- x + / 2)). lra.
  - pose proof (Int_part_bounds (x + / 2)). lra.
Qed.
Lemma roundR_close x y : roundR x = roundR y -> Rabs (x - y) <= 1.
Proof. intros E. pose proof (roundR_bounds x) as A. pose proof (roundR_bounds y) as B. rewrite E in A. apply Rabs_le. lra. Qed.

Lemma Rabs_sumR n f : Rabs (sumR n f) <= sumR n (fun i => Rabs (f i)).
Proof.
  induction n as [|n IH].
  - unfold sumR. cbn. rewrite Rabs_R0. lra.
  - rewrite !sumR_S. eapply Rle_trans; [apply Rabs_triang|]. lra.
Qed.
Lemma sumR_le n f g : (forall i, (i < n)%nat -> f i <= g i) -> sumR n f <= sumR n g.
Proof.
  induction n as [|n IH]; intros H; [unfold sumR; cbn; lra|]. rewrite !sumR_S.
  pose proof (H n ltac:(lia)). assert (sumR n f <= sumR n g) by (apply IH; intros; apply H; lia). lra.
Qed.
Lemma sumR_at_0 n c : (1 <= n)%nat -> sumR n (fun i => if (i =? 0)%nat then c else 0) = c.
Proof.
  intros H. destruct n as [|n]; [lia|]. clear H. induction n as [|n IH]; [unfold sumR; cbn; lra|].
  rewrite sumR_S, IH. cbn. lra.
Qed.
Lemma sumR_off_0 n c : (1 <= n)%nat -> sumR n (fun i => if (i =? 0)%nat then 0 else c) = (INR n - 1) * c.
Proof.
  intros H. assert (E : sumR n (fun i => if (i =? 0)%nat then 0 else c) + sumR n (fun i => if (i =? 0)%nat then c else 0) = INR n * c).
  { rewrite <- sumR_add, <- sumR_const. apply sumR_ext. intros i _. destruct (i =? 0)%nat; lra. }
  rewrite sumR_at_0 in E by auto. lra.
Qed.

Lemma delta_sum n (f : Z -> R) t : (1 <= n)%nat -> periodic n f ->
  sumR n (fun u => if ((Z.of_nat u - t) mod Z.of_nat n =? 0)%Z then f (Z.of_nat u) else 0) = f t.
Proof.
  intros Hn Pf. pose (g := fun z : Z => if ((z - t) mod Z.of_nat n =? 0)%Z then f z else 0).
  assert (Pg : periodic n g).
  { intros a b E. unfold g. rewrite (Pf a b E). replace ((a - t) mod Z.of_nat n)%Z with ((b - t) mod Z.of_nat n)%Z; auto.
    rewrite (Zminus_mod a), (Zminus_mod b), E. reflexivity. }
  change (sumR n (fun u => g (Z.of_nat u)) = f t). rewrite <- (sumR_shift n g t Pg).
  rewrite <- (sumR_at_0 n (f t)) by auto. apply sumR_ext. intros i Hi. unfold g.
  replace (Z.of_nat i + t - t)%Z with (Z.of_nat i) by lia. rewrite Z.mod_small by lia.
  destruct (Nat.eqb_spec i 0) as [->|N].
  - cbn. reflexivity.
  - destruct (Z.eqb_spec (Z.of_nat i) 0); [lia|reflexivity].
Qed.

(* the cosine transform of an even function, and its inverse *)
Definition ctr (n : nat) (D : Z -> Z) (k : Z) : R := sumR n (fun u => IZR (D (Z.of_nat u)) * cosn n (Z.of_nat u * k)).
Lemma ctr_inverse n D t : (1 <= n)%nat -> periodic n D -> (forall u, D (- u)%Z = D u) ->
  sumR n (fun k => ctr n D (Z.of_nat k) * cosn n (t * Z.of_nat k)) = INR n * IZR (D t).
Proof.
  intros Hn PD ED. unfold ctr.
  rewrite (sumR_ext _ _ (fun k => sumR n (fun u => IZR (D (Z.of_nat u)) * (cosn n (Z.of_nat u * Z.of_nat k) * cosn n (t * Z.of_nat k))))).
  2:{ intros k _. rewrite <- sumR_mul_r. apply sumR_ext. intros. lra. }
  rewrite sumR_swap.
  rewrite (sumR_ext _ _ (fun u => (INR n / 2) * ((if ((Z.of_nat u - t) mod Z.of_nat n =? 0)%Z then IZR (D (Z.of_nat u)) else 0) +
     (if ((Z.of_nat u - - t) mod Z.of_nat n =? 0)%Z then IZR (D (Z.of_nat u)) else 0)))).
  2:{ intros u _. rewrite sumR_mul_l.
      rewrite (sumR_ext _ _ (fun k => / 2 * (cosn n ((Z.of_nat u - t) * Z.of_nat k) + cosn n ((Z.of_nat u - - t) * Z.of_nat k)))).
      2:{ intros k _. rewrite !Z.mul_sub_distr_r, !cosn_sub. replace (- t * Z.of_nat k)%Z with (- (t * Z.of_nat k))%Z by lia.
          rewrite cosn_opp, sinn_opp. lra. }
      rewrite sumR_mul_l, sumR_add, !sum_cosn by auto.
      destruct ((Z.of_nat u - t) mod Z.of_nat n =? 0)%Z, ((Z.of_nat u - - t) mod Z.of_nat n =? 0)%Z; lra. }
  rewrite sumR_mul_l, sumR_add.
  assert (PR : periodic n (fun z => IZR (D z))) by (intros a b E; now rewrite (PD a b E)).
  rewrite (delta_sum n (fun z => IZR (D z)) t Hn PR), (delta_sum n (fun z => IZR (D z)) (- t) Hn PR), ED. lra.
Qed.
Lemma ctr_mirror n D k : (1 <= n)%nat -> (k <= n)%nat -> ctr n D (Z.of_nat (n - k)) = ctr n D (Z.of_nat k).
Proof.
  intros Hn Hk. unfold ctr. apply sumR_ext. intros u _. f_equal. rewrite <- (cosn_opp n (Z.of_nat u * Z.of_nat k)).
  apply cosn_periodic; auto. rewrite Nat2Z.inj_sub by lia.
  replace (Z.of_nat u * (Z.of_nat n - Z.of_nat k))%Z with (- (Z.of_nat u * Z.of_nat k) + Z.of_nat u * Z.of_nat n)%Z by lia.
  now rewrite Z.mod_add by lia.
Qed.
Lemma cosn_bound n z : -1 <= cosn n z <= 1.
Proof. unfold cosn. apply COS_bound. Qed.

(* even values, value 0 at 0, transform 0 at 0 and at most 1 below the middle: identically 0 *)
Lemma small_ctr_zero n D : (2 <= n)%nat -> periodic n D -> (forall u, D (- u)%Z = D u) -> (forall u, Z.even (D u) = true) ->
  D 0%Z = 0%Z -> ctr n D 0 = 0 -> (forall k, (1 <= k < n / 2)%nat -> Rabs (ctr n D (Z.of_nat k)) <= 1) ->
  forall t, D t = 0%Z.
Proof.
  intros Hn PD ED EV D0 F0 H t. set (m := (n / 2)%nat).
  assert (Hm : (1 <= m /\ 2 * m <= n <= 2 * m + 1)%nat).
  { unfold m. pose proof (Nat.div_mod n 2 ltac:(lia)). pose proof (Nat.mod_upper_bound n 2 ltac:(lia)). lia. }
  assert (P := INR_pos n ltac:(lia)).
  assert (S0 : sumR n (fun k => ctr n D (Z.of_nat k)) = 0).
  { transitivity (sumR n (fun k => ctr n D (Z.of_nat k) * cosn n (0 * Z.of_nat k))).
    - apply sumR_ext. intros. rewrite Z.mul_0_l, cosn_0. lra.
    - rewrite ctr_inverse, D0 by (auto; lia). lra. }
  assert (E : INR n * IZR (D t) = sumR n (fun k => ctr n D (Z.of_nat k) * (cosn n (t * Z.of_nat k) - cosn n (t * Z.of_nat m)))).
  { rewrite <- (ctr_inverse n D t) by (auto; lia).
    rewrite (sumR_ext _ (fun k => _ * (_ - _)) (fun k => ctr n D (Z.of_nat k) * cosn n (t * Z.of_nat k) - ctr n D (Z.of_nat k) * cosn n (t * Z.of_nat m))) by (intros; lra).
    rewrite sumR_sub, sumR_mul_r, S0. lra. }
  assert (B : Rabs (INR n * IZR (D t)) <= (INR n - 1) * 2).
  { rewrite E. eapply Rle_trans; [apply Rabs_sumR|]. rewrite <- (sumR_off_0 n 2) by lia. apply sumR_le. intros k Hk.
    destruct (Nat.eqb_spec k 0) as [->|Nk]; [cbn [Z.of_nat]; rewrite F0, Rmult_0_l, Rabs_R0; lra|].
    assert (C2 : Rabs (cosn n (t * Z.of_nat k) - cosn n (t * Z.of_nat m)) <= 2).
    { pose proof (cosn_bound n (t * Z.of_nat k)). pose proof (cosn_bound n (t * Z.of_nat m)). apply Rabs_le. lra. }
    rewrite Rabs_mult.
    assert (small : Rabs (ctr n D (Z.of_nat k)) <= 1 -> Rabs (ctr n D (Z.of_nat k)) * Rabs (cosn n (t * Z.of_nat k) - cosn n (t * Z.of_nat m)) <= 2).
    { intros L. pose proof (Rabs_pos (ctr n D (Z.of_nat k))). pose proof (Rabs_pos (cosn n (t * Z.of_nat k) - cosn n (t * Z.of_nat m))). nra. }
    assert (mid : cosn n (t * Z.of_nat k) = cosn n (t * Z.of_nat m) -> Rabs (ctr n D (Z.of_nat k)) * Rabs (cosn n (t * Z.of_nat k) - cosn n (t * Z.of_nat m)) <= 2).
    { intros ->. rewrite Rminus_eq_0, Rabs_R0. lra. }
    destruct (Nat.lt_trichotomy k m) as [L|[->|L]].
    - apply small, H. fold m. lia.
    - now apply mid.
    - destruct (Nat.eq_dec (n - k) m) as [Em|Nm].
      + apply mid. rewrite <- Em, Nat2Z.inj_sub by lia. rewrite <- cosn_opp. apply cosn_periodic; [lia|].
        replace (t * (Z.of_nat n - Z.of_nat k))%Z with (- (t * Z.of_nat k) + t * Z.of_nat n)%Z by lia. now rewrite Z.mod_add by lia.
      + apply small. rewrite <- ctr_mirror by lia. apply H. fold m. lia. }
  rewrite Rabs_mult, (Rabs_pos_eq (INR n)) in B by lra.
  assert (B2 : Rabs (IZR (D t)) < 2).
  { apply (Rmult_lt_reg_l (INR n)); lra. }
  rewrite <- abs_IZR in B2. apply lt_IZR in B2. specialize (EV t). apply Z.even_spec in EV as [c Hc]. lia.
Qed.

(* ---- the values behind the fields of a spectral key ---- *)

Lemma entry_pm x i : pm1 x -> (1 <= length x)%nat -> entry x i = 1%Z \/ entry x i = (-1)%Z.
Proof.
  intros P H. unfold pm1 in P. rewrite Forall_forall in P. apply P. unfold entry. apply nth_In. unfold pos.
  pose proof (Z.mod_pos_bound i (Z.of_nat (length x)) ltac:(lia)). lia.
Qed.
Lemma ccf_parity x y t : pm1 x -> pm1 y -> length x = length y -> (1 <= length x)%nat ->
  Z.even (ccf x y t) = Z.even (Z.of_nat (length x)).
Proof.
  intros Px Py E H. unfold ccf. assert (G : forall n, (forall i, (i < n)%nat -> True) -> Z.even (sumZ n (fun i => entry x (Z.of_nat i) * entry y (Z.of_nat i - t))%Z) = Z.even (Z.of_nat n)).
  { induction n as [|n IH]; intros _; [reflexivity|]. rewrite sumZ_S, Z.even_add, IH by auto. rewrite Nat2Z.inj_succ, Z.even_succ.
    rewrite <- Z.negb_even. destruct (entry_pm x (Z.of_nat n) Px H) as [->| ->], (entry_pm y (Z.of_nat n - t) Py ltac:(lia)) as [->| ->];
      cbn; now destruct (Z.even (Z.of_nat n)). }
  apply G. auto.
Qed.
Lemma paf_parity x t : pm1 x -> (1 <= length x)%nat -> Z.even (paf x t) = Z.even (Z.of_nat (length x)).
Proof. intros. rewrite paf_ccf. now apply ccf_parity. Qed.

Definition gside (n : nat) (side : EquationSide) (s1 s2 : list Z) (t : Z) : Z :=
  match side with
  | LEFT => paf s1 t + paf s2 t
  | RIGHT => (if (t mod Z.of_nat n =? 0)%Z then 4 * Z.of_nat n else 0) - (paf s1 t + paf s2 t)
  end%Z.
Definition fside (side : EquationSide) (s1 s2 : list Z) (k : nat) : R :=
  match side with LEFT => psd s1 k + psd s2 k | RIGHT => 4 * INR (length s1) - (psd s1 k + psd s2 k) end.

Lemma fside_ctr n side s1 s2 k : (1 <= n)%nat -> length s1 = n -> length s2 = n ->
  fside side s1 s2 k = ctr n (gside n side s1 s2) (Z.of_nat k).
Proof.
  intros Hn H1 H2. unfold fside, ctr. rewrite !psd_paf by lia. rewrite H1, H2. destruct side; unfold gside.
  - rewrite <- sumR_add. apply sumR_ext. intros t _. rewrite plus_IZR. lra.
  - rewrite <- sumR_add. rewrite <- (sumR_at_0 n (4 * INR n)) by auto. rewrite <- sumR_sub. apply sumR_ext. intros t Ht.
    rewrite Z.mod_small by lia. destruct (Nat.eqb_spec t 0) as [->|N].
    + cbn [Z.of_nat]. rewrite Z.mul_0_l, cosn_0. change (0 =? 0)%Z with true. cbv iota. rewrite minus_IZR, mult_IZR, plus_IZR, <- INR_IZR_INZ. lra.
    + destruct (Z.eqb_spec (Z.of_nat t) 0); [lia|]. rewrite minus_IZR, plus_IZR. lra.
Qed.

Lemma gside_periodic n side s1 s2 : (1 <= n)%nat -> length s1 = n -> length s2 = n -> periodic n (gside n side s1 s2).
Proof.
  intros Hn H1 H2 i j E. unfold gside. rewrite <- (paf_mod s1 i), <- (paf_mod s2 i), <- (paf_mod s1 j), <- (paf_mod s2 j), H1, H2, E. reflexivity.
Qed.
Lemma gside_even_fun n side s1 s2 t : (1 <= n)%nat -> gside n side s1 s2 (- t) = gside n side s1 s2 t.
Proof.
  intros Hn. unfold gside. rewrite !paf_opp. destruct side; auto. f_equal.
  destruct (Z.eqb_spec (t mod Z.of_nat n) 0) as [E|N].
  - apply Z.mod_opp_l_z in E; [|lia]. rewrite E. reflexivity.
  - destruct (Z.eqb_spec (- t mod Z.of_nat n) 0) as [E|_]; auto.
    apply Z.mod_opp_l_z in E; [|lia]. rewrite Z.opp_involutive in E. contradiction.
Qed.
Lemma gside_even n side s1 s2 t : (1 <= n)%nat -> length s1 = n -> length s2 = n -> pm1 s1 -> pm1 s2 -> Z.even (gside n side s1 s2 t) = true.
Proof.
  intros Hn H1 H2 P1 P2. unfold gside. pose proof (paf_parity s1 t P1 ltac:(lia)) as A. pose proof (paf_parity s2 t P2 ltac:(lia)) as B.
  rewrite H1 in A. rewrite H2 in B.
  assert (E : Z.even (paf s1 t + paf s2 t) = true) by (rewrite Z.even_add, A, B; now destruct (Z.even (Z.of_nat n))).
  destruct side; auto. rewrite Z.even_sub, E. destruct (_ =? _)%Z; [|reflexivity].
  rewrite Z.even_mul. reflexivity.
Qed.
Lemma gside_0 n side s1 s2 : length s1 = n -> length s2 = n -> pm1 s1 -> pm1 s2 -> gside n side s1 s2 0 = (2 * Z.of_nat n)%Z.
Proof.
  intros H1 H2 P1 P2. unfold gside. rewrite !paf_0, H1, H2 by auto. rewrite Zmod_0_l. cbn [Z.eqb]. destruct side; lia.
Qed.
Lemma ctr_sub n D E k : ctr n (fun t => D t - E t)%Z k = ctr n D k - ctr n E k.
Proof. unfold ctr. rewrite <- sumR_sub. apply sumR_ext. intros. rewrite minus_IZR. lra. Qed.
Lemma ctr_0 n D : ctr n D 0 = IZR (sumZ n (fun t => D (Z.of_nat t))).
Proof. unfold ctr. rewrite <- sumR_IZR. apply sumR_ext. intros. rewrite Z.mul_0_r, cosn_0. lra. Qed.
Lemma gside_total n side s1 s2 : (1 <= n)%nat -> length s1 = n -> length s2 = n ->
  sumZ n (fun t => gside n side s1 s2 (Z.of_nat t)) =
  (op_side side (total s1 * total s1 + total s2 * total s2 - 2 * Z.of_nat n) + 2 * Z.of_nat n)%Z.
Proof.
  intros Hn H1 H2. rewrite !total_sq, H1, H2. destruct side; unfold gside; cbn [op_side].
  - rewrite sumZ_add. lia.
  - rewrite sumZ_sub, sumZ_add. rewrite (sumZ_ext _ _ (fun t => if (t =? 0)%nat then (4 * Z.of_nat n)%Z else 0%Z)).
    + rewrite sumZ_delta by lia. lia.
    + intros t Ht. rewrite Z.mod_small by lia. destruct t; reflexivity.
Qed.

Section Two.
  Variables (n : nat) (side side' : EquationSide) (s1 s2 s1' s2' : list Z).
  Hypotheses (Hn : (2 <= n)%nat) (H1 : length s1 = n) (H2 : length s2 = n) (P1 : pm1 s1) (P2 : pm1 s2)
    (H1' : length s1' = n) (H2' : length s2' = n) (P1' : pm1 s1') (P2' : pm1 s2').
  Let D (t : Z) : Z := (gside n side s1 s2 t - gside n side' s1' s2' t)%Z.
  Lemma D_periodic : periodic n D.
  Proof using All. intros i j E. unfold D. f_equal; apply (gside_periodic n); auto; lia. Qed.
  Lemma D_sym u : D (- u)%Z = D u.
  Proof using All. unfold D. f_equal; apply gside_even_fun; lia. Qed.
  Lemma D_even u : Z.even (D u) = true.
  Proof using All. unfold D. rewrite Z.even_sub, !gside_even; auto; lia. Qed.
  Lemma D_0 : D 0%Z = 0%Z.
  Proof using All. unfold D. rewrite !gside_0 by auto. lia. Qed.
  Lemma D_ctr k : roundR (fside side s1 s2 k) = roundR (fside side' s1' s2' k) -> Rabs (ctr n D (Z.of_nat k)) <= 1.
  Proof using All. intros E. apply roundR_close in E. rewrite !(fside_ctr n) in E by (auto; lia). unfold D. now rewrite ctr_sub. Qed.
  Lemma same_spectra :
    op_side side (total s1 * total s1 + total s2 * total s2 - 2 * Z.of_nat n)%Z =
    op_side side' (total s1' * total s1' + total s2' * total s2' - 2 * Z.of_nat n)%Z ->
    (forall k, (1 <= k < n / 2)%nat -> roundR (fside side s1 s2 k) = roundR (fside side' s1' s2' k)) ->
    forall t, gside n side s1 s2 t = gside n side' s1' s2' t.
  Proof using All.
    intros T H t. enough (D t = 0%Z) by (unfold D in *; lia). revert t. apply (small_ctr_zero n); auto using D_periodic, D_sym, D_even, D_0.
    - rewrite ctr_0. unfold D. rewrite sumZ_sub, !gside_total by (auto; lia). rewrite T, Z.sub_diag. reflexivity.
    - intros k Hk. apply D_ctr. auto.
  Qed.
End Two.
Lemma fside_same n side side' s1 s2 s1' s2' k : (1 <= n)%nat -> length s1 = n -> length s2 = n -> length s1' = n -> length s2' = n ->
  (forall t, gside n side s1 s2 t = gside n side' s1' s2' t) -> fside side s1 s2 k = fside side' s1' s2' k.
Proof. intros Hn H1 H2 H1' H2' H. rewrite !(fside_ctr n) by auto. unfold ctr. apply sumR_ext. intros. now rewrite H. Qed.
