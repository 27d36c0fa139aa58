(* binary32 arithmetic is exact on small multiples of 1/4. *)
From Coq Require Import List ZArith QArith Qcanon Bool Arith Lia SpecFloat.
From Verif Require Import Base Quat ModelFloat SpecFloats.
Import ListNotations.
Open Scope Z_scope.

Definition sh (k : nat) (a : positive) : positive := Nat.iter k xO a.
Lemma sh_S k a : sh (S k) a = xO (sh k a). Proof. reflexivity. Qed.
Lemma sh_add j k a : sh (j + k) a = sh j (sh k a).
Proof. unfold sh. induction j; cbn [Nat.add Nat.iter nat_rect]; [reflexivity|]. unfold Nat.iter in *. cbn. now rewrite IHj. Qed.
Lemma sh_xO k a : sh k (xO a) = xO (sh k a).
Proof. replace (xO a) with (sh 1 a) by reflexivity. rewrite <- sh_add. now rewrite Nat.add_comm. Qed.
Lemma sh_val k a : Zpos (sh k a) = Zpos a * 2 ^ Z.of_nat k.
Proof. induction k as [|k IH]; [cbn; lia|]. rewrite sh_S, Pos2Z.inj_xO, IH, Nat2Z.inj_succ, Z.pow_succ_r by lia. lia. Qed.
Definition dg (a : positive) : nat := Pos.to_nat (digits2_pos a).
Lemma dg_sh k a : dg (sh k a) = (dg a + k)%nat.
Proof. induction k as [|k IH]; [cbn; lia|]. rewrite sh_S. unfold dg in *. cbn [digits2_pos]. lia. Qed.
Lemma dg_bounds a : 2 ^ (Z.of_nat (dg a) - 1) <= Zpos a < 2 ^ Z.of_nat (dg a).
Proof.
  unfold dg. induction a as [a IH|a IH|]; cbn [digits2_pos].
  - rewrite Pos2Nat.inj_succ, Nat2Z.inj_succ. replace (Z.succ (Z.of_nat (Pos.to_nat (digits2_pos a))) - 1) with (Z.succ (Z.of_nat (Pos.to_nat (digits2_pos a)) - 1)) by lia.
    rewrite !Z.pow_succ_r by lia. lia.
  - rewrite Pos2Nat.inj_succ, Nat2Z.inj_succ. replace (Z.succ (Z.of_nat (Pos.to_nat (digits2_pos a))) - 1) with (Z.succ (Z.of_nat (Pos.to_nat (digits2_pos a)) - 1)) by lia.
    rewrite !Z.pow_succ_r by lia. lia.
  - cbn. lia.
Qed.
Lemma dg_pos a : (1 <= dg a)%nat. Proof. unfold dg. lia. Qed.
Lemma dg_small a : Zpos a < 2 ^ 24 -> (dg a <= 24)%nat.
Proof.
  intros H. pose proof (dg_bounds a) as [L _]. destruct (Nat.le_gt_cases (dg a) 24); auto.
  assert (2 ^ 24 <= 2 ^ (Z.of_nat (dg a) - 1)) by (apply Z.pow_le_mono_r; lia). lia.
Qed.
Lemma digits_dg a : Zpos (digits2_pos a) = Z.of_nat (dg a). Proof. unfold dg. now rewrite positive_nat_Z. Qed.

Lemma iter_pos_spec {A} (f : A -> A) n x : iter_pos f n x = Nat.iter (Pos.to_nat n) f x.
Proof.
  assert (G : forall a b y, Nat.iter (a + b) f y = Nat.iter a f (Nat.iter b f y)).
  { induction a; intros b y; cbn; auto. unfold Nat.iter in *. cbn. now rewrite IHa. }
  assert (C : forall a y, Nat.iter a f (f y) = f (Nat.iter a f y)).
  { intros a y. change (f y) with (Nat.iter 1 f y). rewrite <- G, Nat.add_comm. reflexivity. }
  revert x. induction n as [n IH|n IH|]; intros x; cbn [iter_pos].
  - rewrite !IH, Pos2Nat.inj_xI, !C, <- G. replace (2 * Pos.to_nat n)%nat with (Pos.to_nat n + Pos.to_nat n)%nat by lia. reflexivity.
  - rewrite !IH, Pos2Nat.inj_xO. replace (2 * Pos.to_nat n)%nat with (Pos.to_nat n + Pos.to_nat n)%nat by lia. now rewrite G.
  - reflexivity.
Qed.

(* ---- rounding ---- *)

Lemma shr_exact j k a : (k <= j)%nat -> Nat.iter (j - k) shr_1 (Build_shr_record (Zpos (sh j a)) false false) =
  Build_shr_record (Zpos (sh k a)) false false.
Proof.
  intros H. replace j with ((j - k) + k)%nat at 2 by lia. generalize (j - k)%nat as d. clear H j. intros d. revert k.
  induction d as [|d IH]; intros k; [reflexivity|].
  change (Nat.iter (S d) shr_1 ?x) with (shr_1 (Nat.iter d shr_1 x)). replace (S d + k)%nat with (d + S k)%nat by lia.
  rewrite IH. reflexivity.
Qed.

(* the binary32 representation of +-a/4 *)
Definition fin (s : bool) (a : positive) : f32 := S754_finite s (sh (24 - dg a) a) (-2 - Z.of_nat (24 - dg a)).

Lemma shr_fexp_exact a j : (dg a <= 24)%nat -> (24 - dg a <= j)%nat ->
  shr_fexp 24 128 (Zpos (sh j a)) (-2 - Z.of_nat j) loc_Exact =
  (Build_shr_record (Zpos (sh (24 - dg a) a)) false false, -2 - Z.of_nat (24 - dg a)).
Proof.
  intros Ha Hj. unfold shr_fexp, fexp, emin. cbn [shr_record_of_loc Zdigits2]. rewrite digits_dg, dg_sh.
  pose proof (dg_pos a). set (k := (24 - dg a)%nat) in *.
  replace (Z.max (Z.of_nat (dg a + j) + (-2 - Z.of_nat j) - 24) (3 - 128 - 24) - (-2 - Z.of_nat j)) with (Z.of_nat (j - k)) by lia.
  destruct (j - k)%nat as [|d] eqn:E.
  - cbn [Z.of_nat shr]. replace j with k by lia. reflexivity.
  - rewrite <- E. destruct (Z.of_nat (j - k)) as [|p|p] eqn:Ep; try lia. cbn [shr]. rewrite iter_pos_spec.
    replace (Pos.to_nat p) with (j - k)%nat by lia. rewrite shr_exact by lia. f_equal. lia.
Qed.
Lemma round_aux_exact s a j : (dg a <= 24)%nat -> (24 - dg a <= j)%nat ->
  binary_round_aux 24 128 s (Zpos (sh j a)) (-2 - Z.of_nat j) loc_Exact = fin s a.
Proof.
  intros Ha Hj. unfold binary_round_aux. rewrite shr_fexp_exact by auto. cbn [shr_m loc_of_shr_record round_nearest_even].
  rewrite shr_fexp_exact by auto. cbn [shr_m]. unfold fin.
  destruct (Zle_bool (-2 - Z.of_nat (24 - dg a)) (128 - 24)) eqn:E; auto. apply Z.leb_nle in E. lia.
Qed.
Lemma round_exact s a j : (dg a <= 24)%nat -> binary_round 24 128 s (sh j a) (-2 - Z.of_nat j) = fin s a.
Proof.
  intros Ha. unfold binary_round, shl_align, fexp, emin. rewrite digits_dg, dg_sh. pose proof (dg_pos a).
  set (k := (24 - dg a)%nat).
  replace (Z.max (Z.of_nat (dg a + j) + (-2 - Z.of_nat j) - 24) (3 - 128 - 24)) with (-2 - Z.of_nat k) by lia.
  destruct (-2 - Z.of_nat k - (-2 - Z.of_nat j)) as [|p|p] eqn:E.
  - apply round_aux_exact; lia.
  - apply round_aux_exact; lia.
  - assert (Es : shift_pos p (sh j a) = sh k a).
    { unfold shift_pos. rewrite Pos2Nat.inj_iter. replace k with (Pos.to_nat p + j)%nat by lia. now rewrite sh_add. }
    rewrite Es. apply round_aux_exact; lia.
Qed.

Definition rep (x : f32) (z : Z) : Prop :=
  match z with
  | Z0 => exists s, x = S754_zero s
  | Zpos a => (dg a <= 24)%nat /\ x = fin false a
  | Zneg a => (dg a <= 24)%nat /\ x = fin true a
  end.
Lemma normalize_exact z j s : Z.abs z < 2 ^ 24 -> rep (binary_normalize 24 128 (z * 2 ^ Z.of_nat j) (-2 - Z.of_nat j) s) z.
Proof.
  intros H. destruct z as [|a|a]; cbn [rep].
  - cbn. eauto.
  - rewrite <- sh_val. cbn [binary_normalize]. split; [now apply dg_small|]. apply round_exact. now apply dg_small.
  - replace (Zneg a * 2 ^ Z.of_nat j) with (- (Zpos a * 2 ^ Z.of_nat j)) by lia. rewrite <- sh_val. cbn [Z.opp binary_normalize].
    split; [now apply dg_small|]. apply round_exact. now apply dg_small.
Qed.

Lemma align_exact a k j : (k <= j)%nat -> fst (shl_align (sh k a) (-2 - Z.of_nat k) (-2 - Z.of_nat j)) = sh j a.
Proof.
  intros H. unfold shl_align. destruct (-2 - Z.of_nat j - (-2 - Z.of_nat k)) as [|p|p] eqn:E; cbn [fst].
  - f_equal. lia.
  - lia.
  - unfold shift_pos. rewrite Pos2Nat.inj_iter. replace j with (Pos.to_nat p + k)%nat by lia. now rewrite sh_add.
Qed.
Lemma cond_val (s : bool) k a : cond_Zopp s (Zpos (sh k a)) = (if s then Zneg a else Zpos a) * 2 ^ Z.of_nat k.
Proof. destruct s; cbn [cond_Zopp]; rewrite sh_val; lia. Qed.

Definition sgn (s : bool) (a : positive) : Z := if s then Zneg a else Zpos a.
Lemma fin_add s a t b : Z.abs (sgn s a + sgn t b) < 2 ^ 24 -> rep (f_add (fin s a) (fin t b)) (sgn s a + sgn t b).
Proof.
  intros H. unfold f_add, fin, SFadd. set (k := (24 - dg a)%nat). set (l := (24 - dg b)%nat).
  set (j := Nat.max k l). replace (Z.min (-2 - Z.of_nat k) (-2 - Z.of_nat l)) with (-2 - Z.of_nat j) by lia.
  rewrite !align_exact, !cond_val by lia. fold (sgn s a) (sgn t b). rewrite <- Z.mul_add_distr_r. now apply normalize_exact.
Qed.
Lemma fin_sub s a t b : Z.abs (sgn s a - sgn t b) < 2 ^ 24 -> rep (f_sub (fin s a) (fin t b)) (sgn s a - sgn t b).
Proof.
  intros H. unfold f_sub, fin, SFsub. set (k := (24 - dg a)%nat). set (l := (24 - dg b)%nat).
  set (j := Nat.max k l). replace (Z.min (-2 - Z.of_nat k) (-2 - Z.of_nat l)) with (-2 - Z.of_nat j) by lia.
  rewrite !align_exact, !cond_val by lia. fold (sgn s a) (sgn t b). rewrite <- Z.mul_sub_distr_r. now apply normalize_exact.
Qed.
Lemma rep_cases x z : rep x z -> (z = 0 /\ exists s, x = S754_zero s) \/ exists s a, (dg a <= 24)%nat /\ z = sgn s a /\ x = fin s a.
Proof.
  destruct z as [|a|a]; cbn [rep].
  - auto.
  - intros [H ->]. right. exists false, a. auto.
  - intros [H ->]. right. exists true, a. auto.
Qed.
Lemma rep_fin s a : (dg a <= 24)%nat -> rep (fin s a) (sgn s a).
Proof. destruct s; cbn; auto. Qed.
Lemma rep_neg x z : rep x z -> rep (f_neg x) (- z).
Proof.
  intros H. apply rep_cases in H as [[-> [s ->]]|(s & a & Ha & -> & ->)].
  - cbn. eauto.
  - replace (- sgn s a) with (sgn (negb s) a) by (destruct s; reflexivity). change (f_neg (fin s a)) with (fin (negb s) a). now apply rep_fin.
Qed.
Lemma rep_add x y u v : rep x u -> rep y v -> Z.abs (u + v) < 2 ^ 24 -> rep (f_add x y) (u + v).
Proof.
  intros Hx Hy H. apply rep_cases in Hx as [[-> [s ->]]|(s & a & Ha & -> & ->)]; apply rep_cases in Hy as [[-> [t ->]]|(t & b & Hb & -> & ->)].
  - cbn. destruct s, t; cbn; eauto.
  - rewrite Z.add_0_l. now apply rep_fin.
  - rewrite Z.add_0_r. now apply rep_fin.
  - now apply fin_add.
Qed.
Lemma rep_sub x y u v : rep x u -> rep y v -> Z.abs (u - v) < 2 ^ 24 -> rep (f_sub x y) (u - v).
Proof.
  intros Hx Hy H. apply rep_cases in Hx as [[-> [s ->]]|(s & a & Ha & -> & ->)]; apply rep_cases in Hy as [[-> [t ->]]|(t & b & Hb & -> & ->)].
  - cbn. destruct s, t; cbn; eauto.
  - replace (0 - sgn t b) with (sgn (negb t) b) by (destruct t; reflexivity).
    change (f_sub (S754_zero s) (fin t b)) with (fin (negb t) b). now apply rep_fin.
  - rewrite Z.sub_0_r. now apply rep_fin.
  - now apply fin_sub.
Qed.
Lemma rep_mul x y u v : In u [-4; -3; -2; -1; 0; 1; 2; 3; 4] -> In v [-4; -2; 0; 2; 4] -> (u * v) mod 4 = 0 ->
  rep x u -> rep y v -> rep (f_mul x y) (u * v / 4).
Proof.
  intros Hu Hv Hm Hx Hy.
  repeat (destruct Hu as [<-|Hu]; [|]); try contradiction; repeat (destruct Hv as [<-|Hv]; [|]); try contradiction; try discriminate Hm;
    cbn [rep] in Hx, Hy; destruct Hx as [A B], Hy as [C D]; subst; try (cbn; eauto; fail);
    first [split; [vm_compute; lia|vm_compute; reflexivity]| eexists; vm_compute; reflexivity].
Qed.
Lemma round_int s a : Zpos a < 2 ^ 22 -> binary_round 24 128 s a 0 = fin s (sh 2 a).
Proof.
  intros H. assert (Hd : (dg a <= 22)%nat).
  { pose proof (dg_bounds a) as [L _]. destruct (Nat.le_gt_cases (dg a) 22); auto.
    assert (2 ^ 22 <= 2 ^ (Z.of_nat (dg a) - 1)) by (apply Z.pow_le_mono_r; lia). lia. }
  unfold binary_round, shl_align, fexp, emin. rewrite digits_dg. pose proof (dg_pos a). pose proof (dg_sh 2 a) as E2.
  replace (Z.max (Z.of_nat (dg a) + 0 - 24) (3 - 128 - 24)) with (-2 - Z.of_nat (22 - dg a)) by lia.
  destruct (-2 - Z.of_nat (22 - dg a) - 0) as [|p|p] eqn:E; try lia.
  assert (Es : shift_pos p a = sh (22 - dg a) (sh 2 a)).
  { unfold shift_pos. rewrite Pos2Nat.inj_iter, <- sh_add. replace (22 - dg a + 2)%nat with (Pos.to_nat p) by lia. reflexivity. }
  rewrite Es. apply round_aux_exact; lia.
Qed.
Lemma rep_int z : Z.abs z < 2 ^ 22 -> rep (f_of_Z z) (4 * z).
Proof.
  intros H. unfold f_of_Z. destruct z as [|a|a].
  - cbn. eauto.
  - cbn [binary_normalize]. rewrite round_int by auto. apply (rep_fin false (sh 2 a)). apply dg_small. rewrite sh_val. lia.
  - cbn [binary_normalize]. rewrite round_int by auto. apply (rep_fin true (sh 2 a)). apply dg_small. rewrite sh_val. lia.
Qed.

(* ---- values ---- *)

Definition quarter (z : Z) : Qc := Q2Qc (z # 4).
Lemma qc_eq (a b : Q) : (a == b)%Q -> Q2Qc a = Q2Qc b.
Proof. intros H. apply Qc_is_canon. cbn. now rewrite H. Qed.
Lemma quarter_inj u v : quarter u = quarter v -> u = v.
Proof. intros H. apply (f_equal this) in H. cbn [this quarter Q2Qc] in H. apply Qred_eq_iff in H. unfold Qeq in H. cbn in H. lia. Qed.
Lemma value_fin s a : (dg a <= 24)%nat -> value (fin s a) = quarter (sgn s a).
Proof.
  intros H. unfold value, fin. set (k := (24 - dg a)%nat). unfold two_power.
  destruct (-2 - Z.of_nat k) as [|p|p] eqn:E; try lia. unfold quarter, Qcmult. apply qc_eq. cbn [this Q2Qc].
  rewrite !Qred_correct. unfold Qeq, inject_Z, Qmult. cbn [Qnum Qden].
  assert (Ep : Zpos (2 ^ p) = 4 * 2 ^ Z.of_nat k).
  { rewrite Pos2Z.inj_pow. replace (Zpos p) with (2 + Z.of_nat k) by lia. rewrite Z.pow_add_r by lia. reflexivity. }
  rewrite Pos.mul_1_l, Ep. destruct s; cbn [sgn]; [change (Zneg (sh k a)) with (- Zpos (sh k a))|]; rewrite sh_val; lia.
Qed.
Lemma value_rep x z : rep x z -> value x = quarter z /\ finite32 x.
Proof.
  intros H. apply rep_cases in H as [[-> [s ->]]|(s & a & Ha & -> & ->)].
  - split; [cbn; unfold quarter; apply qc_eq; reflexivity|]. split; [reflexivity|exact I].
  - split; [now apply value_fin|]. split; [|exact I]. cbn [valid_binary fin]. unfold bounded, canonical_mantissa, fexp, emin.
    rewrite digits_dg, dg_sh. pose proof (dg_pos a). apply andb_true_iff. split.
    + apply Zeq_is_eq_bool. lia.
    + apply Z.leb_le. lia.
Qed.
Lemma rep_value x z : finite32 x -> value x = quarter z -> Z.abs z < 2 ^ 24 -> rep x z.
Proof.
  intros [Hv Hf] H Hz. destruct x as [s|s| |s m e]; try contradiction.
  - cbn [value] in H. replace z with 0; [cbn; eauto|]. apply quarter_inj. rewrite <- H. unfold quarter. apply qc_eq. reflexivity.
  - cbn [valid_binary] in Hv. unfold bounded, canonical_mantissa, fexp, emin in Hv. apply andb_true_iff in Hv as [Hc _].
    apply Zeq_bool_eq in Hc. rewrite digits_dg in Hc. pose proof (dg_bounds m) as [Lm Um]. pose proof (dg_pos m) as Pm.
    set (M := if s then Zneg m else Zpos m) in *.
    assert (HM : 4 * M * 2 ^ (Z.max e 0) = z * 2 ^ (Z.max (- e) 0)).
    { cbn [value] in H. unfold quarter, Qcmult in H. apply (f_equal this) in H. cbn [this Q2Qc] in H. apply Qred_eq_iff in H.
      rewrite !Qred_correct in H. fold M in H. destruct e as [|p|p]; unfold two_power in H; cbn [this Q2Qc] in H; rewrite Qred_correct in H;
        unfold Qeq, inject_Z, Qmult in H; cbn [Qnum Qden] in H; cbn [Z.opp].
      - change (2 ^ Z.max 0 0) with 1. cbn [Z.pow] in H. change (2 ^ Z.max (- 0) 0) with 1. change (Zpos (1 * 1)) with 1 in H. lia.
      - rewrite (Z.max_l (Zpos p) 0), (Z.max_r (Zneg p) 0) by lia. cbn [Z.pow] in H |- *. lia.
      - rewrite (Z.max_r (Zneg p) 0), (Z.max_l (Zpos p) 0) by lia. rewrite Pos.mul_1_l, Pos2Z.inj_pow in H. cbn [Z.pow]. cbn [Z.pow] in H. lia. }
    assert (Am : Z.abs M = Zpos m) by (destruct s; reflexivity).
    assert (HA : 4 * Zpos m * 2 ^ Z.max e 0 = Z.abs z * 2 ^ Z.max (- e) 0).
    { apply (f_equal Z.abs) in HM. rewrite !Z.abs_mul, Am in HM. rewrite !(Z.abs_eq (2 ^ _)) in HM by (apply Z.pow_nonneg; lia).
      cbn [Z.abs] in HM. exact HM. }
    assert (He : e <= -2).
    { destruct (Z.le_gt_cases e (-2)); auto. exfalso. assert (D24 : Z.of_nat (dg m) = 24) by lia. rewrite D24 in Lm.
      destruct (Z.eq_dec e (-1)) as [->|N].
      - cbn in HA. lia.
      - rewrite (Z.max_r (- e) 0), (Z.max_l e 0) in HA by lia. pose proof (Z.pow_pos_nonneg 2 e ltac:(lia) ltac:(lia)). change (2 ^ 0) with 1 in HA. change (24 - 1) with 23 in Lm. nia. }
    rewrite (Z.max_r e 0), (Z.max_l (- e) 0) in HA by lia. change (2 ^ 0) with 1 in HA.
    assert (E2 : 2 ^ (- e) = 4 * 2 ^ (- e - 2)). { replace (- e) with (2 + (- e - 2)) at 1 by lia. rewrite Z.pow_add_r by lia. reflexivity. }
    rewrite E2 in HA. assert (HB : Zpos m = Z.abs z * 2 ^ (- e - 2)) by lia.
    set (k := Z.to_nat (- e - 2)) in *. replace (- e - 2) with (Z.of_nat k) in HB by (unfold k; lia).
    assert (Hs : z = sgn s (Z.to_pos (Z.abs z)) /\ z <> 0).
    { assert (z <> 0) by (intros ->; cbn in HB; lia). split; auto. rewrite (Z.max_r e 0), (Z.max_l (- e) 0) in HM by lia.
      pose proof (Z.pow_pos_nonneg 2 (- e) ltac:(lia) ltac:(lia)). unfold M in HM. destruct s; destruct z as [|z|z]; cbn [sgn Z.abs Z.to_pos]; auto; try congruence; exfalso; nia. }
    destruct Hs as [Hs Nz]. set (a := Z.to_pos (Z.abs z)) in *. assert (Ha : Zpos a = Z.abs z) by (unfold a; lia).
    assert (Em : m = sh k a). { apply Pos2Z.inj. rewrite sh_val, Ha. exact HB. }
    assert (Da : (dg a <= 24)%nat) by (apply dg_small; lia).
    assert (Dm : dg m = (dg a + k)%nat) by (rewrite Em; apply dg_sh).
    rewrite Hs. replace (S754_finite s m e) with (fin s a); [now apply rep_fin|]. unfold fin.
    assert (K : k = (24 - dg a)%nat) by lia. rewrite <- K, <- Em. f_equal. unfold k. lia.
Qed.
