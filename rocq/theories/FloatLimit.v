(* binary32 sums of ones stop growing at 2^24. *)
From Coq Require Import List ZArith QArith Qcanon Bool Arith Lia SpecFloat.
From Verif Require Import Base Quat QuatFacts ModelFloat SpecFloats BaseFacts FloatFacts.
Import ListNotations.
Open Scope Z_scope.

(* the representation of the integer a < 2^24 *)
Definition whole (a : positive) : f32 := S754_finite false (sh (24 - dg a) a) (- Z.of_nat (24 - dg a)).

Lemma wshr_fexp_exact a j : (dg a <= 24)%nat -> (24 - dg a <= j)%nat ->
  shr_fexp 24 128 (Zpos (sh j a)) (- Z.of_nat j) loc_Exact =
  (Build_shr_record (Zpos (sh (24 - dg a) a)) false false, - Z.of_nat (24 - dg a)).
Proof.
  intros Ha Hj. unfold shr_fexp, fexp, emin. cbn [shr_record_of_loc Zdigits2]. rewrite digits_dg, dg_sh.
  pose proof (dg_pos a). set (k := (24 - dg a)%nat) in *.
  replace (Z.max (Z.of_nat (dg a + j) + (- Z.of_nat j) - 24) (3 - 128 - 24) - (- Z.of_nat j)) with (Z.of_nat (j - k)) by lia.
  destruct (j - k)%nat as [|d] eqn:E.
  - cbn [Z.of_nat shr]. replace j with k by lia. reflexivity.
  - rewrite <- E. destruct (Z.of_nat (j - k)) as [|p|p] eqn:Ep; try lia. cbn [shr]. rewrite iter_pos_spec.
    replace (Pos.to_nat p) with (j - k)%nat by lia. rewrite shr_exact by lia. f_equal. lia.
Qed.
Lemma wround_aux_exact a j : (dg a <= 24)%nat -> (24 - dg a <= j)%nat ->
  binary_round_aux 24 128 false (Zpos (sh j a)) (- Z.of_nat j) loc_Exact = whole a.
Proof.
  intros Ha Hj. unfold binary_round_aux. rewrite wshr_fexp_exact by auto. cbn [shr_m loc_of_shr_record round_nearest_even].
  rewrite wshr_fexp_exact by auto. cbn [shr_m]. unfold whole.
  destruct (Zle_bool (- Z.of_nat (24 - dg a)) (128 - 24)) eqn:E; auto. apply Z.leb_nle in E. lia.
Qed.
Lemma wround_exact a j : (dg a <= 24)%nat -> binary_round 24 128 false (sh j a) (- Z.of_nat j) = whole a.
Proof.
  intros Ha. unfold binary_round, shl_align, fexp, emin. rewrite digits_dg, dg_sh. pose proof (dg_pos a).
  set (k := (24 - dg a)%nat).
  replace (Z.max (Z.of_nat (dg a + j) + (- Z.of_nat j) - 24) (3 - 128 - 24)) with (- Z.of_nat k) by lia.
  destruct (- Z.of_nat k - (- Z.of_nat j)) as [|p|p] eqn:E.
  - apply wround_aux_exact; lia.
  - apply wround_aux_exact; lia.
  - assert (Es : shift_pos p (sh j a) = sh k a).
    { unfold shift_pos. rewrite Pos2Nat.inj_iter. replace k with (Pos.to_nat p + j)%nat by lia. now rewrite sh_add. }
    rewrite Es. apply wround_aux_exact; lia.
Qed.
Lemma walign_exact a k j : (k <= j)%nat -> fst (shl_align (sh k a) (- Z.of_nat k) (- Z.of_nat j)) = sh j a.
Proof.
  intros H. unfold shl_align. destruct (- Z.of_nat j - (- Z.of_nat k)) as [|p|p] eqn:E; cbn [fst].
  - f_equal. lia.
  - lia.
  - unfold shift_pos. rewrite Pos2Nat.inj_iter. replace j with (Pos.to_nat p + k)%nat by lia. now rewrite sh_add.
Qed.
Lemma whole_add a b : Zpos (a + b) < 2 ^ 24 -> f_add (whole a) (whole b) = whole (a + b).
Proof.
  intros H. unfold f_add, whole, SFadd. set (k := (24 - dg a)%nat). set (l := (24 - dg b)%nat).
  set (j := Nat.max k l). replace (Z.min (- Z.of_nat k) (- Z.of_nat l)) with (- Z.of_nat j) by lia.
  rewrite !walign_exact by lia. cbn [cond_Zopp]. rewrite !sh_val, <- Z.mul_add_distr_r. change (Zpos a + Zpos b) with (Zpos (a + b)).
  rewrite <- sh_val. cbn [binary_normalize]. apply wround_exact. now apply dg_small.
Qed.

Definition top : f32 := S754_finite false 8388608 1.
Lemma f_one_whole : f_one = whole 1. Proof. vm_compute. reflexivity. Qed.
Lemma last_step : f_add (whole (2 ^ 24 - 1)) f_one = top. Proof. vm_compute. reflexivity. Qed.
Lemma stuck : f_add top f_one = top. Proof. vm_compute. reflexivity. Qed.

(* the number reached after adding k ones to zero *)
Definition count (k : Z) : f32 :=
  match k with Zpos a => if Zpos a <? 2 ^ 24 then whole a else top | _ => f_zero end.
Lemma count_next k : 0 <= k -> f_add (count k) f_one = count (k + 1).
Proof.
  intros H. destruct k as [|a|a]; [vm_compute; reflexivity| |lia]. cbn [count Z.add].
  destruct (Z.ltb_spec (Zpos a) (2 ^ 24)) as [L|L].
  - destruct (Z.ltb_spec (Zpos (a + 1)) (2 ^ 24)) as [M|M].
    + rewrite f_one_whole. now apply whole_add.
    + replace a with (2 ^ 24 - 1)%positive by lia. exact last_step.
  - destruct (Z.ltb_spec (Zpos (a + 1)) (2 ^ 24)) as [M|M]; [lia|]. exact stuck.
Qed.

Definition ones (k : Z) : fquat := FQuat (count k) f_zero f_zero f_zero.
Lemma ones_next k : 0 <= k -> fq_add (ones k) (fq_mul FQ1 (fq_conj FQ1)) = ones (k + 1).
Proof.
  intros H. assert (E : fq_mul FQ1 (fq_conj FQ1) = FQuat f_one (S754_zero false) (S754_zero false) (S754_zero false) \/
    exists s t u, fq_mul FQ1 (fq_conj FQ1) = FQuat f_one (S754_zero s) (S754_zero t) (S754_zero u)).
  { right. do 3 eexists. vm_compute. reflexivity. }
  destruct E as [->|(s & t & u & ->)]; unfold fq_add, ones; cbn [f_s f_x f_y f_z]; rewrite count_next by auto; f_equal.
  all: first [destruct s; reflexivity|destruct t; reflexivity|destruct u; reflexivity|reflexivity].
Qed.
Lemma fold_ones (f : fquat -> nat -> option fquat) l k : 0 <= k ->
  (forall i acc, In i l -> f acc i = Some (fq_add acc (fq_mul FQ1 (fq_conj FQ1)))) ->
  fold_m f l (ones k) = Some (ones (k + Z.of_nat (length l))).
Proof.
  revert k. induction l as [|i l IH]; intros k Hk H; cbn [fold_m length].
  - do 2 f_equal. lia.
  - rewrite H by now left. cbn [bind]. rewrite ones_next, IH by (auto; try lia; intros; apply H; now right). do 2 f_equal. lia.
Qed.
Lemma vget_repeat {A} (a : A) n i : (i < n)%nat -> vget (repeat a n) i = Some a.
Proof. unfold vget. revert i. induction n; intros [|i] H; cbn; auto; try lia. apply IHn. lia. Qed.
Lemma constant_autocorrelation n t : F_periodic_autocorrelation (repeat FQ1 n) t = Some (ones (Z.of_nat n)).
Proof.
  unfold F_periodic_autocorrelation. change FQ0 with (ones 0). rewrite repeat_length. rewrite fold_ones.
  - rewrite Z.add_0_l. unfold range. rewrite seq_length. rewrite Nat.sub_0_r. reflexivity.
  - lia.
  - intros i acc Hi. apply in_range in Hi. rewrite !vget_repeat; auto; try lia. apply Nat.mod_upper_bound. lia.
Qed.
Lemma top_value : value top = Q2Qc (inject_Z (2 ^ 24)). Proof. apply qc_eq. vm_compute. reflexivity. Qed.
Lemma saturation n t : 2 ^ 24 <= Z.of_nat n -> exists r, F_periodic_autocorrelation (repeat FQ1 n) t = Some r /\
  finite_quat r /\ quat_value r = Quat (Q2Qc (inject_Z (2 ^ 24))) 0 0 0.
Proof.
  intros H. exists (ones (Z.of_nat n)). split; [apply constant_autocorrelation|].
  assert (E : count (Z.of_nat n) = top).
  { destruct (Z.of_nat n) as [|a|a]; try lia. unfold count. destruct (Z.ltb_spec (Zpos a) (2 ^ 24)); [lia|auto]. }
  unfold ones. rewrite E. split.
  - repeat split; cbn; auto.
  - unfold quat_value. cbn [f_s f_x f_y f_z]. rewrite top_value. reflexivity.
Qed.
