(* Errors of the computed spectra and correlations. *)
From Coq Require Import List ZArith Lia Arith Bool Reals Lra.
From Verif Require Import Base BaseFacts Sums ModelWilliamson ModelEquivalence ModelFourier ModelMatching ModelRowsum ModelWrite
  SeqFacts FourierFacts SpecFourier MatchFacts PsdKeys PsdSame ModelNoise SpecNoise Spec.
Import ListNotations.
Notation length := List.length.
Open Scope R_scope.

(* ---- closeness ---- *)

Lemma close_trans d1 d2 x y z : close d1 x y -> close d2 y z -> close (d1 + d2) x z.
Proof. unfold close. intros H1 H2. replace (x - z) with ((x - y) + (y - z)) by ring. eapply Rle_trans; [apply Rabs_triang|lra]. Qed.
Lemma close_weak d1 d2 x y : close d1 x y -> d1 <= d2 -> close d2 x y.
Proof. unfold close. lra. Qed.
Lemma close_add d1 d2 x y x' y' : close d1 x x' -> close d2 y y' -> close (d1 + d2) (x + y) (x' + y').
Proof. unfold close. intros H1 H2. replace (x + y - (x' + y')) with ((x - x') + (y - y')) by ring. eapply Rle_trans; [apply Rabs_triang|lra]. Qed.
Lemma close_opp d x y : close d x y -> close d (- x) (- y).
Proof. unfold close. intros H. replace (- x - - y) with (- (x - y)) by ring. now rewrite Rabs_Ropp. Qed.
Lemma close_sub d1 d2 x y x' y' : close d1 x x' -> close d2 y y' -> close (d1 + d2) (x - y) (x' - y').
Proof. intros H1 H2. unfold Rminus. apply close_add; auto. now apply close_opp. Qed.
Lemma close_bound d B x y : close d x y -> at_most B y -> at_most (B + d) x.
Proof. unfold close, at_most. intros H1 H2. replace x with ((x - y) + y) by ring. eapply Rle_trans; [apply Rabs_triang|lra]. Qed.
Lemma close_prod N d x y x' y' : 0 <= N -> 0 <= d <= 1 -> at_most N x' -> at_most N y' -> close d x x' -> close d y y' ->
  close ((2 * N + 1) * d) (x * y) (x' * y').
Proof.
  intros HN Hd Hx Hy Cx Cy. pose proof (close_bound _ _ _ _ Cx Hx) as Bx. unfold close, at_most in *.
  replace (x * y - x' * y') with (x * (y - y') + (x - x') * y') by ring. eapply Rle_trans; [apply Rabs_triang|]. rewrite !Rabs_mult.
  assert (Rabs x * Rabs (y - y') <= (N + d) * d) by (apply Rmult_le_compat; auto using Rabs_pos).
  assert (Rabs (x - x') * Rabs y' <= d * N) by (apply Rmult_le_compat; auto using Rabs_pos). nra.
Qed.
Lemma at_most_weak B C x : at_most B x -> B <= C -> at_most C x.
Proof. unfold at_most. lra. Qed.
Lemma at_most_opp B x : at_most B x -> at_most B (- x).
Proof. unfold at_most. now rewrite Rabs_Ropp. Qed.
Lemma at_most_add B C x y : at_most B x -> at_most C y -> at_most (B + C) (x + y).
Proof. unfold at_most. intros. eapply Rle_trans; [apply Rabs_triang|lra]. Qed.
Lemma at_most_sub B C x y : at_most B x -> at_most C y -> at_most (B + C) (x - y).
Proof. intros. unfold Rminus. apply at_most_add; auto. now apply at_most_opp. Qed.
Lemma at_most_mul B C x y : at_most B x -> at_most C y -> at_most (B * C) (x * y).
Proof. unfold at_most. intros. rewrite Rabs_mult. apply Rmult_le_compat; auto using Rabs_pos. Qed.

(* rounding near an integer *)
Lemma round_close d x z : d < / 2 -> close d x (IZR z) -> roundR x = z.
Proof.
  unfold close. intros Hd H. assert (- d <= x - IZR z <= d) as [H1 H2] by (revert H; unfold Rabs; destruct (Rcase_abs _); lra).
  unfold roundR. destruct (Rlt_dec x 0).
  - enough (Int_part (- x + / 2) = (- z)%Z) by lia. apply Int_part_unique. rewrite opp_IZR. lra.
  - apply Int_part_unique. lra.
Qed.

(* ---- the exact spectra ---- *)

Lemma fourier_cos s k : fourier_sum s cos k = dft_re s (Z.of_nat k).
Proof.
  unfold fourier_sum, dft_re, sumR. f_equal. apply map_ext_in. intros j Hj. apply in_seq in Hj.
  rewrite <- cos_angle. rewrite entry_nat by lia. reflexivity.
Qed.
Lemma fourier_sin s k : - fourier_sum s sin k = dft_im s (Z.of_nat k).
Proof.
  unfold fourier_sum, dft_im, sumR. do 2 f_equal. apply map_ext_in. intros j Hj. apply in_seq in Hj.
  rewrite <- sin_angle. rewrite entry_nat by lia. reflexivity.
Qed.
Lemma pm_sum_bound n s (f : nat -> R) : length s = n -> (1 <= n)%nat -> pm1 s -> (forall j, -1 <= f j <= 1) ->
  at_most (INR n) (sumR n (fun j => IZR (entry s (Z.of_nat j)) * f j)).
Proof.
  intros Hl Hn Hp Hf. unfold at_most. eapply Rle_trans; [apply Rabs_sumR|]. rewrite <- (Rmult_1_r (INR n)), <- sumR_const. apply sumR_le. intros j Hj.
  specialize (Hf j). destruct (entry_pm s (Z.of_nat j) Hp) as [-> | ->]; [lia| |]; apply Rabs_le; lra.
Qed.
Lemma dft_re_bound n s k : length s = n -> (1 <= n)%nat -> pm1 s -> at_most (INR n) (dft_re s k).
Proof. intros H1 H2 H3. unfold dft_re. rewrite H1. apply pm_sum_bound; auto. intros; apply cosn_bound. Qed.
Lemma dft_im_bound n s k : length s = n -> (1 <= n)%nat -> pm1 s -> at_most (INR n) (dft_im s k).
Proof. intros H1 H2 H3. unfold dft_im. rewrite H1. apply at_most_opp, pm_sum_bound; auto. intros; apply sinn_bound. Qed.

(* the exact inverse transform, within twice the distance of the coefficients *)
Lemma c2r_close n X Y d t : (1 <= n)%nat -> (t < n)%nat ->
  (forall k, (k <= n / 2)%nat -> close d (fst (nth k X (0, 0))) (fst (nth k Y (0, 0))) /\ close d (snd (nth k X (0, 0))) (snd (nth k Y (0, 0)))) ->
  close (2 * d) (nth t (c2r n X) 0 / INR n) (nth t (c2r n Y) 0 / INR n).
Proof.
  intros Hn Ht H. pose proof (INR_pos n Hn) as P. unfold c2r. rewrite !nth_map_seq by lia.
  unfold close. match goal with |- Rabs (?a / _ - ?b / _) <= _ => replace (a / INR n - b / INR n) with ((a - b) / INR n) by (field; lra) end.
  rewrite <- sumR_sub. unfold Rdiv. rewrite Rabs_mult, (Rabs_right (/ INR n)) by (apply Rle_ge, Rlt_le, Rinv_0_lt_compat; lra).
  apply Rmult_le_reg_r with (INR n); [lra|]. rewrite Rmult_assoc, Rinv_l, Rmult_1_r by lra.
  eapply Rle_trans; [apply Rabs_sumR|]. replace (2 * d * INR n) with (INR n * (2 * d)) by ring. rewrite <- sumR_const. apply sumR_le. intros k Hk.
  assert (G : forall x y u v c s, -1 <= c <= 1 -> -1 <= s <= 1 -> close d x u -> close d y v -> Rabs ((x * c - y * s) - (u * c - v * s)) <= 2 * d).
  { clear. intros x y u v c s Hc Hs Hx Hy. unfold close in *. replace (x * c - y * s - (u * c - v * s)) with ((x - u) * c + - ((y - v) * s)) by ring.
    eapply Rle_trans; [apply Rabs_triang|]. rewrite Rabs_Ropp, !Rabs_mult.
    assert (Rabs c <= 1) by (apply Rabs_le; lra). assert (Rabs s <= 1) by (apply Rabs_le; lra).
    pose proof (Rabs_pos (x - u)). pose proof (Rabs_pos (y - v)).
    assert (Rabs (x - u) * Rabs c <= d * 1) by (apply Rmult_le_compat; auto using Rabs_pos).
    assert (Rabs (y - v) * Rabs s <= d * 1) by (apply Rmult_le_compat; auto using Rabs_pos). lra. }
  destruct (Nat.leb_spec k (n / 2)) as [L|L].
  - destruct (H k L). apply G; auto; [apply COS_bound|apply SIN_bound].
  - assert ((n - k <= n / 2)%nat) as L'.
    { pose proof (Nat.div_mod n 2 ltac:(lia)). pose proof (Nat.mod_upper_bound n 2 ltac:(lia)). lia. }
    destruct (H (n - k)%nat L'). cbn [cr_conj fst snd]. apply G; auto; [apply COS_bound|apply SIN_bound|now apply close_opp].
Qed.

Section Errors.
Context (n : nat) (e : R) (A : Arith).
Context (Hn : (1 <= n)%nat) (He : 0 <= e <= 1) (HA : accurate n e A).

Lemma N1 : 1 <= INR n.
Proof. apply (le_INR 1 n Hn). Qed.

Definition fre (s : list Z) (k : nat) : R := fst (nth k (a_dft A s) (0, 0)).
Definition fim (s : list Z) (k : nat) : R := snd (nth k (a_dft A s) (0, 0)).
Definition good (s : list Z) : Prop := length s = n /\ pm1 s.

Lemma dft_f s : good s -> a_dft A s = map (fun k => (fre s k, fim s k)) (seq 0 (n / 2 + 1)).
Proof.
  intros [Hl Hp]. destruct HA as (H & _). destruct (H s Hl Hp) as [L _]. rewrite <- L. etransitivity; [symmetry; apply (map_nth_seq (a_dft A s) (0, 0))|].
  apply map_ext. intros k. unfold fre, fim. now destruct (nth k (a_dft A s) (0, 0)).
Qed.
Lemma re_close s k : good s -> (k <= n / 2)%nat -> close e (fre s k) (dft_re s (Z.of_nat k)).
Proof. intros [Hl Hp] Hk. destruct HA as (H & _). destruct (H s Hl Hp) as [_ C]. rewrite <- fourier_cos. now apply C. Qed.
Lemma im_close s k : good s -> (k <= n / 2)%nat -> close e (fim s k) (dft_im s (Z.of_nat k)).
Proof. intros [Hl Hp] Hk. destruct HA as (H & _). destruct (H s Hl Hp) as [_ C]. rewrite <- fourier_sin. now apply C. Qed.
Lemma add_close x y : at_most (100 * INR n ^ 2) x -> at_most (100 * INR n ^ 2) y -> close e (a_add A x y) (x + y).
Proof. destruct HA as (_ & _ & H & _). intros. now apply H. Qed.
Lemma sub_close x y : at_most (100 * INR n ^ 2) x -> at_most (100 * INR n ^ 2) y -> close e (a_sub A x y) (x - y).
Proof. destruct HA as (_ & _ & H & _). intros. now apply H. Qed.

(* a product of two components *)
Lemma mul_f x y x' y' : at_most (INR n) x' -> at_most (INR n) y' -> close e x x' -> close e y y' ->
  close ((2 * INR n + 2) * e) (a_mul A x y) (x' * y') /\ at_most (INR n ^ 2 + (2 * INR n + 2) * e) (a_mul A x y).
Proof.
  intros Hx Hy Cx Cy. pose proof N1.
  assert (C : close ((2 * INR n + 2) * e) (a_mul A x y) (x' * y')).
  { replace ((2 * INR n + 2) * e) with (e + (2 * INR n + 1) * e) by ring. eapply close_trans.
    - destruct HA as (_ & _ & _ & M & _). apply M.
      + apply (at_most_weak (INR n + e)); [apply (close_bound _ _ _ _ Cx Hx)|lra].
      + apply (at_most_weak (INR n + e)); [apply (close_bound _ _ _ _ Cy Hy)|lra].
    - apply close_prod; auto. lra. }
  split; auto. eapply close_bound; [exact C|]. replace (INR n ^ 2) with (INR n * INR n) by ring. now apply at_most_mul.
Qed.
(* the sum or difference of two such products *)
Lemma sum_f u v u' v' : close ((2 * INR n + 2) * e) u u' -> close ((2 * INR n + 2) * e) v v' ->
  at_most (INR n ^ 2 + (2 * INR n + 2) * e) u -> at_most (INR n ^ 2 + (2 * INR n + 2) * e) v ->
  close (9 * INR n * e) (a_add A u v) (u' + v') /\ close (9 * INR n * e) (a_sub A u v) (u' - v').
Proof.
  intros Cu Cv Bu Bv. pose proof N1.
  assert (W : INR n ^ 2 + (2 * INR n + 2) * e <= 100 * INR n ^ 2) by nra.
  split.
  - apply (close_weak (e + ((2 * INR n + 2) * e + (2 * INR n + 2) * e))); [|nra].
    eapply close_trans; [apply add_close; eapply at_most_weak; eauto|]. now apply close_add.
  - apply (close_weak (e + ((2 * INR n + 2) * e + (2 * INR n + 2) * e))); [|nra].
    eapply close_trans; [apply sub_close; eapply at_most_weak; eauto|]. now apply close_sub.
Qed.

(* the computed power spectrum and cross spectrum *)
Definition pw (s : list Z) (k : nat) : R := norm_sqr_f A (fre s k, fim s k).
Definition cx (s1 s2 : list Z) (k : nat) : CR := cr_mul_f A (fre s1 k, fim s1 k) (cr_conj (fre s2 k, fim s2 k)).

Lemma pw_close s k : good s -> (k <= n / 2)%nat -> close (9 * INR n * e) (pw s k) (psd s k).
Proof.
  intros G Hk. pose proof G as [Hl Hp]. rewrite <- psd_norm. unfold pw, norm_sqr_f, norm_sqr, dft_at. cbn [fst snd].
  destruct (mul_f (fre s k) (fre s k) (dft_re s (Z.of_nat k)) (dft_re s (Z.of_nat k))) as [C1 B1]; auto using re_close, dft_re_bound.
  destruct (mul_f (fim s k) (fim s k) (dft_im s (Z.of_nat k)) (dft_im s (Z.of_nat k))) as [C2 B2]; auto using im_close, dft_im_bound.
  now apply sum_f.
Qed.
Lemma cx_close s1 s2 k : good s1 -> good s2 -> (k <= n / 2)%nat ->
  close (9 * INR n * e) (fst (cx s1 s2 k)) (xre s1 s2 (Z.of_nat k)) /\ close (9 * INR n * e) (snd (cx s1 s2 k)) (xim s1 s2 (Z.of_nat k)).
Proof.
  intros G1 G2 Hk. pose proof G1 as [Hl1 Hp1]. pose proof G2 as [Hl2 Hp2].
  pose proof (cross_product s1 s2 k ltac:(congruence)) as E. unfold cr_mul, cr_conj, dft_at in E. cbn [fst snd] in E. injection E as E1 E2.
  rewrite <- E1, <- E2. unfold cx, cr_mul_f, cr_conj. cbn [fst snd].
  destruct (mul_f (fre s1 k) (fre s2 k) (dft_re s1 (Z.of_nat k)) (dft_re s2 (Z.of_nat k))) as [C1 B1]; auto using re_close, dft_re_bound.
  destruct (mul_f (fim s1 k) (- fim s2 k) (dft_im s1 (Z.of_nat k)) (- dft_im s2 (Z.of_nat k))) as [C2 B2]; auto using im_close, dft_im_bound, close_opp, at_most_opp.
  destruct (mul_f (fre s1 k) (- fim s2 k) (dft_re s1 (Z.of_nat k)) (- dft_im s2 (Z.of_nat k))) as [C3 B3]; auto using re_close, im_close, dft_re_bound, dft_im_bound, close_opp, at_most_opp.
  destruct (mul_f (fim s1 k) (fre s2 k) (dft_im s1 (Z.of_nat k)) (dft_re s2 (Z.of_nat k))) as [C4 B4]; auto using re_close, im_close, dft_re_bound, dft_im_bound.
  split; now apply sum_f.
Qed.

(* ---- bounds ---- *)

Lemma psd_bound s k : good s -> at_most (2 * INR n ^ 2) (psd s k).
Proof.
  intros [Hl Hp]. rewrite <- psd_norm. unfold norm_sqr, dft_at. cbn [fst snd]. replace (2 * INR n ^ 2) with (INR n * INR n + INR n * INR n) by ring.
  apply at_most_add; apply at_most_mul; auto using dft_re_bound, dft_im_bound.
Qed.
Lemma x_bound s1 s2 k : good s1 -> good s2 -> at_most (2 * INR n ^ 2) (xre s1 s2 (Z.of_nat k)) /\ at_most (2 * INR n ^ 2) (xim s1 s2 (Z.of_nat k)).
Proof.
  intros [Hl1 Hp1] [Hl2 Hp2].
  pose proof (cross_product s1 s2 k ltac:(congruence)) as E. unfold cr_mul, cr_conj, dft_at in E. cbn [fst snd] in E. injection E as E1 E2.
  rewrite <- E1, <- E2. replace (2 * INR n ^ 2) with (INR n * INR n + INR n * INR n) by ring. split.
  - apply at_most_sub; apply at_most_mul; auto using dft_re_bound, dft_im_bound, at_most_opp.
  - apply at_most_add; apply at_most_mul; auto using dft_re_bound, dft_im_bound, at_most_opp.
Qed.
Lemma pw_bound s k : good s -> (k <= n / 2)%nat -> at_most (11 * INR n ^ 2) (pw s k).
Proof.
  intros G Hk. pose proof N1. apply (at_most_weak (2 * INR n ^ 2 + 9 * INR n * e)); [|nra].
  eapply close_bound; [now apply pw_close|now apply psd_bound].
Qed.
Lemma cx_bound s1 s2 k : good s1 -> good s2 -> (k <= n / 2)%nat -> at_most (11 * INR n ^ 2) (fst (cx s1 s2 k)) /\ at_most (11 * INR n ^ 2) (snd (cx s1 s2 k)).
Proof.
  intros G1 G2 Hk. pose proof N1. destruct (cx_close s1 s2 k G1 G2 Hk). destruct (x_bound s1 s2 k G1 G2).
  split; apply (at_most_weak (2 * INR n ^ 2 + 9 * INR n * e)); try nra; eapply close_bound; eauto.
Qed.

(* ---- the filter and the values of the option PSD ---- *)

Lemma sum_close s1 s2 k : good s1 -> good s2 -> (k <= n / 2)%nat -> close (19 * INR n * e) (a_add A (pw s1 k) (pw s2 k)) (psd s1 k + psd s2 k).
Proof.
  intros G1 G2 Hk. pose proof N1. apply (close_weak (e + (9 * INR n * e + 9 * INR n * e))); [|nra]. eapply close_trans.
  - apply add_close; (eapply at_most_weak; [now apply pw_bound|nra]).
  - apply close_add; now apply pw_close.
Qed.
Lemma INR_4n : INR (4 * n) = 4 * INR n.
Proof. rewrite mult_INR. simpl (INR 4). lra. Qed.
Definition psd_f (side : EquationSide) (s1 s2 : list Z) (k : nat) : R :=
  match side with LEFT => a_add A (pw s1 k) (pw s2 k) | RIGHT => a_sub A (INR (4 * n)) (a_add A (pw s1 k) (pw s2 k)) end.
Lemma psd_f_close side s1 s2 k : good s1 -> good s2 -> (k <= n / 2)%nat ->
  close (20 * INR n * e) (psd_f side s1 s2 k) (match side with LEFT => psd s1 k + psd s2 k | RIGHT => 4 * INR n - (psd s1 k + psd s2 k) end).
Proof.
  intros G1 G2 Hk. pose proof N1. pose proof (sum_close s1 s2 k G1 G2 Hk) as C. destruct side; cbn [psd_f].
  - eapply close_weak; [exact C|nra].
  - apply (close_weak (e + (0 + 19 * INR n * e))); [|nra]. rewrite <- INR_4n. eapply close_trans.
    + apply sub_close.
      * rewrite INR_4n. unfold at_most. rewrite Rabs_right by nra. nra.
      * eapply at_most_weak; [eapply close_bound; [exact C|apply at_most_add; now apply psd_bound]|nra].
    + apply close_sub; auto. unfold close. replace (INR (4 * n) - INR (4 * n)) with 0 by ring. rewrite Rabs_R0. lra.
Qed.
Definition im_f (b : bool) (s1 s2 : list Z) (k : nat) : R :=
  if b then a_sub A (snd (cx s1 s2 k)) (snd (cx s2 s1 k)) else a_sub A (snd (cx s2 s1 k)) (snd (cx s1 s2 k)).
Lemma im_f_close b s1 s2 k : good s1 -> good s2 -> (k <= n / 2)%nat -> close (20 * INR n * e) (im_f b s1 s2 k) (xdiff b s1 s2 (Z.of_nat k)).
Proof.
  intros G1 G2 Hk. pose proof N1. destruct (cx_close s1 s2 k) as [_ C1]; auto. destruct (cx_close s2 s1 k) as [_ C2]; auto.
  destruct (cx_bound s1 s2 k) as [_ B1]; auto. destruct (cx_bound s2 s1 k) as [_ B2]; auto.
  unfold im_f, xdiff. destruct b; apply (close_weak (e + (9 * INR n * e + 9 * INR n * e))); try nra;
    (eapply close_trans; [apply sub_close; (eapply at_most_weak; [eassumption|nra])|now apply close_sub]).
Qed.

(* ---- the inverse transform ---- *)

Lemma inv_f s1 s2 (X : nat -> CR) t : good s1 -> good s2 -> (t < n)%nat ->
  (forall k, (k <= n / 2)%nat -> close (9 * INR n * e) (fst (X k)) (xre s1 s2 (Z.of_nat k)) /\ close (9 * INR n * e) (snd (X k)) (xim s1 s2 (Z.of_nat k))) ->
  let r := a_idft A n (map X (seq 0 (n / 2 + 1))) in
  length r = n /\ close (19 * INR n * e) (nth t r 0) (IZR (ccf s1 s2 (Z.of_nat t))).
Proof.
  intros G1 G2 Ht HX. pose proof N1. pose proof G1 as [Hl1 Hp1]. pose proof G2 as [Hl2 Hp2]. cbv zeta.
  destruct HA as (_ & HI & _). destruct (HI (map X (seq 0 (n / 2 + 1)))) as [L C].
  - now rewrite map_length, seq_length.
  - intros x Hx. apply in_map_iff in Hx as (k & <- & Hk). apply in_seq in Hk. destruct (HX k ltac:(lia)) as [C1 C2]. destruct (x_bound s1 s2 k G1 G2).
    split; apply (at_most_weak (2 * INR n ^ 2 + 9 * INR n * e)); try nra; eapply close_bound; eauto.
  - split; auto. apply (close_weak (e + 2 * (9 * INR n * e))); [|nra]. eapply close_trans; [now apply C|].
    pose proof (inverse_spectrum s1 s2 ltac:(congruence) ltac:(lia)) as I. rewrite Hl1 in I. unfold inverse_dft in I. rewrite Nat.eqb_refl in I.
    rewrite (proj2 (Nat.leb_le 1 n) Hn) in I. cbn [andb guard] in I. set (Y := map _ (seq 0 (n / 2 + 1))) in I.
    rewrite (vbuild_map _ _ (fun k => nth k Y (0, 0))) in I by (intros i Hi; apply vget_nth; unfold Y; rewrite map_length, seq_length; lia).
    cbn [bind] in I. replace (map (fun k => nth k Y (0, 0)) (seq 0 (n / 2 + 1))) with Y in I.
    2:{ unfold Y. apply map_ext_in. intros k Hk. apply in_seq in Hk. now rewrite nth_map_seq by lia. }
    injection I as I. replace (IZR (ccf s1 s2 (Z.of_nat t))) with (nth t (c2r n Y) 0 / INR n).
    2:{ assert (E : nth t (map (fun x => x / INR n) (c2r n Y)) 0 = IZR (ccf s1 s2 (Z.of_nat t))) by (rewrite I, nth_map_seq by lia; reflexivity).
        rewrite <- E. rewrite (nth_indep (map _ _) 0 (0 / INR n)) by (rewrite map_length; unfold c2r; rewrite map_length, seq_length; lia).
        now rewrite (map_nth (fun x => x / INR n)). }
    apply c2r_close; auto. intros k Hk. unfold Y. rewrite !nth_map_seq by lia. cbn [fst snd]. now apply HX.
Qed.
Lemma inverse_dft_f_run (X : nat -> CR) : inverse_dft_f A n (map X (seq 0 (n / 2 + 1))) n = Some (a_idft A n (map X (seq 0 (n / 2 + 1)))).
Proof.
  unfold inverse_dft_f. rewrite Nat.eqb_refl, (proj2 (Nat.leb_le 1 n) Hn). cbn [andb guard].
  rewrite (vbuild_map _ _ X); [reflexivity|]. intros i Hi. now apply vget_map_seq.
Qed.

(* ---- lists ---- *)

Definition spectrum_f (s : list Z) : list CR := map (fun k => (fre s k, fim s k)) (seq 0 (n / 2 + 1)).
Definition power_f (s : list Z) : list R := map (pw s) (seq 0 (n / 2 + 1)).
Definition pair_f (i : nat) (s1 : list Z) (j : nat) (s2 : list Z) : SequencePairData :=
  mkPair (i, s1) (j, s2) (spectrum_f s1) (power_f s1) (spectrum_f s2) (power_f s2).
Definition within_f (s1 s2 : list Z) : bool :=
  forallb (fun k => negb (gtR (a_add A (pw s1 k) (pw s2 k)) (4 * INR n))) (seq 1 (n / 2)).

Lemma couple_psds_f_spec i j s1 s2 : good s1 -> good s2 ->
  couple_psds_f A n (4 * INR n) (i, s1) (j, s2) = Some (if within_f s1 s2 then Some (pair_f i s1 j s2) else None).
Proof.
  intros G1 G2. unfold couple_psds_f, dft_sequence_f. cbn [fst snd]. rewrite (proj1 G1), (proj1 G2), Nat.eqb_refl, (proj2 (Nat.leb_le 1 n) Hn).
  cbn [andb guard bind]. rewrite !dft_f by auto. fold (spectrum_f s1) (spectrum_f s2).
  assert (P : forall s, map (norm_sqr_f A) (spectrum_f s) = power_f s) by (intros; unfold spectrum_f, power_f; now rewrite map_map).
  rewrite !P. unfold pair_f.
  assert (E : existsb (fun '((i1, x1), (i2, x2)) => negb (i1 =? 0)%nat && negb (i2 =? 0)%nat && gtR (a_add A x1 x2) (4 * INR n))
      (combine (enumerate (power_f s1)) (enumerate (power_f s2))) = negb (within_f s1 s2)).
  { unfold power_f. rewrite !enumerate_map, combine_map, existsb_map. unfold within_f. rewrite existsb_negb. f_equal.
    rewrite Nat.add_1_r. rewrite <- cons_seq. cbn [forallb Nat.eqb negb andb].
    apply forallb_ext_in. intros k Hk. apply in_seq in Hk. destruct k; [lia|]. reflexivity. }
  rewrite E. now destruct (within_f s1 s2).
Qed.

Context (Hs : 100 * INR n * e <= 1).

Lemma auto_f s : good s -> compute_auto_correlation_dft_f A n (power_f s) n = Some (map (fun t => paf s (Z.of_nat t)) (seq 0 n)).
Proof.
  intros G. unfold compute_auto_correlation_dft_f, power_f. rewrite map_map, inverse_dft_f_run. cbn [bind]. f_equal.
  assert (K : forall t, (t < n)%nat -> _) by (intros t Ht; exact (inv_f s s (fun k => (pw s k, 0)) t G G Ht
    ltac:(intros k Hk; cbn [fst snd]; rewrite xim_self, <- norm_xre, psd_norm; split; [now apply pw_close|
      unfold close; replace (0 - 0) with 0 by ring; rewrite Rabs_R0; pose proof N1; nra]))).
  cbv zeta in K. set (r := a_idft A n _) in *. destruct (K 0%nat ltac:(lia)) as [L _].
  rewrite <- (map_nth_seq r 0), L, map_map. apply map_ext_in. intros t Ht. apply in_seq in Ht.
  apply (round_close (19 * INR n * e)); [lra|]. destruct (K t ltac:(lia)) as [_ C].
  replace (paf s (Z.of_nat t)) with (ccf s s (Z.of_nat t)); auto.
  now rewrite <- paf_opp, paf_ccf, Z.opp_involutive.
Qed.
Lemma auto_pair_f s1 s2 : good s1 -> good s2 ->
  compute_auto_correlation_pair_dft_f A n (power_f s1) n (power_f s2) n = compute_auto_correlation_pair_dft n (power s1) n (power s2) n.
Proof.
  intros G1 G2. unfold compute_auto_correlation_pair_dft_f, compute_auto_correlation_pair_dft.
  rewrite !auto_f by auto. rewrite !auto_dft_spec by (auto; apply G1 || apply G2). reflexivity.
Qed.
Lemma cross_f tags s1 s2 : good s1 -> good s2 ->
  compute_cross_correlations_dft_f A n (spectrum_f s1) (spectrum_f s2) tags n = compute_cross_correlations_dft n (spectrum s1) (spectrum s2) tags n.
Proof.
  intros G1 G2. pose proof G1 as [Hl1 Hp1]. pose proof G2 as [Hl2 Hp2].
  assert (M : forall s s', seq_multiply_pointwise_complex_f A (spectrum_f s) (map cr_conj (spectrum_f s')) = map (cx s s') (seq 0 (n / 2 + 1))).
  { intros. unfold seq_multiply_pointwise_complex_f, spectrum_f. now rewrite map_map, combine_map, map_map. }
  unfold compute_cross_correlations_dft_f. rewrite !M, !inverse_dft_f_run. cbn [bind].
  destruct (tag_sign tags) as [b|] eqn:Eb.
  2:{ unfold compute_cross_correlations_dft. rewrite Eb. cbn [bind]. now destruct (inverse_dft _ _ _), (inverse_dft _ _ _). }
  rewrite (cross_dft_spec _ b) by auto. cbn [bind]. apply traverse_map. intros o Ho. apply in_range_incl in Ho. pose proof (half_lt n o Hn Ho).
  destruct (inv_f s1 s2 (cx s1 s2) o G1 G2 ltac:(lia)) as [L1 C1]; [intros; now apply cx_close|].
  destruct (inv_f s2 s1 (cx s2 s1) o G2 G1 ltac:(lia)) as [L2 C2]; [intros; now apply cx_close|].
  cbv zeta in *. set (r1 := a_idft A n (map (cx s1 s2) _)) in *. set (r2 := a_idft A n (map (cx s2 s1) _)) in *.
  rewrite !(vget_nth _ o 0) by lia. cbn [bind]. f_equal. pose proof N1.
  assert (B : forall s s' : list Z, good s -> good s' -> at_most (INR n) (IZR (ccf s s' (Z.of_nat o)))).
  { intros s s' [Hl Hp] [Hl' Hp']. unfold at_most. unfold ccf. rewrite Hl.
    rewrite <- sumR_IZR. eapply Rle_trans; [apply Rabs_sumR|]. rewrite <- (Rmult_1_r (INR n)), <- sumR_const. apply sumR_le. intros j Hj.
    destruct (entry_pm s (Z.of_nat j) Hp) as [-> | ->]; [lia| |]; destruct (entry_pm s' (Z.of_nat j - Z.of_nat o) Hp') as [-> | ->]; try lia; cbn; apply Rabs_le; lra. }
  assert (W : forall r s s', good s -> good s' -> close (19 * INR n * e) r (IZR (ccf s s' (Z.of_nat o))) -> at_most (100 * INR n ^ 2) r).
  { intros r s s' G G' C. apply (at_most_weak (INR n + 19 * INR n * e)); [|nra]. eapply close_bound; [exact C|now apply B]. }
  unfold cdiff. destruct b.
  - apply (round_close (e + (19 * INR n * e + 19 * INR n * e))); [nra|]. rewrite minus_IZR. eapply close_trans; [|apply close_sub; eassumption].
    apply sub_close; eapply W; [ | |exact C1| | |exact C2]; auto.
  - apply (round_close (e + (19 * INR n * e + 19 * INR n * e))); [nra|]. rewrite minus_IZR. eapply close_trans; [|apply close_sub; eassumption].
    apply sub_close; eapply W; [ | |exact C2| | |exact C1]; auto.
Qed.
End Errors.
