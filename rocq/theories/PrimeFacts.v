(* Odd prime lengths: only constant sequences have a vanishing Fourier coefficient. *)
From Coq Require Import List ZArith Znumtheory Lia Arith Bool Reals Lra.
From Verif Require Import Base BaseFacts Sums ModelSequence ModelWilliamson SeqFacts ModelFourier FourierFacts SpecFourier MatchFacts SpecRowsum RowsumFacts
  KernelFacts ModelNoise SpecNoise NoiseFacts Spec.
Import ListNotations.
Notation length := List.length.
Open Scope R_scope.

(* ---- binomial coefficients with signs: (x - 1)^m ---- *)

Fixpoint sb (m i : nat) : Z :=
  match m, i with
  | O, O => 1
  | O, S _ => 0
  | S m, O => - sb m 0
  | S m, S i => sb m i - sb m (S i)
  end%Z.
Lemma sb_above m : forall i, (m < i)%nat -> sb m i = 0%Z.
Proof. induction m as [|m IH]; intros [|i] H; try lia; cbn [sb]; auto. rewrite !IH by lia. reflexivity. Qed.
Lemma sb_top m : sb m m = 1%Z.
Proof. induction m as [|m IH]; cbn [sb]; auto. rewrite IH, sb_above by lia. reflexivity. Qed.
Lemma sb_0 m : sb m 0 = ((-1) ^ Z.of_nat m)%Z.
Proof. induction m as [|m IH]; cbn [sb]; auto. rewrite IH, Nat2Z.inj_succ, Z.pow_succ_r by lia. lia. Qed.
Lemma sb_absorb m : forall i, (Z.of_nat (S i) * sb (S m) (S i) = Z.of_nat (S m) * sb m i)%Z.
Proof.
  induction m as [|m IH]; intros i.
  - destruct i as [|[|i]]; cbn [sb]; lia.
  - change (sb (S (S m)) (S i)) with (sb (S m) i - sb (S m) (S i))%Z. destruct i as [|i].
    + specialize (IH 0%nat). cbn [sb] in *. lia.
    + pose proof (IH i) as A. pose proof (IH (S i)) as B. rewrite Z.mul_sub_distr_l, B.
      change (sb (S m) (S i)) with (sb m i - sb m (S i))%Z in *. nia.
Qed.
Lemma sb_prime n i : prime (Z.of_nat n) -> (1 <= i < n)%nat -> (Z.of_nat n | sb n i)%Z.
Proof.
  intros Hp Hi. destruct n as [|m]; [lia|]. destruct i as [|i]; [lia|]. pose proof (sb_absorb m i) as E.
  assert (D : (Z.of_nat (S m) | Z.of_nat (S i) * sb (S m) (S i))%Z) by (rewrite E; apply Z.divide_factor_l).
  apply prime_mult in D as [D|D]; auto. exfalso. apply Z.divide_pos_le in D; lia.
Qed.

(* iterated differences *)
Fixpoint dl (m : nat) (f : Z -> R) (u : Z) : R :=
  match m with O => f u | S m => dl m f (u + 1)%Z - dl m f u end.
Lemma dl_ext m f g : (forall u, f u = g u) -> forall u, dl m f u = dl m g u.
Proof. intros H. induction m as [|m IH]; intros u; cbn [dl]; auto. now rewrite !IH. Qed.
Lemma dl_scale m c f u : dl m (fun v => c * f v) u = c * dl m f u.
Proof. revert u. induction m as [|m IH]; intros u; cbn [dl]; auto. rewrite !IH. ring. Qed.
Lemma dl_diff m f u : dl m (fun v => f (v + 1)%Z - f v) u = dl (S m) f u.
Proof. revert u. induction m as [|m IH]; intros u; cbn [dl] in *; auto. rewrite !IH. reflexivity. Qed.
Lemma dl_sum m f : forall u, dl m f u = sumR (S m) (fun i => IZR (sb m i) * f (u + Z.of_nat i)%Z).
Proof.
  induction m as [|m IH]; intros u.
  - rewrite sumR_S. change (sumR 0 _) with 0. cbn [dl sb]. rewrite Z.add_0_r. lra.
  - cbn [dl]. rewrite !IH.
    rewrite (sumR_split 1 (S m)). rewrite (sumR_S 0). change (sumR 0 _) with 0. cbn [Nat.add sb]. change (Z.of_nat 0) with 0%Z.
    rewrite (sumR_ext (S m) (fun i => IZR (sb m i - sb m (S i)) * f (u + Z.of_nat (S i))%Z)
      (fun i => IZR (sb m i) * f (u + 1 + Z.of_nat i)%Z - IZR (sb m (S i)) * f (u + Z.of_nat (S i))%Z)).
    2:{ intros i _. rewrite minus_IZR. replace (u + 1 + Z.of_nat i)%Z with (u + Z.of_nat (S i))%Z by lia. ring. }
    rewrite sumR_sub. rewrite (sumR_S m (fun i => IZR (sb m (S i)) * _)). rewrite (sb_above m (S m)) by lia.
    change (sumR (S m) (fun i => IZR (sb m i) * f (u + Z.of_nat i)%Z)) with (sumR (1 + m) (fun i => IZR (sb m i) * f (u + Z.of_nat i)%Z)).
    rewrite (sumR_split 1 m (fun i => IZR (sb m i) * f (u + Z.of_nat i)%Z)). rewrite (sumR_S 0 (fun i => IZR (sb m i) * f (u + Z.of_nat i)%Z)). change (sumR 0 _) with 0.
    cbn [Nat.add]. change (Z.of_nat 0) with 0%Z. rewrite opp_IZR. rewrite Z.add_0_r. ring.
Qed.

Section Prime.
Context (n : nat) (Hp : prime (Z.of_nat n)) (H3 : (3 <= n)%nat) (s : list Z) (Hl : length s = n) (k : Z).
Context (Hre : dft_re s k = 0) (Him : dft_im s k = 0).

Let g (u : Z) : R := cosn n (u * k).
Let x (j : nat) : Z := entry s (Z.of_nat j).

Definition lsum (L : list (Z * Z)) (u : Z) : R := fold_right Rplus 0 (map (fun '(a, b) => IZR a * g (u + b)%Z) L).
Definition comb (f : Z -> R) : Prop := exists L, forall u, f u = lsum L u.

Lemma lsum_app L M u : lsum (L ++ M) u = lsum L u + lsum M u.
Proof. unfold lsum. induction L as [|[a b] L IH]; cbn [app map fold_right]; [ring|]. rewrite IH. ring. Qed.
Lemma comb_g : comb g.
Proof. exists [(1, 0)%Z]. intros u. unfold lsum. cbn [map fold_right]. rewrite Z.add_0_r. ring. Qed.
Lemma comb_shift f c : comb f -> comb (fun u => f (u + c)%Z).
Proof.
  intros (L & HL). exists (map (fun '(a, b) => (a, b + c)%Z) L). intros u. rewrite HL. unfold lsum. f_equal. rewrite map_map. apply map_ext.
  intros [a b]. do 2 f_equal. lia.
Qed.
Lemma comb_scale f c : comb f -> comb (fun u => IZR c * f u).
Proof.
  intros (L & HL). exists (map (fun '(a, b) => (c * a, b)%Z) L). intros u. rewrite HL. unfold lsum. clear. induction L as [|[a b] L IH]; cbn [map fold_right]; [ring|].
  rewrite Rmult_plus_distr_l, IH, mult_IZR. ring.
Qed.
Lemma comb_add f h : comb f -> comb h -> comb (fun u => f u + h u).
Proof. intros (L & HL) (M & HM). exists (L ++ M). intros u. now rewrite lsum_app, HL, HM. Qed.
Lemma comb_sum m (f : nat -> Z -> R) : (forall i, (i < m)%nat -> comb (f i)) -> comb (fun u => sumR m (fun i => f i u)).
Proof.
  induction m as [|m IH]; intros H.
  - exists []. reflexivity.
  - destruct IH as (L & HL); [intros; apply H; lia|]. destruct (H m ltac:(lia)) as (M & HM). exists (L ++ M). intros u.
    now rewrite sumR_S, lsum_app, HL, HM.
Qed.

Lemma g_vanish u : sumR n (fun j => IZR (x j) * g (u + Z.of_nat j)%Z) = 0.
Proof.
  unfold g. rewrite (sumR_ext _ _ (fun j => (IZR (x j) * cosn n (Z.of_nat j * k)) * cosn n (u * k) - (IZR (x j) * sinn n (Z.of_nat j * k)) * sinn n (u * k))).
  2:{ intros j _. rewrite Z.mul_add_distr_r, cosn_add. ring. }
  rewrite sumR_sub, !sumR_mul_r. unfold dft_re in Hre. unfold dft_im in Him. rewrite Hl in Hre, Him. cbv zeta in Hre, Him.
  fold x. change (sumR n (fun i => IZR (x i) * cosn n (Z.of_nat i * k))) with (sumR n (fun i => IZR (entry s (Z.of_nat i)) * cosn n (Z.of_nat i * k))).
  change (sumR n (fun i => IZR (x i) * sinn n (Z.of_nat i * k))) with (sumR n (fun i => IZR (entry s (Z.of_nat i)) * sinn n (Z.of_nat i * k))).
  rewrite Hre. replace (sumR n (fun i => IZR (entry s (Z.of_nat i)) * sinn n (Z.of_nat i * k))) with 0 by lra. ring.
Qed.
Lemma comb_vanish f u : comb f -> sumR n (fun j => IZR (x j) * f (u + Z.of_nat j)%Z) = 0.
Proof.
  intros (L & HL). rewrite (sumR_ext _ _ (fun j => IZR (x j) * lsum L (u + Z.of_nat j)%Z)) by (intros; now rewrite HL). clear HL.
  unfold lsum. induction L as [|[a b] L IH]; cbn [map fold_right].
  - apply sumR_zero. intros. ring.
  - rewrite (sumR_ext _ _ (fun j => IZR a * (IZR (x j) * g (u + b + Z.of_nat j)%Z) +
      IZR (x j) * fold_right Rplus 0 (map (fun '(a, b) => IZR a * g (u + Z.of_nat j + b)%Z) L))).
    2:{ intros j _. replace (u + b + Z.of_nat j)%Z with (u + Z.of_nat j + b)%Z by lia. ring. }
    rewrite sumR_add, IH, sumR_mul_l, g_vanish. ring.
Qed.

Definition c : Z := sumZ n x.
Definition G (f : Z -> R) (u : Z) : R := sumR n (fun j => IZR (x j) * sumR j (fun l => f (u + Z.of_nat l)%Z)).

Lemma comb_G f : comb f -> comb (G f).
Proof. intros H. apply comb_sum. intros i _. apply comb_scale. apply comb_sum. intros l _. now apply comb_shift. Qed.
Lemma telescope f u m : sumR m (fun l => f (u + 1 + Z.of_nat l)%Z) - sumR m (fun l => f (u + Z.of_nat l)%Z) = f (u + Z.of_nat m)%Z - f u.
Proof.
  induction m as [|m IH]; [change (sumR 0 _) with 0; change (sumR 0 (fun l => f (u + Z.of_nat l)%Z)) with 0; cbn [Z.of_nat]; rewrite Z.add_0_r; lra|].
  rewrite !sumR_S. replace (u + Z.of_nat (S m))%Z with (u + 1 + Z.of_nat m)%Z by lia. lra.
Qed.
Lemma G_step f u : comb f -> IZR c * f u = - (G f (u + 1)%Z - G f u).
Proof.
  intros H. pose proof (comb_vanish f u H) as V. unfold G. rewrite <- sumR_sub.
  rewrite (sumR_ext _ _ (fun j => IZR (x j) * f (u + Z.of_nat j)%Z - IZR (x j) * f u)).
  2:{ intros j _. rewrite <- Rmult_minus_distr_l, telescope. ring. }
  rewrite sumR_sub, V, sumR_mul_r, sumR_IZR. unfold c. ring.
Qed.

Fixpoint fm (m : nat) : Z -> R := match m with O => g | S m => G (fm m) end.
Lemma fm_comb m : comb (fm m).
Proof. induction m; cbn [fm]; [apply comb_g|now apply comb_G]. Qed.
Lemma power_step m u : IZR c ^ m * g u = (-1) ^ m * dl m (fm m) u.
Proof.
  revert u. induction m as [|m IH]; intros u; [cbn [pow dl fm]; ring|].
  cbn [pow]. rewrite Rmult_assoc, IH. rewrite <- Rmult_assoc, (Rmult_comm (IZR c)), Rmult_assoc, <- dl_scale.
  rewrite (dl_ext m _ (fun v => -1 * (fm (S m) (v + 1)%Z - fm (S m) v))).
  2:{ intros v. cbn [fm]. rewrite (G_step (fm m) v (fm_comb m)). ring. }
  rewrite dl_scale, dl_diff. ring.
Qed.

Lemma g_periodic : periodic n g.
Proof. intros u v E. unfold g. apply cosn_periodic; [lia|]. now apply mul_mod_eq. Qed.
Lemma lsum_periodic L : periodic n (lsum L).
Proof.
  intros u v E. unfold lsum. f_equal. apply map_ext. intros [a b]. f_equal. apply g_periodic. now rewrite Zplus_mod, E, <- Zplus_mod.
Qed.

Lemma odd_n : ((-1) ^ Z.of_nat n = -1)%Z.
Proof.
  destruct (Z.Even_or_Odd (Z.of_nat n)) as [[m E]|[m E]].
  - exfalso. assert (D : (2 | Z.of_nat n)%Z) by (exists m; lia). apply prime_div_prime in D; auto using prime_2. lia.
  - rewrite E, Z.pow_add_r, Z.pow_mul_r by lia. change ((-1) ^ 2)%Z with 1%Z. rewrite Z.pow_1_l by lia. reflexivity.
Qed.

Lemma power_multiple : exists L, forall u, IZR (c ^ Z.of_nat n) * g u = IZR (Z.of_nat n) * lsum L u.
Proof.
  destruct (fm_comb n) as (L & HL). pose (h := fun i u => IZR (- (sb n (S i) / Z.of_nat n)) * fm n (u + Z.of_nat (S i))%Z).
  destruct (comb_sum (n - 1) (fun i u => IZR ((sb n (S i) / Z.of_nat n)) * fm n (u + Z.of_nat (S i))%Z)) as (M & HM).
  { intros i Hi. apply comb_scale, comb_shift, fm_comb. }
  exists (map (fun '(a, b) => (- a, b)%Z) M). intros u.
  rewrite <- pow_IZR. rewrite power_step. rewrite dl_sum.
  assert (O : (-1) ^ n = -1) by (rewrite pow_IZR, odd_n; reflexivity). rewrite O.
  replace (S n) with (1 + S (n - 1))%nat by lia. rewrite sumR_split, (sumR_S 0). change (sumR 0 _) with 0. rewrite sumR_S.
  cbn [Nat.add]. replace (S (n - 1)) with n by lia. rewrite sb_top, sb_0, odd_n.
  assert (P : fm n (u + Z.of_nat n)%Z = fm n u).
  { rewrite !HL. apply lsum_periodic. rewrite <- (Z.mul_1_l (Z.of_nat n)) at 1. apply Z.mod_add. lia. }
  rewrite P. change (Z.of_nat 0) with 0%Z. rewrite Z.add_0_r.
  rewrite (sumR_ext (n - 1) _ (fun i => IZR (Z.of_nat n) * (IZR (sb n (S i) / Z.of_nat n) * fm n (u + Z.of_nat (S i))%Z))).
  2:{ intros i Hi. rewrite <- Rmult_assoc, <- mult_IZR. do 2 f_equal. rewrite Z.mul_comm. symmetry.
      destruct (sb_prime n (S i) Hp ltac:(lia)) as (q & E). rewrite E, Z.div_mul by lia. reflexivity. }
  rewrite sumR_mul_l, HM.
  assert (N : lsum (map (fun '(a, b) => (- a, b)%Z) M) u = - lsum M u).
  { unfold lsum. clear. induction M as [|[a b] M IH]; cbn [map fold_right]; [ring|]. rewrite IH, opp_IZR. ring. }
  rewrite N. ring.
Qed.

(* as a matrix *)
Definition row (L : list (Z * Z)) (i j : nat) : Z :=
  fold_right Z.add 0%Z (map (fun '(a, b) => if (((Z.of_nat i + b) mod Z.of_nat n) =? Z.of_nat j)%Z then a else 0%Z) L).
Lemma row_sum L i : sumR n (fun j => IZR (row L i j) * g (Z.of_nat j)) = lsum L (Z.of_nat i).
Proof.
  unfold row, lsum. induction L as [|[a b] L IH]; cbn [map fold_right].
  - apply sumR_zero. intros. ring.
  - rewrite <- IH. rewrite (sumR_ext _ _ (fun j => IZR (if (((Z.of_nat i + b) mod Z.of_nat n) =? Z.of_nat j)%Z then a else 0%Z) * g (Z.of_nat j) +
      IZR (fold_right Z.add 0%Z (map (fun '(a, b) => if (((Z.of_nat i + b) mod Z.of_nat n) =? Z.of_nat j)%Z then a else 0%Z) L)) * g (Z.of_nat j))).
    2:{ intros j _. rewrite plus_IZR. ring. }
    rewrite sumR_add. f_equal.
    pose proof (Z.mod_pos_bound (Z.of_nat i + b) (Z.of_nat n) ltac:(lia)) as B. set (r := ((Z.of_nat i + b) mod Z.of_nat n)%Z) in *.
    assert (P : g (Z.of_nat i + b) = g r) by (apply g_periodic; unfold r; rewrite Z.mod_mod; lia). rewrite P.
    assert (S1 : forall m, sumR m (fun j => IZR (if (r =? Z.of_nat j)%Z then a else 0%Z) * g (Z.of_nat j)) = if (Z.of_nat m <=? r)%Z then 0 else IZR a * g r).
    { induction m as [|m IHm].
      - change (sumR 0 _) with 0. destruct (Z.leb_spec (Z.of_nat 0) r); [reflexivity|lia].
      - rewrite sumR_S, IHm. destruct (Z.eqb_spec r (Z.of_nat m)) as [E|E].
        + rewrite <- E. destruct (Z.leb_spec r r); [|lia]. destruct (Z.leb_spec (Z.of_nat (S m)) r); [lia|]. ring.
        + destruct (Z.leb_spec (Z.of_nat m) r), (Z.leb_spec (Z.of_nat (S m)) r); try lia; ring. }
    rewrite S1. destruct (Z.leb_spec (Z.of_nat n) r); [lia|]. reflexivity.
Qed.

Lemma divides_total : (Z.of_nat n | c)%Z.
Proof.
  destruct (Zdivide_dec (Z.of_nat n) c) as [D|D]; auto. exfalso.
  assert (Hc : (c ^ Z.of_nat n mod Z.of_nat n <> 0)%Z).
  { intros C. apply Z.mod_divide in C; [|lia]. apply D.
    clear - C Hp. revert C. generalize n at 2. intros m. induction m as [|m IH]; intros C.
    - change (c ^ Z.of_nat 0)%Z with 1%Z in C. apply Z.divide_1_r_nonneg in C; [|lia]. pose proof (prime_ge_2 _ Hp). lia.
    - rewrite Nat2Z.inj_succ, Z.pow_succ_r in C by lia. apply prime_mult in C as [C|C]; auto. }
  destruct power_multiple as (L & HL).
  assert (Z0 : g (Z.of_nat 0) = 0).
  { apply (kernel (Z.of_nat n) Hp n (c ^ Z.of_nat n)%Z (fun i j => (if (i =? j)%nat then c ^ Z.of_nat n else 0) - Z.of_nat n * row L i j)%Z (fun j => g (Z.of_nat j))); auto.
    - intros i j Hi Hj. rewrite Zminus_mod, (Z.mul_comm (Z.of_nat n)), Z.mod_mul, Z.sub_0_r, Z.mod_mod by lia. reflexivity.
    - intros i Hi. rewrite (sumR_ext _ _ (fun j => IZR (if (i =? j)%nat then c ^ Z.of_nat n else 0%Z) * g (Z.of_nat j) - IZR (Z.of_nat n) * (IZR (row L i j) * g (Z.of_nat j)))).
      2:{ intros j _. rewrite minus_IZR, mult_IZR. ring. }
      rewrite sumR_sub, sumR_mul_l, row_sum, <- HL.
      assert (S1 : forall m, sumR m (fun j => IZR (if (i =? j)%nat then c ^ Z.of_nat n else 0%Z) * g (Z.of_nat j)) = if (m <=? i)%nat then 0 else IZR (c ^ Z.of_nat n) * g (Z.of_nat i)).
      { induction m as [|m IHm]; [reflexivity|]. rewrite sumR_S, IHm. destruct (Nat.eqb_spec i m) as [->|E].
        + destruct (Nat.leb_spec m m), (Nat.leb_spec (S m) m); try lia. ring.
        + destruct (Nat.leb_spec m i), (Nat.leb_spec (S m) i); try lia; ring. }
      rewrite S1. destruct (Nat.leb_spec n i); [lia|]. ring.
    - lia. }
  unfold g in Z0. cbn [Z.of_nat Z.mul] in Z0. rewrite cosn_0 in Z0. lra.
Qed.
End Prime.
