(* Integer matrices that are a unit times the identity modulo a prime have no real kernel, and the
   eigenvalues of integer matrices are no fractions. *)
From Coq Require Import List ZArith Lia Arith Reals Lra Znumtheory.
From Verif Require Import Base Sums ModelFourier FourierFacts PsdKeys PsdSame.
Open Scope R_scope.

Lemma prime_nz p a b : prime p -> (a mod p <> 0 -> b mod p <> 0 -> (a * b) mod p <> 0)%Z.
Proof.
  intros Hp Ha Hb E. pose proof (prime_ge_2 p Hp). apply Z.mod_divide in E; [|lia].
  apply prime_mult in E as [E|E]; auto; apply Z.mod_divide in E; lia.
Qed.

Lemma kernel p : prime p -> forall m (c : Z) (M : nat -> nat -> Z) (v : nat -> R), (c mod p <> 0)%Z ->
  (forall i j, (i < m)%nat -> (j < m)%nat -> (M i j mod p = (if (i =? j)%nat then c else 0) mod p)%Z) ->
  (forall i, (i < m)%nat -> sumR m (fun j => IZR (M i j) * v j) = 0) ->
  forall j, (j < m)%nat -> v j = 0.
Proof.
  intros Hp. pose proof (prime_ge_2 p Hp). induction m as [|m IH]; intros c M v Hc HM Hv j Hj; [lia|].
  assert (P : (M m m mod p <> 0)%Z).
  { rewrite HM by lia. rewrite Nat.eqb_refl. exact Hc. }
  assert (Z : forall j, (j < m)%nat -> v j = 0).
  { apply (IH (c * c)%Z (fun i j => M m m * M i j - M i m * M m j)%Z).
    - now apply prime_nz.
    - intros i k Hi Hk. rewrite Zminus_mod, (Zmult_mod (M m m)), (Zmult_mod (M i m)). rewrite !HM by lia.
      rewrite Nat.eqb_refl. rewrite <- !Zmult_mod, <- Zminus_mod.
      replace (i =? m)%nat with false by (symmetry; apply Nat.eqb_neq; lia). replace (m =? k)%nat with false by (symmetry; apply Nat.eqb_neq; lia).
      f_equal. destruct (i =? k)%nat; ring.
    - intros i Hi. pose proof (Hv i ltac:(lia)) as Ei. pose proof (Hv m ltac:(lia)) as Em. rewrite sumR_S in Ei, Em.
      rewrite (sumR_ext _ _ (fun j => IZR (M m m) * (IZR (M i j) * v j) - IZR (M i m) * (IZR (M m j) * v j))).
      + rewrite sumR_sub, !sumR_mul_l. replace (sumR m (fun j => IZR (M i j) * v j)) with (- (IZR (M i m) * v m)) by lra.
        replace (sumR m (fun j => IZR (M m j) * v j)) with (- (IZR (M m m) * v m)) by lra. ring.
      + intros k Hk. rewrite minus_IZR, !mult_IZR. ring. }
  destruct (Nat.eq_dec j m) as [->|N]; [|apply Z; lia].
  pose proof (Hv m ltac:(lia)) as Em. rewrite sumR_S in Em. rewrite sumR_zero in Em by (intros i Hi; rewrite Z by lia; ring).
  rewrite Rplus_0_l in Em. apply Rmult_integral in Em as [E|E]; auto. exfalso. apply P. apply eq_IZR_R0 in E. rewrite E. now rewrite Z.mod_0_l by lia.
Qed.

(* x times each of the v_i is an integer combination of the v_j: x is no a / b with b even and a odd *)
Lemma eigen_not_fraction m (M : nat -> nat -> Z) (v : nat -> R) (x : R) (a b : Z) :
  (forall i, (i < m)%nat -> sumR m (fun j => IZR (M i j) * v j) = x * v i) ->
  (exists j, (j < m)%nat /\ v j <> 0) -> Z.even b = true -> Z.even a = false -> IZR b * x <> IZR a.
Proof.
  intros HM (j0 & Hj0 & Hv0) Eb Ea E. apply Hv0.
  apply (kernel 2 prime_2 m 1%Z (fun i j => b * M i j - (if (i =? j)%nat then a else 0))%Z v); auto.
  - discriminate.
  - intros i j Hi Hj. rewrite Zminus_mod, Zmult_mod. rewrite !Zmod_even. rewrite Eb. cbn [Z.mul].
    destruct (i =? j)%nat; [rewrite Ea|]; reflexivity.
  - intros i Hi. rewrite (sumR_ext _ _ (fun j => IZR b * (IZR (M i j) * v j) - (if (i =? j)%nat then IZR a * v i else 0))).
    + rewrite sumR_sub, sumR_mul_l, HM by auto. rewrite <- Rmult_assoc, E.
      assert (D : forall k c, (i < k)%nat -> sumR k (fun j => if (i =? j)%nat then c else 0) = c).
      { induction k; intros c Hk; [lia|]. rewrite sumR_S. destruct (Nat.eqb_spec i k) as [->|N].
        - rewrite sumR_zero; [ring|]. intros j Hj. destruct (Nat.eqb_spec k j); [lia|reflexivity].
        - rewrite IHk by lia. ring. }
      rewrite D by auto. ring.
    + intros j Hj. rewrite minus_IZR, mult_IZR. destruct (Nat.eqb_spec i j) as [->|]; ring.
Qed.

Lemma cosn_add n i j : cosn n (i + j) = cosn n i * cosn n j - sinn n i * sinn n j.
Proof. replace (i + j)%Z with (i - - j)%Z by ring. rewrite cosn_sub, cosn_opp, sinn_opp. ring. Qed.
Lemma sinn_add n i j : sinn n (i + j) = sinn n i * cosn n j + cosn n i * sinn n j.
Proof. replace (i + j)%Z with (i - - j)%Z by ring. rewrite sinn_sub, cosn_opp, sinn_opp. ring. Qed.

(* a change of the summation variable *)
Lemma sum_reflect n (f : Z -> R) s : (1 <= n)%nat -> periodic n f -> sumR n (fun u => f (s - Z.of_nat u)%Z) = sumR n (fun u => f (Z.of_nat u)).
Proof.
  intros Hn Hf. rewrite <- (sumR_neg n f) by auto. rewrite <- (sumR_shift n (fun u => f (- u)%Z) (- s)).
  - apply sumR_ext. intros i Hi. f_equal. ring.
  - intros u v E. apply Hf. rewrite <- (Z.sub_0_l u), <- (Z.sub_0_l v), (Zminus_mod 0 u), (Zminus_mod 0 v), E. reflexivity.
Qed.
Lemma sumR_split a b (f : nat -> R) : sumR (a + b) f = sumR a f + sumR b (fun i => f (a + i)%nat).
Proof.
  induction b as [|b IH]; [rewrite Nat.add_0_r; unfold sumR at 3; cbn; ring|].
  rewrite Nat.add_succ_r, !sumR_S, IH. ring.
Qed.

Section Transforms.
Context (n : nat) (D : Z -> Z) (k : Z).
Context (Hn : (1 <= n)%nat) (PD : periodic n D).

Lemma mul_mod_eq u v : (u mod Z.of_nat n = v mod Z.of_nat n -> (u * k) mod Z.of_nat n = (v * k) mod Z.of_nat n)%Z.
Proof. intros E. rewrite Zmult_mod, E, <- Zmult_mod. reflexivity. Qed.
Lemma p_cos s : periodic n (fun u => IZR (D u) * cosn n ((s - u) * k)).
Proof.
  intros u v E. rewrite (PD u v E). f_equal. apply cosn_periodic; auto. apply mul_mod_eq. now rewrite Zminus_mod, E, <- Zminus_mod.
Qed.
Lemma p_sin s : periodic n (fun u => IZR (D u) * sinn n ((u - s) * k)).
Proof.
  intros u v E. rewrite (PD u v E). f_equal. apply sinn_periodic; auto. apply mul_mod_eq. now rewrite Zminus_mod, E, <- Zminus_mod.
Qed.
Lemma p_cos' s : periodic n (fun u => IZR (D u) * cosn n ((u - s) * k)).
Proof.
  intros u v E. rewrite (PD u v E). f_equal. apply cosn_periodic; auto. apply mul_mod_eq. now rewrite Zminus_mod, E, <- Zminus_mod.
Qed.

(* the sine transform of an even function and the cosine transform of an odd one vanish *)
Lemma even_str : (forall u, D (- u)%Z = D u) -> str n D k = 0.
Proof.
  intros ED. unfold str. assert (E : sumR n (fun u => IZR (D (Z.of_nat u)) * sinn n (Z.of_nat u * k)) = - sumR n (fun u => IZR (D (Z.of_nat u)) * sinn n (Z.of_nat u * k))); [|lra].
  rewrite <- sumR_opp. rewrite (sumR_ext _ (fun i => - (IZR (D (Z.of_nat i)) * sinn n (Z.of_nat i * k))) (fun u => IZR (D (- Z.of_nat u)%Z) * sinn n (- Z.of_nat u * k))).
  - symmetry. apply (sumR_neg n (fun u => IZR (D u) * sinn n (u * k))). intros u v E. pose proof (p_sin 0 u v E) as G. cbv beta in G. now rewrite !Z.sub_0_r in G.
  - intros u Hu. rewrite ED, Z.mul_opp_l, sinn_opp. ring.
Qed.
Lemma odd_ctr : (forall u, D (- u)%Z = (- D u)%Z) -> ctr n D k = 0.
Proof.
  intros ED. unfold ctr. assert (E : sumR n (fun u => IZR (D (Z.of_nat u)) * cosn n (Z.of_nat u * k)) = - sumR n (fun u => IZR (D (Z.of_nat u)) * cosn n (Z.of_nat u * k))); [|lra].
  rewrite <- sumR_opp. rewrite (sumR_ext _ (fun i => - (IZR (D (Z.of_nat i)) * cosn n (Z.of_nat i * k))) (fun u => IZR (D (- Z.of_nat u)%Z) * cosn n (- Z.of_nat u * k))).
  - symmetry. apply (sumR_neg n (fun u => IZR (D u) * cosn n (u * k))). intros u v E. pose proof (p_cos' 0 u v E) as G. cbv beta in G. now rewrite !Z.sub_0_r in G.
  - intros u Hu. rewrite ED, opp_IZR, Z.mul_opp_l, cosn_opp. ring.
Qed.

Lemma ctr_not_fraction a b : (forall u, D (- u)%Z = D u) -> Z.even b = true -> Z.even a = false -> IZR b * ctr n D k <> IZR a.
Proof.
  intros ED. apply (eigen_not_fraction n (fun i j => D (Z.of_nat i - Z.of_nat j)%Z) (fun j => cosn n (Z.of_nat j * k))).
  - intros i Hi. rewrite (sumR_ext _ _ (fun j => (fun u => IZR (D u) * cosn n ((Z.of_nat i - u) * k)) (Z.of_nat i - Z.of_nat j)%Z)).
    2:{ intros j Hj. cbv beta. do 2 f_equal. ring. }
    rewrite (sum_reflect n (fun u => IZR (D u) * cosn n ((Z.of_nat i - u) * k)) (Z.of_nat i) Hn (p_cos _)). pose proof (even_str ED) as E0. unfold str in E0. unfold ctr.
    rewrite (sumR_ext _ _ (fun u => (IZR (D (Z.of_nat u)) * cosn n (Z.of_nat u * k)) * cosn n (Z.of_nat i * k) + (IZR (D (Z.of_nat u)) * sinn n (Z.of_nat u * k)) * sinn n (Z.of_nat i * k))).
    2:{ intros u Hu. rewrite Z.mul_sub_distr_r, cosn_sub. ring. }
    rewrite sumR_add, !sumR_mul_r, E0. ring.
  - exists 0%nat. split; [lia|]. cbn [Z.of_nat Z.mul]. rewrite cosn_0. lra.
Qed.

Lemma str_not_fraction a b : (forall u, D (- u)%Z = (- D u)%Z) -> Z.even b = true -> Z.even a = false -> IZR b * str n D k <> IZR a.
Proof.
  intros ED. pose proof (odd_ctr ED) as C0. unfold ctr in C0.
  apply (eigen_not_fraction (n + n) (fun i j => if (i <? n)%nat then (if (j <? n)%nat then 0 else D (Z.of_nat i + Z.of_nat (j - n)))%Z
      else (if (j <? n)%nat then D (Z.of_nat (i - n) + Z.of_nat j)%Z else 0%Z))
    (fun j => if (j <? n)%nat then cosn n (Z.of_nat j * k) else sinn n (Z.of_nat (j - n) * k))).
  - intros i Hi. rewrite sumR_split. destruct (Nat.ltb_spec i n) as [L|L].
    + rewrite (sumR_zero n) by (intros j Hj; destruct (Nat.ltb_spec j n); [ring|lia]).
      rewrite (sumR_ext _ (fun j => IZR (if (n + j <? n)%nat then _ else _) * _) (fun j => (fun u => IZR (D u) * sinn n ((u - Z.of_nat i) * k)) (Z.of_nat j + Z.of_nat i)%Z)).
      2:{ intros j Hj. destruct (Nat.ltb_spec (n + j) n); [lia|]. replace (n + j - n)%nat with j by lia. cbv beta. f_equal; [do 2 f_equal; ring|f_equal; ring]. }
      rewrite (sumR_shift n (fun u => IZR (D u) * sinn n ((u - Z.of_nat i) * k)) (Z.of_nat i) (p_sin _)). unfold str.
      rewrite (sumR_ext _ _ (fun u => (IZR (D (Z.of_nat u)) * sinn n (Z.of_nat u * k)) * cosn n (Z.of_nat i * k) - (IZR (D (Z.of_nat u)) * cosn n (Z.of_nat u * k)) * sinn n (Z.of_nat i * k))).
      2:{ intros u Hu. rewrite Z.mul_sub_distr_r, sinn_sub. ring. }
      rewrite sumR_sub, !sumR_mul_r, C0. ring.
    + match goal with |- _ + ?g = _ => assert (Z0 : g = 0) by (apply sumR_zero; intros j Hj; destruct (Nat.ltb_spec (n + j) n); [lia|ring]); rewrite Z0; clear Z0 end.
      rewrite (sumR_ext _ _ (fun j => (fun u => IZR (D u) * cosn n ((u - Z.of_nat (i - n)) * k)) (Z.of_nat j + Z.of_nat (i - n))%Z)).
      2:{ intros j Hj. destruct (Nat.ltb_spec j n); [|lia]. cbv beta. f_equal; [do 2 f_equal; ring|f_equal; ring]. }
      rewrite (sumR_shift n (fun u => IZR (D u) * cosn n ((u - Z.of_nat (i - n)) * k)) (Z.of_nat (i - n)) (p_cos' _)). unfold str.
      rewrite (sumR_ext _ _ (fun u => (IZR (D (Z.of_nat u)) * sinn n (Z.of_nat u * k)) * sinn n (Z.of_nat (i - n) * k) + (IZR (D (Z.of_nat u)) * cosn n (Z.of_nat u * k)) * cosn n (Z.of_nat (i - n) * k))).
      2:{ intros u Hu. rewrite Z.mul_sub_distr_r, cosn_sub. ring. }
      rewrite sumR_add, !sumR_mul_r, C0. ring.
  - exists 0%nat. split; [lia|]. destruct (Nat.ltb_spec 0 n); [|lia]. cbn [Z.of_nat Z.mul]. rewrite cosn_0. lra.
Qed.
End Transforms.
