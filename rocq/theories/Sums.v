(* Finite sums over 0..n-1 and reindexing modulo n, generic in the summands. *)
From Coq Require Import List ZArith Lia Arith Bool Permutation Znumtheory.
Import ListNotations.
Open Scope nat_scope.

Definition gsum {A} (zero : A) (add : A -> A -> A) (n : nat) (f : nat -> A) : A :=
  fold_right add zero (map f (seq 0 n)).

(* the index i taken modulo n, as a position *)
Definition pos (n : nat) (i : Z) : nat := Z.to_nat (i mod Z.of_nat n).

Lemma pos_lt n i : n <> 0 -> pos n i < n.
Proof.
  intros; unfold pos. pose proof (Z.mod_pos_bound i (Z.of_nat n)). lia.
Qed.

Lemma pos_of_nat n i : i < n -> pos n (Z.of_nat i) = i.
Proof. intros; unfold pos. rewrite Z.mod_small; lia. Qed.

Lemma pos_mod n i : n <> 0 -> Z.of_nat (pos n i) = (i mod Z.of_nat n)%Z.
Proof. intros; unfold pos. rewrite Z2Nat.id; auto. apply Z.mod_pos_bound; lia. Qed.

Lemma pos_eq n i j : n <> 0 -> (i mod Z.of_nat n = j mod Z.of_nat n)%Z -> pos n i = pos n j.
Proof. intros; unfold pos; congruence. Qed.

Lemma pos_nat_mod n i : n <> 0 -> pos n (Z.of_nat i) = i mod n.
Proof.
  intros; unfold pos. rewrite <- Nat2Z.inj_mod, Nat2Z.id; auto.
Qed.

Section GSum.
  Context {A : Type} (zero : A) (add : A -> A -> A).
  Context (add_comm : forall x y, add x y = add y x)
          (add_assoc : forall x y z, add x (add y z) = add (add x y) z)
          (add_0_l : forall x, add zero x = x).
  Notation sum := (gsum zero add).

  Lemma gsum_ext n f g : (forall i, i < n -> f i = g i) -> sum n f = sum n g.
  Proof.
    intros; unfold gsum. f_equal. apply map_ext_in. intros a Ha; apply in_seq in Ha; apply H; lia.
  Qed.

  Lemma gsum_perm l1 l2 : Permutation l1 l2 -> fold_right add zero l1 = fold_right add zero l2.
  Proof.
    induction 1; simpl; auto.
    - now rewrite IHPermutation.
    - rewrite !add_assoc. now rewrite (add_comm y x).
    - congruence.
  Qed.

  Lemma gsum_0 f : sum 0 f = zero.
  Proof. reflexivity. Qed.

  Lemma fold_app l1 l2 :
    fold_right add zero (l1 ++ l2) = add (fold_right add zero l1) (fold_right add zero l2).
  Proof.
    induction l1; simpl; [now rewrite add_0_l|]. now rewrite IHl1, add_assoc.
  Qed.

  Lemma gsum_S n f : sum (S n) f = add (sum n f) (f n).
  Proof.
    unfold gsum. rewrite seq_S, map_app, fold_app. simpl.
    f_equal. now rewrite add_comm, add_0_l.
  Qed.

  Lemma gsum_zero n f : (forall i, i < n -> f i = zero) -> sum n f = zero.
  Proof.
    induction n; intros; [reflexivity|]. rewrite gsum_S, IHn, H by auto.
    now rewrite add_0_l.
  Qed.

  Lemma gsum_add n f g : sum n (fun i => add (f i) (g i)) = add (sum n f) (sum n g).
  Proof.
    induction n; [unfold gsum; simpl; now rewrite add_0_l|]. rewrite !gsum_S, IHn.
    rewrite !add_assoc. f_equal. rewrite <- !add_assoc. f_equal. apply add_comm.
  Qed.

  Lemma gsum_swap n m (f : nat -> nat -> A) :
    sum n (fun i => sum m (fun j => f i j)) = sum m (fun j => sum n (fun i => f i j)).
  Proof.
    induction n.
    - symmetry; apply gsum_zero; intros; reflexivity.
    - rewrite gsum_S, IHn, <- gsum_add. apply gsum_ext; intros. now rewrite gsum_S.
  Qed.

  Lemma gsum_split n m f : sum (n + m) f = add (sum n f) (sum m (fun j => f (n + j))).
  Proof.
    induction m.
    - rewrite Nat.add_0_r. rewrite gsum_0, add_comm, add_0_l; auto.
    - rewrite Nat.add_succ_r, !gsum_S, IHm. now rewrite <- add_assoc.
  Qed.

  Lemma map_perm_seq n (g : nat -> nat) :
    (forall i, i < n -> g i < n) ->
    (forall i j, i < n -> j < n -> g i = g j -> i = j) ->
    Permutation (map g (seq 0 n)) (seq 0 n).
  Proof.
    intros Hb Hi. apply NoDup_Permutation_bis.
    - assert (forall l, (forall x, In x l -> x < n) -> NoDup l -> NoDup (map g l)) as K.
      { induction l; simpl; intros Hl Hn; constructor.
        - inversion Hn; subst. intros Hin. apply in_map_iff in Hin. destruct Hin as (x & Hx & Hin).
          apply Hi in Hx; auto. subst; auto.
        - apply IHl; auto. now inversion Hn. }
      apply K; [|apply seq_NoDup]. intros x Hx; apply in_seq in Hx; lia.
    - rewrite map_length, !seq_length; lia.
    - intros x Hx. apply in_map_iff in Hx. destruct Hx as (y & <- & Hy). apply in_seq in Hy.
      apply in_seq. specialize (Hb y); lia.
  Qed.

  Lemma gsum_reindex n f (g : nat -> nat) :
    (forall i, i < n -> g i < n) ->
    (forall i j, i < n -> j < n -> g i = g j -> i = j) ->
    sum n (fun i => f (g i)) = sum n f.
  Proof.
    intros. unfold gsum. rewrite <- (map_map g f). apply gsum_perm, Permutation_map.
    now apply map_perm_seq.
  Qed.

  (* f : Z -> A with period n, summed over one period *)
  Definition periodic (n : nat) (f : Z -> A) := forall i j, (i mod Z.of_nat n = j mod Z.of_nat n)%Z -> f i = f j.

  Lemma psum_reindex n (f : Z -> A) (g : Z -> Z) :
    periodic n f ->
    (forall i j, (g i mod Z.of_nat n = g j mod Z.of_nat n -> i mod Z.of_nat n = j mod Z.of_nat n)%Z) ->
    sum n (fun i => f (g (Z.of_nat i))) = sum n (fun i => f (Z.of_nat i)).
  Proof.
    intros Hp Hg. destruct (Nat.eq_dec n 0) as [->|Hn]; [reflexivity|].
    rewrite <- (gsum_reindex n (fun i => f (Z.of_nat i)) (fun i => pos n (g (Z.of_nat i)))).
    - apply gsum_ext; intros i Hi. apply Hp. rewrite pos_mod by auto. rewrite Z.mod_mod; lia.
    - intros; now apply pos_lt.
    - intros i j Hi Hj E. assert (Z.of_nat (pos n (g (Z.of_nat i))) = Z.of_nat (pos n (g (Z.of_nat j)))) as E2 by congruence.
      rewrite !pos_mod in E2 by auto. apply Hg in E2.
      rewrite !Z.mod_small in E2 by lia. lia.
  Qed.

  Lemma psum_shift n (f : Z -> A) k :
    periodic n f -> sum n (fun i => f (Z.of_nat i + k)%Z) = sum n (fun i => f (Z.of_nat i)).
  Proof.
    intros Hp. destruct (Nat.eq_dec n 0) as [->|Hn]; [reflexivity|].
    apply (psum_reindex n f (fun i => i + k)%Z Hp). intros i j E.
    apply (f_equal (fun z => (z - k) mod Z.of_nat n)%Z) in E.
    rewrite !Zminus_mod_idemp_l in E. now rewrite !Z.add_simpl_r in E.
  Qed.

  Lemma psum_opp n (f : Z -> A) :
    periodic n f -> sum n (fun i => f (- Z.of_nat i)%Z) = sum n (fun i => f (Z.of_nat i)).
  Proof.
    intros Hp. destruct (Nat.eq_dec n 0) as [->|Hn]; [reflexivity|].
    apply (psum_reindex n f (fun i => - i)%Z Hp). intros i j E.
    apply (f_equal (fun z => (0 - z) mod Z.of_nat n)%Z) in E.
    rewrite !Zminus_mod_idemp_r in E. now rewrite !Z.sub_0_l, !Z.opp_involutive in E.
  Qed.

  Lemma psum_mul n (f : Z -> A) k :
    periodic n f -> Z.gcd k (Z.of_nat n) = 1%Z ->
    sum n (fun i => f (Z.of_nat i * k)%Z) = sum n (fun i => f (Z.of_nat i)).
  Proof.
    intros Hp Hk. destruct (Nat.eq_dec n 0) as [->|Hn]; [reflexivity|].
    apply (psum_reindex n f (fun i => i * k)%Z Hp). intros i j E.
    assert (rel_prime (Z.of_nat n) k) as Hr.
    { apply rel_prime_sym. apply Zgcd_1_rel_prime. auto. }
    assert (Z.of_nat n | k * (i - j))%Z as D.
    { apply Z.mod_divide; [lia|]. replace (k * (i - j))%Z with (i * k - j * k)%Z by ring.
      rewrite Zminus_mod, E, Z.sub_diag. apply Zmod_0_l. }
    apply Gauss in D; auto. destruct D as [q Hq].
    replace i with (j + q * Z.of_nat n)%Z by lia. now rewrite Z.mod_add by lia.
  Qed.
End GSum.

(* integer sums *)
Definition sumZ (n : nat) (f : nat -> Z) : Z := fold_right Z.add 0%Z (map f (seq 0 n)).

Lemma sumZ_gsum n f : sumZ n f = gsum 0%Z Z.add n f.
Proof. reflexivity. Qed.

Lemma sumZ_ext n f g : (forall i, i < n -> f i = g i) -> sumZ n f = sumZ n g.
Proof. apply gsum_ext. Qed.

Lemma sumZ_S n f : (sumZ (S n) f = sumZ n f + f n)%Z.
Proof. apply (gsum_S 0%Z Z.add); intros; lia. Qed.

Lemma sumZ_add n f g : (sumZ n (fun i => f i + g i) = sumZ n f + sumZ n g)%Z.
Proof. apply (gsum_add 0%Z Z.add); intros; lia. Qed.

Lemma sumZ_zero n f : (forall i, i < n -> f i = 0%Z) -> sumZ n f = 0%Z.
Proof. apply (gsum_zero 0%Z Z.add); intros; lia. Qed.

Lemma sumZ_opp n f : (sumZ n (fun i => - f i) = - sumZ n f)%Z.
Proof. induction n; [reflexivity|]. rewrite !sumZ_S, IHn; lia. Qed.

Lemma sumZ_sub n f g : (sumZ n (fun i => f i - g i) = sumZ n f - sumZ n g)%Z.
Proof. induction n; [reflexivity|]. rewrite !sumZ_S, IHn; lia. Qed.

Lemma sumZ_mul_l n c f : (sumZ n (fun i => c * f i) = c * sumZ n f)%Z.
Proof. induction n; [unfold sumZ; simpl; lia|]. rewrite !sumZ_S, IHn; lia. Qed.

Lemma sumZ_mul_r n c f : (sumZ n (fun i => f i * c) = sumZ n f * c)%Z.
Proof. induction n; [reflexivity|]. rewrite !sumZ_S, IHn; lia. Qed.

Lemma sumZ_const n c : (sumZ n (fun _ => c) = Z.of_nat n * c)%Z.
Proof. induction n; [reflexivity|]. rewrite !sumZ_S, IHn; lia. Qed.

Lemma sumZ_swap n m (f : nat -> nat -> Z) :
  sumZ n (fun i => sumZ m (fun j => f i j)) = sumZ m (fun j => sumZ n (fun i => f i j)).
Proof. apply (gsum_swap 0%Z Z.add); intros; lia. Qed.

Lemma sumZ_split n m f : (sumZ (n + m) f = sumZ n f + sumZ m (fun j => f (n + j)%nat))%Z.
Proof. apply (gsum_split 0%Z Z.add); intros; lia. Qed.

Lemma sumZ_shift n (f : Z -> Z) k :
  periodic n f -> sumZ n (fun i => f (Z.of_nat i + k)%Z) = sumZ n (fun i => f (Z.of_nat i)).
Proof. apply (psum_shift 0%Z Z.add); intros; lia. Qed.

Lemma sumZ_neg n (f : Z -> Z) :
  periodic n f -> sumZ n (fun i => f (- Z.of_nat i)%Z) = sumZ n (fun i => f (Z.of_nat i)).
Proof. apply (psum_opp 0%Z Z.add); intros; lia. Qed.

Lemma sumZ_mulk n (f : Z -> Z) k :
  periodic n f -> Z.gcd k (Z.of_nat n) = 1%Z ->
  sumZ n (fun i => f (Z.of_nat i * k)%Z) = sumZ n (fun i => f (Z.of_nat i)).
Proof. apply (psum_mul 0%Z Z.add); intros; lia. Qed.

Lemma sumZ_reindex n f (g : nat -> nat) :
  (forall i, i < n -> g i < n) ->
  (forall i j, i < n -> j < n -> g i = g j -> i = j) ->
  sumZ n (fun i => f (g i)) = sumZ n f.
Proof. apply (gsum_reindex 0%Z Z.add); intros; lia. Qed.

Lemma sumZ_nonneg n f : (forall i, i < n -> (0 <= f i)%Z) -> (0 <= sumZ n f)%Z.
Proof.
  induction n; intros H; [unfold sumZ; simpl; lia|]. rewrite sumZ_S.
  specialize (IHn (fun i Hi => H i (Nat.lt_lt_succ_r _ _ Hi))). specialize (H n (Nat.lt_succ_diag_r n)). lia.
Qed.

Lemma sumZ_bound n f c : (forall i, i < n -> (Z.abs (f i) <= c)%Z) -> (Z.abs (sumZ n f) <= Z.of_nat n * c)%Z.
Proof.
  induction n; intros H; [unfold sumZ; simpl; lia|]. rewrite sumZ_S.
  assert (Z.abs (sumZ n f) <= Z.of_nat n * c)%Z by (apply IHn; intros; apply H; lia).
  specialize (H n (Nat.lt_succ_diag_r n)). lia.
Qed.
