(* The three identities of quaternion-type sequences mean that all pairs are amicable, for any sequences of integers. *)
From Coq Require Import List ZArith Lia Arith Bool Ring.
From Verif Require Import Base BaseFacts Sums Quat ModelWilliamson Spec SeqFacts GroupRing.
Import ListNotations.
Open Scope Z_scope.

Lemma sumZ_squares n f : sumZ n (fun i => f i * f i) >= 0 /\ (sumZ n (fun i => f i * f i) = 0 -> forall i, (i < n)%nat -> f i = 0).
Proof.
  induction n as [|n (A & B)]; [split; [unfold sumZ; simpl; lia|intros _ i Hi; lia]|].
  rewrite !sumZ_S. split; [nia|]. intros E i Hi.
  destruct (Nat.eq_dec i n) as [->|]; [nia|]. apply B; [nia|lia].
Qed.

Section Amic.
  Context (n : nat) (Hn : (1 <= n)%nat).
  Add Ring Rnr2 : (Rn_ring n Hn).
  Notation Rn := (Rn n).
  Notation at_ := (at_ n).
  Local Notation "x + y" := (radd n x y). Local Notation "x - y" := (rsub n x y). Local Notation "- x" := (ropp n x).
  Local Notation "x * y" := (rmul n x y).
  Notation star := (rstar n).

  Lemma star_star x : star (star x) = x.
  Proof. apply (r_ext n Hn). intros i. rewrite !at_star by auto. f_equal. lia. Qed.
  Lemma star_sub x y : star (x - y) = star x - star y.
  Proof. apply (r_ext n Hn). intros i. rewrite at_star, !at_sub, !at_star by auto. reflexivity. Qed.
  Lemma star_mul x y : star (x * y) = star x * star y.
  Proof.
    apply (r_ext n Hn). intros i. rewrite at_star, !at_mul by auto. unfold conv.
    pose proof (at_per n x) as Px. pose proof (at_per n y) as Py.
    assert (P : periodic n (fun j => (at_ x j * at_ y (- i - j))%Z)).
    { apply mul_periodic; auto. now apply per_sub. }
    rewrite <- (sumZ_neg n _ P). apply sumZ_ext. intros j Hj. rewrite !at_star by auto. f_equal. f_equal. lia.
  Qed.
  Lemma norm_0 p : at_ (p * star p) 0 = sumZ n (fun i => at_ p (Z.of_nat i) * at_ p (Z.of_nat i))%Z.
  Proof. rewrite at_mul by auto. unfold conv. apply sumZ_ext. intros i Hi. rewrite at_star by auto. f_equal. f_equal. lia. Qed.
  Lemma zero_of p : (forall i, (i < n)%nat -> at_ p (Z.of_nat i) = 0) -> p = r0 n.
  Proof.
    intros H. apply (r_ext n Hn). intros i. rewrite at_0 by auto.
    rewrite (at_per n p i (i mod Z.of_nat n)) by (symmetry; apply Z.mod_mod; lia).
    pose proof (Z.mod_pos_bound i (Z.of_nat n) ltac:(lia)). rewrite <- (Z2Nat.id (i mod Z.of_nat n)) by lia. apply H. lia.
  Qed.
  (* three antisymmetric elements whose squares add up to zero *)
  Lemma three_squares p1 p2 p3 : star p1 = - p1 -> star p2 = - p2 -> star p3 = - p3 -> p1 * p1 + p2 * p2 + p3 * p3 = r0 n -> p1 = r0 n /\ p2 = r0 n /\ p3 = r0 n.
  Proof.
    intros S1 S2 S3 E. assert (E' : p1 * star p1 + p2 * star p2 + p3 * star p3 = r0 n).
    { rewrite S1, S2, S3. transitivity (- (p1 * p1 + p2 * p2 + p3 * p3)); [ring|]. rewrite E. ring. }
    apply (f_equal (fun x => at_ x 0)) in E'. rewrite !at_add, at_0, !norm_0 in E' by auto.
    destruct (sumZ_squares n (fun i => at_ p1 (Z.of_nat i))) as (A1 & B1).
    destruct (sumZ_squares n (fun i => at_ p2 (Z.of_nat i))) as (A2 & B2).
    destruct (sumZ_squares n (fun i => at_ p3 (Z.of_nat i))) as (A3 & B3). cbn beta in *.
    repeat split; apply zero_of; [apply B1|apply B2|apply B3]; lia.
  Qed.
  Definition wedge (x y : Rn) : Rn := x * star y - y * star x.
  Lemma wedge_anti x y : star (wedge x y) = - wedge x y.
  Proof. unfold wedge. rewrite star_sub, !star_mul, !star_star. ring. Qed.
  Lemma plucker a b c d : wedge a b * wedge c d - wedge a c * wedge b d + wedge a d * wedge b c = r0 n.
  Proof. unfold wedge. ring. Qed.
  Lemma identities_wedge a b c d : wedge a b = wedge d c -> wedge a c = wedge b d -> wedge a d = wedge c b ->
    wedge a b = r0 n /\ wedge a c = r0 n /\ wedge a d = r0 n.
  Proof.
    intros H1 H2 H3. apply three_squares; try apply wedge_anti.
    assert (W : forall x y, wedge x y = - wedge y x) by (intros; unfold wedge; ring).
    pose proof (plucker a b c d) as P. rewrite (W c d), <- H1, <- H2, (W b c), <- H3 in P.
    transitivity (- (wedge a b * - wedge a b - wedge a c * wedge a c + wedge a d * - wedge a d)); [ring|]. rewrite P. ring.
  Qed.

  Lemma identities_amicable q : wf n q -> (quaternion_identities q <-> amicable_all q).
  Proof.
    intros (Hs & La & Lb & Lc & Ld). split.
    - intros Hq. pose (a := ofl n _ La). pose (b := ofl n _ Lb). pose (c := ofl n _ Lc). pose (d := ofl n _ Ld).
      assert (W : forall x y t, at_ (wedge x y) t = (ccf (proj1_sig x) (proj1_sig y) t - ccf (proj1_sig y) (proj1_sig x) t)%Z).
      { intros x y t. unfold wedge. now rewrite at_sub, !mul_star by auto. }
      destruct (identities_wedge a b c d) as (E1 & E2 & E3).
      1-3: apply (r_ext n Hn); intros t; rewrite !W; unfold a, b, c, d; cbn [ofl proj1_sig]; apply (Hq t).
      assert (K : forall x y, wedge x y = r0 n -> forall t, ccf (proj1_sig x) (proj1_sig y) t = ccf (proj1_sig y) (proj1_sig x) t).
      { intros x y E t. apply (f_equal (fun x => at_ x t)) in E. rewrite W, at_0 in E by auto. lia. }
      pose proof (K a b E1) as K1. pose proof (K a c E2) as K2. pose proof (K a d E3) as K3. unfold a, b, c, d in K1, K2, K3. cbn [ofl proj1_sig] in *.
      unfold amicable_all, amicable. repeat split; auto; intros t; specialize (K1 t); specialize (K2 t); specialize (K3 t); destruct (Hq t) as (Q1 & Q2 & Q3); lia.
    - intros (W1 & W2 & W3 & W4 & W5 & W6) t. unfold amicable in *.
      rewrite (W1 t), (W2 t), (W3 t), (W4 t), (W5 t), (W6 t). lia.
  Qed.
End Amic.
