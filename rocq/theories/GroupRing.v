(* Integer sequences of length n under circular convolution form a commutative ring; quaternions
   over that ring give the algebra behind C06. *)
From Coq Require Import List ZArith Lia Arith Bool Eqdep_dec Ring.
From Verif Require Import Base BaseFacts Sums Quat ModelWilliamson Spec SeqFacts.
Import ListNotations.
Open Scope Z_scope.

Section Ring.
  Context (n : nat) (Hn : (1 <= n)%nat).
  Notation N := (Z.of_nat n).

  Definition Rn := {l : list Z | (length l =? n)%nat = true}.
  Definition at_ (x : Rn) (i : Z) : Z := entry (proj1_sig x) i.

  Lemma rlen (x : Rn) : length (proj1_sig x) = n.
  Proof. destruct x as [l H]. simpl. now apply Nat.eqb_eq. Qed.

  Lemma mk_len (f : Z -> Z) : (length (map (fun i => f (Z.of_nat i)) (seq 0 n)) =? n)%nat = true.
  Proof. rewrite map_length, seq_length. apply Nat.eqb_refl. Qed.
  Definition mk (f : Z -> Z) : Rn := exist _ _ (mk_len f).

  Lemma at_per x : periodic n (at_ x).
  Proof. intros i j E. unfold at_. apply entry_periodic. now rewrite rlen. Qed.

  Lemma at_mk f i : periodic n f -> at_ (mk f) i = f i.
  Proof.
    intros Hp. unfold at_, mk, entry. simpl. rewrite map_length, seq_length.
    rewrite nth_map_seq by (apply pos_lt; lia). apply Hp. rewrite pos_mod by lia. apply Z.mod_mod; lia.
  Qed.

  Lemma r_ext x y : (forall i, at_ x i = at_ y i) -> x = y.
  Proof.
    intros H. destruct x as [l1 H1] eqn:E1, y as [l2 H2] eqn:E2.
    assert (l1 = l2) as ->.
    { apply Nat.eqb_eq in H1 as L1. apply Nat.eqb_eq in H2 as L2.
      apply list_ext with (d := 0); [congruence|]. intros i Hi.
      specialize (H (Z.of_nat i)). unfold at_ in H. simpl in H. rewrite !entry_nat in H by lia. exact H. }
    f_equal. apply UIP_dec. apply bool_dec.
  Qed.

  Definition r0 : Rn := mk (fun _ => 0).
  Definition r1 : Rn := mk (fun i => if i mod N =? 0 then 1 else 0).
  Definition rconst (c : Z) : Rn := mk (fun i => if i mod N =? 0 then c else 0).
  Definition radd (x y : Rn) : Rn := mk (fun i => at_ x i + at_ y i).
  Definition ropp (x : Rn) : Rn := mk (fun i => - at_ x i).
  Definition rsub (x y : Rn) : Rn := mk (fun i => at_ x i - at_ y i).
  Definition conv (f g : Z -> Z) (t : Z) : Z := sumZ n (fun i => f (Z.of_nat i) * g (t - Z.of_nat i)).
  Definition rmul (x y : Rn) : Rn := mk (conv (at_ x) (at_ y)).
  Definition rstar (x : Rn) : Rn := mk (fun i => at_ x (- i)).

  Lemma per_sub f t : periodic (A:=Z) n f -> periodic n (fun i => f (t - i)).
  Proof.
    intros Hp i j E. apply Hp. unfold Z.sub. rewrite !(Z.add_comm t). apply mod_add_cong.
    now apply mod_opp_cong.
  Qed.

  Lemma conv_per f g : periodic n g -> periodic n (conv f g).
  Proof.
    intros Hg i j E. unfold conv. apply sumZ_ext; intros. f_equal. apply Hg.
    unfold Z.sub. now apply mod_add_cong.
  Qed.

  Lemma at_add x y i : at_ (radd x y) i = at_ x i + at_ y i.
  Proof. unfold radd. rewrite at_mk; auto. intros a b E. now rewrite (at_per x a b E), (at_per y a b E). Qed.
  Lemma at_sub x y i : at_ (rsub x y) i = at_ x i - at_ y i.
  Proof. unfold rsub. rewrite at_mk; auto. intros a b E. now rewrite (at_per x a b E), (at_per y a b E). Qed.
  Lemma at_opp x i : at_ (ropp x) i = - at_ x i.
  Proof. unfold ropp. rewrite at_mk; auto. intros a b E. now rewrite (at_per x a b E). Qed.
  Lemma at_0 i : at_ r0 i = 0.
  Proof. unfold r0. rewrite at_mk; auto. intros a b E. reflexivity. Qed.
  Lemma at_const c i : at_ (rconst c) i = if i mod N =? 0 then c else 0.
  Proof. unfold rconst. rewrite at_mk; auto. intros a b E. now rewrite E. Qed.
  Lemma at_mul x y i : at_ (rmul x y) i = conv (at_ x) (at_ y) i.
  Proof. unfold rmul. rewrite at_mk; auto. apply conv_per, at_per. Qed.
  Lemma at_star x i : at_ (rstar x) i = at_ x (- i).
  Proof. unfold rstar. rewrite at_mk; auto. intros a b E. apply at_per. now apply mod_opp_cong. Qed.

  Lemma conv_comm f g t : periodic n f -> periodic n g -> conv f g t = conv g f t.
  Proof.
    intros Hf Hg. unfold conv.
    assert (periodic n (fun i => g i * f (t - i))) as Hp.
    { apply mul_periodic; auto. now apply per_sub. }
    rewrite <- (sumZ_neg n (fun i => g i * f (t - i)) Hp).
    assert (periodic n (fun i => g (- i) * f (t - - i))) as Hp2.
    { apply mul_periodic.
      - intros i j E. apply Hg. now apply mod_opp_cong.
      - intros i j E. apply Hf. rewrite !Z.sub_opp_r, !(Z.add_comm t). now apply mod_add_cong. }
    rewrite <- (sumZ_shift n (fun i => g (- i) * f (t - - i)) (- t) Hp2).
    apply sumZ_ext; intros. rewrite Z.mul_comm. f_equal; f_equal; lia.
  Qed.

  Lemma conv_assoc f g h t : periodic n f -> periodic n g -> periodic n h ->
    conv f (conv g h) t = conv (conv f g) h t.
  Proof.
    intros Hf Hg Hh. unfold conv.
    rewrite (sumZ_ext n _ (fun i => sumZ n (fun j => f (Z.of_nat i) * (g (Z.of_nat j) * h (t - Z.of_nat i - Z.of_nat j))))).
    2:{ intros. now rewrite sumZ_mul_l. }
    rewrite (sumZ_ext n (fun i => sumZ n (fun i0 => f (Z.of_nat i0) * g (Z.of_nat i - Z.of_nat i0)) * h (t - Z.of_nat i))
       (fun j => sumZ n (fun i => f (Z.of_nat i) * (g (Z.of_nat j - Z.of_nat i) * h (t - Z.of_nat j))))).
    2:{ intros. rewrite <- sumZ_mul_r. apply sumZ_ext; intros. ring. }
    rewrite (sumZ_swap n n (fun j i => f (Z.of_nat i) * (g (Z.of_nat j - Z.of_nat i) * h (t - Z.of_nat j)))).
    apply sumZ_ext; intros i Hi. rewrite !sumZ_mul_l. f_equal.
    assert (periodic n (fun j => g (j - Z.of_nat i) * h (t - j))) as Hp.
    { apply mul_periodic.
      - intros a b E. apply Hg. unfold Z.sub. now apply mod_add_cong.
      - now apply per_sub. }
    rewrite <- (sumZ_shift n (fun j => g (j - Z.of_nat i) * h (t - j)) (Z.of_nat i) Hp).
    apply sumZ_ext; intros. f_equal; f_equal; lia.
  Qed.

  Lemma conv_const c f t : periodic n f ->
    conv (fun i => if i mod N =? 0 then c else 0) f t = c * f t.
  Proof.
    intros Hf. unfold conv. destruct n as [|m] eqn:E; [lia|]. rewrite <- E in *.
    rewrite (sumZ_ext n _ (fun i => if (i =? 0)%nat then c * f t else 0)).
    2:{ intros i Hi. rewrite Z.mod_small by lia. destruct i; simpl; [now rewrite Z.sub_0_r|reflexivity]. }
    clear - E. rewrite E. clear E. induction m; [unfold sumZ; simpl; ring|].
    rewrite sumZ_S, IHm. simpl. ring.
  Qed.

  Lemma Rn_ring : ring_theory r0 r1 radd rmul rsub ropp (@eq Rn).
  Proof.
    constructor; intros; apply r_ext; intros i;
      rewrite ?at_add, ?at_mul, ?at_sub, ?at_opp, ?at_0, ?at_add, ?at_mul, ?at_opp; try ring.
    - transitivity (conv (fun i => if i mod N =? 0 then 1 else 0) (at_ x) i).
      + unfold conv. apply sumZ_ext; intros. f_equal. apply (at_const 1).
      + rewrite conv_const by apply at_per. ring.
    - apply conv_comm; apply at_per.
    - transitivity (conv (at_ x) (conv (at_ y) (at_ z)) i).
      + unfold conv at 1 2. apply sumZ_ext; intros. now rewrite at_mul.
      + rewrite conv_assoc by apply at_per. unfold conv at 1 3. apply sumZ_ext; intros. now rewrite at_mul.
    - unfold conv. rewrite <- sumZ_add. apply sumZ_ext; intros. rewrite at_add. ring.
  Qed.
  Add Ring Rnr : Rn_ring.

  Local Notation "x + y" := (radd x y). Local Notation "x - y" := (rsub x y). Local Notation "- x" := (ropp x).
  Local Notation "x * y" := (rmul x y).

  Lemma const_mul c x i : at_ (rconst c * x) i = (c * at_ x i)%Z.
  Proof.
    rewrite at_mul. rewrite <- conv_const by apply at_per.
    unfold conv. apply sumZ_ext; intros. f_equal. apply at_const.
  Qed.

  (* If (a+bi+cj+dk)(a'-b'i-c'j-d'k) is the scalar C, so is the product in the other order. *)
  Lemma quaternion_swap (a b c d a' b' c' d' C : Rn) (k : Z) :
    C = rconst k -> k <> 0%Z ->
    a * a' + b * b' + c * c' + d * d' = C ->
    b * a' - a * b' + d * c' - c * d' = r0 ->
    c * a' - a * c' + b * d' - d * b' = r0 ->
    d * a' - a * d' + c * b' - b * c' = r0 ->
    a' * b - b' * a + d' * c - c' * d = r0 /\
    a' * c - c' * a + b' * d - d' * b = r0 /\
    a' * d - d' * a + c' * b - b' * c = r0.
  Proof.
    intros EC Hk H0 H1 H2 H3.
    set (NN := a * a + b * b + c * c + d * d). set (NN' := a' * a' + b' * b' + c' * c' + d' * d').
    assert (HN : NN * NN' = C * C).
    { transitivity ((a * a' + b * b' + c * c' + d * d') * (a * a' + b * b' + c * c' + d * d')
        + (b * a' - a * b' + d * c' - c * d') * (b * a' - a * b' + d * c' - c * d')
        + (c * a' - a * c' + b * d' - d * b') * (c * a' - a * c' + b * d' - d * b')
        + (d * a' - a * d' + c * b' - b * c') * (d * a' - a * d' + c * b' - b * c')); [unfold NN, NN'; ring|].
      rewrite H0, H1, H2, H3. ring. }
    assert (Hz : forall E, NN * E = r0 -> E = r0).
    { intros E HE. assert (C * (C * E) = r0) as K.
      { transitivity (C * C * E); [ring|]. rewrite <- HN. transitivity (NN' * (NN * E)); [ring|].
        rewrite HE. ring. }
      apply r_ext; intros i. rewrite at_0. apply (f_equal (fun x => at_ x i)) in K.
      subst C. rewrite !const_mul, at_0 in K. nia. }
    (* components of conj(x) (x y) x with x y = P0 + P1 i + P2 j + P3 k *)
    assert (K : forall p0 p1 p2 p3, p1 = r0 -> p2 = r0 -> p3 = r0 ->
      p0 = a * a' + b * b' + c * c' + d * d' -> p1 = b * a' - a * b' + d * c' - c * d' ->
      p2 = c * a' - a * c' + b * d' - d * b' -> p3 = d * a' - a * d' + c * b' - b * c' ->
      NN * (a' * b - b' * a + d' * c - c' * d) = r0 /\
      NN * (a' * c - c' * a + b' * d - d' * b) = r0 /\
      NN * (a' * d - d' * a + c' * b - b' * c) = r0).
    { intros p0 p1 p2 p3 E1 E2 E3 D0 D1 D2 D3.
      (* m = conj(x) * p *)
      pose (m0 := a * p0 + b * p1 + c * p2 + d * p3).
      pose (m1 := a * p1 - b * p0 - c * p3 + d * p2).
      pose (m2 := a * p2 - c * p0 - d * p1 + b * p3).
      pose (m3 := a * p3 - d * p0 - b * p2 + c * p1).
      repeat split.
      - transitivity (m0 * b + m1 * a + m2 * d - m3 * c).
        + unfold m0, m1, m2, m3, NN. rewrite D0, D1, D2, D3. ring.
        + unfold m0, m1, m2, m3. rewrite E1, E2, E3. ring.
      - transitivity (m0 * c + m2 * a + m3 * b - m1 * d).
        + unfold m0, m1, m2, m3, NN. rewrite D0, D1, D2, D3. ring.
        + unfold m0, m1, m2, m3. rewrite E1, E2, E3. ring.
      - transitivity (m0 * d + m3 * a + m1 * c - m2 * b).
        + unfold m0, m1, m2, m3, NN. rewrite D0, D1, D2, D3. ring.
        + unfold m0, m1, m2, m3. rewrite E1, E2, E3. ring. }
    destruct (K _ _ _ _ H1 H2 H3 eq_refl eq_refl eq_refl eq_refl) as (K1 & K2 & K3).
    auto.
  Qed.

  Lemma ofl_len (l : list Z) : length l = n -> (length l =? n)%nat = true.
  Proof. intros ->. apply Nat.eqb_refl. Qed.
  Definition ofl (l : list Z) (H : length l = n) : Rn := exist _ l (ofl_len l H).

  (* x * y^ is the cross-correlation of x and y *)
  Lemma mul_star x y t : at_ (x * rstar y) t = ccf (proj1_sig x) (proj1_sig y) t.
  Proof.
    rewrite at_mul. unfold conv, ccf. rewrite rlen. apply sumZ_ext; intros.
    rewrite at_star. unfold at_. f_equal. f_equal. lia.
  Qed.

  Lemma QT_WT q : pm_quad n q -> is_QT q -> is_WT q.
  Proof.
    intros ((Hs & La & Lb & Lc & Ld) & Pa & Pb & Pc & Pd) [Hc Hq].
    pose (a := ofl _ La). pose (b := ofl _ Lb). pose (c := ofl _ Lc). pose (d := ofl _ Ld).
    destruct (quaternion_swap a b c d (rstar a) (rstar b) (rstar c) (rstar d) (rconst (4 * N)) (4 * N)) as (G1 & G2 & G3).
    - reflexivity.
    - lia.
    - apply r_ext; intros i. rewrite !at_add, !mul_star, at_const. unfold a, b, c, d, ofl. cbn [proj1_sig].
      assert (E : forall x, ccf x x i = paf x i) by (intros; rewrite <- paf_opp, paf_ccf, Z.opp_involutive; auto).
      rewrite !E.
      assert (M : forall x, length x = n -> paf x i = paf x (i mod N)) by (intros x Hx; rewrite <- Hx, paf_mod; reflexivity).
      rewrite !M by auto.
      destruct (Z.eqb_spec (i mod N) 0) as [->|Hi].
      + rewrite !paf_0 by auto. rewrite La, Lb, Lc, Ld. lia.
      + apply Hc. rewrite Hs. pose proof (Z.mod_pos_bound i N). lia.
    - apply r_ext; intros i. rewrite !at_sub, !at_add, at_sub, !mul_star, at_0. unfold a, b, c, d; simpl.
      destruct (Hq i) as (E & _). lia.
    - apply r_ext; intros i. rewrite !at_sub, !at_add, at_sub, !mul_star, at_0. unfold a, b, c, d; simpl.
      destruct (Hq i) as (_ & E & _). lia.
    - apply r_ext; intros i. rewrite !at_sub, !at_add, at_sub, !mul_star, at_0. unfold a, b, c, d; simpl.
      destruct (Hq i) as (_ & _ & E). lia.
    - assert (SC : forall x y : Rn, rstar x * y = y * rstar x) by (intros; ring).
      assert (forall t,
        ccf (q_b q) (q_a q) t - ccf (q_a q) (q_b q) t + ccf (q_c q) (q_d q) t - ccf (q_d q) (q_c q) t = 0 /\
        ccf (q_c q) (q_a q) t - ccf (q_a q) (q_c q) t + ccf (q_d q) (q_b q) t - ccf (q_b q) (q_d q) t = 0 /\
        ccf (q_d q) (q_a q) t - ccf (q_a q) (q_d q) t + ccf (q_b q) (q_c q) t - ccf (q_c q) (q_b q) t = 0)%Z as K.
      { intros t. rewrite !SC in G1, G2, G3.
        apply (f_equal (fun x => at_ x t)) in G1, G2, G3.
        rewrite !at_sub, !at_add, at_sub, !mul_star, at_0 in G1, G2, G3.
        unfold a, b, c, d in G1, G2, G3; simpl in G1, G2, G3. auto. }
      split; auto. repeat split; intros t; specialize (K t); destruct (Hq t) as (Q1 & Q2 & Q3); lia.
  Qed.
End Ring.
