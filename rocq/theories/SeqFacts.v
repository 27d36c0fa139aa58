(* Correlations of integer sequences: periodicity, symmetries, and agreement of the model with Spec. *)
From Coq Require Import List ZArith Lia Arith Bool Permutation.
From Verif Require Import Base BaseFacts Sums Quat ModelSequence ModelWilliamson Spec.
Import ListNotations.
Open Scope Z_scope.

Lemma pm1_nth l i : pm1 l -> (i < length l)%nat -> nth i l 0 = 1 \/ nth i l 0 = -1.
Proof. intros H Hi. unfold pm1 in H. rewrite Forall_forall in H. apply H, nth_In; auto. Qed.

Lemma entry_nat l i : (i < length l)%nat -> entry l (Z.of_nat i) = nth i l 0.
Proof. intros; unfold entry; now rewrite pos_of_nat. Qed.

Lemma entry_periodic l : periodic (length l) (entry l).
Proof. intros i j H; unfold entry, pos; now rewrite H. Qed.

Lemma entry_mod l i : entry l (i mod Z.of_nat (length l)) = entry l i.
Proof.
  destruct (Nat.eq_dec (length l) 0) as [E|E].
  - unfold entry. destruct l; [|discriminate]. now rewrite !nth_overflow by (simpl; lia).
  - apply entry_periodic. apply Z.mod_mod; lia.
Qed.

Lemma entry_pm1 l i : pm1 l -> l <> [] -> entry l i = 1 \/ entry l i = -1.
Proof.
  intros H Hl. apply pm1_nth; auto. apply pos_lt. destruct l; simpl; congruence.
Qed.

Lemma mul_periodic n f g : periodic n f -> periodic n g -> periodic (A:=Z) n (fun i => f i * g i).
Proof. intros Hf Hg i j H; now rewrite (Hf i j H), (Hg i j H). Qed.

Lemma mod_add_cong n i j k : (i mod n = j mod n -> (i + k) mod n = (j + k) mod n)%Z.
Proof.
  intros H. destruct (Z.eq_dec n 0) as [->|Hn].
  - rewrite !Zmod_0_r in *. lia.
  - rewrite Z.add_mod, H, <- Z.add_mod; auto.
Qed.

Lemma mod_mul_cong n i j k : (i mod n = j mod n -> (i * k) mod n = (j * k) mod n)%Z.
Proof.
  intros H. destruct (Z.eq_dec n 0) as [->|Hn].
  - rewrite !Zmod_0_r in *. lia.
  - rewrite Z.mul_mod, H, <- Z.mul_mod; auto.
Qed.

Lemma mod_opp_cong n i j : (i mod n = j mod n -> (- i) mod n = (- j) mod n)%Z.
Proof.
  intros H. replace (- i) with (i * -1) by lia. replace (- j) with (j * -1) by lia.
  now apply mod_mul_cong.
Qed.

Lemma shift_periodic {A} n (f : Z -> A) k : periodic n f -> periodic n (fun i => f (i + k)).
Proof. intros Hf i j H. apply Hf. now apply mod_add_cong. Qed.

Lemma ccf_term_periodic n x y t :
  length x = n -> length y = n -> periodic n (fun i => entry x i * entry y (i - t)).
Proof.
  intros Hx Hy. apply mul_periodic.
  - rewrite <- Hx. apply entry_periodic.
  - rewrite <- Hy. apply (shift_periodic _ (entry y) (-t)). apply entry_periodic.
Qed.

(* C_xy(-t) = C_yx(t) *)
Lemma ccf_opp x y t : length x = length y -> ccf x y (- t) = ccf y x t.
Proof.
  intros Hl. unfold ccf. rewrite Hl.
  rewrite <- (sumZ_shift (length y) (fun i => entry x i * entry y (i - - t)) (- t)).
  - apply sumZ_ext. intros i Hi. rewrite Z.mul_comm. f_equal; f_equal; lia.
  - now apply ccf_term_periodic.
Qed.

Lemma ccf_mod x y t : length x = length y -> ccf x y (t mod Z.of_nat (length x)) = ccf x y t.
Proof.
  intros Hl. unfold ccf. apply sumZ_ext; intros i Hi. f_equal. apply entry_periodic.
  rewrite <- Hl. rewrite Zminus_mod_idemp_r. reflexivity.
Qed.

Lemma paf_ccf x t : paf x t = ccf x x (- t).
Proof. unfold paf, ccf. apply sumZ_ext; intros. now rewrite Z.sub_opp_r. Qed.

Lemma paf_opp x t : paf x (- t) = paf x t.
Proof. rewrite !paf_ccf, Z.opp_involutive. now rewrite ccf_opp. Qed.

Lemma paf_mod x t : paf x (t mod Z.of_nat (length x)) = paf x t.
Proof.
  unfold paf. apply sumZ_ext; intros i Hi. f_equal. apply entry_periodic.
  now rewrite Zplus_mod_idemp_r.
Qed.

Lemma ccf_0_sym x y : length x = length y -> ccf x y 0 = ccf y x 0.
Proof. intros. now rewrite <- (ccf_opp x y 0). Qed.

Lemma paf_0 x : pm1 x -> paf x 0 = Z.of_nat (length x).
Proof.
  intros H. unfold paf. rewrite (sumZ_ext _ _ (fun _ => 1)).
  - rewrite sumZ_const; lia.
  - intros i Hi. rewrite Z.add_0_r.
    destruct (entry_pm1 x (Z.of_nat i) H) as [-> | ->]; auto. destruct x; simpl in *; [lia|congruence].
Qed.

(* ---- the model's correlations compute the specified ones ---- *)

Lemma mul8_pm1 x y : (x = 1 \/ x = -1) -> (y = 1 \/ y = -1) -> mul8 x y = x * y.
Proof. intros [-> | ->] [-> | ->]; reflexivity. Qed.

Lemma range_0 n : range 0 n = seq 0 n.
Proof. unfold range; now rewrite Nat.sub_0_r. Qed.

Lemma periodic_autocorrelation_spec l (o : nat) :
  pm1 l -> periodic_autocorrelation l o = Some (paf l (Z.of_nat o)).
Proof.
  intros H. unfold periodic_autocorrelation, paf, sumZ. rewrite range_0.
  apply sum_m_sum. intros i Hi. apply in_seq in Hi.
  assert (length l <> 0)%nat as Hn by lia.
  rewrite (vget_nth l i 0) by lia. simpl.
  rewrite (vget_nth l ((i + o) mod length l) 0) by (apply Nat.mod_upper_bound; auto). simpl.
  f_equal. rewrite entry_nat by lia.
  unfold entry. rewrite <- Nat2Z.inj_add, pos_nat_mod by auto.
  apply mul8_pm1; apply pm1_nth; auto; try lia. apply Nat.mod_upper_bound; auto.
Qed.

Lemma cross_correlation_spec x y (o : nat) :
  pm1 x -> pm1 y -> length x = length y -> (o <= length x)%nat ->
  cross_correlation x y o = Some (ccf x y (Z.of_nat o)).
Proof.
  intros Hx Hy Hl Ho. unfold cross_correlation. rewrite Hl, Nat.eqb_refl. simpl.
  unfold ccf, sumZ. rewrite Hl, range_0. apply sum_m_sum. intros i Hi. apply in_seq in Hi.
  assert (length y <> 0)%nat as Hn by lia.
  replace (o <=? i + length y)%nat with true by (symmetry; apply Nat.leb_le; lia). simpl.
  rewrite (vget_nth x i 0) by lia. simpl.
  rewrite (vget_nth y ((i + length y - o) mod length y) 0) by (apply Nat.mod_upper_bound; auto). simpl.
  f_equal. rewrite entry_nat by lia.
  replace (entry y (Z.of_nat i - Z.of_nat o)) with (nth ((i + length y - o) mod length y) y 0).
  - apply mul8_pm1; apply pm1_nth; auto; try lia. apply Nat.mod_upper_bound; auto.
  - unfold entry. f_equal. rewrite <- pos_nat_mod by auto. apply pos_eq; auto.
    replace (Z.of_nat (i + length y - o)) with (Z.of_nat i - Z.of_nat o + 1 * Z.of_nat (length y)) by lia.
    apply Z.mod_add; lia.
Qed.

Lemma forallb_range_iff lo hi (g : nat -> bool) :
  forallb g (range lo hi) = true <-> (forall i, lo <= i < hi -> g i = true)%nat.
Proof.
  rewrite forallb_forall. split; intros H i Hi; apply H; apply in_range in Hi || apply in_range; auto.
Qed.
Lemma forallb_range_incl_iff lo hi (g : nat -> bool) :
  forallb g (range_incl lo hi) = true <-> (forall i, lo <= i <= hi -> g i = true)%nat.
Proof.
  rewrite forallb_forall. split; intros H i Hi; apply H; apply in_range_incl in Hi || apply in_range_incl; auto.
Qed.

Lemma is_periodic_complementary_spec n q :
  pm_quad n q -> (1 <= n)%nat ->
  exists b, is_periodic_complementary q = Some b /\ (b = true <-> complementary q).
Proof.
  intros ((Hs & Ha & Hb & Hc & Hd) & Pa & Pb & Pc & Pd) Hn.
  unfold is_periodic_complementary. rewrite Hs.
  replace (1 <=? n)%nat with true by (symmetry; apply Nat.leb_le; lia). simpl.
  eexists; split.
  - apply all_m_forallb. intros o Ho. rewrite !periodic_autocorrelation_spec by auto. simpl. reflexivity.
  - rewrite forallb_range_incl_iff. unfold complementary. rewrite Hs. split; intros H.
    + intros t Ht. specialize (H (Z.to_nat t)). rewrite Z2Nat.id in H by lia.
      apply Z.eqb_eq, H. lia.
    + intros i Hi. apply Z.eqb_eq, H. lia.
Qed.

Definition amicable_all (q : QuadSeq) : Prop :=
  amicable (q_a q) (q_b q) /\ amicable (q_a q) (q_c q) /\ amicable (q_a q) (q_d q) /\
  amicable (q_b q) (q_c q) /\ amicable (q_b q) (q_d q) /\ amicable (q_c q) (q_d q).

(* a property of shifts that only depends on the shift modulo n holds everywhere if on 0..n-1 *)
Lemma all_shifts (n : nat) (P : Z -> Prop) :
  (1 <= n)%nat -> (forall t, P (t mod Z.of_nat n) -> P t) ->
  (forall i : nat, (i < n)%nat -> P (Z.of_nat i)) -> forall t, P t.
Proof.
  intros Hn Hm H t. apply Hm. pose proof (Z.mod_pos_bound t (Z.of_nat n)).
  rewrite <- (Z2Nat.id (t mod Z.of_nat n)) by lia. apply H. lia.
Qed.

Lemma amicable_iff n x y :
  length x = n -> length y = n -> (1 <= n)%nat ->
  (amicable x y <-> forall i : nat, (1 <= i < n)%nat -> ccf x y (Z.of_nat i) = ccf y x (Z.of_nat i)).
Proof.
  intros Hx Hy Hn. split; [intros H i Hi; apply H|]. intros H.
  refine (all_shifts n (fun t => ccf x y t = ccf y x t) Hn _ _).
  - intros t E. rewrite <- Hx in E at 1. rewrite <- Hy in E at 1. rewrite !ccf_mod in E by congruence. exact E.
  - intros i Hi. destruct i; [apply ccf_0_sym; congruence|]. apply H; lia.
Qed.

Lemma and_m_some x y a b : x = Some a -> y = Some b -> and_m x y = Some (a && b).
Proof. intros -> ->. destruct a; reflexivity. Qed.

Lemma is_amicable_spec n q :
  pm_quad n q -> (1 <= n)%nat ->
  exists b, is_amicable q = Some b /\ (b = true <-> amicable_all q).
Proof.
  intros ((Hs & Ha & Hb & Hc & Hd) & Pa & Pb & Pc & Pd) Hn.
  unfold is_amicable. rewrite Hs.
  eexists; split.
  - apply (all_m_forallb _ (fun o =>
      let e := fun x y => (ccf x y (Z.of_nat o) =? ccf y x (Z.of_nat o)) in
      e (q_a q) (q_b q) && (e (q_a q) (q_c q) && (e (q_a q) (q_d q) &&
      (e (q_b q) (q_c q) && (e (q_b q) (q_d q) && e (q_c q) (q_d q))))))).
    intros o Ho. apply in_range in Ho.
    rewrite !cross_correlation_spec by (auto; congruence || lia).
    repeat (apply and_m_some; [reflexivity|]). reflexivity.
  - rewrite forallb_range_iff. unfold amicable_all.
    rewrite !(amicable_iff n) by auto. split.
    + intros H. repeat split; intros i Hi; specialize (H i Hi); simpl in H;
      rewrite !andb_true_iff, !Z.eqb_eq in H; tauto.
    + intros (H1 & H2 & H3 & H4 & H5 & H6) i Hi. simpl. rewrite !andb_true_iff, !Z.eqb_eq.
      repeat split; auto.
Qed.

Lemma quaternion_identities_iff n q :
  wf n q -> (1 <= n)%nat ->
  (quaternion_identities q <-> forall i : nat, (i < n)%nat ->
    ccf (q_a q) (q_b q) (Z.of_nat i) - ccf (q_b q) (q_a q) (Z.of_nat i) = ccf (q_d q) (q_c q) (Z.of_nat i) - ccf (q_c q) (q_d q) (Z.of_nat i) /\
    ccf (q_a q) (q_c q) (Z.of_nat i) - ccf (q_c q) (q_a q) (Z.of_nat i) = ccf (q_b q) (q_d q) (Z.of_nat i) - ccf (q_d q) (q_b q) (Z.of_nat i) /\
    ccf (q_a q) (q_d q) (Z.of_nat i) - ccf (q_d q) (q_a q) (Z.of_nat i) = ccf (q_c q) (q_b q) (Z.of_nat i) - ccf (q_b q) (q_c q) (Z.of_nat i)).
Proof.
  intros (Hs & Ha & Hb & Hc & Hd) Hn. split; [intros H i Hi; apply H|].
  intros H. unfold quaternion_identities.
  apply (all_shifts n); auto. intros t E.
  assert (forall x y, length x = n -> length y = n -> ccf x y (t mod Z.of_nat n) = ccf x y t) as K.
  { intros x y Hx Hy. rewrite <- Hx. apply ccf_mod; congruence. }
  rewrite !K in E by auto. exact E.
Qed.

Lemma verify_cross_correlation_spec n q :
  pm_quad n q -> (1 <= n)%nat ->
  exists b, verify_cross_correlation q = Some b /\ (b = true <-> quaternion_identities q).
Proof.
  intros ((Hs & Ha & Hb & Hc & Hd) & Pa & Pb & Pc & Pd) Hn.
  unfold verify_cross_correlation. rewrite Hs.
  eexists; split.
  - apply (all_m_forallb _ (fun o =>
      let c := fun x y => ccf x y (Z.of_nat o) in
      (c (q_a q) (q_b q) - c (q_b q) (q_a q) =? c (q_d q) (q_c q) - c (q_c q) (q_d q)) &&
     ((c (q_a q) (q_c q) - c (q_c q) (q_a q) =? c (q_b q) (q_d q) - c (q_d q) (q_b q)) &&
      (c (q_a q) (q_d q) - c (q_d q) (q_a q) =? c (q_c q) (q_b q) - c (q_b q) (q_c q))))).
    intros o Ho. apply in_range in Ho.
    rewrite !cross_correlation_spec by (auto; congruence || lia).
    repeat (apply and_m_some; [reflexivity|]). reflexivity.
  - rewrite forallb_range_iff. rewrite (quaternion_identities_iff n) by (unfold wf; auto). split.
    + intros H i Hi. specialize (H i). simpl in H. rewrite !andb_true_iff, !Z.eqb_eq in H. apply H; lia.
    + intros H i Hi. simpl. rewrite !andb_true_iff, !Z.eqb_eq. apply H; lia.
Qed.

Lemma values_spec n q i : wf n q -> (i < n)%nat ->
  values q i = Some (nth i (q_a q) 0, nth i (q_b q) 0, nth i (q_c q) 0, nth i (q_d q) 0).
Proof.
  intros (Hs & Ha & Hb & Hc & Hd) Hi. unfold values.
  rewrite (vget_nth (q_a q) i 0), (vget_nth (q_b q) i 0), (vget_nth (q_c q) i 0), (vget_nth (q_d q) i 0) by lia.
  reflexivity.
Qed.

Lemma quad4_eqb_eq x y : quad4_eqb x y = true <-> x = y.
Proof.
  destruct x as [[[a b] c] d], y as [[[a' b'] c'] d']. simpl.
  rewrite !andb_true_iff, !Z.eqb_eq. split; [intros (((->&->)&->)&->); auto|].
  intros H; inversion H; auto.
Qed.

Lemma symmetric_iff n l : length l = n -> (1 <= n)%nat ->
  (symmetric l <-> forall t, (1 <= t <= n / 2)%nat -> nth t l 0 = nth (n - t) l 0).
Proof.
  intros Hl Hn.
  assert (forall t, (1 <= t < n)%nat -> entry l (- Z.of_nat t) = nth (n - t) l 0) as E.
  { intros t Ht. rewrite <- (entry_nat l (n - t)) by lia. apply entry_periodic.
    replace (Z.of_nat (n - t)) with (- Z.of_nat t + 1 * Z.of_nat (length l)) by lia.
    rewrite Z.mod_add by lia. reflexivity. }
  assert (n / 2 < n)%nat as Hh by (apply Nat.div_lt; lia).
  split.
  - intros H t Ht. rewrite <- E by lia. rewrite H. rewrite entry_nat; auto; lia.
  - intros H.
    refine (all_shifts n (fun i => entry l (- i) = entry l i) Hn _ _).
    + intros t Ht. rewrite <- Hl in Ht. rewrite entry_mod in Ht. rewrite <- Ht.
      apply entry_periodic. rewrite Hl. apply mod_opp_cong. rewrite Z.mod_mod; lia.
    + intros i Hi. destruct (Nat.eq_dec i 0) as [->|]; [reflexivity|].
      rewrite E by lia. rewrite entry_nat by lia.
      destruct (le_gt_dec i (n / 2)).
      * symmetry; apply H; lia.
      * pose proof (Nat.div_mod n 2 ltac:(lia)).
        pose proof (Nat.mod_upper_bound n 2 ltac:(lia)).
        rewrite H by lia. f_equal; lia.
Qed.

Lemma is_symmetric_spec n q :
  wf n q -> (1 <= n)%nat ->
  exists b, is_symmetric q = Some b /\
    (b = true <-> symmetric (q_a q) /\ symmetric (q_b q) /\ symmetric (q_c q) /\ symmetric (q_d q)).
Proof.
  intros Hw Hn. pose proof Hw as (Hs & Ha & Hb & Hc & Hd).
  assert (n / 2 < n)%nat as Hh by (apply Nat.div_lt; lia).
  unfold is_symmetric. rewrite Hs. eexists; split.
  - apply all_m_forallb. intros t Ht. apply in_range_incl in Ht.
    rewrite !(values_spec n) by (auto; lia). simpl. reflexivity.
  - rewrite forallb_range_incl_iff. rewrite !(symmetric_iff n) by auto. split.
    + intros H. repeat split; intros t Ht; specialize (H t Ht);
      rewrite !andb_true_iff, !Z.eqb_eq in H; tauto.
    + intros (H1 & H2 & H3 & H4) t Ht. rewrite !andb_true_iff, !Z.eqb_eq. auto.
Qed.

Lemma verify_spec n q t :
  pm_quad n q -> (1 <= n)%nat ->
  exists b, verify q t = Some b /\ (b = true <-> is_type t q).
Proof.
  intros Hq Hn.
  destruct (is_periodic_complementary_spec n q Hq Hn) as (b1 & E1 & H1).
  destruct t; simpl; try (exists false; split; [reflexivity|split; [discriminate|tauto]]).
  - destruct (is_symmetric_spec n q (proj1 Hq) Hn) as (b2 & E2 & H2).
    exists (b1 && b2). unfold verify_ws. rewrite (and_m_some _ _ _ _ E1 E2). split; auto.
    rewrite andb_true_iff, H1, H2. unfold is_W. tauto.
  - destruct (is_amicable_spec n q Hq Hn) as (b2 & E2 & H2).
    exists (b1 && b2). unfold verify_wts. rewrite (and_m_some _ _ _ _ E1 E2). split; auto.
    rewrite andb_true_iff, H1, H2. unfold is_WT, amicable_all. tauto.
  - destruct (verify_cross_correlation_spec n q Hq Hn) as (b2 & E2 & H2).
    exists (b1 && b2). unfold verify_qts. rewrite (and_m_some _ _ _ _ E1 E2). split; auto.
    rewrite andb_true_iff, H1, H2. unfold is_QT. tauto.
Qed.

(* symmetric sequences are amicable *)
Lemma symmetric_amicable x y : length x = length y -> symmetric x -> symmetric y -> amicable x y.
Proof.
  intros Hl Sx Sy t. rewrite <- (ccf_opp x y t) by auto. unfold ccf.
  assert (periodic (length x) (fun i => entry x i * entry y (i - t))) as Hp by (apply ccf_term_periodic; auto).
  rewrite <- (sumZ_neg (length x) (fun i => entry x i * entry y (i - t)) Hp).
  apply sumZ_ext; intros i Hi. rewrite Sx. f_equal. rewrite <- Sy. f_equal; lia.
Qed.

Lemma W_WT n q : wf n q -> is_W q -> is_WT q.
Proof.
  intros (Hs & Ha & Hb & Hc & Hd) (H & A & B & C & D). split; auto.
  repeat split; apply symmetric_amicable; auto; congruence.
Qed.

Lemma WT_QT q : is_WT q -> is_QT q.
Proof.
  intros (H & AB & AC & AD & BC & BD & CD). split; auto. intros t.
  rewrite (AB t), (AC t), (AD t), (BC t), (BD t), (CD t). lia.
Qed.
