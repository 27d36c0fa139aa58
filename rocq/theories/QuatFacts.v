(* Facts about quaternions and quaternion sequences; C01, C02. *)
From Coq Require Import List ZArith Lia Arith Bool QArith Qcanon Permutation.
From Verif Require Import Base BaseFacts Sums Quat ModelSequence ModelWilliamson Spec SeqFacts.
Import ListNotations.
Open Scope nat_scope.

Ltac qring := intros; repeat match goal with p : quat |- _ => destruct p end;
  unfold qadd, qneg, qmul, qscale, qconj, Q0, Q1; simpl; f_equal; ring.

Lemma qadd_comm p q : qadd p q = qadd q p.
Proof. qring. Qed.
Lemma qadd_assoc p q r : qadd p (qadd q r) = qadd (qadd p q) r.
Proof. qring. Qed.
Lemma qadd_0_l p : qadd Q0 p = p.
Proof. qring. Qed.
Lemma qadd_0_r p : qadd p Q0 = p.
Proof. qring. Qed.
Lemma qmul_assoc p q r : qmul p (qmul q r) = qmul (qmul p q) r.
Proof. qring. Qed.
Lemma qmul_1_l p : qmul Q1 p = p.
Proof. qring. Qed.
Lemma qmul_1_r p : qmul p Q1 = p.
Proof. qring. Qed.
Lemma qmul_0_l p : qmul Q0 p = Q0.
Proof. qring. Qed.
Lemma qmul_0_r p : qmul p Q0 = Q0.
Proof. qring. Qed.
Lemma qmul_add_l p q r : qmul (qadd p q) r = qadd (qmul p r) (qmul q r).
Proof. qring. Qed.
Lemma qmul_add_r p q r : qmul r (qadd p q) = qadd (qmul r p) (qmul r q).
Proof. qring. Qed.
Lemma qconj_mul p q : qconj (qmul p q) = qmul (qconj q) (qconj p).
Proof. qring. Qed.
Lemma qconj_add p q : qconj (qadd p q) = qadd (qconj p) (qconj q).
Proof. qring. Qed.
Lemma qconj_conj p : qconj (qconj p) = p.
Proof. qring. Qed.
Lemma qconj_0 : qconj Q0 = Q0.
Proof. qring. Qed.
Lemma qconj_1 : qconj Q1 = Q1.
Proof. qring. Qed.
Lemma qmul_conj p : qmul p (qconj p) = qscale (qnorm2 p) Q1.
Proof. unfold qnorm2. qring. Qed.
Lemma qconj_mul_self p : qmul (qconj p) p = qscale (qnorm2 p) Q1.
Proof. unfold qnorm2. qring. Qed.
Lemma qscale_1 p : qscale 1 p = p.
Proof. qring. Qed.
Lemma qscale_scale a b p : qscale a (qscale b p) = qscale (a * b)%Qc p.
Proof. qring. Qed.
Lemma qscale_mul_l a p q : qscale a (qmul p q) = qmul (qscale a p) q.
Proof. qring. Qed.
Lemma qscale_mul_r a p q : qscale a (qmul p q) = qmul p (qscale a q).
Proof. qring. Qed.
Lemma qscale_conj a p : qconj (qscale a p) = qscale a (qconj p).
Proof. qring. Qed.
Lemma qscale_0_r a : qscale a Q0 = Q0.
Proof. qring. Qed.
Lemma qscale_add a p q : qscale a (qadd p q) = qadd (qscale a p) (qscale a q).
Proof. qring. Qed.
Lemma qnorm2_mul p q : qnorm2 (qmul p q) = (qnorm2 p * qnorm2 q)%Qc.
Proof. intros; destruct p, q; unfold qnorm2, qmul; simpl; ring. Qed.
Lemma qnorm2_conj p : qnorm2 (qconj p) = qnorm2 p.
Proof. destruct p; unfold qnorm2, qconj; simpl; ring. Qed.
Lemma qneg_scale p : qneg p = qscale (-(1))%Qc p.
Proof. qring. Qed.

Lemma Qc_eq_bool_iff x y : Qc_eq_bool x y = true <-> x = y.
Proof. split; [apply Qc_eq_bool_correct|]. intros ->. unfold Qc_eq_bool. destruct (Qc_eq_dec y y); congruence. Qed.

Lemma quat_eqb_eq p q : quat_eqb p q = true <-> p = q.
Proof.
  unfold quat_eqb. rewrite !andb_true_iff, !Qc_eq_bool_iff. destruct p, q; simpl.
  split; [intros (((-> & ->) & ->) & ->); auto|]. intros E; inversion E; auto.
Qed.

Lemma quat_eq_dec (p q : quat) : {p = q} + {p <> q}.
Proof.
  destruct (quat_eqb p q) eqn:E; [left|right].
  - now apply quat_eqb_eq.
  - intros ->. rewrite (proj2 (quat_eqb_eq q q) eq_refl) in E. discriminate.
Qed.

(* sums *)
Lemma qsum_gsum n f : qsum n f = gsum Q0 qadd n f.
Proof. reflexivity. Qed.

Lemma qsum_ext n f g : (forall i, i < n -> f i = g i) -> qsum n f = qsum n g.
Proof. apply gsum_ext. Qed.
Lemma qsum_S n f : qsum (S n) f = qadd (qsum n f) (f n).
Proof. apply (gsum_S Q0 qadd qadd_comm qadd_assoc qadd_0_l). Qed.
Lemma qsum_zero n f : (forall i, i < n -> f i = Q0) -> qsum n f = Q0.
Proof. apply (gsum_zero Q0 qadd qadd_comm qadd_assoc qadd_0_l). Qed.
Lemma qsum_add n f g : qsum n (fun i => qadd (f i) (g i)) = qadd (qsum n f) (qsum n g).
Proof. apply (gsum_add Q0 qadd qadd_comm qadd_assoc qadd_0_l). Qed.
Lemma qsum_reindex n f (g : nat -> nat) :
  (forall i, i < n -> g i < n) ->
  (forall i j, i < n -> j < n -> g i = g j -> i = j) ->
  qsum n (fun i => f (g i)) = qsum n f.
Proof. apply (gsum_reindex Q0 qadd qadd_comm qadd_assoc). Qed.
Lemma qsum_shift n (f : Z -> quat) k :
  periodic n f -> qsum n (fun i => f (Z.of_nat i + k)%Z) = qsum n (fun i => f (Z.of_nat i)).
Proof. apply (psum_shift Q0 qadd qadd_comm qadd_assoc). Qed.
Lemma qsum_neg n (f : Z -> quat) :
  periodic n f -> qsum n (fun i => f (- Z.of_nat i)%Z) = qsum n (fun i => f (Z.of_nat i)).
Proof. apply (psum_opp Q0 qadd qadd_comm qadd_assoc). Qed.
Lemma qsum_map (h : quat -> quat) n f :
  h Q0 = Q0 -> (forall p q, h (qadd p q) = qadd (h p) (h q)) ->
  h (qsum n f) = qsum n (fun i => h (f i)).
Proof. intros H0 Ha. induction n; [auto|]. now rewrite !qsum_S, Ha, IHn. Qed.
Lemma qsum_mul_l n c f : qsum n (fun i => qmul c (f i)) = qmul c (qsum n f).
Proof. symmetry. apply (qsum_map (qmul c)); [apply qmul_0_r|]. intros; apply qmul_add_r. Qed.
Lemma qsum_mul_r n c f : qsum n (fun i => qmul (f i) c) = qmul (qsum n f) c.
Proof. symmetry. apply (qsum_map (fun x => qmul x c)); [apply qmul_0_l|]. intros; apply qmul_add_l. Qed.
Lemma qsum_conj n f : qconj (qsum n f) = qsum n (fun i => qconj (f i)).
Proof. apply qsum_map; [apply qconj_0|apply qconj_add]. Qed.
Lemma qsum_scale a n f : qscale a (qsum n f) = qsum n (fun i => qscale a (f i)).
Proof. apply qsum_map; [apply qscale_0_r|apply qscale_add]. Qed.
Lemma qsum_swap n m (f : nat -> nat -> quat) :
  qsum n (fun i => qsum m (fun j => f i j)) = qsum m (fun j => qsum n (fun i => f i j)).
Proof. apply (gsum_swap Q0 qadd qadd_comm qadd_assoc qadd_0_l). Qed.

Lemma qsum_fold_left {A} (g : A -> quat) l acc :
  fold_left (fun a x => qadd a (g x)) l acc = qadd acc (fold_right qadd Q0 (map g l)).
Proof.
  revert acc; induction l; intros; simpl; [now rewrite qadd_0_r|].
  rewrite IHl. now rewrite qadd_assoc.
Qed.

Lemma qsum_m_sum (f : nat -> option quat) (g : nat -> quat) n :
  (forall i, i < n -> f i = Some (g i)) ->
  fold_m (fun acc i => let* y := f i in Some (qadd acc y)) (range 0 n) Q0 = Some (qsum n g).
Proof.
  intros H. rewrite (fold_m_fold_left _ (fun a i => qadd a (g i))).
  - f_equal. rewrite qsum_fold_left, qadd_0_l, range_0. reflexivity.
  - intros a x Hx. apply in_range in Hx. rewrite H by lia. reflexivity.
Qed.

(* entries *)
Lemma qentry_nat l i : (i < length l)%nat -> qentry l (Z.of_nat i) = nth i l Q0.
Proof. intros; unfold qentry. now rewrite pos_of_nat. Qed.
Lemma qentry_periodic l : periodic (length l) (qentry l).
Proof. intros i j E. unfold qentry, pos. now rewrite E. Qed.
Lemma qentry_mod_nat l i : length l <> 0 -> qentry l (Z.of_nat i) = nth (i mod length l) l Q0.
Proof. intros. unfold qentry. now rewrite pos_nat_mod. Qed.

Lemma qmul_periodic n f g : periodic n f -> periodic n g -> periodic n (fun i => qmul (f i) (qconj (g i))).
Proof. intros Hf Hg i j E. now rewrite (Hf i j E), (Hg i j E). Qed.

Lemma qpaf_term l t : periodic (length l) (fun i => qmul (qentry l i) (qconj (qentry l (i + t)))).
Proof. apply (qmul_periodic _ (qentry l) (fun i => qentry l (i + t)%Z)).
  apply qentry_periodic. apply shift_periodic, qentry_periodic. Qed.

Lemma qpaf_opp l t : qpaf l (- t) = qconj (qpaf l t).
Proof.
  unfold qpaf. rewrite qsum_conj.
  rewrite <- (qsum_shift _ (fun i => qmul (qentry l i) (qconj (qentry l (i + - t)))) t (qpaf_term l (-t))).
  apply qsum_ext; intros. rewrite qconj_mul, qconj_conj. do 3 f_equal. lia.
Qed.

Lemma qpaf_mod l t : length l <> 0 -> qpaf l (t mod Z.of_nat (length l)) = qpaf l t.
Proof.
  intros H. unfold qpaf. apply qsum_ext; intros. f_equal. f_equal.
  apply qentry_periodic. rewrite Zplus_mod_idemp_r. reflexivity.
Qed.

Lemma qpaf_reflect l t : length l <> 0 -> qpaf l (Z.of_nat (length l) - t) = qconj (qpaf l t).
Proof.
  intros. rewrite <- qpaf_opp, <- (qpaf_mod l (-t)), <- qpaf_mod by auto. f_equal.
  replace (Z.of_nat (length l) - t)%Z with (- t + 1 * Z.of_nat (length l))%Z by lia.
  now rewrite Z.mod_add by lia.
Qed.

Lemma fold_m_ext {A B} (f g : A -> B -> option A) l a :
  (forall a i, In i l -> f a i = g a i) -> fold_m f l a = fold_m g l a.
Proof.
  revert a; induction l; simpl; intros; auto. rewrite H by auto. destruct (g a0 a); simpl; auto.
Qed.

Lemma QS_periodic_autocorrelation_spec q t : length (qs_values q) = qs_size q ->
  QS_periodic_autocorrelation q t = Some (qpaf (qs_values q) (Z.of_nat t)).
Proof.
  intros H. unfold QS_periodic_autocorrelation, qpaf. rewrite H.
  rewrite <- (qsum_m_sum (fun i => Some (qmul (qentry (qs_values q) (Z.of_nat i))
       (qconj (qentry (qs_values q) (Z.of_nat i + Z.of_nat t)))))); auto.
  apply fold_m_ext. intros a i Hi. apply in_range in Hi. simpl.
  rewrite <- H in *. rewrite (vget_nth _ i Q0) by lia.
  rewrite (vget_nth _ ((i+t) mod _) Q0) by (apply Nat.mod_upper_bound; lia). simpl.
  rewrite <- Nat2Z.inj_add, (qentry_mod_nat _ (i + t)), qentry_nat by lia. reflexivity.
Qed.

Lemma half_shifts (n : nat) (P : Z -> Prop) :
  2 <= n -> (forall t, (0 < t < Z.of_nat n)%Z -> P t -> P (Z.of_nat n - t)%Z) ->
  ((forall t, 1 <= t <= (n + 1) / 2 -> P (Z.of_nat t)) <-> (forall t, (0 < t < Z.of_nat n)%Z -> P t)).
Proof.
  intros Hn Hr.
  assert (2 * ((n + 1) / 2) <= n + 1 < 2 * ((n + 1) / 2) + 2).
  { pose proof (Nat.div_mod_eq (n + 1) 2). pose proof (Nat.mod_upper_bound (n + 1) 2). lia. }
  split; intros H1.
  - intros t Ht. destruct (Z_le_gt_dec (2 * t) (Z.of_nat n + 1)).
    + rewrite <- (Z2Nat.id t) by lia. apply H1. lia.
    + replace t with (Z.of_nat n - (Z.of_nat n - t))%Z by lia. apply Hr; [lia|].
      rewrite <- (Z2Nat.id (Z.of_nat n - t)) by lia. apply H1. lia.
  - intros t Ht. apply H1. lia.
Qed.

Lemma is_perfect_spec q : length (qs_values q) = qs_size q ->
  exists b, QS_is_perfect q = Some b /\ (b = true <-> perfect (qs_values q)).
Proof.
  intros H. unfold QS_is_perfect. destruct (Nat.eqb_spec (qs_size q) 1) as [E|E].
  - exists true. split; auto. split; auto. intros _ t Ht. lia.
  - rewrite (all_m_forallb _ (fun t => quat_eqb (qpaf (qs_values q) (Z.of_nat t)) Q0)).
    2:{ intros t _. now rewrite QS_periodic_autocorrelation_spec. }
    eexists; split; [reflexivity|]. rewrite forallb_range_incl_iff.
    destruct (Nat.eq_dec (qs_size q) 0) as [Z0|Z0].
    { rewrite Z0 in *. split; intros _ t Ht; [lia|]. change ((0 + 1) / 2) with 0 in Ht. lia. }
    unfold perfect. rewrite H.
    rewrite <- (half_shifts (qs_size q) (fun t => qpaf (qs_values q) t = Q0)); [|lia|].
    + split; intros K t Ht; specialize (K t Ht); now apply quat_eqb_eq.
    + intros t Ht E0. rewrite <- H at 1. rewrite qpaf_reflect, E0 by lia. apply qconj_0.
Qed.

(* odd autocorrelation *)
Lemma sign_even_S z : (if Z.even (z + 1) then 1%Qc else (-(1))%Qc) = (- (if Z.even z then 1 else - (1)))%Qc.
Proof. rewrite Z.even_add. change (Z.even 1) with false. destruct (Z.even z); simpl; ring. Qed.

Lemma odd_entry_shift l i : length l <> 0 ->
  odd_entry l (i + Z.of_nat (length l)) = qneg (odd_entry l i).
Proof.
  intros H. unfold odd_entry.
  replace (i + Z.of_nat (length l))%Z with (i + 1 * Z.of_nat (length l))%Z by lia.
  rewrite Z.div_add, sign_even_S by lia.
  rewrite (qentry_periodic l (i + 1 * Z.of_nat (length l))%Z i).
  - destruct (Z.even _); qring.
  - now rewrite Z.mod_add by lia.
Qed.

Lemma odd_mul_shift l i j : length l <> 0 ->
  qmul (odd_entry l (i + Z.of_nat (length l))) (qconj (odd_entry l (j + Z.of_nat (length l))))
  = qmul (odd_entry l i) (qconj (odd_entry l j)).
Proof. intros. rewrite !odd_entry_shift by auto. qring. Qed.

Lemma odd_term_periodic l t : length l <> 0 ->
  periodic (length l) (fun i => qmul (odd_entry l i) (qconj (odd_entry l (i + t)))).
Proof.
  intros H i j E.
  assert (forall (k : nat) i, qmul (odd_entry l (i + Z.of_nat k * Z.of_nat (length l)))
        (qconj (odd_entry l (i + Z.of_nat k * Z.of_nat (length l) + t))) = qmul (odd_entry l i) (qconj (odd_entry l (i + t)))) as K.
  { induction k; intros.
    - simpl. now rewrite Z.add_0_r.
    - rewrite <- (IHk i0). rewrite <- (odd_mul_shift l (i0 + Z.of_nat k * Z.of_nat (length l))) by auto.
      f_equal; [|f_equal]; f_equal; rewrite Nat2Z.inj_succ; ring. }
  pose proof (Z.div_mod i (Z.of_nat (length l)) ltac:(lia)).
  pose proof (Z.div_mod j (Z.of_nat (length l)) ltac:(lia)).
  set (n := Z.of_nat (length l)) in *.
  set (d := (i / n - j / n)%Z).
  assert (i = j + d * n)%Z as Ed by (unfold d; lia).
  destruct (Z_le_gt_dec 0 d).
  - rewrite <- (K (Z.to_nat d) j). fold n. rewrite Z2Nat.id by auto. rewrite Ed. reflexivity.
  - rewrite <- (K (Z.to_nat (-d)) i). fold n. rewrite Z2Nat.id by lia.
    replace j with (i + - d * n)%Z by lia. reflexivity.
Qed.

Lemma qpaf_odd_opp l t : length l <> 0 -> qpaf_odd l (- t) = qconj (qpaf_odd l t).
Proof.
  intros H. unfold qpaf_odd. rewrite qsum_conj.
  rewrite <- (qsum_shift _ (fun i => qmul (odd_entry l i) (qconj (odd_entry l (i + - t)))) t (odd_term_periodic l (-t) H)).
  apply qsum_ext; intros. rewrite qconj_mul, qconj_conj. do 3 f_equal. lia.
Qed.

Lemma qpaf_odd_reflect l t : length l <> 0 ->
  qpaf_odd l (Z.of_nat (length l) - t) = qneg (qconj (qpaf_odd l t)).
Proof.
  intros H. rewrite <- qpaf_odd_opp by auto. unfold qpaf_odd.
  rewrite (qneg_scale (qsum _ _)), qsum_scale. apply qsum_ext; intros.
  replace (Z.of_nat i + (Z.of_nat (length l) - t))%Z with (Z.of_nat i + - t + Z.of_nat (length l))%Z by lia.
  rewrite odd_entry_shift by auto. qring.
Qed.

Lemma odd_entry_nat l i : length l <> 0 ->
  odd_entry l (Z.of_nat i) = qscale (sign_pow (i / length l)) (nth (i mod length l) l Q0).
Proof.
  intros. unfold odd_entry, sign_pow. rewrite qentry_mod_nat by auto.
  rewrite <- Nat2Z.inj_div. f_equal.
  assert (forall k, Z.even (Z.of_nat k) = Nat.even k) as ->; auto.
  induction k using nat_ind; auto. rewrite Nat2Z.inj_succ, Z.even_succ, Nat.even_succ.
  rewrite <- Z.negb_even, <- Nat.negb_even. now rewrite IHk.
Qed.

Lemma QS_odd_periodic_autocorrelation_spec q t : length (qs_values q) = qs_size q ->
  QS_odd_periodic_autocorrelation q t = Some (qpaf_odd (qs_values q) (Z.of_nat t)).
Proof.
  intros H. unfold QS_odd_periodic_autocorrelation, qpaf_odd. rewrite H.
  rewrite <- (qsum_m_sum (fun i => Some (qmul (odd_entry (qs_values q) (Z.of_nat i))
       (qconj (odd_entry (qs_values q) (Z.of_nat i + Z.of_nat t)))))); auto.
  apply fold_m_ext. intros a i Hi. apply in_range in Hi. simpl.
  rewrite <- H in *. rewrite (vget_nth _ i Q0) by lia.
  rewrite (vget_nth _ ((i+t) mod _) Q0) by (apply Nat.mod_upper_bound; lia). simpl.
  do 2 f_equal. rewrite <- Nat2Z.inj_add, !odd_entry_nat by lia.
  rewrite (Nat.div_small i), (Nat.mod_small i) by lia.
  change (sign_pow 0) with 1%Qc.
  rewrite qscale_1, qscale_conj, <- qscale_mul_r. reflexivity.
Qed.

Lemma is_odd_perfect_spec q : length (qs_values q) = qs_size q ->
  exists b, QS_is_odd_perfect q = Some b /\ (b = true <-> odd_perfect (qs_values q)).
Proof.
  intros H. unfold QS_is_odd_perfect. destruct (Nat.eqb_spec (qs_size q) 1) as [E|E].
  - exists true. split; auto. split; auto. intros _ t Ht. lia.
  - rewrite (all_m_forallb _ (fun t => quat_eqb (qpaf_odd (qs_values q) (Z.of_nat t)) Q0)).
    2:{ intros t _. now rewrite QS_odd_periodic_autocorrelation_spec. }
    eexists; split; [reflexivity|]. rewrite forallb_range_incl_iff.
    destruct (Nat.eq_dec (qs_size q) 0) as [Z0|Z0].
    { rewrite Z0 in *. split; intros _ t Ht; [lia|]. change ((0 + 1) / 2) with 0 in Ht. lia. }
    unfold odd_perfect. rewrite H.
    rewrite <- (half_shifts (qs_size q) (fun t => qpaf_odd (qs_values q) t = Q0)); [|lia|].
    + split; intros K t Ht; specialize (K t Ht); now apply quat_eqb_eq.
    + intros t Ht E0. rewrite <- H at 1. rewrite qpaf_odd_reflect, E0 by lia. qring.
Qed.
