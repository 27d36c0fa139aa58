(* The sums of a quadruple that its class determines. *)
From Coq Require Import List ZArith Lia Arith Bool Permutation Relations Znumtheory Sorted.
From Verif Require Import Base BaseFacts Sums Quat ModelSequence ModelWilliamson ModelEquivalence
  SpecEquiv SeqFacts OpFacts EquivFacts QtWt TypeFacts SpecRowsum RowsumFacts CanonFacts SpecSums Spec.
Import ListNotations.
Open Scope Z_scope.

Lemma alternating_sum l : alternating l = sumZ (length l) (fun i => par (Z.of_nat i) * entry l (Z.of_nat i)).
Proof.
  assert (H : forall m, alternating m = sumZ (length m) (fun i => par (Z.of_nat i) * nth i m 0)).
  { induction m as [|x m IH]; [reflexivity|]. cbn [alternating length]. rewrite IH.
    assert (E : forall k f, sumZ (S k) f = f 0%nat + sumZ k (fun i => f (S i))).
    { intros k f. unfold sumZ. cbn [seq map fold_right]. f_equal. now rewrite <- seq_shift, map_map. }
    rewrite E. cbn [nth]. change (par (Z.of_nat 0)) with 1. 
    assert (E2 : forall k f g, (forall i, (i < k)%nat -> f i = - g i) -> sumZ k f = - sumZ k g).
    { induction k as [|k IHk]; intros f g Hfg; [reflexivity|]. rewrite !sumZ_S, (IHk f g) by (intros; apply Hfg; lia). rewrite (Hfg k) by lia. lia. }
    rewrite (E2 _ (fun i => par (Z.of_nat (S i)) * nth i m 0) (fun i => par (Z.of_nat i) * nth i m 0)); [lia|].
    intros i _. replace (Z.of_nat (S i)) with (Z.of_nat i + 1) by lia. rewrite par_add. change (par 1) with (-1). lia. }
  rewrite H. apply sumZ_ext. intros i Hi. now rewrite entry_nat.
Qed.
Lemma entry_per l : periodic (length l) (fun j => entry l j).
Proof. intros i j E. now apply entry_periodic. Qed.
Lemma par_per n : Nat.even n = true -> periodic n par.
Proof. intros H i j E. unfold par. rewrite <- (odd_mod_even n i H), E. now rewrite odd_mod_even. Qed.
Lemma signed_per l : Nat.even (length l) = true -> periodic (length l) (fun j => par j * entry l j).
Proof. intros H i j E. f_equal; [now apply (par_per (length l))|now apply entry_per]. Qed.
Lemma sum_shift n (f : Z -> Z) k : periodic n f -> sumZ n (fun i => f (Z.of_nat i + k)) = sumZ n (fun i => f (Z.of_nat i)).
Proof. rewrite !sumZ_gsum. apply psum_shift; intros; lia. Qed.
Lemma sum_mul n (f : Z -> Z) k : periodic n f -> Z.gcd k (Z.of_nat n) = 1 -> sumZ n (fun i => f (Z.of_nat i * k)) = sumZ n (fun i => f (Z.of_nat i)).
Proof. rewrite !sumZ_gsum. apply psum_mul; intros; lia. Qed.
Lemma sum_opp n (f : Z -> Z) : periodic n f -> sumZ n (fun i => f (- Z.of_nat i)) = sumZ n (fun i => f (Z.of_nat i)).
Proof. rewrite !sumZ_gsum. apply psum_opp; intros; lia. Qed.
Lemma sum_scale n c (f : nat -> Z) : sumZ n (fun i => c * f i) = c * sumZ n f.
Proof. induction n as [|n IH]; [unfold sumZ; cbn; lia|]. rewrite !sumZ_S, IH. lia. Qed.

(* ---- one sequence ---- *)
Lemma total_rot l k : total (lact (Rot k) l) = total l.
Proof. rewrite !total_sum, lact_length. rewrite <- (sum_shift _ _ (Z.of_nat k) (entry_per l)). apply sumZ_ext. intros i _. apply entry_rot. Qed.
Lemma total_dil l k : Nat.gcd (length l) k = 1%nat -> total (lact (Dil k) l) = total l.
Proof. intros H. rewrite !total_sum, lact_length. rewrite <- (sum_mul _ _ (Z.of_nat k) (entry_per l)) by now apply gcd_ZZ. apply sumZ_ext. intros i _. apply entry_dil. Qed.
Lemma total_rev l : total (lact Rev l) = total l.
Proof.
  rewrite !total_sum, lact_length. rewrite <- (sum_shift _ _ (-1) (entry_per l)).
  rewrite <- (sum_opp _ (fun j => entry l (j + -1))).
  - apply sumZ_ext. intros i _. rewrite entry_rev. f_equal. lia.
  - intros i j E. apply entry_periodic. rewrite <- (Zplus_mod_idemp_l i), <- (Zplus_mod_idemp_l j). now rewrite E.
Qed.
Lemma total_alt l : pm1 l -> Nat.even (length l) = true -> total (lact Alt l) = alternating l.
Proof. intros P H. rewrite total_sum, alternating_sum, lact_length. apply sumZ_ext. intros i _. now apply entry_alt. Qed.
Lemma alternating_alt l : pm1 l -> Nat.even (length l) = true -> alternating (lact Alt l) = total l.
Proof.
  intros P H. rewrite total_sum, alternating_sum, lact_length. apply sumZ_ext. intros i _. rewrite entry_alt by auto.
  rewrite Z.mul_assoc, par_sq. lia.
Qed.
Lemma alternating_neg l : pm1 l -> alternating (lact Neg l) = - alternating l.
Proof.
  intros P. rewrite !alternating_sum, lact_length. replace (- sumZ (length l) _) with (-1 * sumZ (length l) (fun i => par (Z.of_nat i) * entry l (Z.of_nat i))) by lia.
  rewrite <- sum_scale. apply sumZ_ext. intros i _. rewrite entry_neg by auto. lia.
Qed.
Lemma alternating_rot l k : Nat.even (length l) = true -> alternating (lact (Rot k) l) = par (Z.of_nat k) * alternating l.
Proof.
  intros H. rewrite !alternating_sum, lact_length. rewrite <- (sum_shift _ _ (Z.of_nat k) (signed_per l H)), <- sum_scale. apply sumZ_ext. intros i _.
  rewrite entry_rot, par_add. destruct (par_pm (Z.of_nat k)) as [-> | ->]; lia.
Qed.
Lemma odd_coprime n k : Nat.even n = true -> Nat.gcd n k = 1%nat -> Z.odd (Z.of_nat k) = true.
Proof.
  intros H G. destruct (Z.odd (Z.of_nat k)) eqn:E; auto. exfalso. apply Nat.even_spec in H as [a Ha].
  assert (D : Nat.divide 2 (Nat.gcd n k)).
  { apply Nat.gcd_greatest; [exists a; lia|]. rewrite <- Z.negb_even in E. apply negb_false_iff in E. apply Z.even_spec in E as [b Hb]. exists (Z.to_nat b). lia. }
  rewrite G in D. destruct D as [c Hc]. lia.
Qed.
Lemma alternating_dil l k : Nat.even (length l) = true -> Nat.gcd (length l) k = 1%nat -> alternating (lact (Dil k) l) = alternating l.
Proof.
  intros H G. rewrite !alternating_sum, lact_length. rewrite <- (sum_mul _ _ (Z.of_nat k) (signed_per l H)) by now apply gcd_ZZ. apply sumZ_ext. intros i _.
  rewrite entry_dil. f_equal. unfold par. rewrite Z.odd_mul, (odd_coprime _ _ H G). now rewrite andb_true_r.
Qed.
Lemma alternating_rev l : Nat.even (length l) = true -> alternating (lact Rev l) = - alternating l.
Proof.
  intros H. rewrite !alternating_sum, lact_length. rewrite <- (sum_shift _ _ (-1) (signed_per l H)).
  rewrite <- (sum_opp _ (fun j => par (j + -1) * entry l (j + -1))).
  - replace (- sumZ (length l) _) with (-1 * sumZ (length l) (fun i => par (- Z.of_nat i + -1) * entry l (- Z.of_nat i + -1))) by lia.
    rewrite <- sum_scale. apply sumZ_ext. intros i _. rewrite entry_rev, par_add, par_opp. change (par (-1)) with (-1).
    replace (- Z.of_nat i + -1) with (-1 - Z.of_nat i) by lia. lia.
  - intros i j E. apply (signed_per l H). rewrite <- (Zplus_mod_idemp_l i), <- (Zplus_mod_idemp_l j). now rewrite E.
Qed.

(* ---- a quadruple ---- *)
Lemma four_slots q : four q = [slot q TW; slot q TX; slot q TY; slot q TZ]. Proof. reflexivity. Qed.
Lemma tags_ex s t : Permutation (map (exchange s t) all_tags) all_tags.
Proof.
  apply NoDup_Permutation.
  - destruct s, t; cbn; repeat constructor; cbn; intuition discriminate.
  - repeat constructor; cbn; intuition discriminate.
  - intros u. split; [intros _; destruct u; cbn; tauto|]. intros _. destruct s, t, u; cbn; tauto.
Qed.
Lemma four_ex s t q : Permutation (four (gact (Ex s t) q)) (four q).
Proof.
  rewrite !four_slots. rewrite !gact_slot. change [slot q TW; slot q TX; slot q TY; slot q TZ] with (map (slot q) all_tags).
  change [slot q (exchange s t TW); slot q (exchange s t TX); slot q (exchange s t TY); slot q (exchange s t TZ)] with (map (slot q) (map (exchange s t) all_tags)).
  apply Permutation_map, tags_ex.
Qed.

(* a function of one sequence that the transformations do not change *)
Lemma four_same {A} (h : list Z -> A) n g q : pm_quad n q -> (forall s t, g <> Ex s t) ->
  (forall f l, length l = n -> pm1 l -> (g = All f \/ exists t, g = At t f) -> h (lact f l) = h l) -> map h (four (gact g q)) = map h (four q).
Proof.
  intros Hp Ng H. apply pm_slots in Hp as [Hw Hp]. apply wf_slots in Hw as [_ Hw]. rewrite !four_slots, !gact_slot. cbn [map].
  destruct g as [f|u f|s t]; [| |now destruct (Ng s t)].
  - rewrite !H by auto. reflexivity.
  - assert (K : forall t, h (if tag_eq t u then lact f (slot q t) else slot q t) = h (slot q t)) by (intros t; destruct (tag_eq t u); auto; apply H; eauto).
    now rewrite !K.
Qed.
Lemma step_odd n g q : pm_quad n q -> Nat.even n = false -> good n g -> Permutation (sum_sizes (gact g q)) (sum_sizes q).
Proof.
  intros Hp Hn Hg. unfold sum_sizes. destruct g as [f|u f|s t]; [| |apply Permutation_map, four_ex].
  - rewrite (four_same _ n); [reflexivity|auto|discriminate|]. intros f' l L P [E|(t & E)]; [|discriminate]. injection E as <-. subst n.
    destruct f; cbn in Hg; [now rewrite total_rot|now rewrite total_dil|congruence|now rewrite total_rev|rewrite total_neg by auto; apply Z.abs_opp].
  - rewrite (four_same _ n); [reflexivity|auto|discriminate|]. intros f' l L P [E|(t & E)]; [discriminate|]. injection E as <- <-. subst n.
    destruct f; cbn in Hg; try tauto; [now rewrite total_rot|rewrite total_neg by auto; apply Z.abs_opp].
Qed.
Lemma abs_par k z : Z.abs (par k * z) = Z.abs z.
Proof. destruct (par_pm k) as [-> | ->]; lia. Qed.
Lemma step_even n g q : pm_quad n q -> Nat.even n = true -> good n g ->
  Permutation (both_sizes (gact g q)) (both_sizes q) \/ Permutation (both_sizes (gact g q)) (map flipped (both_sizes q)).
Proof.
  intros Hp Hn Hg. unfold both_sizes. destruct g as [f|u f|s t]; [| |left; apply Permutation_map, four_ex].
  - destruct f.
    3:{ right. rewrite map_map. cbn [flipped fst snd]. apply pm_slots in Hp as [Hw Hp]. apply wf_slots in Hw as [_ Hw]. rewrite !four_slots, !gact_slot. cbn [map].
        rewrite !total_alt, !alternating_alt by (auto; rewrite Hw; auto). reflexivity. }
    all: left; (rewrite (four_same _ n); [reflexivity|auto|discriminate|]); intros f' l L P [E|(t & E)]; [|discriminate]; injection E as <-; subst n; cbn in Hg.
    + now rewrite total_rot, alternating_rot, abs_par.
    + now rewrite total_dil, alternating_dil.
    + rewrite total_rev, alternating_rev by auto. now rewrite Z.abs_opp.
    + rewrite total_neg, alternating_neg by auto. now rewrite !Z.abs_opp.
  - left. rewrite (four_same _ n); [reflexivity|auto|discriminate|]. intros f' l L P [E|(t & E)]; [discriminate|]. injection E as <- <-. subst n.
    destruct f; cbn in Hg; try tauto; [now rewrite total_rot, alternating_rot, abs_par|rewrite total_neg, alternating_neg by auto; now rewrite !Z.abs_opp].
Qed.

(* ---- a class ---- *)
Lemma class_step (R : QuadSeq -> QuadSeq -> Prop) n t x y : (forall q, R q q) -> (forall a b c, R a b -> R b c -> R a c) ->
  (forall g q, pm_quad n q -> good n g -> R q (gact g q)) -> pm_quad n x -> reach (type_ops t) x y -> R x y.
Proof.
  intros Rr Rt Rs Hp H. revert Hp. induction H as [x y (o & Ho & Hv)|x|x y z H1 IH1 H2 IH2]; intros Hp; auto.
  - destruct Hv as [->|(w & Hw & ->)]; auto. rewrite (proj1 (proj1 Hp)) in Hw.
    assert (G : Forall (good n) w). { apply (good_op n o); auto. intros ->. destruct t; cbn in Ho; intuition discriminate. }
    clear Hw. revert x Hp. induction G as [|g w Hg G IH]; intros x Hp; [apply Rr|]. cbn. apply (Rt _ (gact g x)); auto. apply IH. now apply gact_pm.
  - apply (Rt _ y); auto. apply IH2. now apply (CanonFacts.reach_pm n (type_ops t) x).
Qed.
Theorem sums_odd n t q q' : Nat.Odd n -> pm_quad n q -> reach (type_ops t) q q' -> Permutation (sum_sizes q') (sum_sizes q).
Proof.
  intros Hn Hp R. refine (class_step (fun a b => Permutation (sum_sizes b) (sum_sizes a)) n t q q' _ _ _ Hp R).
  - reflexivity.
  - intros a b c H1 H2. now transitivity (sum_sizes b).
  - intros g q0 H0 Hg. apply (step_odd n); auto. rewrite <- Nat.negb_odd. apply Nat.odd_spec in Hn. now rewrite Hn.
Qed.
Lemma flipped_twice l : map flipped (map flipped l) = l.
Proof. rewrite map_map. rewrite <- (map_id l) at 2. apply map_ext. now intros []. Qed.
Theorem sums_even n t q q' : Nat.Even n -> pm_quad n q -> reach (type_ops t) q q' ->
  Permutation (both_sizes q') (both_sizes q) \/ Permutation (both_sizes q') (map flipped (both_sizes q)).
Proof.
  intros Hn Hp R. refine (class_step (fun a b => Permutation (both_sizes b) (both_sizes a) \/ Permutation (both_sizes b) (map flipped (both_sizes a))) n t q q' _ _ _ Hp R).
  - now left.
  - intros a b c H1 H2. assert (F := fun l l' => @Permutation_map _ _ flipped l l').
    destruct H1 as [H1|H1], H2 as [H2|H2].
    + left. now rewrite H2.
    + right. rewrite H2. now apply F.
    + right. now rewrite H2.
    + left. rewrite H2. apply F in H1. now rewrite flipped_twice in H1.
  - intros g q0 H0 Hg. apply (step_even n); auto. now apply Nat.even_spec.
Qed.

(* ---- normal row sums ---- *)
Lemma sorted_perm l : forall l', Permutation l l' -> StronglySorted Z.le l -> StronglySorted Z.le l' -> l = l'.
Proof.
  induction l as [|a l IH]; intros [|b l'] P S S'; auto; [now apply Permutation_nil in P|symmetry in P; now apply Permutation_nil in P|].
  apply StronglySorted_inv in S as [S F]. apply StronglySorted_inv in S' as [S' F']. rewrite Forall_forall in F, F'.
  assert (a = b).
  { assert (I : In a (b :: l')) by (apply (Permutation_in _ P); now left). assert (I' : In b (a :: l)) by (apply (Permutation_in _ (Permutation_sym P)); now left).
    destruct I as [I|I]; [congruence|]. destruct I' as [I'|I']; [congruence|]. specialize (F b I'). specialize (F' a I). lia. }
  subst b. f_equal. apply IH; auto. now apply Permutation_cons_inv in P.
Qed.
Definition van (a b c d : Z) : Z := (b - a) * (c - a) * (d - a) * (c - b) * (d - b) * (d - c).
Definition orientation (r : Z * Z * Z * Z) : Z := let '(a, b, c, d) := r in a * b * c * d * van (a * a) (b * b) (c * c) (d * d).
Lemma totals_rs q : totals q = (rs q TW, rs q TX, rs q TY, rs q TZ). Proof. reflexivity. Qed.
Lemma orientation_swap n q s t u : pm_quad n q -> In (s, t) all_pairs -> orientation (totals (wact [At u Neg; Ex s t] q)) = orientation (totals q).
Proof.
  intros Hp I. cbn [wact fold_left]. rewrite !totals_rs. rewrite !rs_ex, !(rs_neg n) by auto.
  cbn in I. destruct I as [I|[I|[I|[I|[I|[I|[]]]]]]]; injection I as <- <-; destruct u; cbn [exchange tag_eq];
    generalize (rs q TW), (rs q TX), (rs q TY), (rs q TZ); intros a b c d; unfold orientation; rewrite ?Z.mul_opp_opp; generalize (a * a), (b * b), (c * c), (d * d); intros A B C D;
    assert (V1 : van B A C D = - van A B C D) by (unfold van; ring); assert (V2 : van C B A D = - van A B C D) by (unfold van; ring);
    assert (V3 : van D B C A = - van A B C D) by (unfold van; ring); assert (V4 : van A C B D = - van A B C D) by (unfold van; ring);
    assert (V5 : van A D C B = - van A B C D) by (unfold van; ring); assert (V6 : van A B D C = - van A B C D) by (unfold van; ring);
    rewrite ?V1, ?V2, ?V3, ?V4, ?V5, ?V6; ring.
Qed.
Lemma totals_all n f q : pm_quad n q -> (forall l, length l = n -> total (lact f l) = total l) -> totals (gact (All f) q) = totals q.
Proof.
  intros Hp H. apply pm_slots in Hp as [Hw _]. apply wf_slots in Hw as [_ Hw]. rewrite !totals_rs. unfold rs. rewrite !gact_slot. now rewrite !H by auto.
Qed.
Lemma orientation_class n q q' : Nat.Odd n -> pm_quad n q -> reach (type_ops QuaternionType) q q' -> orientation (totals q') = orientation (totals q).
Proof.
  intros Hn Hp H. assert (Ev : Nat.even n = false) by (rewrite <- Nat.negb_odd; apply Nat.odd_spec in Hn; now rewrite Hn).
  revert Hp. induction H as [x y (o & Ho & Hv)|x|x y z H1 IH1 H2 IH2]; intros Hp; auto.
  - destruct Hv as [->|(w & Hw & ->)]; auto. rewrite (proj1 (proj1 Hp)) in Hw. cbn in Ho.
    destruct Ho as [<-|[<-|[<-|[<-|[<-|[]]]]]]; cbn [variants] in Hw; rewrite ?Ev in Hw; try now destruct Hw.
    + apply in_map_iff in Hw as (k & <- & _). cbn [wact fold_left]. rewrite (totals_all n); auto. intros. apply total_rot.
    + apply in_map_iff in Hw as (k & <- & Hk). apply filter_In in Hk as [_ Hk]. apply Nat.eqb_eq in Hk. cbn [wact fold_left]. rewrite (totals_all n); auto. intros l <-. now apply total_dil.
    + apply in_map_iff in Hw as ([[s t] u] & <- & Hi). apply in_prod_iff in Hi as [Hi _]. now apply (orientation_swap n).
  - rewrite IH2, IH1; auto. now apply (CanonFacts.reach_pm n (type_ops QuaternionType) x).
Qed.
Lemma sq_ne u v : 0 < u -> u < Z.abs v -> v * v - u * u <> 0.
Proof.
  intros H H'. rewrite <- (Z.abs_square v). replace (Z.abs v * Z.abs v - u * u) with ((Z.abs v - u) * (Z.abs v + u)) by ring.
  intros X. apply Z.eq_mul_0 in X. lia.
Qed.
Theorem normal_unique n t q q' : Nat.Odd n -> pm_quad n q -> reach (type_ops t) q q' -> normal_rowsums t (totals q) -> normal_rowsums t (totals q') ->
  totals q' = totals q.
Proof.
  intros Hn Hp R N N'. assert (P := sums_odd n t q q' Hn Hp R). assert (O : t = QuaternionType -> orientation (totals q') = orientation (totals q)) by (intros ->; now apply (orientation_class n)).
  unfold sum_sizes, four in P. cbn [map] in P. unfold totals in *. unfold normal_rowsums in *.
  destruct N as (N1 & N2 & N3), N' as (N1' & N2' & N3').
  assert (S : forall a b c d, 0 <= a <= b -> b <= c <= Z.abs d -> StronglySorted Z.le [Z.abs a; Z.abs b; Z.abs c; Z.abs d]).
  { intros a b c d H1 H2. repeat constructor; lia. }
  assert (E := sorted_perm _ _ P (S _ _ _ _ N1' N2') (S _ _ _ _ N1 N2)). injection E as E1 E2 E3 E4.
  revert N1 N2 N3 N1' N2' N3' E1 E2 E3 E4 O. generalize (total (q_a q)), (total (q_b q)), (total (q_c q)), (total (q_d q)), (total (q_a q')), (total (q_b q')), (total (q_c q')), (total (q_d q')).
  clear. intros a b c d a' b' c' d' N1 N2 N3 N1' N2' N3' E1 E2 E3 E4 O. assert (a' = a) by lia. assert (b' = b) by lia. assert (c' = c) by lia. subst a' b' c'.
  destruct (Z.eq_dec d' d) as [->|Nd]; auto. exfalso. assert (d' = - d) by lia. subst d'.
  assert (X : t = QuaternionType /\ 0 < a < b /\ b < c < Z.abs d) by (destruct (Z.lt_trichotomy d 0) as [H|[H|H]]; [destruct (N3 H) as (? & ? & ?)|lia|destruct (N3' ltac:(lia)) as (? & ? & ?)]; repeat split; auto; lia).
  destruct X as (Ht & H1 & H2). specialize (O Ht). unfold orientation in O.
  assert (Z0 : a * b * c * d * van (a * a) (b * b) (c * c) (d * d) = 0).
  { rewrite Z.mul_opp_opp in O. rewrite !Z.mul_opp_r, !Z.mul_opp_l in O. lia. }
  unfold van in Z0.
  apply Z.eq_mul_0 in Z0. rewrite !Z.eq_mul_0 in Z0. assert (Q := sq_ne).
  repeat (destruct Z0 as [Z0|Z0]; [|]); try lia; revert Z0; apply Q; lia.
Qed.
