(* The elementary transformations preserve the sequence types. *)
From Coq Require Import List ZArith Lia Arith Bool Permutation Relations Znumtheory.
From Verif Require Import Base BaseFacts Sums Quat ModelSequence ModelWilliamson ModelEquivalence
  Spec SpecEquiv SeqFacts OpFacts EquivFacts QtWt.
Import ListNotations.
Open Scope Z_scope.

(* ---- entries at arbitrary integers ---- *)

Lemma entry_nil j : entry [] j = 0.
Proof. unfold entry. now apply nth_overflow, Nat.le_0_l. Qed.

Lemma entry_rot l k j : entry (lact (Rot k) l) j = entry l (j + Z.of_nat k).
Proof.
  destruct (len0 l) as [->|H]; [now rewrite ?lact_nil, ?entry_nil|].
  rewrite entry_lact by auto. cbn [sneg lneg lidx]. apply entry_periodic. now rewrite Zplus_mod_idemp_l.
Qed.

Lemma entry_dil l k j : entry (lact (Dil k) l) j = entry l (j * Z.of_nat k).
Proof.
  destruct (len0 l) as [->|H]; [now rewrite ?lact_nil, ?entry_nil|].
  rewrite entry_lact by auto. cbn [sneg lneg lidx]. apply entry_periodic. rewrite Z.mul_mod_idemp_l; lia.
Qed.

Lemma entry_rev l j : entry (lact Rev l) j = entry l (- 1 - j).
Proof.
  destruct (len0 l) as [->|H]; [now rewrite ?lact_nil, ?entry_nil|].
  rewrite entry_lact by auto. cbn [sneg lneg lidx]. apply entry_periodic.
  replace (Z.of_nat (length l) - 1 - j mod Z.of_nat (length l))
    with ((- 1 - j mod Z.of_nat (length l)) + 1 * Z.of_nat (length l)) by lia.
  rewrite Z.mod_add by lia. now rewrite Zminus_mod_idemp_r.
Qed.

Lemma neg8_pm x : x = 1 \/ x = -1 -> neg8 x = - x.
Proof. intros [-> | ->]; reflexivity. Qed.

Lemma entry_pm l j : pm1 l -> length l <> 0%nat -> entry l j = 1 \/ entry l j = -1.
Proof. intros H Hl. apply entry_pm1; auto. destruct l; cbn in *; congruence. Qed.

Lemma entry_neg l j : pm1 l -> entry (lact Neg l) j = - entry l j.
Proof.
  intros Hp. destruct (len0 l) as [->|H]; [now rewrite ?lact_nil, ?entry_nil|].
  rewrite entry_lact by auto. cbn [sneg lneg lidx]. rewrite entry_mod. now apply neg8_pm, entry_pm.
Qed.

Definition par (j : Z) : Z := if Z.odd j then -1 else 1.

Lemma par_sq j : par j * par j = 1.
Proof. unfold par. destruct (Z.odd j); reflexivity. Qed.
Lemma par_add i j : par (i + j) = par i * par j.
Proof. unfold par. rewrite Z.odd_add. destruct (Z.odd i), (Z.odd j); reflexivity. Qed.
Lemma par_opp j : par (- j) = par j.
Proof. unfold par. now rewrite Z.odd_opp. Qed.
Lemma par_pm j : par j = 1 \/ par j = -1.
Proof. unfold par. destruct (Z.odd j); auto. Qed.

Lemma odd_mod_even n j : Nat.even n = true -> Z.odd (j mod Z.of_nat n) = Z.odd j.
Proof.
  intros H. destruct (Nat.eq_dec n 0) as [->|Hn]; [now rewrite Zmod_0_r|].
  apply Nat.even_spec in H as [k Hk].
  rewrite (Z.div_mod j (Z.of_nat n)) at 2 by lia.
  rewrite Z.odd_add, Z.odd_mul.
  replace (Z.odd (Z.of_nat n)) with false by (rewrite Hk, Nat2Z.inj_mul, Z.odd_mul; reflexivity).
  now rewrite andb_false_l, xorb_false_l.
Qed.

Lemma entry_alt l j : pm1 l -> Nat.even (length l) = true -> entry (lact Alt l) j = par j * entry l j.
Proof.
  intros Hp He. destruct (len0 l) as [->|H].
  { rewrite lact_nil, entry_nil. lia. }
  rewrite entry_lact by auto. cbn [lneg lidx]. rewrite entry_mod, odd_mod_even by auto.
  unfold par, sneg. destruct (Z.odd j); [rewrite neg8_pm by (now apply entry_pm)|]; lia.
Qed.

Lemma lact_pm1 f l : pm1 l -> pm1 (lact f l).
Proof.
  intros H. destruct (len0 l) as [->|Hn]; [exact H|]. unfold pm1. apply Forall_forall. intros x Hx.
  apply in_map_iff in Hx as (i & <- & _). pose proof (entry_pm l (lidx f (length l) (Z.of_nat i)) H Hn) as E.
  unfold sneg. destruct (lneg f (Z.of_nat i)); auto. rewrite neg8_pm by auto. lia.
Qed.

(* ---- correlations ---- *)

Section Corr.
  Variables (n : nat) (x y : list Z).
  Hypotheses (Hx : length x = n) (Hy : length y = n).

  Lemma ccf_rot_l k t : ccf (lact (Rot k) x) y t = ccf x y (t + Z.of_nat k).
  Proof.
    unfold ccf. rewrite lact_length, Hx.
    rewrite <- (sumZ_shift n (fun i => entry x i * entry y (i - (t + Z.of_nat k))) (Z.of_nat k)).
    - apply sumZ_ext. intros i _. rewrite entry_rot. f_equal. f_equal. lia.
    - now apply ccf_term_periodic.
  Qed.

  Lemma ccf_rot_r k t : ccf x (lact (Rot k) y) t = ccf x y (t - Z.of_nat k).
  Proof.
    unfold ccf. apply sumZ_ext. intros i _. rewrite entry_rot. f_equal. f_equal. lia.
  Qed.

  Lemma ccf_dil k t : Z.gcd (Z.of_nat k) (Z.of_nat n) = 1 ->
    ccf (lact (Dil k) x) (lact (Dil k) y) t = ccf x y (t * Z.of_nat k).
  Proof.
    intros Hk. unfold ccf. rewrite lact_length, Hx.
    rewrite <- (sumZ_mulk n (fun i => entry x i * entry y (i - t * Z.of_nat k)) (Z.of_nat k)); auto.
    - apply sumZ_ext. intros i _. rewrite !entry_dil. f_equal. f_equal. lia.
    - now apply ccf_term_periodic.
  Qed.

  Lemma ccf_rev t : ccf (lact Rev x) (lact Rev y) t = ccf y x t.
  Proof.
    rewrite <- (ccf_opp x y t) by congruence. unfold ccf. rewrite lact_length, Hx.
    rewrite <- (sumZ_neg n (fun i => entry x i * entry y (i - - t))) by now apply ccf_term_periodic.
    rewrite <- (sumZ_shift n (fun i => entry x (- i) * entry y (- i - - t)) 1).
    - apply sumZ_ext. intros i _. rewrite !entry_rev. f_equal; f_equal; lia.
    - intros i j E. apply (ccf_term_periodic n x y (- t)); auto. now apply mod_opp_cong.
  Qed.

  Lemma ccf_neg_l t : pm1 x -> ccf (lact Neg x) y t = - ccf x y t.
  Proof.
    intros Hp. unfold ccf. rewrite lact_length, <- sumZ_opp. apply sumZ_ext. intros i _.
    rewrite entry_neg by auto. lia.
  Qed.

  Lemma ccf_neg_r t : pm1 y -> ccf x (lact Neg y) t = - ccf x y t.
  Proof.
    intros Hp. unfold ccf. rewrite <- sumZ_opp. apply sumZ_ext. intros i _.
    rewrite entry_neg by auto. lia.
  Qed.

  Lemma ccf_alt t : pm1 x -> pm1 y -> Nat.even n = true ->
    ccf (lact Alt x) (lact Alt y) t = par t * ccf x y t.
  Proof.
    intros Px Py He. unfold ccf. rewrite lact_length, <- sumZ_mul_l. apply sumZ_ext. intros i _.
    rewrite !entry_alt by congruence. unfold Z.sub. rewrite par_add, par_opp.
    destruct (par_pm (Z.of_nat i)) as [-> | ->]; ring.
  Qed.
End Corr.

(* ---- the types, slot by slot ---- *)

Definition csum (q : QuadSeq) (t : Z) : Z :=
  paf (slot q TW) t + paf (slot q TX) t + paf (slot q TY) t + paf (slot q TZ) t.

Lemma csum_mod n q t : wf n q -> csum q (t mod Z.of_nat n) = csum q t.
Proof.
  intros Hw. apply wf_slots in Hw as [_ Hw]. unfold csum.
  assert (forall s, paf (slot q s) (t mod Z.of_nat n) = paf (slot q s) t) as E
    by (intros s; rewrite <- (Hw s); apply paf_mod).
  now rewrite !E.
Qed.

Lemma complementary_iff n q : wf n q -> (1 <= n)%nat ->
  (complementary q <-> forall t, t mod Z.of_nat n <> 0 -> csum q t = 0).
Proof.
  intros Hw Hn. unfold complementary. rewrite (proj1 Hw). split.
  - intros H t Ht. rewrite <- (csum_mod n) by auto. apply H.
    pose proof (Z.mod_pos_bound t (Z.of_nat n)). lia.
  - intros H t Ht. apply H. rewrite Z.mod_small; lia.
Qed.

Lemma amicable_sym x y : amicable x y -> amicable y x.
Proof. intros H t. symmetry. apply H. Qed.
Lemma amicable_refl x : amicable x x.
Proof. intros t. reflexivity. Qed.

Lemma is_WT_iff q : is_WT q <-> complementary q /\ forall s t, amicable (slot q s) (slot q t).
Proof.
  unfold is_WT. split.
  - intros (H0 & H1 & H2 & H3 & H4 & H5 & H6). split; auto.
    intros [] []; cbn; auto using amicable_refl, amicable_sym.
  - intros (H0 & H). split; auto.
    repeat split; [apply (H TW TX)|apply (H TW TY)|apply (H TW TZ)|apply (H TX TY)|apply (H TX TZ)|apply (H TY TZ)].
Qed.

Lemma is_W_iff q : is_W q <-> complementary q /\ forall t, symmetric (slot q t).
Proof.
  unfold is_W. split.
  - intros (H0 & H1 & H2 & H3 & H4). split; auto. intros []; auto.
  - intros (H0 & H). split; auto. repeat split; [apply (H TW)|apply (H TX)|apply (H TY)|apply (H TZ)].
Qed.

Lemma pm_slots n q : pm_quad n q <-> wf n q /\ forall t, pm1 (slot q t).
Proof.
  unfold pm_quad. split.
  - intros (H & Ha & Hb & Hc & Hd). split; auto. intros []; auto.
  - intros [H Hq]. split; auto. repeat split; [apply (Hq TW)|apply (Hq TX)|apply (Hq TY)|apply (Hq TZ)].
Qed.

Lemma pm_i8 n q : pm_quad n q -> i8_quad n q.
Proof.
  rewrite pm_slots, i8_slots. intros [H Hq]. split; auto. intros t. specialize (Hq t).
  eapply Forall_impl; [|apply Hq]. unfold i8. cbn. intros a [-> | ->]; lia.
Qed.

Lemma gact_pm n g q : pm_quad n q -> pm_quad n (gact g q).
Proof.
  rewrite !pm_slots. intros [H Hq]. split; [now apply gact_wf|]. intros t. rewrite gact_slot.
  destruct g; try destruct (tag_eq t t0); auto using lact_pm1.
Qed.

Lemma wact_pm n w q : pm_quad n q -> pm_quad n (wact w q).
Proof. revert q; induction w; cbn; intros; auto. apply IHw. now apply gact_pm. Qed.

(* the transformations that preserve Williamson-type sequences *)
Definition good_lop (n : nat) (f : lop) : Prop :=
  match f with Rot _ | Rev | Neg => True | Dil k => Nat.gcd n k = 1%nat | Alt => Nat.even n = true end.
Definition good (n : nat) (g : gen) : Prop :=
  match g with
  | All f => good_lop n f
  | At _ Neg => True
  | At _ (Rot k) => ((2 * k) mod n = 0)%nat
  | At _ _ => False
  | Ex _ _ => True
  end.

Lemma gcd_ZZ n k : Nat.gcd n k = 1%nat -> Z.gcd (Z.of_nat k) (Z.of_nat n) = 1.
Proof.
  intros Hg. rewrite Z.gcd_comm. apply Z.gcd_unique; try lia; try apply Z.divide_1_l.
  intros d Hd1 Hd2.
  assert (Nat.divide (Z.abs_nat d) (Nat.gcd n k)) as [x Hx].
  { apply Nat.gcd_greatest.
    - destruct Hd1 as [x Hx]. exists (Z.abs_nat x). apply Nat2Z.inj.
      rewrite Nat2Z.inj_mul, !Zabs2Nat.id_abs, <- Z.abs_mul, <- Hx. lia.
    - destruct Hd2 as [x Hx]. exists (Z.abs_nat x). apply Nat2Z.inj.
      rewrite Nat2Z.inj_mul, !Zabs2Nat.id_abs, <- Z.abs_mul, <- Hx. lia. }
  rewrite Hg in Hx. apply Z.divide_abs_l. exists (Z.of_nat x). rewrite <- Zabs2Nat.id_abs; lia.
Qed.

Lemma coprime_mul_mod n k t : Z.gcd k n = 1 -> n <> 0 -> t mod n <> 0 -> (t * k) mod n <> 0.
Proof.
  intros Hg Hn Ht H. apply Ht. apply Z.mod_divide; auto. apply Z.mod_divide in H; auto.
  apply Gauss with k; [now rewrite Z.mul_comm|]. apply rel_prime_sym. now apply Zgcd_1_rel_prime.
Qed.

Lemma opp_mod_nz n t : n <> 0 -> t mod n <> 0 -> (- t) mod n <> 0.
Proof.
  intros Hn Ht H. apply Ht. apply Z.mod_divide; auto. apply Z.mod_divide in H; auto.
  now apply Z.divide_opp_r in H; rewrite ?Z.opp_involutive in H.
Qed.

Lemma ccf_same n (x y : list Z) s t : length x = n -> length y = n ->
  s mod Z.of_nat n = t mod Z.of_nat n -> ccf x y s = ccf x y t.
Proof.
  intros Hx Hy E. rewrite <- (ccf_mod x y s), <- (ccf_mod x y t) by congruence. now rewrite Hx, E.
Qed.

Lemma half_cong n k t : n <> 0%nat -> ((2 * k) mod n = 0)%nat ->
  (t + Z.of_nat k) mod Z.of_nat n = (t - Z.of_nat k) mod Z.of_nat n.
Proof.
  intros Hn H. replace (t + Z.of_nat k) with (t - Z.of_nat k + Z.of_nat (2 * k)) by lia.
  rewrite <- Zplus_mod_idemp_r, <- Nat2Z.inj_mod, H. now rewrite Z.add_0_r.
Qed.

Lemma good_complementary n g q : pm_quad n q -> (1 <= n)%nat -> good n g ->
  complementary q -> complementary (gact g q).
Proof.
  intros Hp Hn Hg Hc. pose proof (gact_pm n g q Hp) as Hp'.
  rewrite complementary_iff in * by (apply Hp || apply Hp' || auto).
  apply pm_slots in Hp as [Hw Hp]. apply wf_slots in Hw as [_ Hw].
  intros t Ht. assert ((- t) mod Z.of_nat n <> 0) as Ht' by (apply opp_mod_nz; lia).
  unfold csum in *. rewrite !gact_slot, !paf_ccf.
  assert (forall s, s mod Z.of_nat n <> 0 ->
    ccf (slot q TW) (slot q TW) s + ccf (slot q TX) (slot q TX) s +
    ccf (slot q TY) (slot q TY) s + ccf (slot q TZ) (slot q TZ) s = 0) as H.
  { intros s Hs. specialize (Hc (- s)). rewrite !paf_ccf, !Z.opp_involutive in Hc.
    apply Hc. now apply opp_mod_nz; lia || auto. }
  destruct g as [f|u f|u v].
  - destruct f; cbn in Hg.
    + rewrite !(ccf_rot_l n) by (rewrite ?lact_length; auto). rewrite !(ccf_rot_r n) by (rewrite ?lact_length; auto).
      replace (- t + Z.of_nat k - Z.of_nat k) with (- t) by lia. now apply H.
    + apply gcd_ZZ in Hg. rewrite !(ccf_dil n) by auto. apply H. apply coprime_mul_mod; lia || auto.
    + rewrite !(ccf_alt n) by auto. rewrite <- !Z.mul_add_distr_l, H by auto. lia.
    + rewrite !(ccf_rev n) by auto. now apply H.
    + rewrite !(ccf_neg_l n), !(ccf_neg_r n) by (rewrite ?lact_length; auto). rewrite !Z.opp_involutive. now apply H.
  - destruct f; cbn in Hg; try tauto.
    + rewrite <- (H (- t)) by auto.
      assert (forall s, ccf (lact (Rot k) (slot q s)) (lact (Rot k) (slot q s)) (- t) =
                        ccf (slot q s) (slot q s) (- t)) as E.
      { intros s. rewrite (ccf_rot_l n) by (rewrite ?lact_length; auto). rewrite (ccf_rot_r n) by (rewrite ?lact_length; auto).
        f_equal. lia. }
      destruct u; cbn [tag_eq]; rewrite E; reflexivity.
    + rewrite <- (H (- t)) by auto.
      assert (forall s, ccf (lact Neg (slot q s)) (lact Neg (slot q s)) (- t) =
                        ccf (slot q s) (slot q s) (- t)) as E.
      { intros s. rewrite (ccf_neg_l n), (ccf_neg_r n) by (rewrite ?lact_length; auto). lia. }
      destruct u; cbn [tag_eq]; rewrite E; reflexivity.
  - specialize (H (- t) Ht'). destruct u, v; cbn [exchange tag_eq]; cbn [slot] in *; lia.
Qed.

Lemma good_WT n g q : pm_quad n q -> (1 <= n)%nat -> good n g -> is_WT q -> is_WT (gact g q).
Proof.
  rewrite !is_WT_iff. intros Hp Hn Hg [Hc Ha]. split; [now apply (good_complementary n)|].
  apply pm_slots in Hp as [Hw Hp]. apply wf_slots in Hw as [_ Hw].
  intros s t r. rewrite !gact_slot. destruct g as [f|u f|u v].
  - destruct f; cbn in Hg.
    + rewrite !(ccf_rot_l n) by (rewrite ?lact_length; auto). rewrite !(ccf_rot_r n) by (rewrite ?lact_length; auto). apply Ha.
    + apply gcd_ZZ in Hg. rewrite !(ccf_dil n) by auto. apply Ha.
    + rewrite !(ccf_alt n) by auto. f_equal. apply Ha.
    + rewrite !(ccf_rev n) by auto. apply Ha.
    + rewrite !(ccf_neg_l n), !(ccf_neg_r n) by (rewrite ?lact_length; auto). rewrite !Z.opp_involutive. apply Ha.
  - destruct f; cbn in Hg; try tauto.
    + destruct (tag_eq s u) eqn:E1, (tag_eq t u) eqn:E2; try apply Ha.
      * apply tag_eq_eq in E1, E2. now subst.
      * rewrite (ccf_rot_l n), (ccf_rot_r n) by (rewrite ?lact_length; auto). rewrite (Ha s t).
        apply (ccf_same n); auto. apply half_cong; auto; lia.
      * rewrite (ccf_rot_l n), (ccf_rot_r n) by (rewrite ?lact_length; auto). rewrite (Ha s t).
        apply (ccf_same n); auto. symmetry. apply half_cong; auto; lia.
    + destruct (tag_eq s u), (tag_eq t u); rewrite ?(ccf_neg_l n), ?(ccf_neg_r n) by (rewrite ?lact_length; auto); rewrite (Ha s t r); reflexivity.
  - apply Ha.
Qed.

Lemma good_QT n g q : pm_quad n q -> (1 <= n)%nat -> good n g -> is_QT q -> is_QT (gact g q).
Proof.
  intros Hp Hn Hg H. apply (QT_iff_WT n); auto using gact_pm. apply (good_WT n); auto.
  now apply (QT_iff_WT n).
Qed.

Definition good_sym (n : nat) (g : gen) : Prop :=
  match g with
  | All (Rot k) => ((2 * k) mod n = 0)%nat
  | All Rev => False
  | _ => good n g
  end.

Lemma good_sym_good n g : good_sym n g -> good n g.
Proof. destruct g as [[]|t []|]; cbn; auto. Qed.

Lemma good_W n g q : pm_quad n q -> (1 <= n)%nat -> good_sym n g -> is_W q -> is_W (gact g q).
Proof.
  rewrite !is_W_iff. intros Hp Hn Hg [Hc Ha]. split; [apply (good_complementary n); auto using good_sym_good|].
  apply pm_slots in Hp as [Hw Hp]. apply wf_slots in Hw as [_ Hw].
  assert (forall s k, ((2 * k) mod n = 0)%nat -> symmetric (lact (Rot k) (slot q s))) as Hrot.
  { intros s k Hk i. rewrite !entry_rot, <- Ha. apply entry_periodic. rewrite Hw.
    replace (- (- i + Z.of_nat k)) with (i - Z.of_nat k) by lia. symmetry. apply half_cong; auto; lia. }
  assert (forall s, symmetric (lact Neg (slot q s))) as Hneg.
  { intros s i. rewrite !entry_neg by auto. now rewrite Ha. }
  intros s. rewrite !gact_slot. destruct g as [f|u f|u v].
  - destruct f; cbn in Hg; try tauto; auto.
    + intros i. rewrite !entry_dil. rewrite <- Ha. f_equal. lia.
    + intros i. rewrite !entry_alt by (auto; now rewrite Hw). rewrite par_opp. now rewrite Ha.
  - destruct (tag_eq s u); auto. destruct f; cbn in Hg; try tauto; auto.
  - apply Ha.
Qed.

(* the generators of the listed operations are good *)
Definition alt_free (n : nat) (o : Op) : Prop := o = AlternatedNegation -> Nat.even n = true.

Lemma good_op n o w : alt_free n o -> In w (variants o n) -> Forall (good n) w.
Proof.
  intros Ha Hw. destruct o; cbn [variants] in Hw.
  - apply in_map_iff in Hw as ([[s t] u] & <- & H). repeat constructor.
  - apply in_map_iff in Hw as ([s t] & <- & H). repeat constructor.
  - apply in_map_iff in Hw as ([[s t] [s' t']] & <- & H). repeat constructor.
  - destruct (Nat.even n) eqn:E; [|now destruct Hw].
    apply in_map_iff in Hw as (t & <- & H). constructor; [|constructor]. cbn. now apply half_twice.
  - apply in_map_iff in Hw as (t & <- & H). repeat constructor.
  - destruct (Nat.even n) eqn:E; [|now destruct Hw].
    destruct Hw as [<-|Hw]; [repeat constructor|].
    apply in_map_iff in Hw as ([s t] & <- & H).
    constructor; [|constructor; [|constructor]]; cbn; now apply half_twice.
  - destruct (Nat.even n) eqn:E; [|now destruct Hw].
    apply in_map_iff in Hw as (t & <- & H). constructor; [|constructor]. cbn. now apply half_twice.
  - destruct Hw as [<-|[]]. repeat constructor.
  - apply in_map_iff in Hw as (t & <- & H). repeat constructor.
  - apply in_map_iff in Hw as ([s t] & <- & H). repeat constructor.
  - destruct Hw as [<-|[]]. constructor; [|constructor]. cbn. now apply Ha.
  - destruct (Nat.even n) eqn:E; [|now destruct Hw].
    destruct Hw as [<-|[]]. constructor; [|constructor]. exact E.
  - apply in_map_iff in Hw as (k & <- & H). apply filter_In in H as [_ H].
    constructor; [|constructor]. cbn. now apply Nat.eqb_eq.
  - destruct Hw as [<-|[<-|[<-|[]]]]; repeat constructor.
Qed.

Lemma good_sym_op n o w : In o (type_ops Williamson) -> In w (variants o n) -> Forall (good_sym n) w.
Proof.
  intros Ho Hw. cbn in Ho. destruct Ho as [<-|[<-|[<-|[<-|[<-|[]]]]]]; cbn [variants] in Hw.
  - apply in_map_iff in Hw as (t & <- & H). repeat constructor.
  - apply in_map_iff in Hw as ([s t] & <- & H). repeat constructor.
  - destruct (Nat.even n) eqn:E; [|now destruct Hw].
    destruct Hw as [<-|[]]. constructor; [|constructor]. exact E.
  - apply in_map_iff in Hw as (k & <- & H). apply filter_In in H as [_ H].
    constructor; [|constructor]. cbn. now apply Nat.eqb_eq.
  - destruct (Nat.even n) eqn:E; [|now destruct Hw].
    apply in_map_iff in Hw as (t & <- & H). constructor; [|constructor]. cbn. now apply half_twice.
Qed.

Lemma word_preserves (P : QuadSeq -> Prop) (good : gen -> Prop) n w q :
  (forall g q, pm_quad n q -> good g -> P q -> P (gact g q)) ->
  pm_quad n q -> Forall good w -> P q -> P (wact w q).
Proof.
  intros H. revert q. induction w as [|g w IH]; intros q Hp Hw HP; auto.
  inversion Hw; subst. cbn. apply IH; auto using gact_pm.
Qed.

Lemma variant_type n t o x y : pm_quad n x -> (1 <= n)%nat -> In o (type_ops t) ->
  variant o x y -> is_type t x -> pm_quad n y /\ is_type t y.
Proof.
  intros Hp Hn Ho Hv Ht. pose proof (proj1 (proj1 Hp)) as Hs.
  destruct Hv as [->|(w & Hw & ->)]; auto. split; [now apply wact_pm|]. rewrite Hs in Hw.
  destruct t; cbn [is_type] in *; try (now destruct Ho).
  - apply (word_preserves is_W (good_sym n) n); eauto using good_W, good_sym_op.
  - apply (word_preserves is_WT (good n) n); eauto using good_WT. apply (good_op n o); auto.
    intros ->. cbn in Ho. intuition discriminate.
  - apply (word_preserves is_QT (good n) n); eauto using good_QT. apply (good_op n o); auto.
    intros ->. cbn in Ho. intuition discriminate.
Qed.

Lemma reach_type n t x y : pm_quad n x -> (1 <= n)%nat -> reach (type_ops t) x y ->
  is_type t x -> pm_quad n y /\ is_type t y.
Proof.
  intros Hp Hn H Ht. apply clos_rt_rtn1 in H. induction H as [|y z (o & Ho & Hv) _ [IH1 IH2]]; auto.
  eapply variant_type; eauto.
Qed.
