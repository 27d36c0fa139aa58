(* ns_canonical returns the least element of the negate-swap orbit. *)
From Coq Require Import List ZArith Lia Arith Bool Btauto Permutation Relations Sorted.
From Verif Require Import Base BaseFacts Sums Quat ModelSequence ModelWilliamson Spec SeqFacts
  ModelEquivalence SpecEquiv OpFacts EquivFacts TypeFacts OrderFacts CanonFacts.
Import ListNotations.
Open Scope Z_scope.

Notation NS := [NegateSwap].

(* ---- the sign of a quadruple ---- *)
Definition lexb (l m : list Z) : bool := match seq_less_than l m with Some b => b | None => false end.
Definition isneg (l : list Z) : bool := negb (hd 0 l =? -1).

Lemma lexb_spec l m : length l = length m -> (lexb l m = true <-> lex l m).
Proof. intros H. unfold lexb. destruct (seq_less_than_spec l m H) as (b & -> & Hb). exact Hb. Qed.
Lemma lexb_anti l m : length l = length m -> l <> m -> lexb m l = negb (lexb l m).
Proof.
  intros H Hne. pose proof (lexb_spec l m H). pose proof (lexb_spec m l (eq_sym H)).
  pose proof (lex_total l m H). pose proof (lex_asym l m).
  destruct (lexb l m), (lexb m l); cbn; intuition congruence.
Qed.

Definition sgn4 (a b c d : list Z) : bool :=
  xorb (xorb (xorb (lexb (norm b) (norm a)) (xorb (lexb (norm c) (norm a)) (lexb (norm d) (norm a))))
       (xorb (lexb (norm c) (norm b)) (xorb (lexb (norm d) (norm b)) (lexb (norm d) (norm c)))))
       (xorb (xorb (isneg a) (isneg b)) (xorb (isneg c) (isneg d))).
Definition sgn (q : QuadSeq) : bool := sgn4 (q_a q) (q_b q) (q_c q) (q_d q).

Lemma isneg_negated l : pm1 l -> (1 <= length l)%nat -> isneg (negated l) = negb (isneg l).
Proof.
  intros H Hl. destruct l as [|x l]; [cbn in Hl; lia|]. inversion H; subst.
  destruct H2 as [->| ->]; reflexivity.
Qed.

Lemma sgn_neg n t q : pm_quad n q -> (1 <= n)%nat -> sgn (gact (At t Neg) q) = negb (sgn q).
Proof.
  intros Hq Hn. assert (forall u, slot (gact (At t Neg) q) u = if tag_eq u t then negated (slot q u) else slot q u) as H.
  { intros u. rewrite gact_slot. destruct (tag_eq u t); auto. now rewrite <- negated_lact. }
  pose proof (pm_slot n q TW Hq) as [A A']; pose proof (pm_slot n q TX Hq) as [B B'];
  pose proof (pm_slot n q TY Hq) as [C C']; pose proof (pm_slot n q TZ Hq) as [D D'].
  pose proof (H TW) as H1; pose proof (H TX) as H2; pose proof (H TY) as H3; pose proof (H TZ) as H4.
  cbn [slot] in *. unfold sgn. rewrite H1, H2, H3, H4. unfold sgn4.
  destruct t; cbn [tag_eq].
  - rewrite norm_negated, isneg_negated by (auto; lia). btauto.
  - rewrite norm_negated, isneg_negated by (auto; lia). btauto.
  - rewrite norm_negated, isneg_negated by (auto; lia). btauto.
  - rewrite norm_negated, isneg_negated by (auto; lia). btauto.
Qed.

Lemma sgn_ex n s t q : pm_quad n q -> In (s, t) all_pairs -> NoDup (map norm (sl q)) ->
  sgn (gact (Ex s t) q) = negb (sgn q).
Proof.
  intros Hq Hp Hd. destruct q as [k a b c d]. destruct Hq as ((Hs & A & B & C & D) & _). cbn in Hs, A, B, C, D.
  unfold sl in Hd. cbn [map q_a q_b q_c q_d] in Hd.
  assert (norm a <> norm b /\ norm a <> norm c /\ norm a <> norm d /\ norm b <> norm c /\ norm b <> norm d /\
          norm c <> norm d) as (N1 & N2 & N3 & N4 & N5 & N6).
  { inversion Hd as [|? ? X1 Hd1]; subst. inversion Hd1 as [|? ? X2 Hd2]; subst.
    inversion Hd2 as [|? ? X3 _]; subst. cbn in *. intuition congruence. }
  assert (length (norm a) = length (norm b) /\ length (norm a) = length (norm c) /\ length (norm a) = length (norm d) /\
    length (norm b) = length (norm c) /\ length (norm b) = length (norm d) /\ length (norm c) = length (norm d))
    as (M1 & M2 & M3 & M4 & M5 & M6) by (rewrite !norm_length; repeat split; congruence).
  pose proof (lexb_anti _ _ M1 N1) as E1; pose proof (lexb_anti _ _ M2 N2) as E2;
  pose proof (lexb_anti _ _ M3 N3) as E3; pose proof (lexb_anti _ _ M4 N4) as E4;
  pose proof (lexb_anti _ _ M5 N5) as E5; pose proof (lexb_anti _ _ M6 N6) as E6.
  unfold sgn, sgn4, gact, of_slots.
  cbn in Hp. repeat (destruct Hp as [Hp|Hp]; [injection Hp as <- <-; cbn [q_a q_b q_c q_d slot exchange tag_eq];
    rewrite ?E1, ?E2, ?E3, ?E4, ?E5, ?E6; btauto|]). destruct Hp.
Qed.

Lemma sgn_reach n x y : pm_quad n x -> (1 <= n)%nat -> NoDup (map norm (sl x)) ->
  reach NS x y -> sgn y = sgn x.
Proof.
  intros Hx Hn Hd H. apply clos_rt_rtn1 in H.
  induction H as [|y z (o & Hin & Hv) H IH]; auto.
  apply clos_rtn1_rt in H. pose proof (reach_pm n _ x y Hx H) as Hy.
  rewrite <- IH. destruct Hv as [->|(w & Hw & ->)]; auto.
  assert (NoDup (map norm (sl y))) as Hd'.
  { eapply Permutation_NoDup; [|apply Hd]. apply Permutation_sym. eapply (norms_reach n); eauto.
    cbn; intuition auto. }
  destruct Hin as [<-|[]]. cbn [variants] in Hw. apply in_map_iff in Hw as ([[s t] u] & <- & Hst).
  apply in_prod_iff in Hst as [Hst _]. cbn [wact fold_left].
  rewrite (sgn_ex n), (sgn_neg n), negb_involutive; auto using gact_pm.
  rewrite (slot_neg_norm n) by auto. exact Hd'.
Qed.

(* ---- the first loop ---- *)
Definition poscount (q : QuadSeq) : nat :=
  length (filter (fun l => isneg l) (sl q)).

Lemma ns_find_spec n c l : pm_quad n c -> (1 <= n)%nat ->
  (ns_find c l = Some None /\ forall t, In t l -> starts_neg (slot c t)) \/
  (exists t, ns_find c l = Some (Some t) /\ In t l /\ isneg (slot c t) = true).
Proof.
  intros Hc Hn. induction l as [|t l IH]; cbn [ns_find].
  - left. split; auto. intros t [].
  - destruct (first_entry n c t Hc Hn) as (x & r & E & -> & Hx). cbn [bind].
    destruct Hx as [->| ->]; cbn [negb Z.eqb Pos.eqb].
    + right. exists t. split; auto. split; [now left|]. now rewrite E.
    + destruct IH as [[IH1 IH2]|(u & IH1 & IH2 & IH3)].
      * left. split; auto. intros u [<-|Hu]; auto. rewrite E. now exists r.
      * right. exists u. split; auto. split; [now right|auto].
Qed.

Lemma poscount_step n c t : pm_quad n c -> (1 <= n)%nat -> isneg (slot c t) = true ->
  poscount c = S (poscount (gact (Ex TW TX) (gact (At t Neg) c))).
Proof.
  intros Hc Hn H.
  assert (isneg (negated (slot c t)) = false) as H'.
  { destruct (pm_slot n c t Hc). rewrite isneg_negated by (auto; lia). now rewrite H. }
  rewrite negated_lact in H'. unfold poscount, sl, gact, of_slots. destruct c as [k a b c d].
  destruct t; cbn [slot exchange tag_eq q_a q_b q_c q_d] in *; cbn [filter]; rewrite H, H';
    repeat match goal with |- context [if isneg ?x then _ else _] => destruct (isneg x) end; reflexivity.
Qed.

Lemma ns_loop n c fuel : pm_quad n c -> (1 <= n)%nat -> (poscount c < fuel)%nat ->
  exists c', loop fuel ns_step c = Some (Some c') /\ reach NS c c' /\ forall t, starts_neg (slot c' t).
Proof.
  revert c. induction fuel as [|fuel IH]; intros c Hc Hn Hf; [lia|]. cbn [loop].
  unfold ns_step at 1. destruct (ns_find_spec n c tags Hc Hn) as [[-> H]|(t & -> & Ht & H)]; cbn [bind].
  - exists c. split; auto. split; [apply rt_refl|]. intros t. apply H. apply in_tags.
  - rewrite (sequence_slot c t), negated_lact, set_sequence_at, swap_couple by (cbn; tauto). cbn [bind].
    pose proof (poscount_step n c t Hc Hn H) as Hp.
    destruct (IH (gact (Ex TW TX) (gact (At t Neg) c))) as (c' & -> & R & HS); auto using gact_pm; [lia|].
    exists c'. split; auto. split; auto. eapply rt_trans; [|apply R]. apply reach_ns; cbn; tauto.
Qed.

Lemma filter_len {A} (f : A -> bool) l : (length (filter f l) <= length l)%nat.
Proof. induction l as [|x l IH]; cbn; auto. destruct (f x); cbn; lia. Qed.

Lemma starts_isneg l : starts_neg l -> isneg l = false.
Proof. intros (r & ->). reflexivity. Qed.

Lemma has_dup_spec c : has_duplicate_seq c = true <->
  exists s t, In (s, t) all_pairs /\ slot c s = slot c t.
Proof.
  unfold has_duplicate_seq. rewrite !orb_true_iff, !list_eqb_eq. split.
  - intros [[[[[H|H]|H]|H]|H]|H].
    + exists TW, TX; cbn; auto. + exists TW, TY; cbn; auto. + exists TW, TZ; cbn; auto.
    + exists TX, TY; cbn; auto 7. + exists TX, TZ; cbn; auto 7. + exists TY, TZ; cbn; auto 9.
  - intros (s & t & Hp & H). cbn in Hp.
    repeat (destruct Hp as [Hp|Hp]; [injection Hp as <- <-; cbn in H; tauto|]). destruct Hp.
Qed.

Lemma xor_cancel p a b c x y :
  xorb p (xorb (xorb a b) (xorb c x)) = xorb p (xorb (xorb a b) (xorb c y)) -> x = y.
Proof. destruct p, a, b, c, x, y; cbn; auto. Qed.

Lemma ns_spec n q : pm_quad n q -> (1 <= n)%nat ->
  exists c, ns_canonical q = Some c /\ least (reach NS q) c.
Proof.
  intros Hq Hn. unfold ns_canonical, run.
  destruct (ns_loop n q 5 Hq Hn) as (c0 & -> & R0 & S0).
  { unfold poscount. pose proof (filter_len (fun l => isneg l) (sl q)). cbn [sl length] in H. lia. }
  cbn [bind]. pose proof (reach_pm n _ q c0 Hq R0) as P0.
  pose proof (pm_i8 n c0 P0) as I0.
  destruct (sort1 n c0 (proj1 P0)) as (m & -> & Hm & L1). cbn [bind].
  assert (exists c1, (if negb (tag_eqb m TW) then let* c := swap c0 TW m in swap c TY TZ else Some c0) = Some c1 /\
    reach NS c0 c1 /\ Permutation (sl c1) (sl c0) /\ (forall u, lexle (slot c1 TW) (slot c1 u)) /\
    forall u, starts_neg (slot c1 u)) as (c1 & -> & R1 & Q1 & L1' & S1).
  { destruct Hm as [->|Hm].
    - exists c0. split; auto. split; [apply rt_refl|]. split; auto.
    - rewrite tag_eqb_neq by (destruct m; cbn in Hm; intuition congruence). cbn [negb].
      rewrite swap_couple by auto. cbn [bind]. rewrite swap_couple by (cbn; tauto). eexists; split; auto.
      split; [apply (reach_ns_even n); auto; cbn; tauto|].
      split; [eapply perm_trans; apply slot_ex_perm|].
      split; intros u; rewrite !gact_slot; [|apply S0].
      replace (exchange TW m (exchange TY TZ TW)) with m by now destruct m. apply L1. }
  cbn [bind]. pose proof (reach_pm n _ c0 c1 P0 R1) as P1. pose proof (pm_i8 n c1 P1) as I1.
  destruct (sort2 n c1 (proj1 P1)) as (m2 & -> & Hm2 & L2). cbn [bind].
  assert (exists c2, (if negb (tag_eqb m2 TX) then let* c := swap c1 TX m2 in swap c TY TZ else Some c1) = Some c2 /\
    reach NS c1 c2 /\ Permutation (sl c2) (sl c1) /\
    (forall u, lexle (slot c2 TW) (slot c2 u)) /\ (forall u, u <> TW -> lexle (slot c2 TX) (slot c2 u)) /\
    forall u, starts_neg (slot c2 u)) as (c2 & -> & R2 & Q2 & L1'' & L2' & S2).
  { destruct (tag_eq m2 TX) eqn:E.
    - apply tag_eq_eq in E. subst m2. exists c1. cbn. split; auto. split; [apply rt_refl|]. split; auto.
    - assert (In (TX, m2) all_pairs) as Hp by (destruct m2; cbn in *; intuition congruence).
      rewrite tag_eqb_neq by (destruct m2; cbn in E; congruence). cbn [negb].
      rewrite swap_couple by auto. cbn [bind]. rewrite swap_couple by (cbn; tauto). eexists; split; auto.
      split; [apply (reach_ns_even n); auto; cbn; tauto|].
      split; [eapply perm_trans; apply slot_ex_perm|].
      split; [|split]; intros u; rewrite !gact_slot; auto.
      + replace (exchange TX m2 (exchange TY TZ TW)) with TW by (destruct m2; cbn in *; intuition congruence). apply L1'.
      + replace (exchange TX m2 (exchange TY TZ TX)) with m2 by (destruct m2; cbn in *; intuition congruence).
        intros Hu. apply L2. destruct m2, u; cbn in *; intuition congruence. }
  cbn [bind]. pose proof (reach_pm n _ c1 c2 P1 R2) as P2. pose proof (pm_i8 n c2 P2) as I2.
  pose proof (proj1 P2) as (_ & ZA & ZB & ZC & ZD).
  pose proof (L1'' TX) as A1; pose proof (L1'' TY) as A2; pose proof (L1'' TZ) as A3.
  pose proof (L2' TY ltac:(discriminate)) as B1; pose proof (L2' TZ ltac:(discriminate)) as B2.
  pose proof (S2 TW) as N1; pose proof (S2 TX) as N2; pose proof (S2 TY) as N3; pose proof (S2 TZ) as N4.
  cbn [slot] in A1, A2, A3, B1, B2, N1, N2, N3, N4.
  assert (reach NS q c2) as R.
  { eapply rt_trans; [apply R0|]. eapply rt_trans; [apply R1|apply R2]. }
  (* what remains to be shown about the final value *)
  assert (forall c, reach NS q c -> starts_neg (q_a c) -> starts_neg (q_b c) -> starts_neg (q_c c) ->
            StronglySorted lexle [q_a c; q_b c; q_c c; norm (q_d c)] ->
            starts_neg (q_d c) \/ NoDup (map norm (sl c)) -> least (reach NS q) c) as FIN.
  { intros c Rc Na Nb Nc HS Hd. pose proof (reach_pm n _ q c Hq Rc) as Pc. split; auto.
    intros y Hy. pose proof (reach_pm n _ q y Hq Hy) as Py.
    assert (Permutation (map norm (sl y)) (map norm (sl c))) as HP.
    { apply Permutation_trans with (map norm (sl q)).
      - eapply (norms_reach n); eauto. cbn; intuition auto.
      - apply Permutation_sym. eapply (norms_reach n); eauto. cbn; intuition auto. }
    destruct (quad_min n c y Pc Py Hn HP) as [H|(E1 & E2 & E3 & E4)]; auto; [now right|].
    destruct (pm_slot n y TZ Py) as [Hyp Hyl]. destruct (pm_slot n c TZ Pc) as [Hcp Hcl]. cbn [slot] in *.
    assert (lexle (q_d c) (q_d y)) as [E|L].
    { destruct Hd as [Nd|Hd].
      - rewrite (norm_neg (q_d c)) in E4 by auto. rewrite <- E4. apply norm_le; auto. lia.
      - assert (reach NS c y) as Rcy.
        { eapply rt_trans; [|apply Hy]. eapply reach_sym; [|apply Rc]. eapply pm_i8; eauto. }
        pose proof (sgn_reach n c y Pc Hn Hd Rcy) as Es.
        unfold sgn, sgn4 in Es. rewrite E1, E2, E3, E4 in Es.
        assert (isneg (q_d y) = isneg (q_d c)) as Ei.
        { eapply xor_cancel. exact Es. }
        left. destruct (norm_cases (q_d c) Hcp) as [[X1 X2]|(X1 & X2 & X3 & _)]; [lia| |];
          destruct (norm_cases (q_d y) Hyp) as [[Y1 Y2]|(Y1 & Y2 & Y3 & _)]; try lia.
        + congruence.
        + exfalso. unfold isneg in Ei. destruct X1 as (r & X1). rewrite X1, Y2 in Ei. discriminate.
        + exfalso. unfold isneg in Ei. destruct Y1 as (r & Y1). rewrite Y1, X2 in Ei. discriminate.
        + rewrite <- (negated_invol (q_d c)), <- (negated_invol (q_d y)) by auto. congruence. }
    - left. apply quad_ext; [pose proof (proj1 (proj1 Pc)); pose proof (proj1 (proj1 Py)); congruence|].
      intros []; cbn; congruence.
    - right. unfold quad_lt. rewrite !flat_concat, E1, E2, E3. apply lex_app; auto. }
  destruct (seq_less_than_spec (q_d c2) (q_c c2)) as (b & -> & Hb); [congruence|]. cbn [bind].
  destruct b.
  - assert (lex (q_d c2) (q_c c2)) as Hdc by (now apply Hb).
    change (q_c c2) with (sequence c2 TY). rewrite (sequence_slot c2 TY), negated_lact, set_sequence_at.
    rewrite swap_couple by (cbn; tauto). cbn [bind].
    assert (forall u, slot (gact (Ex TY TZ) (gact (At TY Neg) c2)) u =
      match u with TW => q_a c2 | TX => q_b c2 | TY => q_d c2 | TZ => negated (q_c c2) end) as Hs3.
    { intros u. rewrite !gact_slot. rewrite negated_lact. destruct u; reflexivity. }
    assert (reach NS q (gact (Ex TY TZ) (gact (At TY Neg) c2))) as R3.
    { eapply rt_trans; [apply R|]. apply reach_ns; cbn; tauto. }
    set (c3 := gact (Ex TY TZ) (gact (At TY Neg) c2)) in *.
    pose proof (Hs3 TW) as W3; pose proof (Hs3 TX) as X3; pose proof (Hs3 TY) as Y3; pose proof (Hs3 TZ) as Z3.
    cbn [slot] in W3, X3, Y3, Z3.
    pose proof (reach_pm n _ q c3 Hq R3) as P3. pose proof (pm_i8 n c3 P3) as I3.
    assert (pm1 (q_c c2)) as Pc2 by apply P2.
    assert (norm (negated (q_c c2)) = q_c c2) as NZ.
    { rewrite norm_negated by (auto; lia). now apply norm_neg. }
    assert (hd 0 (q_d c3) = 1) as HZ.
    { rewrite Z3. destruct N3 as (r & ->). reflexivity. }
    assert (exists r, q_d c3 = 1 :: r) as (rz & EZ).
    { destruct (q_d c3) as [|x r]; cbn in HZ; [lia|subst; eauto]. }
    assert (vget (q_d c3) 0 = Some 1) as EV by now rewrite EZ.
    rewrite EV. cbn [bind Z.eqb Pos.eqb andb].
    destruct (has_duplicate_seq c3) eqn:Ed.
    + apply has_dup_spec in Ed as (s & t & Hst & Ed).
      change (q_d c3) with (sequence c3 TZ). rewrite (sequence_slot c3 TZ), negated_lact, set_sequence_at.
      eexists; split; [reflexivity|].
      assert (s <> TZ /\ t <> TZ /\ s <> t) as (Hs & Ht & Hst').
      { assert (forall u, u <> TZ -> slot c3 u <> slot c3 TZ) as K.
        { intros u Hu E. cbn [slot] in E. rewrite EZ, Hs3 in E.
          destruct u; [destruct N1 as (r & N1)|destruct N2 as (r & N2)|destruct N4 as (r & N4)|]; congruence. }
        cbn in Hst. repeat (destruct Hst as [Hst|Hst]; [injection Hst as <- <-; try (exfalso; revert Ed; apply K; discriminate); repeat split; discriminate|]).
        destruct Hst. }
      assert (gact (At TZ Neg) c3 = gact (Ex s t) (gact (At TZ Neg) c3)) as Eg.
      { apply quad_ext; auto. intros u. rewrite !gact_slot.
        destruct s, t, u; cbn [exchange tag_eq]; try congruence. }
      apply FIN.
      * rewrite Eg. eapply rt_trans; [apply R3|]. apply reach_ns; cbn; tauto.
      * change (starts_neg (slot (gact (At TZ Neg) c3) TW)). rewrite gact_slot. cbn [tag_eq slot]. now rewrite W3.
      * change (starts_neg (slot (gact (At TZ Neg) c3) TX)). rewrite gact_slot. cbn [tag_eq slot]. now rewrite X3.
      * change (starts_neg (slot (gact (At TZ Neg) c3) TY)). rewrite gact_slot. cbn [tag_eq slot]. now rewrite Y3.
      * pose proof (gact_slot (At TZ Neg) c3 TW) as G1; pose proof (gact_slot (At TZ Neg) c3 TX) as G2;
        pose proof (gact_slot (At TZ Neg) c3 TY) as G3; pose proof (gact_slot (At TZ Neg) c3 TZ) as G4.
        cbn [tag_eq slot] in G1, G2, G3, G4. rewrite G1, G2, G3, G4, W3, X3, Y3, Z3.
        rewrite <- negated_lact, negated_invol by auto. rewrite (norm_neg (q_c c2)) by auto.
        apply sorted4; auto. now right.
      * left. change (starts_neg (slot (gact (At TZ Neg) c3) TZ)). rewrite gact_slot. cbn [tag_eq slot].
        rewrite Z3, <- negated_lact, negated_invol; auto.
    + eexists; split; [reflexivity|]. apply FIN; auto; try (rewrite ?W3, ?X3, ?Y3; assumption).
      * rewrite W3, X3, Y3, Z3, NZ. apply sorted4; auto. now right.
      * right. unfold sl. rewrite W3, X3, Y3, Z3. cbn [map]. rewrite NZ.
        rewrite (norm_neg (q_a c2)), (norm_neg (q_b c2)), (norm_neg (q_d c2)) by auto.
        assert (q_d c2 <> q_c c2) as X by (intros E; rewrite E in Hdc; eapply lex_irrefl; eauto).
        assert (q_b c2 <> q_c c2) as X'.
        { intros E. rewrite <- E in Hdc. eapply lexle_not; [apply B2|exact Hdc]. }
        assert (q_a c2 <> q_c c2) as X''.
        { intros E. rewrite <- E in Hdc. eapply lexle_not; [apply A3|exact Hdc]. }
        assert (forall s t, In (s, t) all_pairs -> slot c3 s <> slot c3 t) as K.
        { intros s t Hst E. enough (has_duplicate_seq c3 = true) by congruence.
          apply has_dup_spec. eauto. }
        assert (q_a c2 <> q_b c2) as Y1.
        { rewrite <- W3, <- X3. apply (K TW TX). cbn; tauto. }
        assert (q_a c2 <> q_d c2) as Y2.
        { rewrite <- W3, <- Y3. apply (K TW TY). cbn; tauto. }
        assert (q_b c2 <> q_d c2) as Y3'.
        { rewrite <- X3, <- Y3. apply (K TX TY). cbn; tauto. }
        repeat (apply NoDup_cons || apply NoDup_nil); cbn; intuition congruence.
  - destruct N4 as (r & N4').
    assert (vget (q_d c2) 0 = Some (-1)) as EV by now rewrite N4'.
    cbn [bind]. rewrite EV. cbn [bind Z.eqb andb].
    eexists; split; [reflexivity|]. apply FIN; auto.
    + rewrite N4'. cbn [norm]. rewrite Z.eqb_refl, <- N4'. apply sorted4; auto.
      apply not_lex_le; [congruence|]. intros E. apply Hb in E. discriminate.
    + left. now exists r.
Qed.
