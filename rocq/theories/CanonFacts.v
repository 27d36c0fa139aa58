(* sn_ss_canonical and ns_canonical return the least element of their orbits. *)
From Coq Require Import List ZArith Lia Arith Bool Permutation Relations Sorted.
From Verif Require Import Base BaseFacts Sums Quat ModelSequence ModelWilliamson Spec SeqFacts
  ModelEquivalence SpecEquiv OpFacts EquivFacts TypeFacts OrderFacts.
Import ListNotations.
Open Scope Z_scope.

Ltac perm :=
  match goal with
  | |- Permutation [] [] => constructor
  | |- Permutation (?a :: _) (?a :: _) => apply perm_skip; perm
  | |- Permutation (?a :: _) (?x :: ?a :: ?r) => apply (Permutation_cons_app [x] r a); cbn [app]; perm
  | |- Permutation (?a :: _) (?x :: ?y :: ?a :: ?r) => apply (Permutation_cons_app [x; y] r a); cbn [app]; perm
  | |- Permutation (?a :: _) (?x :: ?y :: ?z :: ?a :: ?r) => apply (Permutation_cons_app [x; y; z] r a); cbn [app]; perm
  end.

Definition sl (q : QuadSeq) : list (list Z) := [q_a q; q_b q; q_c q; q_d q].
Definition lexle (x y : list Z) : Prop := x = y \/ lex x y.

Lemma lexle_trans x y z : lexle x y -> lexle y z -> lexle x z.
Proof. intros [->|H1] [->|H2]; unfold lexle; auto. right. eapply lex_trans; eauto. Qed.
Lemma lexle_not x y : lexle x y -> ~ lex y x.
Proof. intros [->|H] H'; [eapply lex_irrefl; eauto|eapply lex_asym; eauto]. Qed.
Lemma not_lex_le x y : length x = length y -> ~ lex y x -> lexle x y.
Proof. intros H1 H2. destruct (lex_total x y H1) as [|[|]]; unfold lexle; tauto. Qed.

(* ---- normalised sequences ---- *)
Definition norm (l : list Z) : list Z :=
  match l with [] => [] | x :: _ => if x =? -1 then l else negated l end.
Definition starts_neg (l : list Z) : Prop := exists r, l = -1 :: r.

Lemma negated_length l : length (negated l) = length l.
Proof. apply map_length. Qed.
Lemma negated_invol l : pm1 l -> negated (negated l) = l.
Proof.
  intros H. unfold negated. rewrite map_map. rewrite <- (map_id l) at 2. apply map_ext_in.
  intros x Hx. unfold pm1 in H. rewrite Forall_forall in H. destruct (H x Hx) as [->| ->]; reflexivity.
Qed.
Lemma norm_length l : length (norm l) = length l.
Proof. destruct l as [|x l]; auto. cbn [norm]. destruct (x =? -1); auto. apply negated_length. Qed.

Lemma norm_neg l : starts_neg l -> norm l = l.
Proof. intros (r & ->). reflexivity. Qed.
Lemma norm_cases l : pm1 l -> (1 <= length l)%nat ->
  (starts_neg l /\ norm l = l) \/ (starts_neg (norm l) /\ hd 0 l = 1 /\ norm l = negated l /\ lex (norm l) l).
Proof.
  intros H Hl. destruct l as [|x l]; [cbn in Hl; lia|]. inversion H; subst.
  destruct H2 as [->| ->]; [right|left]; cbn; unfold starts_neg; repeat split; eauto.
  apply lex_here. reflexivity.
Qed.
Lemma norm_starts l : pm1 l -> (1 <= length l)%nat -> starts_neg (norm l).
Proof. intros H Hl. destruct (norm_cases l H Hl) as [[H1 ->]|[H1 _]]; auto. Qed.
Lemma norm_idem l : pm1 l -> (1 <= length l)%nat -> norm (norm l) = norm l.
Proof. intros. now apply norm_neg, norm_starts. Qed.
Lemma norm_le l : pm1 l -> (1 <= length l)%nat -> lexle (norm l) l.
Proof. intros H Hl. destruct (norm_cases l H Hl) as [[H1 ->]|(_ & _ & _ & H1)]; [now left|now right]. Qed.
Lemma norm_negated l : pm1 l -> (1 <= length l)%nat -> norm (negated l) = norm l.
Proof.
  intros H Hl. destruct l as [|x l]; [cbn in Hl; lia|]. pose proof (negated_invol _ H) as E.
  inversion H; subst. destruct H2 as [->| ->]; cbn in *; auto.
Qed.

(* ---- minimality of sorted sequences of blocks ---- *)
Lemma blocks_min n L1 r4 M1 y4 :
  Forall (fun l => pm1 l /\ length l = n) (M1 ++ [y4]) -> (1 <= n)%nat ->
  Permutation (map norm (M1 ++ [y4])) (L1 ++ [r4]) -> StronglySorted lexle (L1 ++ [r4]) ->
  lex (concat L1) (concat M1) \/ (M1 = L1 /\ norm y4 = r4).
Proof.
  intros HM Hn. revert M1 HM. induction L1 as [|r L1 IH]; intros M1 HM HP HS.
  - right. assert (length M1 = 0)%nat as E.
    { apply Permutation_length in HP. rewrite map_length, app_length in HP. cbn in HP. lia. }
    destruct M1; [|discriminate]. cbn in *. split; auto. now apply Permutation_length_1 in HP.
  - destruct M1 as [|y M1].
    { apply Permutation_length in HP. cbn in HP. rewrite app_length in HP. cbn in HP. lia. }
    cbn [app map] in *. inversion HM as [|? ? [Hy Hly] HM']; subst. inversion HS as [|? ? HS' HF]; subst.
    assert (length r = length y) as Lr.
    { assert (In r (map norm (y :: M1 ++ [y4]))) as Hin
        by (apply (Permutation_in _ (Permutation_sym HP)); now left).
      apply in_map_iff in Hin as (z & <- & Hz). rewrite norm_length.
      rewrite Forall_forall in HM. now apply (HM z). }
    assert (lexle r y) as Hry.
    { assert (lexle r (norm y)) as H1.
      { assert (In (norm y) (r :: L1 ++ [r4])) as Hin by (eapply Permutation_in; [apply HP|now left]).
        destruct Hin as [->|Hin]; [now left|]. rewrite Forall_forall in HF. now apply HF. }
      eapply lexle_trans; [apply H1|]. now apply norm_le. }
    destruct Hry as [->|Hry].
    + assert (norm y = y) as Ey.
      { assert (In y (map norm (y :: M1 ++ [y4]))) as Hin
          by (apply (Permutation_in _ (Permutation_sym HP)); now left).
        apply in_map_iff in Hin as (z & Ez & Hz). rewrite Forall_forall in HM. destruct (HM z Hz) as [Pz Lz].
        rewrite <- Ez at 1. rewrite norm_idem; auto. lia. }
      rewrite Ey in HP. apply Permutation_cons_inv in HP.
      destruct (IH M1 HM' HP HS') as [H|[-> H]]; [left|right; auto].
      cbn. apply lex_app; auto.
    + left. cbn. apply lex_app; auto.
Qed.

Lemma flat_concat q : flat q = concat [q_a q; q_b q; q_c q] ++ q_d q.
Proof. unfold flat. cbn. now rewrite !app_nil_r, !app_assoc. Qed.

Lemma pm_sl n q : pm_quad n q -> Forall (fun l => pm1 l /\ length l = n) (sl q).
Proof. intros ((Hs & A & B & C & D) & PA & PB & PC & PD). unfold sl. repeat constructor; auto. Qed.

Lemma pm_slot n q t : pm_quad n q -> pm1 (slot q t) /\ length (slot q t) = n.
Proof. intros ((Hs & A & B & C & D) & PA & PB & PC & PD). destruct t; cbn; auto. Qed.

(* a quadruple with normalised sorted sequences is least among those with the same normalised ones,
   up to the sign of the last sequence *)
Lemma quad_min n c y : pm_quad n c -> pm_quad n y -> (1 <= n)%nat ->
  Permutation (map norm (sl y)) (map norm (sl c)) ->
  starts_neg (q_a c) -> starts_neg (q_b c) -> starts_neg (q_c c) ->
  StronglySorted lexle [q_a c; q_b c; q_c c; norm (q_d c)] ->
  quad_lt c y \/ (q_a y = q_a c /\ q_b y = q_b c /\ q_c y = q_c c /\ norm (q_d y) = norm (q_d c)).
Proof.
  intros Hc Hy Hn HP Ha Hb Hc' HS.
  destruct (blocks_min n [q_a c; q_b c; q_c c] (norm (q_d c)) [q_a y; q_b y; q_c y] (q_d y)) as [H|[H1 H2]]; auto.
  - apply (pm_sl n y); auto.
  - cbn [app]. unfold sl in HP. cbn [map] in *.
    rewrite (norm_neg (q_a c)), (norm_neg (q_b c)), (norm_neg (q_c c)) in HP by auto. exact HP.
  - left. unfold quad_lt. rewrite !flat_concat.
    pose proof (proj1 Hc) as (_ & A & B & C & D). pose proof (proj1 Hy) as (_ & A' & B' & C' & D').
    apply lex_app; [|now left]. cbn. rewrite !app_length. cbn. lia.
  - right. injection H1 as -> -> ->. auto.
Qed.

(* ---- reachability by generators ---- *)
Lemma in_pairs s t : s <> t -> In (s, t) all_pairs \/ In (t, s) all_pairs.
Proof. destruct s, t; cbn; intuition congruence. Qed.
Lemma in_tags t : In t all_tags.
Proof. destruct t; cbn; auto. Qed.
Lemma couples_pairs : couples = all_pairs.
Proof. reflexivity. Qed.
Lemma ex_comm s t q : gact (Ex s t) q = gact (Ex t s) q.
Proof. apply quad_ext; auto. intros u. rewrite !gact_slot. destruct s, t, u; reflexivity. Qed.

Lemma reach_negate ops q t : In Negate ops -> reach ops q (gact (At t Neg) q).
Proof.
  intros H. apply rt_step. exists Negate. split; auto. right. exists [At t Neg]. split; auto.
  apply (in_map (fun t => [At t Neg]) all_tags t), in_tags.
Qed.
Lemma reach_reorder ops q s t : In Reorder ops -> In (s, t) all_pairs -> reach ops q (gact (Ex s t) q).
Proof.
  intros H Hp. apply rt_step. exists Reorder. split; auto. right. exists [Ex s t]. split; auto.
  now apply (in_map (fun '(s, t) => [Ex s t]) all_pairs (s, t)).
Qed.
Lemma reach_ns ops q s t u : In NegateSwap ops -> In (s, t) all_pairs ->
  reach ops q (gact (Ex s t) (gact (At u Neg) q)).
Proof.
  intros H Hp. apply rt_step. exists NegateSwap. split; auto. right. exists [At u Neg; Ex s t]. split; auto.
  apply (in_map (fun '((s, t), u) => [At u Neg; Ex s t]) (list_prod all_pairs all_tags) ((s, t), u)).
  apply in_prod; auto using in_tags.
Qed.
Lemma reach_ns_even n ops q s t s' t' : i8_quad n q -> In NegateSwap ops ->
  In (s, t) all_pairs -> In (s', t') all_pairs -> reach ops q (gact (Ex s' t') (gact (Ex s t) q)).
Proof.
  intros Hq H Hp Hp'.
  eapply rt_trans; [apply (reach_ns ops q s t TW); auto|].
  eapply rt_trans; [apply (reach_ns ops _ s' t' (exchange s t TW)); auto|].
  rewrite gact_ex_at, exchange_invol, (gact_invol (At TW Neg) q n); auto. apply rt_refl.
Qed.

Lemma reach_pm n ops x y : pm_quad n x -> reach ops x y -> pm_quad n y.
Proof.
  intros Hx H. apply (reach_word n) in H as (w & _ & ->); [now apply wact_pm|apply Hx].
Qed.

Lemma slot_ex_perm s t q : Permutation (sl (gact (Ex s t) q)) (sl q).
Proof. destruct q as [n a b c d], s, t; unfold sl, gact, of_slots; cbn [q_a q_b q_c q_d slot exchange tag_eq]; perm. Qed.

Lemma slot_neg_norm n t q : pm_quad n q -> (1 <= n)%nat ->
  map norm (sl (gact (At t Neg) q)) = map norm (sl q).
Proof.
  intros Hq Hn. assert (forall u, norm (slot (gact (At t Neg) q) u) = norm (slot q u)) as H.
  { intros u. rewrite gact_slot. destruct (tag_eq u t); auto. rewrite <- negated_lact.
    destruct (pm_slot n q u Hq). apply norm_negated; auto. lia. }
  pose proof (H TW); pose proof (H TX); pose proof (H TY); pose proof (H TZ). cbn [slot] in *.
  unfold sl. cbn [map]. congruence.
Qed.

Lemma norms_step n g q : pm_quad n q -> (1 <= n)%nat ->
  match g with At _ Neg | Ex _ _ => True | _ => False end ->
  Permutation (map norm (sl (gact g q))) (map norm (sl q)).
Proof.
  intros Hq Hn Hg. destruct g as [|t f|s t]; [tauto| |].
  - destruct f; try tauto. rewrite (slot_neg_norm n) by auto. apply Permutation_refl.
  - apply Permutation_map, slot_ex_perm.
Qed.

Lemma norms_word n w q : pm_quad n q -> (1 <= n)%nat ->
  Forall (fun g => match g with At _ Neg | Ex _ _ => True | _ => False end) w ->
  Permutation (map norm (sl (wact w q))) (map norm (sl q)).
Proof.
  revert q; induction w as [|g w IH]; intros q Hq Hn Hw; cbn; [apply Permutation_refl|].
  inversion Hw; subst. eapply perm_trans; [apply IH; auto using gact_pm|]. now apply (norms_step n).
Qed.

Lemma norms_reach n ops x y : pm_quad n x -> (1 <= n)%nat ->
  (forall o, In o ops -> o = Negate \/ o = Reorder \/ o = NegateSwap) ->
  reach ops x y -> Permutation (map norm (sl y)) (map norm (sl x)).
Proof.
  intros Hx Hn Ho H. apply clos_rt_rtn1 in H.
  induction H as [|y z (o & Hin & Hv) H IH]; [apply Permutation_refl|].
  apply clos_rtn1_rt in H. pose proof (reach_pm n ops x y Hx H) as Hy.
  eapply perm_trans; [|apply IH]. destruct Hv as [->|(w & Hw & ->)]; [apply Permutation_refl|].
  apply (norms_word n); auto.
  destruct (Ho o Hin) as [->|[->| ->]]; cbn [variants] in Hw.
  - apply in_map_iff in Hw as (t & <- & _). repeat constructor.
  - apply in_map_iff in Hw as ([s t] & <- & _). repeat constructor.
  - apply in_map_iff in Hw as ([[s t] u] & <- & _). repeat constructor.
Qed.

(* ---- the minimum search ---- *)
Lemma min_tag_spec n c init rest : wf n c -> exists m, min_tag c init rest = Some m /\
  (m = init \/ In m rest) /\ lexle (slot c m) (slot c init) /\ forall u, In u rest -> lexle (slot c m) (slot c u).
Proof.
  intros Hw. apply wf_slots in Hw as [_ Hw]. revert init. induction rest as [|t rest IH]; intros init.
  - exists init. cbn. split; auto. split; auto. split; [now left|]. intros u [].
  - unfold min_tag in *. cbn [fold_m]. rewrite (sequence_slot c t), (sequence_slot c init).
    destruct (seq_less_than_spec (slot c t) (slot c init)) as (b & -> & Hb); [now rewrite !Hw|]. cbn [bind].
    destruct b.
    + destruct (IH t) as (m & -> & Hm & H1 & H2). exists m. split; auto.
      assert (lex (slot c t) (slot c init)) as L by (now apply Hb).
      split; [destruct Hm as [->|]; cbn; auto|]. split.
      * eapply lexle_trans; [apply H1|]. now right.
      * intros u [<-|Hu]; auto.
    + destruct (IH init) as (m & -> & Hm & H1 & H2). exists m. split; auto.
      assert (lexle (slot c init) (slot c t)) as L.
      { apply not_lex_le; [now rewrite !Hw|]. intros E. apply Hb in E. discriminate. }
      split; [destruct Hm as [->|]; cbn; auto|]. split; auto.
      intros u [<-|Hu]; auto. eapply lexle_trans; eauto.
Qed.

Lemma tag_eqb_refl t : tag_eqb t t = true.
Proof. now destruct t. Qed.
Lemma tag_eqb_neq s t : s <> t -> tag_eqb s t = false.
Proof. destruct s, t; cbn; congruence. Qed.

(* ---- sn_ss_canonical ---- *)
Lemma first_entry n q t : pm_quad n q -> (1 <= n)%nat ->
  exists x r, slot q t = x :: r /\ vget (sequence q t) 0 = Some x /\ (x = 1 \/ x = -1).
Proof.
  intros Hq Hn. rewrite (sequence_slot q t). destruct (pm_slot n q t Hq) as [Hp Hl].
  destruct (slot q t) as [|x r]; [cbn in Hl; lia|]. exists x, r. repeat split; auto. now inversion Hp.
Qed.

Lemma sn_step_spec n c t : pm_quad n c -> (1 <= n)%nat -> exists c', sn_step c t = Some c' /\
  reach [Negate; Reorder] c c' /\ pm_quad n c' /\
  forall u, slot c' u = if tag_eq u t then norm (slot c u) else slot c u.
Proof.
  intros Hc Hn. destruct (first_entry n c t Hc Hn) as (x & r & E & Ev & Hx).
  unfold sn_step. rewrite Ev. cbn [bind]. destruct Hx as [->| ->]; cbn.
  - exists (gact (At t Neg) c). rewrite (sequence_slot c t), negated_lact, set_sequence_at.
    split; auto. split; [apply reach_negate; cbn; auto|]. split; [now apply gact_pm|].
    intros u. rewrite gact_slot. destruct (tag_eq u t) eqn:Eu; auto. apply tag_eq_eq in Eu. subst u.
    rewrite E. rewrite <- negated_lact. reflexivity.
  - exists c. split; auto. split; [apply rt_refl|]. split; auto. intros u.
    destruct (tag_eq u t) eqn:Eu; auto. apply tag_eq_eq in Eu. subst u. now rewrite E.
Qed.

Lemma sn_steps_spec n q : pm_quad n q -> (1 <= n)%nat -> exists c, fold_m sn_step tags q = Some c /\
  reach [Negate; Reorder] q c /\ pm_quad n c /\ forall u, slot c u = norm (slot q u).
Proof.
  intros Hq Hn. unfold tags. cbn [fold_m].
  destruct (sn_step_spec n q TW Hq Hn) as (c1 & -> & R1 & P1 & S1). cbn [bind].
  destruct (sn_step_spec n c1 TX P1 Hn) as (c2 & -> & R2 & P2 & S2). cbn [bind].
  destruct (sn_step_spec n c2 TY P2 Hn) as (c3 & -> & R3 & P3 & S3). cbn [bind].
  destruct (sn_step_spec n c3 TZ P3 Hn) as (c4 & -> & R4 & P4 & S4). cbn [bind].
  exists c4. split; auto. split.
  - eapply rt_trans; [apply R1|]. eapply rt_trans; [apply R2|]. eapply rt_trans; eauto.
  - split; auto. intros u. rewrite S4, S3, S2, S1. now destruct u.
Qed.

(* the selection sort on the four sequences *)
Lemma sort1 n c : wf n c -> exists m, min_tag c TW [TX; TY; TZ] = Some m /\
  (m = TW \/ In (TW, m) all_pairs) /\ forall u, lexle (slot c m) (slot c u).
Proof.
  intros Hw. destruct (min_tag_spec n c TW [TX; TY; TZ] Hw) as (m & E & Hm & H1 & H2).
  exists m. split; auto. split; [destruct m; cbn; intuition congruence|].
  intros []; auto; apply H2; cbn; auto.
Qed.
Lemma sort2 n c : wf n c -> exists m, min_tag c TX [TY; TZ] = Some m /\
  (m = TX \/ m = TY \/ m = TZ) /\ forall u, u <> TW -> lexle (slot c m) (slot c u).
Proof.
  intros Hw. destruct (min_tag_spec n c TX [TY; TZ] Hw) as (m & E & Hm & H1 & H2).
  exists m. split; auto. split; [destruct Hm as [->|[<-|[<-|[]]]]; auto|].
  intros [] Hu; auto; try congruence; apply H2; cbn; auto.
Qed.

Lemma sorted4 a b c d : lexle a b -> lexle a c -> lexle a d -> lexle b c -> lexle b d -> lexle c d ->
  StronglySorted lexle [a; b; c; d].
Proof.
  intros. repeat (apply SSorted_cons || apply SSorted_nil || apply Forall_cons || apply Forall_nil || assumption).
Qed.

Lemma perm_all {A} (P : A -> Prop) l m : Permutation l m -> Forall P l -> Forall P m.
Proof. intros H. rewrite !Forall_forall. intros HP x Hx. apply HP. eapply Permutation_in; [apply Permutation_sym|]; eauto. Qed.

Lemma sn_ss_spec n q : pm_quad n q -> (1 <= n)%nat ->
  exists c, sn_ss_canonical q = Some c /\ least (reach [Negate; Reorder] q) c.
Proof.
  intros Hq Hn. unfold sn_ss_canonical.
  destruct (sn_steps_spec n q Hq Hn) as (c0 & -> & R0 & P0 & S0). cbn [bind].
  destruct (sort1 n c0 (proj1 P0)) as (m & -> & Hm & L1). cbn [bind].
  assert (exists c1, (if negb (tag_eqb m TW) then swap c0 TW m else Some c0) = Some c1 /\
    reach [Negate; Reorder] c0 c1 /\ Permutation (sl c1) (sl c0) /\ forall u, lexle (slot c1 TW) (slot c1 u)) as
    (c1 & -> & R1 & Q1 & L1').
  { destruct Hm as [->|Hm].
    - exists c0. split; auto. split; [apply rt_refl|]. split; auto.
    - rewrite tag_eqb_neq by (destruct m; cbn in Hm; intuition congruence). cbn [negb].
      rewrite swap_couple by auto. eexists; split; auto.
      split; [apply reach_reorder; [cbn; tauto|cbn in *; tauto]|]. split; [apply slot_ex_perm|].
      intros u. rewrite !gact_slot. replace (exchange TW m TW) with m by now destruct m. apply L1. }
  cbn [bind]. pose proof (reach_pm n _ c0 c1 P0 R1) as P1.
  destruct (sort2 n c1 (proj1 P1)) as (m2 & -> & Hm2 & L2). cbn [bind].
  assert (exists c2, (if negb (tag_eqb m2 TX) then swap c1 TX m2 else Some c1) = Some c2 /\
    reach [Negate; Reorder] c1 c2 /\ Permutation (sl c2) (sl c1) /\
    (forall u, lexle (slot c2 TW) (slot c2 u)) /\ forall u, u <> TW -> lexle (slot c2 TX) (slot c2 u)) as
    (c2 & -> & R2 & Q2 & L1'' & L2').
  { destruct (tag_eq m2 TX) eqn:E.
    - apply tag_eq_eq in E. subst m2. exists c1. cbn. split; auto. split; [apply rt_refl|]. split; auto.
    - assert (In (TX, m2) all_pairs) as Hp by (destruct m2; cbn in *; intuition congruence).
      rewrite tag_eqb_neq by (destruct m2; cbn in E; congruence). cbn [negb].
      rewrite swap_couple by auto. eexists; split; auto.
      split; [apply reach_reorder; [cbn; tauto|cbn in *; tauto]|]. split; [apply slot_ex_perm|].
      split; intros u; rewrite !gact_slot.
      + replace (exchange TX m2 TW) with TW by (destruct m2; cbn in *; intuition congruence). apply L1'.
      + replace (exchange TX m2 TX) with m2 by (destruct m2; cbn in *; intuition congruence).
        intros Hu. apply L2. destruct m2, u; cbn in *; intuition congruence. }
  cbn [bind]. pose proof (reach_pm n _ c1 c2 P1 R2) as P2.
  pose proof (proj1 P2) as (Z0 & ZA & ZB & ZC & ZD).
  destruct (seq_less_than_spec (q_d c2) (q_c c2)) as (b & -> & Hb); [congruence|]. cbn [bind].
  assert (exists c3, (if b then swap c2 TY TZ else Some c2) = Some c3 /\
    reach [Negate; Reorder] c2 c3 /\ Permutation (sl c3) (sl c2) /\ StronglySorted lexle (sl c3)) as
    (c3 & -> & R3 & Q3 & HS).
  { destruct b.
    - rewrite swap_couple by (cbn; tauto). eexists; split; auto.
      split; [apply reach_reorder; [cbn; tauto|cbn in *; tauto]|]. split; [apply slot_ex_perm|].
      pose proof (L1'' TX); pose proof (L1'' TY); pose proof (L1'' TZ).
      pose proof (L2' TY ltac:(discriminate)); pose proof (L2' TZ ltac:(discriminate)).
      destruct c2; cbn in *. apply sorted4; auto. right. now apply Hb.
    - exists c2. split; auto. split; [apply rt_refl|]. split; auto.
      pose proof (L1'' TX); pose proof (L1'' TY); pose proof (L1'' TZ).
      pose proof (L2' TY ltac:(discriminate)); pose proof (L2' TZ ltac:(discriminate)).
      assert (lexle (q_c c2) (q_d c2)) as Hcd.
      { apply not_lex_le; [congruence|]. intros E. apply Hb in E. discriminate. }
      cbn [slot] in *. apply sorted4; auto. }
  exists c3. split; auto.
  assert (reach [Negate; Reorder] q c3) as R.
  { eapply rt_trans; [apply R0|]. eapply rt_trans; [apply R1|]. eapply rt_trans; [apply R2|apply R3]. }
  pose proof (reach_pm n _ q c3 Hq R) as P3.
  split; auto. intros y Hy. pose proof (reach_pm n _ q y Hq Hy) as Py.
  assert (Forall starts_neg (sl c3)) as HN.
  { apply (perm_all _ (sl c0)).
    - apply Permutation_sym. eapply perm_trans; [apply Q3|]. eapply perm_trans; eauto.
    - assert (forall u, starts_neg (slot c0 u)) as HN.
      { intros u. rewrite S0. destruct (pm_slot n q u Hq). apply norm_starts; auto. lia. }
      pose proof (HN TW); pose proof (HN TX); pose proof (HN TY); pose proof (HN TZ).
      unfold sl; repeat (apply Forall_cons || apply Forall_nil || assumption). }
  rewrite Forall_forall in HN.
  assert (starts_neg (q_a c3)) as NA by (apply HN; cbn; tauto).
  assert (starts_neg (q_b c3)) as NB by (apply HN; cbn; tauto).
  assert (starts_neg (q_c c3)) as NC by (apply HN; cbn; tauto).
  assert (starts_neg (q_d c3)) as ND by (apply HN; cbn; tauto).
  destruct (quad_min n c3 y P3 Py Hn) as [H|(E1 & E2 & E3 & E4)]; auto.
  - apply Permutation_trans with (map norm (sl q)).
    + eapply (norms_reach n); eauto. cbn; intuition auto.
    + apply Permutation_sym. eapply (norms_reach n); eauto. cbn; intuition auto.
  - rewrite (norm_neg (q_d c3)) by auto. exact HS.
  - now right.
  - assert (lexle (q_d c3) (q_d y)) as [E|L].
    { rewrite (norm_neg (q_d c3)) in E4 by auto. rewrite <- E4.
      destruct (pm_slot n y TZ Py) as [Hp Hl]. apply norm_le; auto. cbn in Hl. lia. }
    + left. apply quad_ext; [pose proof (proj1 (proj1 P3)); pose proof (proj1 (proj1 Py)); congruence|].
      intros []; cbn; congruence.
    + right. unfold quad_lt. rewrite !flat_concat, E1, E2, E3.
      apply lex_app; auto.
Qed.
