(* Length 32: the representatives, and an example whose representative is not a solution. *)
From Coq Require Import List ZArith Lia Arith Bool Relations.
From Verif Require Import Base BaseFacts Sums ModelSequence ModelWilliamson ModelEquivalence Spec SpecEquiv
  SeqFacts OpFacts EquivFacts TypeFacts FastFacts OrderFacts CanonFacts NsFacts ReduceFacts WsFacts Len32Facts.
Import ListNotations.
Open Scope Z_scope.

(* ---- complementarity along words ---- *)

Lemma good_word ops w : (forall o, In o ops -> o <> AlternatedNegation) -> opword ops 32 w -> Forall (good 32) w.
Proof.
  intros Ho H. induction H as [|w o v Hw IH Hin Hv]; [constructor|]. apply Forall_app. split; auto.
  apply (good_op 32 o); auto. intros E. now destruct (Ho o Hin).
Qed.

Lemma reach_complementary ops x y : (forall o, In o ops -> o <> AlternatedNegation) -> pm_quad 32 x ->
  reach ops x y -> complementary x -> complementary y.
Proof.
  intros Ho Hx R Hc. apply (reach_word 32) in R as (w & Hw & ->); [|apply Hx].
  apply (word_preserves complementary (good 32) 32); auto.
  - intros g q Hq Hg. apply (good_complementary 32); auto. lia.
  - eapply good_word; eauto.
Qed.

Lemma pos_no_alt t o : In o (pos_ops t) -> o <> AlternatedNegation.
Proof. destruct t; cbn; intros H ->; intuition discriminate. Qed.
Lemma slot_no_alt t o : In o (slot_ops t) -> o <> AlternatedNegation.
Proof. destruct t; cbn; intros H ->; intuition discriminate. Qed.
Lemma type_no_alt t o : In o (type_ops t) -> o <> AlternatedNegation.
Proof. destruct t; cbn; intros H ->; intuition discriminate. Qed.

(* ---- the representative ---- *)

(* the canonical forms of the substituted symmetries *)
Definition candidate (t : SequenceType) (q z : QuadSeq) : Prop :=
  exists w, opword (pos_ops t) 32 w /\ canon_of t (qmap (phi q) (wact w (symbolic_quad 32))) = Some z.

Lemma fast_32 t q w : pm_quad 32 q -> opword (pos_ops t) 32 w ->
  let y := qmap (phi q) (wact w (symbolic_quad 32)) in
  pm_quad 32 y /\ (reach (pos_ops t) q y \/ reach (pos_ops t) (flip_last q) y).
Proof.
  intros Hq Hw y. pose proof (good_word _ _ (pos_no_alt t) Hw) as Hg.
  destruct (fast_element_32 q w Hq Hg) as [E|E]; fold y in E; rewrite E.
  - split; [now apply wact_pm|]. left. apply (reach_word 32); [apply Hq|eauto].
  - split; [apply wact_pm; now apply flip_last_pm|]. right. apply (reach_word 32); [apply flip_last_pm, Hq|eauto].
Qed.

Lemma qt_canonical_32 ord p q t G : ord_ok ord -> supported t -> pm_quad 32 q ->
  (forall y, In y G <-> reach (pos_ops t) (symbolic_quad 32) y) ->
  exists m, qt_canonical ord p q G t = Some m /\ least (candidate t q) m.
Proof.
  intros Ho Ht Hq HG.
  assert (qt_canonical ord p q G t =
    (let* class := generate_equivalence_class_fast ord (0%nat :: p) q G in
     let* l := traverse (canon_of t) (ord (1%nat :: p) class) in
     let* m := min_by (ord (2%nat :: p) (insert_all l [])) in m)) as ->.
  { destruct Ht as [->|[->| ->]]; reflexivity. }
  unfold generate_equivalence_class_fast.
  rewrite (traverse_map _ (qmap (phi q))).
  2:{ intros g H. apply ord_in in H; auto. apply HG in H. apply (reach_word 32) in H as (w & Hw & ->); auto.
      apply (fast_apply_spec 32); [apply Hq|lia|]. apply wact_dom, symbolic_dom. lia. }
  cbn [bind]. set (r := insert_all _ []).
  assert (forall y, In y r <-> exists w, opword (pos_ops t) 32 w /\ y = qmap (phi q) (wact w (symbolic_quad 32))) as Hr.
  { intros y. unfold r. rewrite insert_all_in, in_map_iff. split.
    - intros [(g & <- & H)|[]]. apply ord_in in H; auto. apply HG in H.
      apply (reach_word 32) in H as (w & Hw & ->); eauto.
    - intros (w & Hw & ->). left. exists (wact w (symbolic_quad 32)). split; auto. apply ord_in; auto.
      apply HG, (reach_word 32); eauto. }
  assert (forall y, In y r -> pm_quad 32 y) as Pr.
  { intros y Hy. apply Hr in Hy as (w & Hw & ->). now apply (fast_32 t q w). }
  destruct (traverse_total (canon_of t) (ord (1%nat :: p) r)) as (l & -> & Hl).
  { intros x Hx. apply (ord_in ord) in Hx; auto. destruct (canon_of_spec 32 t x Ht) as (c & E & _); eauto. lia. }
  cbn [bind]. set (L := ord (2%nat :: p) (insert_all l [])).
  assert (forall y, In y L <-> candidate t q y) as HL.
  { intros y. unfold L, candidate. rewrite (ord_in ord) by auto. rewrite insert_all_in, Hl. split.
    - intros [(x & Hx & E)|[]]. rewrite (ord_in ord) in Hx by auto. apply Hr in Hx as (w & Hw & ->). eauto.
    - intros (w & Hw & E). left. eexists. split; [|exact E]. rewrite (ord_in ord) by auto. apply Hr. eauto. }
  assert (forall y, In y L -> pm_quad 32 y) as PL.
  { intros y Hy. apply HL in Hy as (w & Hw & E). destruct (fast_32 t q w Hq Hw) as [Px _].
    destruct (canon_of_spec 32 t _ Ht Px) as (c & E' & Hc & _); [lia|].
    rewrite E in E'. injection E' as <-. eapply reach_pm; [apply Px|apply Hc]. }
  pose proof (min_by_spec 32 L (fun x Hx => proj1 (PL x Hx))) as HM.
  assert (exists m, min_by L = Some (Some m) /\ least (fun x => In x L) m) as (m & -> & Hm & Hmin).
  { destruct L as [|x0 L0] eqn:EL; auto. exfalso.
    destruct (fast_32 t q [] Hq (ow_nil _ _)) as [Px _].
    destruct (canon_of_spec 32 t _ Ht Px) as (c & E & _); [lia|].
    assert (In c []) as [] by (apply HL; exists []; split; [constructor|exact E]). }
  exists m. split; auto. split; [now apply HL|]. intros y Hy. now apply Hmin, HL.
Qed.

Lemma candidate_class t q z : supported t -> pm_quad 32 q -> candidate t q z ->
  pm_quad 32 z /\ (reach (type_ops (rep_type t)) q z \/ reach (type_ops (rep_type t)) (flip_last q) z).
Proof.
  intros Ht Hq (w & Hw & E). destruct (fast_32 t q w Hq Hw) as [Px Rx].
  destruct (canon_of_spec 32 t _ Ht Px) as (c & E' & Hc & _); [lia|].
  rewrite E in E'. injection E' as <-. split; [eapply reach_pm; [apply Px|apply Hc]|].
  destruct Rx as [R|R]; [left|right]; apply (rep_factor 32); auto using flip_last_pm; eexists; split; eauto.
Qed.

Lemma flipped_class t q z : pm_quad 32 q -> complementary q -> reach (type_ops (rep_type t)) (flip_last q) z -> ~ complementary z.
Proof.
  intros Hq Hc R Hz. pose proof (flip_last_pm q Hq) as Pf.
  apply (flip_not_complementary q Hq Hc). eapply (reach_complementary (type_ops (rep_type t)) z); auto.
  - apply type_no_alt.
  - eapply reach_pm; [exact Pf|exact R].
  - apply (reach_sym 32 _ _ _ (pm_i8 32 _ Pf) R).
Qed.

Lemma reduce_32 ord p l t fuel : ord_ok ord -> supported t -> l <> [] -> Forall (pm_quad 32) l ->
  (class_fuel 32 <= fuel)%nat ->
  exists r, reduce_to_canonical_reps fuel ord p l t = Some r /\ NoDup r /\
    forall m, In m r <-> exists x, In x l /\ least (candidate t x) m.
Proof.
  intros Ho Ht Hne Hl Hf. unfold reduce_to_canonical_reps.
  destruct l as [|q0 l0] eqn:El; [congruence|]. cbn [vget nth_error bind].
  assert (q_size q0 = 32%nat) as -> by (inversion Hl; subst; now destruct H1 as [[? _] _]).
  rewrite <- El in *. clear El q0 l0. rewrite canonical_ops_impl.
  destruct (symmetry_group_spec 32 ord (0%nat :: p) (pos_ops t) fuel Ho) as (G & -> & _ & HG); auto.
  { apply small_ok. lia. }
  cbn [bind].
  assert (forall l i acc, Forall (pm_quad 32) l -> exists reps,
    foldi_from i (fun i acc q => let* c := qt_canonical ord (i :: 1%nat :: p) q G t in Some (acc ++ [c])) l acc
      = Some (acc ++ reps) /\
    forall m, In m reps <-> exists x, In x l /\ least (candidate t x) m) as H.
  { clear l Hne Hl. induction l as [|q l IH]; intros i acc Hl; cbn [foldi_from].
    - exists []. rewrite app_nil_r. split; auto. intros m. split; [intros []|intros (x & [] & _)].
    - inversion Hl; subst.
      destruct (qt_canonical_32 ord (i :: 1%nat :: p) q t G Ho Ht H1 HG) as (m & -> & Hm). cbn [bind].
      destruct (IH (S i) (acc ++ [m]) H2) as (reps & -> & Hr). exists (m :: reps).
      rewrite <- app_assoc. split; auto. intros m'. cbn. rewrite Hr. split.
      + intros [<-|(x & Hx & H)]; [exists q; auto|exists x; auto].
      + intros (x & [<-|Hx] & H); [left; eapply least_unique; eauto|right; eauto]. }
  unfold foldi. destruct (H l 0%nat [] Hl) as (reps & -> & Hr). cbn [bind app].
  exists (unique reps). split; auto. destruct (unique_spec reps) as [H1 H2]. split; auto.
  intros m. rewrite H2. apply Hr.
Qed.

(* ---- transforms of one sequence ---- *)

Definition trans (c e : bool) (k r : Z) (l : list Z) : list Z :=
  map (fun i => sneg (xorb c (e && Z.odd (Z.of_nat i))) (entry l (Z.of_nat i * k + r))) (seq 0 32).

Lemma trans_entry c e k r l j : length l = 32%nat ->
  entry (trans c e k r l) j = sneg (xorb c (e && Z.odd j)) (entry l (j * k + r)).
Proof.
  intros Hl. unfold entry at 1. unfold trans at 1. rewrite map_length, seq_length.
  unfold trans. rewrite nth_map_seq by (apply pos_lt; lia). cbn [Nat.add].
  rewrite pos_mod by lia. rewrite odd_mod_even by reflexivity. f_equal.
  apply entry_periodic. rewrite Hl. rewrite <- Zplus_mod_idemp_l, Z.mul_mod_idemp_l by lia. apply Zplus_mod_idemp_l.
Qed.

Lemma trans_length c e k r l : length (trans c e k r l) = 32%nat.
Proof. unfold trans. now rewrite map_length, seq_length. Qed.

Lemma lact_trans f c e k r l : Forall i8 l -> length l = 32%nat -> good_lop 32 f -> Z.odd k = true ->
  exists c' e' k' r', Z.odd k' = true /\ lact f (trans c e k r l) = trans c' e' k' r' l.
Proof.
  intros H8 Hl Hg Hk.
  assert (forall g c' e' k' r', (forall i, 0 <= i < 32 ->
    sneg (lneg g i) (sneg (xorb c (e && Z.odd (lidx g 32 i))) (entry l (lidx g 32 i * k + r))) =
    sneg (xorb c' (e' && Z.odd i)) (entry l (i * k' + r'))) -> lact g (trans c e k r l) = trans c' e' k' r' l) as H.
  { intros g c' e' k' r' H. unfold lact. rewrite trans_length. unfold trans at 2. apply map_ext_in. intros i Hi.
    apply in_seq in Hi. rewrite trans_entry by auto. apply H. lia. }
  destruct f as [j|j| | |].
  - exists (xorb c (e && Z.odd (Z.of_nat j))), e, k, (Z.of_nat j * k + r). split; auto. apply H. intros i Hi. cbn [lneg lidx sneg].
    rewrite Z.odd_add. f_equal; [destruct c, e, (Z.odd i), (Z.odd (Z.of_nat j)); reflexivity|f_equal; lia].
  - cbn [good_lop] in Hg. apply gcd_ZZ in Hg.
    assert (Z.odd (Z.of_nat j) = true) as Hj.
    { destruct (Z.odd (Z.of_nat j)) eqn:E; auto. exfalso. rewrite <- Z.negb_even in E. apply negb_false_iff, Z.even_spec in E.
      destruct E as [x E]. assert ((2 | Z.gcd (Z.of_nat j) (Z.of_nat 32))) as D.
      { apply Z.gcd_greatest; [exists x; lia|exists 16; reflexivity]. }
      rewrite Hg in D. apply Z.divide_1_r in D. lia. }
    exists c, e, (Z.of_nat j * k), r. split; [rewrite Z.odd_mul, Hj, Hk; reflexivity|]. apply H. intros i Hi. cbn [lneg lidx sneg].
    rewrite Z.odd_mul, Hj, andb_true_r. f_equal. f_equal. lia.
  - exists c, (negb e), k, r. split; auto. apply H. intros i Hi. cbn [lneg lidx].
    rewrite sneg_sneg by (now apply entry_i8). f_equal. destruct c, e, (Z.odd i); reflexivity.
  - exists (xorb c e), e, (- k), (- k + r). split; [now rewrite Z.odd_opp|]. apply H. intros i Hi. cbn [lneg lidx sneg].
    f_equal.
    + replace (Z.of_nat 32 - 1 - i) with (31 - i) by lia. rewrite Z.odd_sub. cbn [Z.odd]. destruct c, e, (Z.odd i); reflexivity.
    + apply entry_periodic. rewrite Hl.
      replace ((Z.of_nat 32 - 1 - i) * k + r) with (i * - k + (- k + r) + k * Z.of_nat 32) by ring. apply Z_mod_plus_full.
  - exists (negb c), e, k, r. split; auto. apply H. intros i Hi. cbn [lneg lidx].
    rewrite sneg_sneg by (now apply entry_i8). f_equal. destruct c, e, (Z.odd i); reflexivity.
Qed.

Definition is_trans (x z : QuadSeq) : Prop :=
  forall t, exists u c e k r, Z.odd k = true /\ slot z t = trans c e k r (slot x u).

Lemma is_trans_refl x : wf 32 x -> is_trans x x.
Proof.
  intros H. apply wf_slots in H as [_ H]. intros t. exists t, false, false, 1, 0. split; auto.
  apply list_ext with (d := 0); [now rewrite trans_length, H|]. rewrite H. intros i Hi. unfold trans.
  rewrite nth_map_seq by auto. cbn [xorb andb sneg]. rewrite <- entry_nat by (now rewrite H). f_equal. lia.
Qed.

Lemma is_trans_gact x g z : i8_quad 32 x -> good 32 g -> is_trans x z -> is_trans x (gact g z).
Proof.
  intros Hx Hg H t. apply i8_slots in Hx as [Hw H8]. apply wf_slots in Hw as [_ Hl]. rewrite gact_slot.
  assert (forall f t, good_lop 32 f -> exists u c e k r, Z.odd k = true /\ lact f (slot z t) = trans c e k r (slot x u)) as L.
  { intros f s Hf. destruct (H s) as (u & c & e & k & r & Hk & ->). exists u. now apply lact_trans. }
  destruct g as [f|u f|u v]; auto. destruct (tag_eq t u); auto. apply L. destruct f; cbn [good good_lop] in *; tauto.
Qed.

Lemma is_trans_reach ops x z : (forall o, In o ops -> o <> AlternatedNegation) -> i8_quad 32 x -> reach ops x z -> is_trans x z.
Proof.
  intros Ho Hx R. apply (reach_word 32) in R as (w & Hw & ->); [|apply Hx].
  apply (good_word ops w Ho) in Hw. assert (is_trans x x) as H by (apply is_trans_refl, Hx).
  assert (forall y, is_trans x y -> is_trans x (wact w y)) as K; auto.
  clear H. induction Hw as [|g w Hg Hw IH]; intros y Hy; auto. cbn. apply IH. now apply is_trans_gact.
Qed.

(* all of them, to be computed *)
Definition bools : list bool := [false; true].
Definition all_trans (l : list Z) : list (list Z) :=
  flat_map (fun k => flat_map (fun r => flat_map (fun c => map (fun e =>
    trans c e (Z.of_nat k) (Z.of_nat r) l) bools) bools) (seq 0 32)) (filter Nat.odd (seq 0 32)).

Lemma in_all_trans c e k r l : length l = 32%nat -> Z.odd k = true -> In (trans c e k r l) (all_trans l).
Proof.
  intros Hl Hk.
  assert (trans c e k r l = trans c e (Z.of_nat (Z.to_nat (k mod 32))) (Z.of_nat (Z.to_nat (r mod 32))) l) as ->.
  { unfold trans. apply map_ext. intros i. f_equal. apply entry_periodic. rewrite Hl. change (Z.of_nat 32) with 32.
    rewrite !Z2Nat.id by (apply Z.mod_pos_bound; lia). rewrite Zplus_mod_idemp_r, <- (Zplus_mod_idemp_l (_ * (k mod 32))), Zmult_mod_idemp_r.
    now rewrite Zplus_mod_idemp_l. }
  assert (0 <= k mod 32 < 32) as Bk by (apply Z.mod_pos_bound; lia).
  assert (0 <= r mod 32 < 32) as Br by (apply Z.mod_pos_bound; lia).
  unfold all_trans. apply in_flat_map. exists (Z.to_nat (k mod 32)). split.
  - apply filter_In. split; [apply in_seq; lia|].
    pose proof (odd_mod_even 32 k eq_refl) as E. change (Z.of_nat 32) with 32 in E. rewrite Hk in E.
    rewrite <- (Z2Nat.id (k mod 32)) in E by lia. revert E. generalize (Z.to_nat (k mod 32)). intros a E.
    apply Z.odd_spec in E as [b E]. apply Nat.odd_spec. exists (Z.to_nat b). lia.
  - apply in_flat_map. exists (Z.to_nat (r mod 32)). split; [apply in_seq; lia|].
    apply in_flat_map. exists c. split; [destruct c; cbn; tauto|]. apply in_map_iff. exists e. split; auto. destruct e; cbn; tauto.
Qed.

(* ---- comparison with a bound ---- *)

Fixpoint lexb (x y : list Z) : bool :=
  match x, y with
  | a :: x, b :: y => (a <? b) || ((a =? b) && lexb x y)
  | _, _ => false
  end.
Lemma lexb_lex x y : lexb x y = true <-> lex x y.
Proof.
  revert y. induction x as [|a x IH]; intros [|b y]; cbn [lexb]; try (split; [discriminate|intros H; inversion H]).
  rewrite orb_true_iff, andb_true_iff, Z.ltb_lt, Z.eqb_eq, IH. split.
  - intros [H|[-> H]]; [now apply lex_here|now apply lex_later].
  - intros H. inversion H; subst; auto.
Qed.

Definition bounded (b : list Z) (l : list Z) : bool := forallb (fun z => negb (lexb z b)) (all_trans l).

Lemma none_below b (L : list (list Z)) z : forallb (fun z => negb (lexb z b)) L = true -> In z L -> lexb z b = false.
Proof. intros H Hz. rewrite forallb_forall in H. apply negb_true_iff. now apply H. Qed.
Lemma bounded_at b l z : bounded b l = true -> In z (all_trans l) -> lexb z b = false.
Proof. exact (none_below b (all_trans l) z). Qed.

Lemma bound_reach ops b x z : (forall o, In o ops -> o <> AlternatedNegation) -> i8_quad 32 x ->
  forallb (bounded b) [q_a x; q_b x; q_c x; q_d x] = true -> reach ops x z -> ~ lex (q_a z) b.
Proof.
  intros Ho Hx Hb R L. apply (is_trans_reach ops x z Ho Hx) in R.
  destruct (R TW) as (u & c & e & k & r & Hk & E). cbn [slot] in E. rewrite E in L.
  apply i8_slots in Hx as [Hw _]. apply wf_slots in Hw as [_ Hl].
  rewrite forallb_forall in Hb. specialize (Hb (slot x u)).
  assert (bounded b (slot x u) = true) as Hu by (apply Hb; destruct u; cbn; tauto).
  pose proof (bounded_at _ _ _ Hu (in_all_trans c e k r (slot x u) (Hl u) Hk)) as F.
  apply lexb_lex in L. exact (eq_true_false_abs _ L F).
Qed.

Lemma lex_app_l (a b x y : list Z) : length a = length b -> lex (a ++ x) (b ++ y) -> lex a b \/ a = b.
Proof.
  revert b. induction a as [|u a IH]; intros [|v b] Hl H; cbn in *; try lia; auto.
  inversion H; subst; [left; now apply lex_here|]. destruct (IH b) as [L| ->]; auto. left. now apply lex_later.
Qed.

Lemma quad_le_bound b x y : wf 32 x -> wf 32 y -> quad_le x y -> lex (q_a y) b -> lex (q_a x) b.
Proof.
  intros Hx Hy [->|H] L; auto. unfold quad_lt, flat in H. apply lex_app_l in H as [H|H].
  - exact (lex_trans _ _ _ H L).
  - now rewrite H.
  - destruct Hx as (_ & -> & _). now destruct Hy as (_ & -> & _).
Qed.

(* a candidate below the bound of the class: the representative is not a solution *)
Lemma wrong_representative t b q c m : supported t -> pm_quad 32 q -> complementary q ->
  forallb (bounded b) [q_a q; q_b q; q_c q; q_d q] = true ->
  candidate t q c -> lex (q_a c) b -> least (candidate t q) m -> lex (q_a m) b /\ ~ complementary m.
Proof.
  intros Ht Hq Hc Hb Cc L [Cm Hm]. destruct (candidate_class t q m Ht Hq Cm) as [Pm R].
  destruct (candidate_class t q c Ht Hq Cc) as [Pc _].
  assert (lex (q_a m) b) as Lm by (apply (quad_le_bound b m c); auto; [apply Pm|apply Pc]).
  split; auto. destruct R as [R|R].
  - exfalso. revert Lm. apply (bound_reach _ b q m (type_no_alt (rep_type t))); auto using pm_i8.
  - now apply (flipped_class t q).
Qed.

Lemma four_true (f : list Z -> bool) a b c d d' : forallb f [a; b; c; d] = true -> f d' = true -> forallb f [a; b; c; d'] = true.
Proof. cbn. rewrite !andb_true_iff. tauto. Qed.

Lemma bound_representative t b q m : supported t -> pm_quad 32 q ->
  forallb (bounded b) [q_a q; q_b q; q_c q; q_d q] = true -> bounded b (q_d (flip_last q)) = true ->
  least (candidate t q) m -> ~ lex (q_a m) b.
Proof.
  intros Ht Hq Hb Hf [Cm _]. destruct (candidate_class t q m Ht Hq Cm) as [_ [R|R]].
  - apply (bound_reach _ b q m (type_no_alt (rep_type t))); auto using pm_i8.
  - apply (bound_reach _ b (flip_last q) m (type_no_alt (rep_type t))); auto using pm_i8, flip_last_pm.
    exact (four_true _ _ _ _ _ _ Hb Hf).
Qed.
