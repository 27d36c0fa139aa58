(* qt_canonical, reduce_to_canonical_reps and equiv. *)
From Coq Require Import List ZArith Lia Arith Bool Permutation Relations.
From Verif Require Import Base BaseFacts Sums Quat ModelSequence ModelWilliamson Spec SeqFacts
  ModelEquivalence SpecEquiv OpFacts EquivFacts TypeFacts OrderFacts FastFacts CanonFacts NsFacts.
Import ListNotations.
Open Scope nat_scope.

Definition step (ops : list Op) (x y : QuadSeq) : Prop := exists o, In o ops /\ variant o x y.

Lemma step_reach ops x y : step ops x y -> reach ops x y.
Proof. intros H. now apply rt_step. Qed.

Lemma reach_mono ops ops' x y :
  (forall o x y, In o ops -> variant o x y -> step ops' x y) -> reach ops x y -> reach ops' x y.
Proof.
  intros H R. induction R as [x y (o & Ho & Hv)|x|x y z _ IH1 _ IH2].
  - apply rt_step. eapply H; eauto.
  - apply rt_refl.
  - eapply rt_trans; eauto.
Qed.

Lemma reach_incl ops ops' x y : incl ops ops' -> reach ops x y -> reach ops' x y.
Proof. intros H. apply reach_mono. intros o u v Ho Hv. exists o. auto. Qed.

(* reachability with S and N factors into S first, then N *)
Section Factor.
  Context (n : nat) (S N : list Op).
  Context (comm : forall x y z, pm_quad n x -> step N x y -> step S y z ->
                  exists y', step S x y' /\ reach N y' z).

  Lemma push x y z : pm_quad n x -> reach N x y -> step S y z -> exists y', step S x y' /\ reach N y' z.
  Proof.
    intros Hx R. apply clos_rt_rt1n in R. revert Hx z.
    induction R as [x|x x1 y Hs R IH]; intros Hx z Hz.
    - exists z. split; auto. apply rt_refl.
    - assert (pm_quad n x1) as Hx1 by (eapply reach_pm; [apply Hx|apply step_reach, Hs]).
      destruct (IH Hx1 z Hz) as (y1 & Hy1 & R1).
      destruct (comm x x1 y1 Hx Hs Hy1) as (y2 & Hy2 & R2). exists y2. split; auto. eapply rt_trans; eauto.
  Qed.

  Lemma factor x z : pm_quad n x -> (reach (S ++ N) x z <-> exists y, reach S x y /\ reach N y z).
  Proof.
    intros Hx. split.
    - intros R. apply clos_rt_rtn1 in R. induction R as [|y z (o & Ho & Hv) R (y1 & RS & RN)].
      + exists x. split; apply rt_refl.
      + apply in_app_or in Ho as [Ho|Ho].
        * assert (pm_quad n y1) as Hy1 by (eapply reach_pm; eauto).
          destruct (push y1 y z Hy1 RN) as (y2 & Hy2 & R2); [exists o; auto|].
          exists y2. split; auto. eapply rt_trans; [apply RS|]. now apply step_reach.
        * exists y1. split; auto. eapply rt_trans; [apply RN|]. apply rt_step. exists o; auto.
    - intros (y & RS & RN). eapply rt_trans.
      + eapply reach_incl; [|apply RS]. apply incl_appl, incl_refl.
      + eapply reach_incl; [|apply RN]. apply incl_appr, incl_refl.
  Qed.
End Factor.

(* ---- slot operations and position operations commute ---- *)
Lemma lact_neg_comm f l : Forall i8 l -> lact f (lact Neg l) = lact Neg (lact f l).
Proof.
  intros H. destruct (len0 l) as [->|Hl]; [now rewrite !lact_nil|].
  rewrite !lact_lact by auto. apply map_ext_in. intros i Hi. apply in_seq in Hi. cbn zeta.
  cbn [lneg lidx]. rewrite mod_small_nat by lia. rewrite entry_mod.
  destruct (lneg f (Z.of_nat i)); reflexivity.
Qed.

Definition slot_gen (g : gen) : Prop := match g with At _ Neg | Ex _ _ => True | _ => False end.
Definition pos_gen (h : gen) : Prop := match h with All _ => True | At _ (Rot _) => True | _ => False end.
Definition conj (g h : gen) : gen :=
  match g, h with Ex s t, At u f => At (exchange s t u) f | _, _ => h end.

Lemma conj_comm n g h x : i8_quad n x -> slot_gen g -> pos_gen h ->
  gact h (gact g x) = gact g (gact (conj g h) x).
Proof.
  intros Hx Hg Hh. destruct g as [f|u f|s t]; cbn in Hg; try tauto.
  - destruct f; try tauto. destruct h as [f|v f|s t]; cbn in Hh; try tauto; cbn [conj].
    + apply (gact_comm_all_at x n); auto. intros l Hl _. now apply lact_neg_comm.
    + destruct (tag_eq u v) eqn:E.
      * apply tag_eq_eq in E. subst v. apply quad_ext; auto. intros w. rewrite !gact_slot.
        destruct (tag_eq w u); auto. apply lact_neg_comm. now apply i8_slots in Hx.
      * apply (gact_comm_at x n); auto. intros ->. destruct u; discriminate.
  - destruct h as [f|v f|s' t']; cbn in Hh; try tauto; cbn [conj].
    + apply gact_comm_all_ex.
    + apply gact_ex_at.
Qed.

Lemma conj_pos g h : pos_gen h -> pos_gen (conj g h).
Proof. destruct g as [|? f|? ?], h as [|? f'|? ?]; cbn; auto. Qed.

Lemma conj_word n g v x : i8_quad n x -> slot_gen g -> Forall pos_gen v ->
  wact v (gact g x) = gact g (wact (map (conj g) v) x).
Proof.
  intros Hx Hg. revert x Hx. induction v as [|h v IH]; intros x Hx Hv; auto. inversion Hv; subst.
  cbn [wact fold_left map]. fold (wact v (gact h (gact g x))).
  rewrite (conj_comm n) by auto. rewrite IH by (auto using gact_i8). reflexivity.
Qed.

(* the position operations are closed under conjugation *)
Definition pos_op (o : Op) : Prop :=
  match o with
  | Automorphism | EvenAlternatedNegation | UniformShift | DualHalfShift | UniformHalfShift | SingleHalfShift => True
  | _ => False
  end.

Lemma pos_op_gens o n v : pos_op o -> In v (variants o n) -> Forall pos_gen v.
Proof.
  intros Ho Hv. destruct o; cbn in Ho; try tauto; cbn [variants] in Hv; try (destruct (Nat.even n); [|now destruct Hv]).
  - apply in_map_iff in Hv as (t & <- & _). repeat constructor.
  - apply in_map_iff in Hv as (t & <- & _). repeat constructor.
  - destruct Hv as [<-|Hv]; [repeat constructor|].
    apply in_map_iff in Hv as ([s t] & <- & _). repeat constructor.
  - apply in_map_iff in Hv as (t & <- & _). repeat constructor.
  - destruct Hv as [<-|[]]. repeat constructor.
  - apply in_map_iff in Hv as (k & <- & _). repeat constructor.
Qed.

Lemma exchange_inj s t u v : exchange s t u = exchange s t v -> u = v.
Proof. intros H. rewrite <- (exchange_invol s t u), H. apply exchange_invol. Qed.

Lemma pos_op_closed o n v g : pos_op o -> slot_gen g -> In v (variants o n) ->
  exists v', In v' (variants o n) /\ forall x, i8_quad n x -> wact (map (conj g) v) x = wact v' x.
Proof.
  intros Ho Hg Hv.
  destruct g as [f|u f|s t]; cbn in Hg; try tauto.
  { exists v. split; auto. intros x _. f_equal. rewrite <- map_id. apply map_ext. now intros []. }
  assert (forall f, map (conj (Ex s t)) [All f] = [All f]) as HA by reflexivity.
  destruct o; cbn in Ho; try tauto; cbn [variants] in Hv |- *; try (destruct (Nat.even n); [|now destruct Hv]).
  - apply in_map_iff in Hv as (u & <- & _). exists [At (exchange s t u) (Rot (n / 2))]. split; [|reflexivity].
    apply (in_map (fun t => [At t (Rot (n / 2))])), in_tags.
  - apply in_map_iff in Hv as (k & <- & Hk). exists [All (Rot k)]. split; [|reflexivity].
    now apply (in_map (fun k => [All (Rot k)])).
  - destruct Hv as [<-|Hv]; [exists [All (Rot (n / 2))]; split; [now left|reflexivity]|].
    apply in_map_iff in Hv as ([u u'] & <- & Huv).
    assert (exchange s t u <> exchange s t u') as Hne.
    { intros E. apply exchange_inj in E. subst. cbn in Huv. intuition congruence. }
    destruct (in_pairs _ _ Hne) as [H|H].
    + exists [At (exchange s t u) (Rot (n / 2)); At (exchange s t u') (Rot (n / 2))]. split; [|reflexivity].
      right. now apply (in_map (fun '(s, t) => [At s (Rot (n / 2)); At t (Rot (n / 2))]) all_pairs (exchange s t u, exchange s t u')).
    + exists [At (exchange s t u') (Rot (n / 2)); At (exchange s t u) (Rot (n / 2))]. split.
      * right. now apply (in_map (fun '(s, t) => [At s (Rot (n / 2)); At t (Rot (n / 2))]) all_pairs (exchange s t u', exchange s t u)).
      * intros x Hx. cbn [map conj wact fold_left]. apply (gact_comm_at x n); auto.
  - apply in_map_iff in Hv as (u & <- & _). exists [At (exchange s t u) (Rot (n / 2))]. split; [|reflexivity].
    apply (in_map (fun t => [At t (Rot (n / 2))])), in_tags.
  - destruct Hv as [<-|[]]. exists [All Alt]. split; [now left|reflexivity].
  - apply in_map_iff in Hv as (k & <- & Hk). exists [All (Dil k)]. split; [|reflexivity].
    now apply (in_map (fun k => [All (Dil k)])).
Qed.

Lemma pos_word n o w v x : pos_op o -> Forall slot_gen w -> In v (variants o n) -> i8_quad n x ->
  exists v', In v' (variants o n) /\ wact v (wact w x) = wact w (wact v' x).
Proof.
  intros Ho Hw Hv. revert v Hv x. induction w as [|g w IH]; intros v Hv x Hx.
  - exists v. auto.
  - inversion Hw; subst. cbn [wact fold_left]. fold (wact w (gact g x)).
    destruct (IH H2 v Hv (gact g x)) as (v1 & Hv1 & E1); [now apply gact_i8|].
    destruct (pos_op_closed o n v1 g Ho H1 Hv1) as (v2 & Hv2 & E2).
    exists v2. split; auto. fold (wact v (wact w (gact g x))). rewrite E1.
    rewrite (conj_word n) by (auto; eapply pos_op_gens; eauto). rewrite E2 by auto. reflexivity.
Qed.

Lemma slot_op_gens o n w : o = Negate \/ o = Reorder \/ o = NegateSwap -> In w (variants o n) -> Forall slot_gen w.
Proof.
  intros [->|[->| ->]] Hw; cbn [variants] in Hw.
  - apply in_map_iff in Hw as (t & <- & _). repeat constructor.
  - apply in_map_iff in Hw as ([s t] & <- & _). repeat constructor.
  - apply in_map_iff in Hw as ([[s t] u] & <- & _). repeat constructor.
Qed.

Lemma slot_pos_comm n S N x y z :
  (forall o, In o S -> pos_op o) -> (forall o, In o N -> o = Negate \/ o = Reorder \/ o = NegateSwap) ->
  pm_quad n x -> step N x y -> step S y z -> exists y', step S x y' /\ reach N y' z.
Proof.
  intros HS HN Hx (o & Ho & Hv) (o' & Ho' & Hv').
  pose proof (pm_i8 n x Hx) as Ix. pose proof (proj1 (proj1 Hx)) as Sx.
  destruct Hv as [->|(w & Hw & ->)].
  { exists z. split; [exists o'; auto|apply rt_refl]. }
  destruct Hv' as [->|(v & Hv & ->)].
  { exists x. split; [exists o'; split; auto; now left|]. apply rt_step. exists o. split; auto. right. eauto. }
  rewrite wact_size, Sx in Hv. rewrite Sx in Hw.
  destruct (pos_word n o' w v x) as (v' & Hv' & E); auto.
  { eapply slot_op_gens; eauto. }
  exists (wact v' x). split.
  - exists o'. split; auto. right. exists v'. rewrite Sx. auto.
  - apply rt_step. exists o. split; auto. right. exists w. rewrite wact_size, Sx. auto.
Qed.

(* ---- qt_canonical ---- *)
Definition pos_ops (t : SequenceType) : list Op :=
  match t with
  | QuaternionType => [Automorphism; EvenAlternatedNegation; UniformShift; DualHalfShift]
  | _ => [Automorphism; EvenAlternatedNegation; UniformShift; UniformHalfShift]
  end.
Definition slot_ops (t : SequenceType) : list Op :=
  match t with QuaternionType => [NegateSwap] | _ => [Negate; Reorder] end.
Definition supported (t : SequenceType) : Prop :=
  t = QuaternionType \/ t = WilliamsonType \/ t = Williamson.
(* the type whose equivalence the representatives decide: for Williamson sequences it is the
   equivalence of Williamson-type sequences *)
Definition rep_type (t : SequenceType) : SequenceType :=
  match t with QuaternionType => QuaternionType | _ => WilliamsonType end.

Lemma canonical_ops_impl t : canonical_ops t = map impl (pos_ops t).
Proof. destruct t; reflexivity. Qed.

Lemma rep_ops_reach t x y : supported t ->
  (reach (pos_ops t ++ slot_ops t) x y <-> reach (type_ops (rep_type t)) x y).
Proof.
  intros Ht. split; apply reach_mono; intros o u v Ho Hv.
  - destruct Ht as [->|[->| ->]]; cbn in Ho;
      repeat (destruct Ho as [<-|Ho]; [first [eexists; split; [|exact Hv]; cbn; tauto
        | exists SingleHalfShift; split; [cbn; tauto|exact Hv]]|]); destruct Ho.
  - destruct Ht as [->|[->| ->]]; cbn in Ho;
      repeat (destruct Ho as [<-|Ho]; [first [eexists; split; [|exact Hv]; cbn; tauto
        | exists UniformHalfShift; split; [cbn; tauto|exact Hv]]|]); destruct Ho.
Qed.

Lemma rep_factor n t x z : supported t -> pm_quad n x ->
  (reach (type_ops (rep_type t)) x z <-> exists y, reach (pos_ops t) x y /\ reach (slot_ops t) y z).
Proof.
  intros Ht Hx. rewrite <- rep_ops_reach by auto. apply (factor n); auto.
  intros u v w Hu. apply (slot_pos_comm n); auto.
  - intros o Ho. destruct Ht as [->|[->| ->]]; cbn in Ho;
      repeat (destruct Ho as [<-|Ho]; [exact I|]); destruct Ho.
  - intros o Ho. destruct Ht as [->|[->| ->]]; cbn in Ho; intuition auto.
Qed.

Definition canon_of (t : SequenceType) : QuadSeq -> option QuadSeq :=
  match t with QuaternionType => ns_canonical | _ => sn_ss_canonical end.
Lemma canon_of_spec n t q : supported t -> pm_quad n q -> 1 <= n ->
  exists c, canon_of t q = Some c /\ least (reach (slot_ops t) q) c.
Proof.
  intros Ht Hq Hn. destruct Ht as [->|[->| ->]]; cbn [canon_of slot_ops];
    [apply (ns_spec n)|apply (sn_ss_spec n)|apply (sn_ss_spec n)]; auto.
Qed.

Lemma traverse_total {A B} (f : A -> option B) l :
  (forall x, In x l -> exists y, f x = Some y) ->
  exists r, traverse f l = Some r /\ forall y, In y r <-> exists x, In x l /\ f x = Some y.
Proof.
  induction l as [|a l IH]; intros H; cbn [traverse].
  - exists []. split; auto. intros y. split; [intros []|intros (x & [] & _)].
  - destruct (H a) as (b & Eb); [now left|]. destruct IH as (r & -> & Hr); [intros; apply H; now right|].
    rewrite Eb. cbn. exists (b :: r). split; auto. intros y. cbn. rewrite Hr. split.
    + intros [<-|(x & Hx & E)]; [exists a; auto|exists x; auto].
    + intros (x & [<-|Hx] & E); [left; congruence|right; eauto].
Qed.

Lemma qt_canonical_spec n ord p q t G : ord_ok ord -> supported t -> pm_quad n q -> 1 <= n <= 31 ->
  (forall y, In y G <-> reach (pos_ops t) (symbolic_quad n) y) ->
  exists m, qt_canonical ord p q G t = Some m /\ least (reach (type_ops (rep_type t)) q) m.
Proof.
  intros Ho Ht Hq Hn HG.
  assert (qt_canonical ord p q G t =
    (let* class := generate_equivalence_class_fast ord (0 :: p) q G in
     let* l := traverse (canon_of t) (ord (1 :: p) class) in
     let* m := min_by (ord (2 :: p) (insert_all l [])) in m)) as ->.
  { destruct Ht as [->|[->| ->]]; reflexivity. }
  destruct (fast_spec n ord (0 :: p) (pos_ops t) q G Ho ltac:(lia) (pm_i8 n q Hq) HG) as (r & -> & _ & Hr).
  cbn [bind].
  assert (forall y, In y r -> pm_quad n y) as Pr by (intros y Hy; apply Hr in Hy; eapply reach_pm; eauto).
  destruct (traverse_total (canon_of t) (ord (1 :: p) r)) as (l & -> & Hl).
  { intros x Hx. apply (ord_in ord) in Hx; auto. destruct (canon_of_spec n t x Ht) as (c & E & _); eauto. lia. }
  cbn [bind]. set (L := ord (2 :: p) (insert_all l [])).
  assert (forall y, In y L <-> exists x, In x r /\ canon_of t x = Some y) as HL.
  { intros y. unfold L. rewrite (ord_in ord) by auto. rewrite insert_all_in, Hl. split.
    - intros [(x & Hx & E)|[]]. exists x. rewrite (ord_in ord) in Hx; auto.
    - intros (x & Hx & E). left. exists x. rewrite (ord_in ord); auto. }
  assert (forall y, In y L -> pm_quad n y) as PL.
  { intros y Hy. apply HL in Hy as (x & Hx & E).
    destruct (canon_of_spec n t x Ht (Pr x Hx)) as (c & E' & Hc & _); [lia|].
    rewrite E in E'. injection E' as <-. eapply reach_pm; [apply (Pr x Hx)|apply Hc]. }
  pose proof (min_by_spec n L (fun x Hx => proj1 (PL x Hx))) as HM.
  assert (exists m, min_by L = Some (Some m) /\ least (fun x => In x L) m) as (m & -> & Hm & Hmin).
  { destruct L as [|x0 L0] eqn:EL; auto. exfalso.
    assert (In q r) as Hqr by (apply Hr, rt_refl).
    destruct (canon_of_spec n t q Ht Hq) as (c & E & _); [lia|].
    assert (In c []) as [] by (apply HL; eauto). }
  exists m. split; auto. split.
  - apply HL in Hm as (x & Hx & E).
    destruct (canon_of_spec n t x Ht (Pr x Hx)) as (c & E' & Hc & _); [lia|].
    rewrite E in E'. injection E' as <-. apply (rep_factor n); auto. exists x. split; auto. now apply Hr.
  - intros y Hy. apply (rep_factor n) in Hy as (x & RS & RN); auto.
    assert (In x r) as Hx by now apply Hr.
    destruct (canon_of_spec n t x Ht (Pr x Hx)) as (c & E & _ & Hc); [lia|].
    eapply quad_le_trans; [apply Hmin, HL; eauto|]. now apply Hc.
Qed.

(* ---- reduce_to_canonical_reps ---- *)
Lemma unique_spec l : NoDup (unique l) /\ forall x, In x (unique l) <-> In x l.
Proof.
  unfold unique.
  assert (forall l acc, NoDup acc ->
    let r := fold_left (fun acc x => if mem x acc then acc else x :: acc) l acc in
    NoDup r /\ forall x, In x r <-> In x l \/ In x acc) as H.
  { clear l. induction l as [|a l IH]; intros acc Ha; cbn [fold_left].
    - split; auto. cbn. intros; tauto.
    - destruct (mem a acc) eqn:E.
      + destruct (IH acc Ha) as [H1 H2]. split; auto. intros x. rewrite H2. apply mem_in in E. cbn.
        intuition (subst; auto).
      + destruct (IH (a :: acc)) as [H1 H2].
        { constructor; auto. now apply mem_not_in. }
        split; auto. intros x. rewrite H2. cbn. intuition auto. }
  destruct (H l [] (NoDup_nil _)) as [H1 H2]. split.
  - now apply NoDup_rev.
  - intros x. rewrite <- in_rev, H2. cbn. tauto.
Qed.

Lemma reduce_spec n ord p l t fuel : ord_ok ord -> supported t -> 1 <= n <= 31 -> l <> [] ->
  Forall (pm_quad n) l -> class_fuel n <= fuel ->
  exists r, reduce_to_canonical_reps fuel ord p l t = Some r /\ NoDup r /\
    forall m, In m r <-> exists x, In x l /\ least (reach (type_ops (rep_type t)) x) m.
Proof.
  intros Ho Ht Hn Hne Hl Hf. unfold reduce_to_canonical_reps.
  destruct l as [|q0 l0] eqn:El; [congruence|]. cbn [vget nth_error bind].
  assert (q_size q0 = n) as -> by (inversion Hl; subst; now destruct H1 as [[? _] _]).
  rewrite <- El in *. clear El q0 l0. rewrite canonical_ops_impl.
  destruct (symmetry_group_spec n ord (0 :: p) (pos_ops t) fuel Ho) as (G & -> & _ & HG); auto.
  { intros o _ _. lia. }
  cbn [bind].
  assert (forall l i acc, Forall (pm_quad n) l -> exists reps,
    foldi_from i (fun i acc q => let* c := qt_canonical ord (i :: 1 :: p) q G t in Some (acc ++ [c])) l acc
      = Some (acc ++ reps) /\
    forall m, In m reps <-> exists x, In x l /\ least (reach (type_ops (rep_type t)) x) m) as H.
  { clear l Hne Hl. induction l as [|q l IH]; intros i acc Hl; cbn [foldi_from].
    - exists []. rewrite app_nil_r. split; auto. intros m. split; [intros []|intros (x & [] & _)].
    - inversion Hl; subst.
      destruct (qt_canonical_spec n ord (i :: 1 :: p) q t G Ho Ht H1 Hn HG) as (m & -> & Hm). cbn [bind].
      destruct (IH (S i) (acc ++ [m]) H2) as (reps & -> & Hr). exists (m :: reps).
      rewrite <- app_assoc. split; auto. intros m'. cbn. rewrite Hr. split.
      + intros [<-|(x & Hx & H)]; [exists q; auto|exists x; auto].
      + intros (x & [<-|Hx] & H); [left; eapply least_unique; eauto|right; eauto]. }
  unfold foldi. destruct (H l 0 [] Hl) as (reps & -> & Hr). cbn [bind app].
  exists (unique reps). split; auto. destruct (unique_spec reps) as [H1 H2]. split; auto.
  intros m. rewrite H2. apply Hr.
Qed.
