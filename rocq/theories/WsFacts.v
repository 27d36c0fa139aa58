(* Williamson sequences: equivalence as Williamson-type sequences is equivalence as Williamson
   sequences; the pairwise test equiv. *)
From Coq Require Import List ZArith Lia Arith Bool Permutation Relations.
From Verif Require Import Base BaseFacts Sums Quat ModelSequence ModelWilliamson Spec SeqFacts
  ModelEquivalence SpecEquiv OpFacts EquivFacts TypeFacts OrderFacts FastFacts CanonFacts NsFacts EquivThms ReduceFacts.
Import ListNotations.
Open Scope nat_scope.

Lemma entry_ext l m : length l = length m -> (forall i, entry l i = entry m i) -> l = m.
Proof.
  intros Hl H. apply (nth_ext l m 0%Z 0%Z); auto. intros i Hi.
  rewrite <- (entry_nat l i), <- (entry_nat m i); auto. lia.
Qed.

Lemma rot_mod l k : lact (Rot k) l = lact (Rot (k mod length l)) l.
Proof.
  apply entry_ext; [now rewrite !lact_length|]. intros i. rewrite !entry_rot. apply entry_periodic.
  rewrite Nat2Z.inj_mod. now rewrite Zplus_mod_idemp_r.
Qed.

Lemma all_rot_mod n x k : wf n x -> gact (All (Rot k)) x = gact (All (Rot (k mod n))) x.
Proof.
  intros Hx. apply wf_slots in Hx as [Hs Hx]. apply quad_ext; auto. intros t. rewrite !gact_slot, rot_mod.
  now rewrite Hx.
Qed.

Lemma variant_rot n x k : i8_quad n x -> variant UniformShift x (gact (All (Rot k)) x).
Proof.
  intros Ix. pose proof (proj1 Ix) as Hx. pose proof (proj1 Hx) as Hs. rewrite (all_rot_mod n) by auto.
  destruct (Nat.eq_dec n 0) as [E|E].
  - left. apply quad_ext; auto. intros t. rewrite gact_slot. apply wf_slots in Hx as [_ Hx].
    specialize (Hx t). destruct (slot x t); [reflexivity|cbn in Hx; lia].
  - destruct (Nat.eq_dec (k mod n) 0) as [E'|E'].
    + left. apply quad_ext; auto. intros t. rewrite gact_slot. apply lact_rot_0. rewrite E'.
      apply wf_slots in Hx as [_ Hx]. rewrite Hx. now apply Nat.mod_0_l.
    + right. exists [All (Rot (k mod n))]. split; auto. cbn [variants]. rewrite Hs.
      apply (in_map (fun k => [All (Rot k)])), in_seq. pose proof (Nat.mod_upper_bound k n). lia.
Qed.

Lemma shift_step n x y : i8_quad n x -> step [UniformShift] x y <-> exists k, y = gact (All (Rot k)) x.
Proof.
  intros Hx. split.
  - intros (o & [<-|[]] & [->|(w & Hw & ->)]).
    + exists 0. symmetry. apply quad_ext; auto. intros t. rewrite gact_slot. apply lact_rot_0.
      apply i8_slots in Hx as [Hx _]. apply wf_slots in Hx as [_ Hx]. rewrite Hx.
      destruct n; [reflexivity|now apply Nat.mod_0_l].
    + cbn [variants] in Hw. apply in_map_iff in Hw as (k & <- & _). exists k. reflexivity.
  - intros (k & ->). exists UniformShift. split; [now left|]. now apply (variant_rot n).
Qed.

Lemma shift_reach n x y : i8_quad n x -> reach [UniformShift] x y -> exists k, y = gact (All (Rot k)) x.
Proof.
  intros Hx R. apply clos_rt_rtn1 in R. induction R as [|y z Hs R (k & ->)].
  - apply (shift_step n x x Hx). exists UniformShift. split; [now left|now left].
  - apply (shift_step n) in Hs as (k' & ->); [|now apply gact_i8]. exists (k' + k).
    apply quad_ext; auto. intros t. rewrite !gact_slot. apply lact_rot_rot. now apply i8_slots in Hx.
Qed.

Lemma reach_negate_all ops n q : i8_quad n q -> In Negate ops -> reach ops q (gact (All Neg) q).
Proof.
  intros Hq Ho.
  replace (gact (All Neg) q) with
    (gact (At TW Neg) (gact (At TX Neg) (gact (At TY Neg) (gact (At TZ Neg) q)))).
  - eapply rt_trans; [apply (reach_negate ops _ TZ Ho)|]. eapply rt_trans; [apply (reach_negate ops _ TY Ho)|].
    eapply rt_trans; [apply (reach_negate ops _ TX Ho)|]. apply (reach_negate ops _ TW Ho).
  - apply quad_ext; [reflexivity|]. intros []; reflexivity.
Qed.

Lemma single_half ops n q t : In SingleHalfShift ops -> q_size q = n -> Nat.even n = true ->
  reach ops q (gact (At t (Rot (n / 2))) q).
Proof.
  intros Ho Hs He. apply rt_step. exists SingleHalfShift. split; auto. right.
  exists [At t (Rot (n / 2))]. split; auto. cbn [variants]. rewrite Hs, He.
  apply (in_map (fun t => [At t (Rot (n / 2))])), in_tags.
Qed.

Lemma reach_half_all ops n q : In SingleHalfShift ops -> q_size q = n -> Nat.even n = true ->
  reach ops q (gact (All (Rot (n / 2))) q).
Proof.
  intros Ho Hs He.
  replace (gact (All (Rot (n / 2))) q) with
    (gact (At TW (Rot (n / 2))) (gact (At TX (Rot (n / 2))) (gact (At TY (Rot (n / 2))) (gact (At TZ (Rot (n / 2))) q)))).
  - eapply rt_trans; [apply (single_half ops n _ TZ); auto|].
    eapply rt_trans; [apply (single_half ops n _ TY); auto|].
    eapply rt_trans; [apply (single_half ops n _ TX); auto|]. apply (single_half ops n _ TW); auto.
  - apply quad_ext; [reflexivity|]. intros []; reflexivity.
Qed.

Lemma par_nat k : par (Z.of_nat k) = if Nat.even k then 1%Z else (-1)%Z.
Proof.
  unfold par. destruct (Nat.even k) eqn:E.
  - apply Nat.even_spec in E as [j ->]. rewrite Nat2Z.inj_mul, Z.odd_mul. reflexivity.
  - apply (f_equal negb) in E. rewrite Nat.negb_even in E. apply Nat.odd_spec in E as [j ->].
    rewrite Nat2Z.inj_add, Nat2Z.inj_mul, Z.odd_add, Z.odd_mul. reflexivity.
Qed.

(* uniform shifts can be done first *)
Lemma shift_comm n x y z : pm_quad n x -> step (type_ops Williamson) x y -> step [UniformShift] y z ->
  exists y', step [UniformShift] x y' /\ reach (type_ops Williamson) y' z.
Proof.
  intros Hx (o & Ho & Hv) Hz. pose proof (pm_i8 n x Hx) as Ix. pose proof (proj1 (proj1 Hx)) as Sx.
  pose proof (variant_i8 n o x y Ix Hv) as Iy.
  apply (shift_step n) in Hz as (k & ->); auto.
  destruct Hv as [->|(w & Hw & ->)].
  { exists (gact (All (Rot k)) x). split; [apply (shift_step n); eauto|apply rt_refl]. }
  rewrite Sx in Hw.
  assert (forall j, i8_quad n (gact (All (Rot j)) x)) as Ij by (intros; now apply gact_i8).
  assert (forall w, In o (type_ops Williamson) -> In w (variants o n) ->
          reach (type_ops Williamson) (gact (All (Rot k)) x) (wact w (gact (All (Rot k)) x))) as HV.
  { intros v _ Hv. apply rt_step. exists o. split; auto. right. exists v. rewrite gact_size, Sx. auto. }
  assert (step [UniformShift] x (gact (All (Rot k)) x)) as St by (apply (shift_step n); eauto).
  pose proof Ho as Ho'. cbn in Ho.
  destruct Ho as [<-|[<-|[<-|[<-|[<-|[]]]]]]; cbn [variants] in Hw.
  - apply in_map_iff in Hw as (t & <- & Ht). exists (gact (All (Rot k)) x). split; auto.
    cbn [wact fold_left]. rewrite (gact_comm_all_at x n) by (auto; intros; now apply lact_neg_comm).
    now apply reach_negate.
  - apply in_map_iff in Hw as ([s t] & <- & Ht). exists (gact (All (Rot k)) x). split; auto.
    cbn [wact fold_left]. rewrite gact_comm_all_ex. now apply reach_reorder.
  - destruct (Nat.even n) eqn:He; [|now destruct Hw]. destruct Hw as [<-|[]].
    exists (gact (All (Rot k)) x). split; auto. cbn [wact fold_left].
    pose proof (HV [All Alt] Ho') as R. cbn [variants wact fold_left] in R. rewrite He in R.
    specialize (R (or_introl eq_refl)).
    destruct (Nat.even k) eqn:Ek.
    + replace (gact (All (Rot k)) (gact (All Alt) x)) with (gact (All Alt) (gact (All (Rot k)) x)); auto.
      apply quad_ext; auto. intros t. rewrite !gact_slot. destruct (pm_slot n x t Hx) as [Hp Hl].
      apply entry_ext; [now rewrite !lact_length|]. intros i.
      rewrite entry_alt, !entry_rot, entry_alt; auto using lact_pm1; rewrite ?lact_length, ?Hl; auto.
      rewrite par_add, par_nat, Ek. lia.
    + replace (gact (All (Rot k)) (gact (All Alt) x)) with (gact (All Neg) (gact (All Alt) (gact (All (Rot k)) x))).
      { eapply rt_trans; [apply R|]. apply (reach_negate_all _ n); auto using gact_i8. cbn; tauto. }
      apply quad_ext; auto. intros t. rewrite !gact_slot. destruct (pm_slot n x t Hx) as [Hp Hl].
      apply entry_ext; [now rewrite !lact_length|]. intros i.
      rewrite entry_neg, entry_alt, !entry_rot, entry_alt; auto using lact_pm1; rewrite ?lact_length, ?Hl; auto.
      rewrite par_add, par_nat, Ek. lia.
  - apply in_map_iff in Hw as (d & <- & Hd).
    exists (gact (All (Rot (k * d))) x). split; [apply (shift_step n); eauto|]. cbn [wact fold_left].
    replace (gact (All (Rot k)) (gact (All (Dil d)) x)) with (gact (All (Dil d)) (gact (All (Rot (k * d))) x)).
    + apply rt_step. exists Automorphism. split; auto. right. exists [All (Dil d)]. split; auto.
      cbn [variants]. rewrite gact_size, Sx. now apply (in_map (fun k => [All (Dil k)])).
    + apply quad_ext; auto. intros t. rewrite !gact_slot. apply entry_ext; [now rewrite !lact_length|]. intros i.
      rewrite entry_dil, !entry_rot, entry_dil. f_equal. lia.
  - destruct (Nat.even n) eqn:He; [|now destruct Hw]. apply in_map_iff in Hw as (t & <- & Ht).
    exists (gact (All (Rot k)) x). split; auto. cbn [wact fold_left].
    rewrite (gact_comm_all_at x n); auto.
    + apply single_half; auto.
    + intros l Hl _. rewrite !lact_rot_rot by auto. f_equal. f_equal. lia.
Qed.

Lemma periodic_paf l t : pm1 l -> (forall i, entry l (i + t) = entry l i) -> paf l t = Z.of_nat (length l).
Proof.
  intros Hp H. rewrite <- (paf_0 l Hp). unfold paf. apply sumZ_ext. intros i _. rewrite H. f_equal.
  f_equal. lia.
Qed.

Lemma half_or_zero n k : 1 <= n -> (2 * k) mod n = 0 -> k mod n = 0 \/ (Nat.even n = true /\ k mod n = n / 2).
Proof.
  intros Hn H. pose proof (Nat.mod_upper_bound k n ltac:(lia)) as Hb.
  pose proof (Nat.div_mod k n ltac:(lia)) as Hk. set (r := k mod n) in *. set (c := k / n) in *.
  rewrite Hk in H. replace (2 * (n * c + r)) with (2 * r + (2 * c) * n) in H by lia.
  rewrite Nat.mod_add in H by lia.
  destruct (Nat.eq_dec r 0) as [|Hr]; auto. right.
  assert (2 * r = n) as E.
  { apply Nat.mod_divides in H as (m & Hm); [|lia]. assert (m = 1) by nia. subst m. lia. }
  split.
  - rewrite <- E. rewrite Nat.even_mul. reflexivity.
  - rewrite <- E. rewrite (Nat.mul_comm 2 r), Nat.div_mul; lia.
Qed.

(* on Williamson sequences the two equivalences coincide *)
Lemma W_reach n x y : 1 <= n -> pm_quad n x -> is_type Williamson x -> is_type Williamson y ->
  (reach (type_ops WilliamsonType) x y <-> reach (type_ops Williamson) x y).
Proof.
  intros Hn Hx Tx Ty. split.
  2:{ apply reach_incl. intros o Ho. cbn in *. tauto. }
  intros R. assert (reach ([UniformShift] ++ type_ops Williamson) x y) as R'.
  { revert R. apply reach_incl. intros o Ho. cbn in *. tauto. }
  apply (factor n) in R' as (z & RS & RN); auto.
  2:{ intros u v w Hu. apply (shift_comm n); auto. }
  pose proof (pm_i8 n x Hx) as Ix.
  apply (shift_reach n) in RS as (k & ->); auto.
  assert (pm_quad n y) as Py by (eapply reach_pm; eauto).
  assert (is_type Williamson (gact (All (Rot k)) x)) as Tz.
  { eapply (reach_type n Williamson y); auto. apply (reach_sym n _ _ _ (gact_i8 n (All (Rot k)) x Ix) RN). }
  cbn [is_type] in *. apply is_W_iff in Tx as [Cx Sx]. apply is_W_iff in Tz as [_ Sz].
  assert (forall t i, entry (slot x t) (i + 2 * Z.of_nat k) = entry (slot x t) i) as Hper.
  { intros t i. specialize (Sz t (i + Z.of_nat k)%Z). rewrite gact_slot, !entry_rot in Sz.
    replace (i + Z.of_nat k + Z.of_nat k)%Z with (i + 2 * Z.of_nat k)%Z in Sz by lia.
    rewrite <- Sz. replace (- (i + Z.of_nat k) + Z.of_nat k)%Z with (- i)%Z by lia. apply Sx. }
  assert ((2 * Z.of_nat k) mod Z.of_nat n = 0)%Z as Hz.
  { destruct (Z.eq_dec ((2 * Z.of_nat k) mod Z.of_nat n) 0) as [|Hne]; auto. exfalso.
    pose proof (proj1 (complementary_iff n x (proj1 Hx) Hn) Cx _ Hne) as E. unfold csum in E.
    pose proof (Hper TW) as E1; pose proof (Hper TX) as E2; pose proof (Hper TY) as E3; pose proof (Hper TZ) as E4.
    cbn [slot] in *. destruct Hx as ((_ & A & B & C & D) & PA & PB & PC & PD).
    rewrite !periodic_paf in E by auto. lia. }
  assert ((2 * k) mod n = 0) as Hk.
  { apply Nat2Z.inj. rewrite Nat2Z.inj_mod, Nat2Z.inj_mul. exact Hz. }
  eapply rt_trans; [|apply RN]. rewrite (all_rot_mod n) by apply Hx.
  destruct (half_or_zero n k Hn Hk) as [->|[He ->]].
  - replace (gact (All (Rot 0)) x) with x; [apply rt_refl|]. symmetry. apply quad_ext; auto. intros t.
    rewrite gact_slot. apply lact_rot_0. destruct (pm_slot n x t Hx) as [_ ->]. apply Nat.mod_0_l. lia.
  - apply reach_half_all; auto; [cbn; tauto|apply Hx].
Qed.

(* ---- reduce_to_canonical_reps as a property theorem ---- *)
Lemma reduce_complete_at n ord l t : ord_ok ord -> t = QuaternionType \/ t = WilliamsonType -> 1 <= n <= 31 ->
  l <> [] -> Forall (fun q => pm_quad n q /\ verify q t = Some true) l ->
  forall fuel p, class_fuel n <= fuel -> exists r,
    reduce_to_canonical_reps fuel ord p l t = Some r /\ NoDup r /\
    (forall m, In m r -> pm_quad n m /\ verify m t = Some true /\ exists x, In x l /\ reach (type_ops t) x m) /\
    (forall x, In x l -> exists m, In m r /\ reach (type_ops t) x m /\
       forall m', In m' r -> reach (type_ops t) x m' -> m' = m) /\
    (forall m, In m r -> least (reach (type_ops t) m) m).
Proof.
  intros Ho Ht Hn Hne Hl fuel p Hf.
  assert (supported t) as Hs by (unfold supported; tauto).
  assert (rep_type t = t) as Er by (destruct Ht as [->| ->]; reflexivity).
  rewrite Forall_forall in Hl.
  destruct (reduce_spec n ord p l t fuel Ho Hs Hn Hne) as (r & E & Nr & Hr); auto.
  { apply Forall_forall. intros x Hx. now apply Hl. }
  rewrite Er in Hr. exists r. split; auto. split; auto.
  assert (forall m, In m r -> exists x, In x l /\ pm_quad n x /\ pm_quad n m /\ least (reach (type_ops t) x) m) as Hm.
  { intros m Hm. apply Hr in Hm as (x & Hx & Lm). destruct (Hl x Hx) as [Px _]. exists x.
    split; auto. split; auto. split; auto. eapply reach_pm; [apply Px|apply Lm]. }
  split; [|split].
  - intros m Hin. destruct (Hm m Hin) as (x & Hx & Px & Pm & Lm).
    destruct (Hl x Hx) as [_ Vx]. split; auto. split.
    + apply (verify_true n); auto; [lia|].
      eapply (reach_type n t x); auto; [lia|apply Lm|]. apply (verify_true n); auto; lia.
    + exists x. split; auto. apply Lm.
  - intros x Hx. destruct (Hl x Hx) as [Px Vx].
    destruct (canonical_spec n ord [] x t (class_fuel n) Ho ltac:(lia) (pm_i8 n x Px)) as (m & _ & Lm); auto.
    exists m. split; [apply Hr; eauto|]. split; [apply Lm|].
    intros m' Hin R. destruct (Hm m' Hin) as (x' & Hx' & Px' & Pm' & Lm').
    apply (least_reach_iff n (type_ops t) x' x); auto using pm_i8.
    eapply rt_trans; [apply Lm'|]. apply (reach_sym n _ _ _ (pm_i8 n x Px) R).
  - intros m Hin. destruct (Hm m Hin) as (x & Hx & Px & Pm & Lm). eapply least_ext; [|apply Lm].
    apply (reach_class_eq n); [now apply pm_i8|apply Lm].
Qed.
Lemma reduce_complete n ord l t : ord_ok ord -> t = QuaternionType \/ t = WilliamsonType -> 1 <= n <= 31 ->
  l <> [] -> Forall (fun q => pm_quad n q /\ verify q t = Some true) l ->
  exists fuel0, forall fuel p, fuel0 <= fuel -> exists r,
    reduce_to_canonical_reps fuel ord p l t = Some r /\ NoDup r /\
    (forall m, In m r -> pm_quad n m /\ verify m t = Some true /\ exists x, In x l /\ reach (type_ops t) x m) /\
    (forall x, In x l -> exists m, In m r /\ reach (type_ops t) x m /\
       forall m', In m' r -> reach (type_ops t) x m' -> m' = m) /\
    (forall m, In m r -> least (reach (type_ops t) m) m).
Proof. intros Ho Ht Hn Hne Hl. exists (class_fuel n). intros. now apply (reduce_complete_at n). Qed.

Lemma reduce_W n ord l : ord_ok ord -> 1 <= n <= 31 -> l <> [] ->
  Forall (fun q => pm_quad n q /\ verify q Williamson = Some true) l ->
  exists rep, (forall x y, In x l -> In y l -> (rep x = rep y <-> reach (type_ops Williamson) x y)) /\
  (forall x, In x l -> least (reach (type_ops WilliamsonType) x) (rep x)) /\
  exists fuel0, forall fuel p, fuel0 <= fuel -> exists r,
    reduce_to_canonical_reps fuel ord p l Williamson = Some r /\ NoDup r /\
    (forall m, In m r <-> exists x, In x l /\ m = rep x).
Proof.
  intros Ho Hn Hne Hl. rewrite Forall_forall in Hl.
  pose (rep x := match generate_canonical_representative (class_fuel n) ord [] x WilliamsonType with
                 | Some m => m | None => x end).
  assert (forall x, In x l -> least (reach (type_ops WilliamsonType) x) (rep x)) as Hrep.
  { intros x Hx. destruct (Hl x Hx) as [Px _]. unfold rep.
    destruct (canonical_spec n ord [] x WilliamsonType (class_fuel n) Ho ltac:(lia) (pm_i8 n x Px)) as (m & -> & Lm); auto. }
  exists rep. split; [|split].
  - intros x y Hx Hy. destruct (Hl x Hx) as [Px Vx]. destruct (Hl y Hy) as [Py Vy].
    rewrite (least_reach_iff n (type_ops WilliamsonType) x y) by auto using pm_i8.
    apply (W_reach n); auto; try lia; apply (verify_true n); auto; lia.
  - intros x Hx. now apply Hrep.
  - exists (class_fuel n). intros fuel p Hf.
    destruct (reduce_spec n ord p l Williamson fuel Ho) as (r & E & Nr & Hr); auto.
    { unfold supported; tauto. }
    { apply Forall_forall. intros x Hx. now apply Hl. }
    exists r. split; auto. split; auto. intros m. rewrite Hr. cbn [rep_type]. split.
    + intros (x & Hx & Lm). exists x. split; auto. eapply least_unique; eauto.
    + intros (x & Hx & ->). exists x. auto.
Qed.

Lemma reduce_empty fuel ord p t : reduce_to_canonical_reps fuel ord p [] t = None.
Proof. reflexivity. Qed.

Lemma qt_canonical_brute n ord ord' q t : ord_ok ord -> ord_ok ord' -> t = QuaternionType \/ t = WilliamsonType ->
  pm_quad n q -> 1 <= n <= 31 ->
  exists fuel0, forall fuel p p' p'', fuel0 <= fuel -> exists G m,
    generate_symmetry_group fuel ord p n (canonical_ops t) = Some G /\
    qt_canonical ord p' q G t = Some m /\
    generate_canonical_representative fuel ord' p'' q t = Some m.
Proof.
  intros Ho Ho' Ht Hq Hn. exists (class_fuel n). intros fuel p p' p'' Hf.
  assert (supported t) as Hs by (unfold supported; tauto).
  assert (rep_type t = t) as Er by (destruct Ht as [->| ->]; reflexivity).
  rewrite canonical_ops_impl.
  destruct (symmetry_group_spec n ord p (pos_ops t) fuel Ho) as (G & -> & _ & HG); auto; [intros o _ _; lia|].
  destruct (qt_canonical_spec n ord p' q t G Ho Hs Hq Hn HG) as (m & E & Lm). rewrite Er in Lm.
  destruct (canonical_spec n ord' p'' q t fuel Ho' ltac:(lia) (pm_i8 n q Hq) Hf) as (m' & E' & Lm').
  exists G, m. repeat split; auto. rewrite E'. f_equal. eapply least_unique; eauto.
Qed.

(* ---- equiv ---- *)
Lemma equiv_unfold fuel ord p x y t : supported t -> verify x t = Some true -> verify y t = Some true ->
  equiv fuel ord p x y t =
  (let* c1 := canon_of t x in let* c2 := canon_of t y in
   let* r := reduce_to_canonical_reps fuel ord p [c1; c2] t in Some (length r =? 1)).
Proof.
  intros Ht Vx Vy. unfold equiv. rewrite Vx, Vy. cbn [bind guard]. destruct Ht as [->|[->| ->]]; reflexivity.
Qed.

Lemma slot_ops_rep t x y : supported t -> reach (slot_ops t) x y -> reach (type_ops (rep_type t)) x y.
Proof.
  intros Ht R. apply rep_ops_reach; auto. revert R. apply reach_incl. apply incl_appr, incl_refl.
Qed.

Lemma length_1 {A} (l : list A) x y : NoDup l -> In x l -> In y l -> (forall z, In z l -> z = x \/ z = y) ->
  ((length l =? 1) = true <-> x = y).
Proof.
  intros Nl Hx Hy Hall. rewrite Nat.eqb_eq. split.
  - intros H. destruct l as [|a [|b l]]; cbn in H; try lia. destruct Hx as [<-|[]], Hy as [<-|[]]. reflexivity.
  - intros <-. destruct l as [|a [|b l]]; cbn; auto; [destruct Hx|].
    exfalso. inversion Nl; subst. apply H1. left.
    destruct (Hall a) as [->| ->]; cbn; auto; destruct (Hall b) as [->| ->]; cbn; auto.
Qed.

Lemma equiv_spec n ord x y t : ord_ok ord -> supported t -> 1 <= n <= 31 -> pm_quad n x -> pm_quad n y ->
  verify x t = Some true -> verify y t = Some true ->
  exists fuel0, forall fuel p, fuel0 <= fuel -> exists b,
    equiv fuel ord p x y t = Some b /\ (b = true <-> reach (type_ops t) x y).
Proof.
  intros Ho Ht Hn Px Py Vx Vy. exists (class_fuel n). intros fuel p Hf.
  rewrite equiv_unfold by auto.
  destruct (canon_of_spec n t x Ht Px) as (c1 & -> & L1); [lia|].
  destruct (canon_of_spec n t y Ht Py) as (c2 & -> & L2); [lia|]. cbn [bind].
  assert (pm_quad n c1) as P1 by (eapply reach_pm; [apply Px|apply L1]).
  assert (pm_quad n c2) as P2 by (eapply reach_pm; [apply Py|apply L2]).
  destruct (reduce_spec n ord p [c1; c2] t fuel Ho Ht Hn) as (r & -> & Nr & Hr); auto; [discriminate|].
  cbn [bind]. eexists; split; [reflexivity|].
  set (T := type_ops (rep_type t)) in *.
  pose proof (slot_ops_rep t x c1 Ht (proj1 L1)) as R1. pose proof (slot_ops_rep t y c2 Ht (proj1 L2)) as R2.
  assert (forall z, pm_quad n z -> exists m, least (reach T z) m) as Hex.
  { intros z Pz. destruct (canonical_spec n ord [] z (rep_type t) (class_fuel n) Ho ltac:(lia) (pm_i8 n z Pz)) as (m & _ & Lm); eauto. }
  destruct (Hex c1 P1) as (m1 & M1). destruct (Hex c2 P2) as (m2 & M2).
  rewrite (length_1 r m1 m2); auto.
  2:{ apply Hr. exists c1. cbn. auto. }
  2:{ apply Hr. exists c2. cbn. auto. }
  2:{ intros z Hz. apply Hr in Hz as (c & [<-|[<-|[]]] & Lz); [left|right]; eapply least_unique; eauto. }
  rewrite (least_reach_iff n T c1 c2) by auto using pm_i8.
  transitivity (reach T x y).
  - pose proof (pm_i8 n x Px) as Ix. pose proof (pm_i8 n y Py) as Iy.
    split; intros R.
    + eapply rt_trans; [apply R1|]. eapply rt_trans; [apply R|]. eapply reach_sym; [apply Iy|apply R2].
    + eapply rt_trans; [eapply reach_sym; [apply Ix|apply R1]|]. eapply rt_trans; [apply R|apply R2].
  - unfold T. destruct Ht as [->|[->| ->]]; cbn [rep_type]; try tauto.
    apply (W_reach n); auto; try lia; apply (verify_true n); auto; lia.
Qed.

Lemma equiv_panics fuel ord p x y t n : pm_quad n x -> pm_quad n y -> 1 <= n ->
  verify x t = Some false \/ verify y t = Some false -> equiv fuel ord p x y t = None.
Proof.
  intros Px Py Hn H. unfold equiv.
  destruct (verify_spec n x t Px Hn) as (b & E & _). destruct (verify_spec n y t Py Hn) as (b' & E' & _).
  rewrite E, E' in *. cbn [bind]. destruct H as [[= ->]|[= ->]]; [reflexivity|]. destruct b; reflexivity.
Qed.

Lemma canonical_of_orbit n ops f : (forall q, pm_quad n q -> exists c, f q = Some c /\ least (reach ops q) c) ->
  forall x y, pm_quad n x -> pm_quad n y -> (f x = f y <-> reach ops x y).
Proof.
  intros H x y Px Py. destruct (H x Px) as (c & -> & Lc). destruct (H y Py) as (d & -> & Ld).
  rewrite <- (least_reach_iff n ops x y c d); auto using pm_i8. split; [now intros [=]|now intros ->].
Qed.

Lemma ns_complete n x y : 1 <= n -> pm_quad n x -> pm_quad n y ->
  (ns_canonical x = ns_canonical y <-> reach [NegateSwap] x y).
Proof. intros Hn. apply (canonical_of_orbit n). intros q Hq. now apply (ns_spec n). Qed.

Lemma sn_ss_complete n x y : 1 <= n -> pm_quad n x -> pm_quad n y ->
  (sn_ss_canonical x = sn_ss_canonical y <-> reach [Negate; Reorder] x y).
Proof. intros Hn. apply (canonical_of_orbit n). intros q Hq. now apply (sn_ss_spec n). Qed.

Lemma equiv_class n ord ord' x y t : ord_ok ord -> ord_ok ord' -> supported t -> 1 <= n <= 31 ->
  pm_quad n x -> pm_quad n y -> verify x t = Some true -> verify y t = Some true ->
  exists fuel0, forall fuel p p', fuel0 <= fuel -> exists b c,
    equiv fuel ord p x y t = Some b /\
    generate_equivalence_class fuel ord' p' x (equivalences t) = Some c /\ (b = true <-> In y c).
Proof.
  intros Ho Ho' Ht Hn Px Py Vx Vy.
  destruct (equiv_spec n ord x y t Ho Ht Hn Px Py Vx Vy) as (f1 & H1).
  destruct (type_class_is_orbit n ord' t x Ho' (pm_i8 n x Px) ltac:(lia)) as (f2 & H2).
  exists (f1 + f2). intros fuel p p' Hf.
  destruct (H1 fuel p) as (b & E1 & Hb); [lia|]. destruct (H2 fuel p') as (c & E2 & _ & Hc); [lia|].
  exists b, c. rewrite Hc. auto.
Qed.
