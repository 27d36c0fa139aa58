(* Quaternion-type equivalence inside Williamson-type equivalence: the classes of the former in a class
   of the latter are reached by negating and half-shifting the first sequence. *)
From Coq Require Import List ZArith Lia Arith Bool Relations.
From Verif Require Import Base BaseFacts Sums ModelSequence ModelWilliamson ModelEquivalence SpecEquiv OpFacts EquivFacts TypeFacts
  OrderFacts FastFacts EquivThms CanonFacts ReduceFacts WsFacts QtWt ModelWrite SeqFacts Spec.
Import ListNotations.
Open Scope nat_scope.
Notation length := List.length.

Notation R := (reach (type_ops QuaternionType)).
Definition N (t : Tag) (q : QuadSeq) : QuadSeq := gact (At t Neg) q.
Definition H (n : nat) (t : Tag) (q : QuadSeq) : QuadSeq := gact (At t (Rot (n / 2))) q.

Lemma R_trans x y z : R x y -> R y z -> R x z.
Proof. apply rt_trans. Qed.
Lemma R_refl x : R x x. Proof. apply rt_refl. Qed.
Lemma R_step o x y : In o (type_ops QuaternionType) -> variant o x y -> R x y.
Proof. intros Ho Hv. apply rt_step. eauto. Qed.
Lemma R_word n o w x : In o (type_ops QuaternionType) -> q_size x = n -> In w (variants o n) -> R x (wact w x).
Proof. intros Ho <- Hw. apply (R_step o); auto. right. eauto. Qed.

Lemma N_pm n t x : pm_quad n x -> pm_quad n (N t x). Proof. apply gact_pm. Qed.
Lemma H_pm n t x : pm_quad n x -> pm_quad n (H n t x). Proof. apply gact_pm. Qed.
Lemma N_N n t x : pm_quad n x -> N t (N t x) = x.
Proof. intros P. apply (gact_invol (At t Neg) x n); auto using pm_i8. Qed.
Lemma H_H n t x : pm_quad n x -> Nat.even n = true -> H n t (H n t x) = x.
Proof. intros P E. apply (gact_invol (At t (Rot (n / 2))) x n); auto using pm_i8, half_twice. Qed.
Lemma N_H n s t x : pm_quad n x -> N s (H n t x) = H n t (N s x).
Proof.
  intros P. apply quad_ext; auto. intros u. unfold N, H. rewrite !gact_slot.
  destruct (tag_eq u s), (tag_eq u t); auto. symmetry. apply lact_neg_comm. apply pm_i8 in P. now apply i8_slots in P.
Qed.
Lemma N_comm n s t x : pm_quad n x -> N s (N t x) = N t (N s x).
Proof. intros P. apply quad_ext; auto. intros u. unfold N. rewrite !gact_slot. destruct (tag_eq u s), (tag_eq u t); auto. Qed.
Lemma H_comm n s t x : pm_quad n x -> H n s (H n t x) = H n t (H n s x).
Proof. intros P. apply quad_ext; auto. intros u. unfold H. rewrite !gact_slot. destruct (tag_eq u s), (tag_eq u t); auto. Qed.

Lemma neg_pair n s t x : pm_quad n x -> R x (N s (N t x)).
Proof.
  intros P. eapply R_trans; [apply (reach_ns _ x TW TX t); cbn; auto|].
  eapply R_trans; [apply (reach_ns _ _ TW TX (exchange TW TX s)); cbn; auto|].
  rewrite gact_ex_at, exchange_invol. unfold N.
  rewrite (gact_invol (Ex TW TX) _ n); [apply R_refl| |auto]. now apply pm_i8, gact_pm, gact_pm.
Qed.
Lemma half_pair n s t x : pm_quad n x -> Nat.even n = true -> R x (H n s (H n t x)).
Proof.
  intros P E. pose proof (proj1 (proj1 P)) as Sx.
  assert (D : forall s t, In (s, t) all_pairs -> R x (H n t (H n s x))).
  { intros a b Hp. refine (R_word n DualHalfShift [At a (Rot (n / 2)); At b (Rot (n / 2))] x _ Sx _); [cbn; tauto|].
    cbn [variants]. rewrite E. right. now apply (in_map (fun '(s, t) => [At s (Rot (n / 2)); At t (Rot (n / 2))]) all_pairs (a, b)). }
  destruct (tag_eq s t) eqn:Est.
  - apply tag_eq_eq in Est. subst. rewrite H_H by auto. apply R_refl.
  - assert (Nst : s <> t) by (intros ->; destruct t; discriminate).
    destruct (in_pairs s t Nst) as [Hp|Hp]; [|now apply D]. rewrite H_comm by auto. now apply D.
Qed.

(* the words of the operations of the quaternion type *)
Lemma qt_words n o w : In o (type_ops QuaternionType) -> In w (variants o n) ->
  (exists k, w = [All (Rot k)]) \/ (w = [All Alt] /\ Nat.even n = true) \/ (exists k, w = [All (Dil k)] /\ Nat.gcd n k = 1) \/
  (exists s t u, w = [At u Neg; Ex s t] /\ In (s, t) all_pairs) \/
  (exists s t, w = [At s (Rot (n / 2)); At t (Rot (n / 2))] /\ In (s, t) all_pairs /\ Nat.even n = true).
Proof.
  intros Ho Hw. cbn in Ho. destruct Ho as [<-|[<-|[<-|[<-|[<-|[]]]]]]; cbn [variants] in Hw.
  - apply in_map_iff in Hw as (k & <- & _). left. eauto.
  - destruct (Nat.even n); [|contradiction]. destruct Hw as [<-|[]]. auto.
  - apply in_map_iff in Hw as (k & <- & Hk). apply filter_In in Hk as [_ Hk]. apply Nat.eqb_eq in Hk. right. right. left. eauto.
  - apply in_map_iff in Hw as ([[s t] u] & <- & Hk). apply in_prod_iff in Hk as [Hk _]. do 3 right. left. eauto.
  - destruct (Nat.even n) eqn:E; [|contradiction]. destruct Hw as [<-|Hw]; [left; eauto|].
    apply in_map_iff in Hw as ([s t] & <- & Hk). do 4 right. exists s, t. auto.
Qed.

Lemma R_all n o f x : In o (type_ops QuaternionType) -> pm_quad n x -> In [All f] (variants o n) -> R x (gact (All f) x).
Proof. intros Ho P Hw. apply (R_word n o [All f]); auto. apply P. Qed.

Lemma neg_word n o w x : In o (type_ops QuaternionType) -> pm_quad n x -> In w (variants o n) -> R (N TW x) (N TW (wact w x)).
Proof.
  intros Ho P Hw. assert (I : i8_quad n x) by now apply pm_i8.
  assert (C : forall f, N TW (gact (All f) x) = gact (All f) (N TW x)).
  { intros f. symmetry. apply (gact_comm_all_at x n); auto. intros. now apply lact_neg_comm. }
  destruct (qt_words n o w Ho Hw) as [(k & ->)|[(-> & E)|[(k & -> & G)|[(s & t & u & -> & Hp)|(s & t & -> & Hp & E)]]]];
    cbn [wact fold_left] in *; try (rewrite C; apply (R_all n o); auto using N_pm).
  - unfold N at 2. rewrite gact_ex_at. fold (N u x). fold (N (exchange s t TW) (N u x)).
    apply R_trans with (N (exchange s t TW) x).
    + replace (N (exchange s t TW) x) with (N (exchange s t TW) (N TW (N TW x))) by (now rewrite (N_N n)).
      apply (neg_pair n). now apply N_pm.
    + rewrite (N_comm n) by auto. apply (reach_ns _ (N (exchange s t TW) x) s t u); cbn; auto.
  - fold (H n s x). fold (H n t (H n s x)). rewrite N_H, N_H by auto using H_pm. rewrite H_comm by auto using N_pm.
    apply half_pair; auto using N_pm.
Qed.
Lemma neg_reach n x y : pm_quad n x -> R x y -> R (N TW x) (N TW y).
Proof.
  intros P Hr. apply clos_rt_rt1n in Hr. induction Hr as [|x y z (o & Ho & Hv) _ IH]; [apply R_refl|].
  destruct Hv as [->|(w & Hw & ->)]; [auto|]. rewrite (proj1 (proj1 P)) in Hw.
  eapply R_trans; [now apply (neg_word n o w)|]. apply IH. now apply wact_pm.
Qed.

Lemma half_word n o w x : 1 <= n -> In o (type_ops QuaternionType) -> pm_quad n x -> Nat.even n = true -> In w (variants o n) ->
  R (H n TW x) (H n TW (wact w x)) \/ R (H n TW x) (N TW (H n TW (wact w x))).
Proof.
  intros Hn Ho P E Hw. assert (I : i8_quad n x) by now apply pm_i8.
  assert (En : exists h, n = 2 * h /\ n / 2 = h).
  { apply Nat.even_spec in E as [h ->]. exists h. split; auto. rewrite Nat.mul_comm. now apply Nat.div_mul. }
  destruct En as (h & En & Eh).
  destruct (qt_words n o w Ho Hw) as [(k & ->)|[(-> & _)|[(k & -> & G)|[(s & t & u & -> & Hp)|(s & t & -> & Hp & _)]]]];
    cbn [wact fold_left] in *.
  - left. unfold H at 2. rewrite <- (gact_comm_all_at x n); auto.
    + apply (R_all n o); auto using H_pm, gact_pm.
    + intros l Hl _. rewrite !lact_rot_rot by auto. f_equal. f_equal. lia.
  - assert (A : R (H n TW x) (gact (All Alt) (H n TW x))) by (apply (R_all n o); auto using H_pm).
    assert (En' : forall u, u = TW \/ u <> TW) by (intros []; auto; right; discriminate).
    destruct (Nat.even h) eqn:Ev; [left|right].
    + replace (H n TW (gact (All Alt) x)) with (gact (All Alt) (H n TW x)); auto.
      apply quad_ext; auto. intros u. unfold H. rewrite !gact_slot. destruct (pm_slot n x u P) as [Hp Hl].
      destruct (tag_eq u TW); auto. apply entry_ext; [now rewrite !lact_length|]. intros i.
      rewrite entry_alt, !entry_rot, entry_alt; auto using lact_pm1; rewrite ?lact_length, ?Hl; auto.
      rewrite par_add, par_nat, Eh, Ev. lia.
    + replace (N TW (H n TW (gact (All Alt) x))) with (gact (All Alt) (H n TW x)); auto.
      apply quad_ext; auto. intros u. unfold H, N. rewrite !gact_slot. destruct (pm_slot n x u P) as [Hp Hl].
      destruct (tag_eq u TW); auto. apply entry_ext; [now rewrite !lact_length|]. intros i.
      rewrite entry_neg, entry_alt, !entry_rot, entry_alt; auto using lact_pm1; rewrite ?lact_length, ?Hl; auto.
      rewrite par_add, par_nat, Eh, Ev. lia.
  - left. unfold H at 2. rewrite <- (gact_comm_all_at x n); auto.
    + apply (R_all n o); auto using H_pm, gact_pm.
    + intros l Hl Ll. apply entry_ext; [now rewrite !lact_length|]. intros i. rewrite entry_rot, !entry_dil, entry_rot.
      apply entry_periodic. rewrite Ll, Eh.
      assert (Ok : exists j, k = 2 * j + 1).
      { destruct (Nat.Even_or_Odd k) as [[j ->]|[j ->]]; [|eauto]. exfalso.
        assert (D : Nat.divide 2 (Nat.gcd n (2 * j))) by (apply Nat.gcd_greatest; [exists h; lia|exists j; lia]).
        rewrite G in D. destruct D as [z Hz]. lia. }
      destruct Ok as [j ->].
      replace ((i + Z.of_nat h) * Z.of_nat (2 * j + 1))%Z with (i * Z.of_nat (2 * j + 1) + Z.of_nat h + Z.of_nat j * Z.of_nat n)%Z by (subst n; lia).
      rewrite Z.mod_add by lia. reflexivity.
  - left. unfold H at 2. rewrite gact_ex_at. fold (N u x). change (gact (At (exchange s t TW) (Rot (n / 2))) (N u x)) with (H n (exchange s t TW) (N u x)).
    apply R_trans with (H n (exchange s t TW) x).
    + replace (H n (exchange s t TW) x) with (H n (exchange s t TW) (H n TW (H n TW x))) by (now rewrite H_H).
      apply half_pair; auto. now apply H_pm.
    + rewrite <- N_H by auto. apply (reach_ns _ (H n (exchange s t TW) x) s t u); cbn; auto.
  - left. fold (H n s x). fold (H n t (H n s x)).
    replace (H n TW (H n t (H n s x))) with (H n t (H n s (H n TW x))); [apply half_pair; auto using H_pm|].
    rewrite (H_comm n s TW), (H_comm n t TW) by auto using H_pm. reflexivity.
Qed.
Lemma half_reach n x y : 1 <= n -> pm_quad n x -> Nat.even n = true -> R x y ->
  R (H n TW x) (H n TW y) \/ R (H n TW x) (N TW (H n TW y)).
Proof.
  intros Hn P E Hr. apply clos_rt_rt1n in Hr. induction Hr as [|x y z (o & Ho & Hv) Hr' IH]; [left; apply R_refl|].
  destruct Hv as [->|(w & Hw & ->)]; [auto|]. rewrite (proj1 (proj1 P)) in Hw.
  assert (Py : pm_quad n (wact w x)) by now apply wact_pm.
  destruct (half_word n o w x Hn Ho P E Hw) as [A|A], (IH Py) as [B|B].
  - left. eapply R_trans; eauto.
  - right. eapply R_trans; eauto.
  - right. eapply R_trans; [exact A|]. apply (neg_reach n); auto using H_pm.
  - left. eapply R_trans; [exact A|]. apply (neg_reach n) in B; auto using H_pm.
    rewrite (N_N n) in B; auto. apply H_pm, (reach_pm n (type_ops QuaternionType) (wact w x)); auto. now apply clos_rt1n_rt.
Qed.

(* the quadruples added to the list *)
Definition variants_of (n : nat) (x : QuadSeq) : list QuadSeq :=
  x :: N TW x :: if Nat.even n then [H n TW x; N TW (H n TW x)] else [].
Lemma variants_pm n x c : pm_quad n x -> In c (variants_of n x) -> pm_quad n c.
Proof.
  intros P Hc. unfold variants_of in Hc. destruct (Nat.even n); cbn in Hc.
  - destruct Hc as [<-|[<-|[<-|[<-|[]]]]]; auto using N_pm, H_pm.
  - destruct Hc as [<-|[<-|[]]]; auto using N_pm.
Qed.
Lemma variants_neg n x c : pm_quad n x -> In c (variants_of n x) -> In (N TW c) (variants_of n x).
Proof.
  intros P Hc. unfold variants_of in *. destruct (Nat.even n); cbn in *.
  - destruct Hc as [<-|[<-|[<-|[<-|[]]]]]; rewrite ?(N_N n) by auto using H_pm; auto.
  - destruct Hc as [<-|[<-|[]]]; rewrite ?(N_N n) by auto; auto.
Qed.
Lemma variants_half n x c : pm_quad n x -> Nat.even n = true -> In c (variants_of n x) -> In (H n TW c) (variants_of n x).
Proof.
  intros P E Hc. unfold variants_of in *. rewrite E in *. cbn in *.
  destruct Hc as [<-|[<-|[<-|[<-|[]]]]]; rewrite <- ?N_H by auto using H_pm; rewrite ?H_H by auto; auto.
Qed.

Lemma wt_reach n q x : 1 <= n -> pm_quad n q -> reach (type_ops WilliamsonType) q x ->
  exists c, In c (variants_of n x) /\ R q c.
Proof.
  intros Hn P Hr. assert (Px := reach_pm n _ _ _ P Hr). apply clos_rt_rt1n in Hr.
  induction Hr as [x|q q' x (o & Ho & Hv) Hr IH].
  - exists x. split; [now left|apply R_refl].
  - destruct Hv as [->|(w & Hw & ->)]; [auto|].
    destruct IH as (c & Hc & Rc); [now apply wact_pm|auto|]. rewrite (proj1 (proj1 P)) in Hw.
    assert (QT : In o (type_ops QuaternionType) -> exists c, In c (variants_of n x) /\ R q c).
    { intros Hq. exists c. split; auto. eapply R_trans; [|exact Rc]. apply (R_word n o); auto. apply P. }
    cbn in Ho. destruct Ho as [<-|[<-|[<-|[<-|[<-|[<-|[]]]]]]]; try (apply QT; cbn; tauto); cbn [variants] in Hw.
    + apply in_map_iff in Hw as (t & <- & _). cbn [wact fold_left] in Rc. fold (N t q) in Rc.
      exists (N TW c). split; [now apply variants_neg|]. eapply R_trans; [apply (neg_pair n TW t); auto|].
      apply (neg_reach n); auto using N_pm.
    + apply in_map_iff in Hw as ([s t] & <- & Hp). cbn [wact fold_left] in Rc.
      exists (N TW c). split; [now apply variants_neg|]. eapply R_trans; [|apply (neg_reach n); [|exact Rc]; now apply gact_pm].
      unfold N at 1. rewrite gact_ex_at. apply reach_ns; cbn; auto.
    + destruct (Nat.even n) eqn:E; [|contradiction]. apply in_map_iff in Hw as (t & <- & _).
      cbn [wact fold_left] in Rc. fold (H n t q) in Rc.
      assert (A : R q (H n TW (H n t q))) by (apply half_pair; auto).
      destruct (half_reach n (H n t q) c) as [B|B]; auto using H_pm.
      * exists (H n TW c). split; [now apply variants_half|]. eapply R_trans; eauto.
      * exists (N TW (H n TW c)). split; [now apply variants_neg, variants_half|]. eapply R_trans; eauto.
Qed.

(* ---- the list of the program ---- *)

Lemma traverse_some {A B} (f : A -> option B) (g : A -> B) l : (forall x, In x l -> f x = Some (g x)) -> traverse f l = Some (map g l).
Proof.
  induction l as [|x l IH]; intros E; [reflexivity|]. cbn [traverse map]. rewrite E by now left. cbn [bind].
  rewrite IH by (intros; apply E; now right). reflexivity.
Qed.

Lemma extend_spec n l : Forall (pm_quad n) l -> exists l', extend_wts n l = Some l' /\
  forall c, In c l' <-> exists x, In x l /\ In c (variants_of n x).
Proof.
  intros Hl. rewrite Forall_forall in Hl. unfold extend_wts.
  rewrite (traverse_some _ (fun x => tl (variants_of n x))).
  - cbn [bind]. eexists. split; [reflexivity|]. intros c. rewrite in_app_iff, in_concat. split.
    + intros [Hc|(m & Hm & Hc)].
      * exists c. split; auto. now left.
      * apply in_map_iff in Hm as (x & <- & Hx). exists x. split; auto. now right.
    + intros (x & Hx & [<-|Hc]); auto. right. exists (tl (variants_of n x)). split; auto. now apply (in_map (fun x => tl (variants_of n x))).
  - intros x Hx. specialize (Hl x Hx).
    assert (E1 : set_sequence x (negated (sequence x TW)) TW = N TW x).
    { rewrite negated_lact, sequence_slot. apply set_sequence_at. }
    assert (E2 : half_shift (sequence x TW) = Some (lact (Rot (n / 2)) (slot x TW))).
    { rewrite half_shift_lact, sequence_slot. destruct (pm_slot n x TW Hl) as [_ ->]. reflexivity. }
    unfold variants_of, tl. rewrite E1.
    replace (n mod 2 =? 0) with (Nat.even n).
    + destruct (Nat.even n); auto. rewrite E2. cbn [bind]. rewrite negated_lact. reflexivity.
    + pose proof (even_mod n) as H0. destruct (Nat.even n); cbn [negb] in *.
      * apply Nat.eqb_neq in H0. pose proof (Nat.mod_upper_bound n 2). symmetry. apply Nat.eqb_eq. lia.
      * apply Nat.eqb_eq in H0. rewrite H0. reflexivity.
Qed.

(* representatives of the Williamson-type classes give representatives of the quaternion-type classes *)
Lemma wts_to_qts_at n ord l : ord_ok ord -> 1 <= n <= 31 -> l <> [] ->
  Forall (fun x => pm_quad n x /\ verify x WilliamsonType = Some true) l ->
  (forall q, pm_quad n q -> verify q WilliamsonType = Some true -> exists x, In x l /\ reach (type_ops WilliamsonType) q x) ->
  exists l', extend_wts n l = Some l' /\ forall fuel path, class_fuel n <= fuel -> exists r,
    reduce_to_canonical_reps fuel ord path l' QuaternionType = Some r /\ NoDup r /\
    (forall x, In x r -> pm_quad n x /\ verify x QuaternionType = Some true /\ least (reach (type_ops QuaternionType) x) x) /\
    (forall q, pm_quad n q -> verify q QuaternionType = Some true ->
       exists x, In x r /\ reach (type_ops QuaternionType) q x /\
         forall x', In x' r -> reach (type_ops QuaternionType) q x' -> x' = x).
Proof.
  intros Ho Hn Hne Hl Cov. assert (Hn1 : 1 <= n) by lia.
  assert (V : forall q t, pm_quad n q -> (verify q t = Some true <-> is_type t q)).
  { intros q t P. destruct (verify_spec n q t P Hn1) as (b & -> & Hb). rewrite <- Hb. split; congruence. }
  destruct (extend_spec n l) as (l' & El & Hl').
  { eapply Forall_impl; [|exact Hl]. now intros x [? _]. }
  exists l'. rewrite Forall_forall in Hl.
  assert (G : forall c, In c l' -> pm_quad n c /\ is_type QuaternionType c).
  { intros c Hc. apply Hl' in Hc as (x & Hx & Hc). destruct (Hl x Hx) as [Px Vx]. apply V in Vx; auto. split; [now apply (variants_pm n x)|].
    apply (QT_iff_WT n); auto; [now apply (variants_pm n x)|].
    assert (Rr : reach (type_ops WilliamsonType) x c).
    { assert (RN : forall y, reach (type_ops WilliamsonType) y (N TW y)) by (intros; apply reach_negate; cbn; tauto).
      unfold variants_of in Hc. destruct (Nat.even n) eqn:E; cbn in Hc.
      - assert (RH : reach (type_ops WilliamsonType) x (H n TW x)) by (apply single_half; auto; [cbn; tauto|apply Px]).
        destruct Hc as [<-|[<-|[<-|[<-|[]]]]]; auto; [apply rt_refl|]. eapply rt_trans; [exact RH|apply RN].
      - destruct Hc as [<-|[<-|[]]]; auto. apply rt_refl. }
    apply (reach_type n WilliamsonType x c Px Hn1 Rr Vx). }
  assert (Red := reduce_complete_at n ord l' QuaternionType Ho (or_introl eq_refl) Hn).
  match type of Red with ?A -> ?B -> _ => assert (HA : A); [|assert (HB : B); [|specialize (Red HA HB)]] end.
  - intros ->. destruct l as [|x l]; [congruence|]. assert (I : In x []) by (apply Hl'; exists x; split; now left). exact I.
  - apply Forall_forall. intros c Hc. destruct (G c Hc) as [A B]. split; auto. now apply V.
  - split; auto. intros fuel path Hf. destruct (Red fuel path Hf) as (r & Er & Nd & A & B & D).
    exists r. split; auto. split; auto. split.
    + intros x Hx. destruct (A x Hx) as (Px & Vx & _). auto.
    + intros q Pq Vq. assert (Tq : is_type WilliamsonType q) by (apply V in Vq; auto; now apply (QT_iff_WT n)).
      destruct (Cov q Pq) as (x & Hx & Rx); [now apply V|].
      destruct (wt_reach n q x Hn1 Pq Rx) as (c & Hc & Rc).
      destruct (B c) as (y & Hy & Ry & U); [apply Hl'; eauto|].
      exists y. split; auto. split; [eapply R_trans; eauto|]. intros x' I' R'. apply U; auto.
      eapply R_trans; [|exact R']. apply (reach_sym n); auto. now apply pm_i8.
Qed.
Lemma wts_to_qts n ord l : ord_ok ord -> 1 <= n <= 31 -> l <> [] ->
  Forall (fun x => pm_quad n x /\ verify x WilliamsonType = Some true) l ->
  (forall q, pm_quad n q -> verify q WilliamsonType = Some true -> exists x, In x l /\ reach (type_ops WilliamsonType) q x) ->
  exists l' fuel0, extend_wts n l = Some l' /\ forall fuel path, fuel0 <= fuel -> exists r,
    reduce_to_canonical_reps fuel ord path l' QuaternionType = Some r /\ NoDup r /\
    (forall x, In x r -> pm_quad n x /\ verify x QuaternionType = Some true /\ least (reach (type_ops QuaternionType) x) x) /\
    (forall q, pm_quad n q -> verify q QuaternionType = Some true ->
       exists x, In x r /\ reach (type_ops QuaternionType) q x /\
         forall x', In x' r -> reach (type_ops QuaternionType) q x' -> x' = x).
Proof.
  intros Ho Hn Hne Hl Cov. destruct (wts_to_qts_at n ord l Ho Hn Hne Hl Cov) as (l' & E & H). exists l', (class_fuel n). auto.
Qed.
