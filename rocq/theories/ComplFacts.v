(* Matching by the complements of one pairing, and the remaining identities. *)
From Coq Require Import Ascii String List ZArith Lia Arith Bool Reals.
From Verif Require Import Base BaseFacts Sums ModelSequence ModelWilliamson ModelEquivalence SeqFacts TypeFacts ModelFourier FourierFacts SpecFourier ModelMatching MatchFacts MatchThms SpecEquiv OrderFacts OpFacts EquivFacts SpecSearch QtWt Spec.
Import ListNotations.
Notation length := List.length.
Open Scope nat_scope.

Lemma all_half n (P : Z -> Prop) : 1 <= n -> (forall t, P (t mod Z.of_nat n)%Z <-> P t) -> (forall t, P t -> P (- t)%Z) ->
  (forall k, 1 <= k <= n / 2 -> P (Z.of_nat k)) -> forall t, (t mod Z.of_nat n <> 0)%Z -> P t.
Proof.
  intros Hn Hm Ho H t Ht. apply Hm. pose proof (Z.mod_pos_bound t (Z.of_nat n) ltac:(lia)) as B. set (u := (t mod Z.of_nat n)%Z) in *.
  pose proof (Nat.div_mod n 2 ltac:(lia)). pose proof (Nat.mod_upper_bound n 2 ltac:(lia)).
  destruct (Z_le_dec u (Z.of_nat (n / 2))) as [L|L].
  - replace u with (Z.of_nat (Z.to_nat u)) by lia. apply H. lia.
  - replace u with (- - u)%Z by lia. apply Ho, Hm. replace (- u)%Z with (Z.of_nat n - u + (-1) * Z.of_nat n)%Z by lia. rewrite Z.mod_add by lia.
    rewrite Z.mod_small by lia. replace (Z.of_nat n - u)%Z with (Z.of_nat (Z.to_nat (Z.of_nat n - u))) by lia. apply H. lia.
Qed.

Lemma complementary_half n q : 1 <= n -> pm_quad n q ->
  (complementary q <-> forall k, 1 <= k <= n / 2 ->
     (paf (q_a q) (Z.of_nat k) + paf (q_b q) (Z.of_nat k) + paf (q_c q) (Z.of_nat k) + paf (q_d q) (Z.of_nat k) = 0)%Z).
Proof.
  intros Hn (Hw & _). pose proof (Nat.div_lt n 2 ltac:(lia) ltac:(lia)) as Hh. split.
  - intros C k Hk. apply C. rewrite (proj1 Hw). lia.
  - intros H t Ht. rewrite (proj1 Hw) in Ht. destruct Hw as (_ & A & B & C & D).
    apply (all_half n (fun t => (paf (q_a q) t + paf (q_b q) t + paf (q_c q) t + paf (q_d q) t = 0)%Z) Hn); auto.
    + intros u. rewrite <- A at 1. rewrite paf_mod. rewrite <- B at 1. rewrite paf_mod. rewrite <- C at 1. rewrite paf_mod. rewrite <- D at 1. rewrite paf_mod. tauto.
    + intros u E. now rewrite !paf_opp.
    + rewrite Z.mod_small; lia.
Qed.

(* the difference of the two cross-correlations *)
Definition cd (x y : list Z) (t : Z) : Z := (ccf x y t - ccf y x t)%Z.
Lemma cd_opp x y t : length x = length y -> cd x y (- t) = (- cd x y t)%Z.
Proof. intros E. unfold cd. rewrite !ccf_opp by congruence. lia. Qed.
Lemma cd_mod n x y t : length x = n -> length y = n -> cd x y (t mod Z.of_nat n) = cd x y t.
Proof.
  intros <- E. unfold cd. rewrite ccf_mod by congruence. f_equal. rewrite <- E. now apply ccf_mod.
Qed.
Lemma cd_zero n x y t : 1 <= n -> length x = n -> length y = n -> (t mod Z.of_nat n = 0)%Z -> cd x y t = 0%Z.
Proof.
  intros Hn A B E. rewrite <- (cd_mod n), E by auto. pose proof (cd_opp x y 0 ltac:(congruence)) as H. change (- 0)%Z with 0%Z in H. lia.
Qed.
Lemma cd_half n x y z w : 1 <= n -> length x = n -> length y = n -> length z = n -> length w = n ->
  ((forall t, (cd x y t + cd z w t = 0)%Z) <-> forall k, 1 <= k <= n / 2 -> (cd x y (Z.of_nat k) + cd z w (Z.of_nat k) = 0)%Z).
Proof.
  intros Hn A B C D. split; [auto|]. intros H t. destruct (Z.eq_dec (t mod Z.of_nat n) 0) as [E|E].
  - rewrite !(cd_zero n) by auto. reflexivity.
  - apply (all_half n (fun t => (cd x y t + cd z w t = 0)%Z) Hn); auto.
    + intros u. rewrite !cd_mod by auto. tauto.
    + intros u Eu. rewrite !cd_opp by congruence. lia.
Qed.
Lemma cd_range n x y z w : 1 <= n -> length x = n -> length y = n -> length z = n -> length w = n ->
  ((forall t, (cd x y t + cd z w t = 0)%Z) <-> forall k, k < n -> (cd x y (Z.of_nat k) + cd z w (Z.of_nat k) = 0)%Z).
Proof.
  intros Hn A B C D. split; [auto|]. intros H. apply (all_shifts n); auto. intros t Ht. now rewrite !cd_mod in Ht by auto.
Qed.

Lemma complementary_auto n s1 s2 : length s1 = n -> pm1 s1 -> pm1 s2 ->
  compute_complementary_auto_correlations s1 s2 = Some (map (fun k => (- (paf s1 (Z.of_nat k) + paf s2 (Z.of_nat k)))%Z) (seq 1 (n / 2))).
Proof.
  intros L P1 P2. unfold compute_complementary_auto_correlations. rewrite L. replace (seq 1 (n / 2)) with (range_incl 1 (n / 2)) by (unfold range_incl; f_equal; lia).
  apply traverse_map. intros k Hk. now rewrite !periodic_autocorrelation_spec by auto.
Qed.
Lemma complementary_cross n s1 s2 tags b : 1 <= n -> length s1 = n -> length s2 = n -> pm1 s1 -> pm1 s2 -> tag_sign tags = Some b ->
  compute_complementary_cross_correlations s1 s2 tags =
  Some (map (fun k => (- (if b then cd s1 s2 (Z.of_nat k) else cd s2 s1 (Z.of_nat k)))%Z) (seq 1 (n / 2))).
Proof.
  intros Hn L1 L2 P1 P2 Hb. unfold compute_complementary_cross_correlations. rewrite Hb. cbn [bind]. rewrite L1.
  replace (seq 1 (n / 2)) with (range_incl 1 (n / 2)) by (unfold range_incl; f_equal; lia).
  apply traverse_map. intros k Hk. apply in_range_incl in Hk. pose proof (half_lt n k Hn Hk).
  unfold crossc_at, cd. rewrite !cross_correlation_spec by (auto; lia). destruct b; reflexivity.
Qed.

(* the three identities *)
Definition three_cd (q : QuadSeq) : Prop :=
  (forall t, (cd (q_d q) (q_a q) t + cd (q_b q) (q_c q) t = 0)%Z) /\
  (forall t, (cd (q_d q) (q_b q) t + cd (q_c q) (q_a q) t = 0)%Z) /\
  (forall t, (cd (q_d q) (q_c q) t + cd (q_a q) (q_b q) t = 0)%Z).
Lemma three_cd_WT n q : 1 <= n -> pm_quad n q -> complementary q -> (three_cd q <-> is_WT q).
Proof.
  intros Hn Hq C. split.
  - intros (I1 & I2 & I3). set (q' := mkQuad n (q_a q) (q_b q) (q_c q) (lact Neg (q_d q))).
    destruct Hq as ((Hs & A & B & D & E) & PA & PB & PD & PE).
    assert (PN : pm1 (lact Neg (q_d q))).
    { now apply lact_pm1. }
    assert (Pq' : pm_quad n q') by (split; [repeat split; cbn; auto; now rewrite lact_length|cbn; auto]).
    assert (NL : forall x t, length x = n -> ccf (lact Neg (q_d q)) x t = (- ccf (q_d q) x t)%Z) by (intros x t Lx; apply (ccf_neg_l n); auto).
    assert (NR : forall x t, length x = n -> ccf x (lact Neg (q_d q)) t = (- ccf x (q_d q) t)%Z) by (intros x t Lx; apply (ccf_neg_r n); auto).
    assert (Q' : is_QT q').
    { split.
      - intros t Ht. unfold q' in *. cbn [q_size q_a q_b q_c q_d] in *. rewrite <- Hs in Ht. pose proof (C t Ht) as Ct.
        rewrite (paf_ccf (lact Neg (q_d q))), NL, NR by (rewrite ?lact_length; auto). rewrite (paf_ccf (q_d q)) in Ct. lia.
      - intros t. unfold q'. cbn [q_a q_b q_c q_d]. rewrite !NL, !NR by auto. specialize (I1 t). specialize (I2 t). specialize (I3 t). unfold cd in *. lia. }
    apply (QT_iff_WT n q' Pq' Hn) in Q' as (_ & W1 & W2 & W3 & W4 & W5 & W6). unfold q' in *. cbn [q_a q_b q_c q_d] in *.
    unfold is_WT, amicable in *. split; auto. split; auto. split; auto. split; [|split; auto; split].
    + intros t. specialize (W3 t). rewrite NL, NR in W3 by auto. lia.
    + intros t. specialize (W5 t). rewrite NL, NR in W5 by auto. lia.
    + intros t. specialize (W6 t). rewrite NL, NR in W6 by auto. lia.
  - intros (_ & W1 & W2 & W3 & W4 & W5 & W6). unfold amicable, three_cd, cd in *.
    repeat split; intros t; specialize (W1 t); specialize (W2 t); specialize (W3 t); specialize (W4 t); specialize (W5 t); specialize (W6 t); lia.
Qed.

Lemma condition_loop n w x y z w' x' y' z' : 1 <= n -> length w = n -> length x = n -> length y = n -> length z = n ->
  length w' = n -> length x' = n -> length y' = n -> length z' = n ->
  pm1 w -> pm1 x -> pm1 y -> pm1 z -> pm1 w' -> pm1 x' -> pm1 y' -> pm1 z' ->
  exists v, all_m (fun offset =>
    let* bad := (let* b := cross_condition (w, x, y, z) offset in
                 if b then Some true else cross_condition (w', x', y', z') offset) in
    Some (negb bad)) (range 0 n) = Some v /\
  (v = true <-> (forall t, (cd w x t + cd y z t = 0)%Z) /\ (forall t, (cd w' x' t + cd y' z' t = 0)%Z)).
Proof.
  intros Hn L1 L2 L3 L4 L5 L6 L7 L8 P1 P2 P3 P4 P5 P6 P7 P8. eexists. split.
  - apply (all_m_forallb _ (fun o => ((cd w x (Z.of_nat o) + cd y z (Z.of_nat o) =? 0) && (cd w' x' (Z.of_nat o) + cd y' z' (Z.of_nat o) =? 0))%Z)).
    intros o Ho. apply in_range in Ho. unfold cross_condition. rewrite !cross_correlation_spec by (auto; congruence || lia). cbn [bind].
    unfold cd. match goal with |- context [negb (?a =? 0)%Z] => replace a with (ccf w x (Z.of_nat o) - ccf x w (Z.of_nat o) + (ccf y z (Z.of_nat o) - ccf z y (Z.of_nat o)))%Z by lia end.
    destruct (_ =? 0)%Z; cbn [negb andb bind]; [|reflexivity]. f_equal. rewrite negb_involutive. f_equal. lia.
  - rewrite forallb_range_iff. rewrite (cd_range n w x y z), (cd_range n w' x' y' z') by auto. split.
    + intros H. split; intros k Hk; specialize (H k ltac:(lia)); apply andb_true_iff in H as [A B]; now apply Z.eqb_eq in A, B.
    + intros [A B] k Hk. apply andb_true_iff. split; apply Z.eqb_eq; [apply A|apply B]; lia.
Qed.

Definition D (b : bool) (s1 s2 : list Z) (t : Z) : Z := if b then cd s1 s2 t else cd s2 s1 t.
Lemma map_eq_iff {X Y} (f g : X -> Y) l : map f l = map g l <-> forall x, In x l -> f x = g x.
Proof.
  split; [|apply map_ext_in]. induction l as [|y l IH]; intros E x Hx; [destruct Hx|]. injection E as E1 E2. destruct Hx as [<-|Hx]; auto.
Qed.
Lemma auto_equal n q a b c d : 1 <= n -> pm_quad n q -> NoDup [a; b; c; d] ->
  ((forall k, 1 <= k <= n / 2 -> (paf (sequence q a) (Z.of_nat k) + paf (sequence q b) (Z.of_nat k) = - (paf (sequence q c) (Z.of_nat k) + paf (sequence q d) (Z.of_nat k)))%Z) <->
   complementary q).
Proof.
  intros Hn Hq N. rewrite (complementary_half n) by auto.
  assert (E : forall k, (paf (sequence q a) k + paf (sequence q b) k + paf (sequence q c) k + paf (sequence q d) k =
    paf (q_a q) k + paf (q_b q) k + paf (q_c q) k + paf (q_d q) k)%Z).
  { intros k. destruct a, b, c, d; try (exfalso; clear - N; repeat rewrite NoDup_cons_iff in N; cbn in N; tauto); cbn [sequence]; lia. }
  split; intros H k Hk; specialize (H k Hk); specialize (E (Z.of_nat k)); lia.
Qed.

Theorem complement_exact n q a b c d : 1 <= n -> pm_quad n q -> NoDup [a; b; c; d] ->
  exists A C v, compute_complementary_auto_correlations (sequence q c) (sequence q d) = Some A /\
    compute_complementary_cross_correlations (sequence q c) (sequence q d) (c, d) = Some C /\
    matching_verify_cross_correlation [sequence q a; sequence q b; sequence q c; sequence q d] [a; b; c; d] = Some v /\
    (is_QT q <-> MatchData_from (sequence q a) (sequence q b) (a, b) = Some (A, C) /\ v = true).
Proof.
  intros Hn Hq N. assert (S : forall tg, length (sequence q tg) = n /\ pm1 (sequence q tg)) by (intros tg; destruct Hq as ((_ & ?) & ?); destruct tg; cbn; tauto).
  assert (exists e1, tag_sign (a, b) = Some e1) as (e1 & E1).
  { destruct a, b; cbn; eauto; exfalso; clear - N; repeat rewrite NoDup_cons_iff in N; cbn in N; tauto. }
  assert (exists e2, tag_sign (c, d) = Some e2) as (e2 & E2).
  { destruct c, d; cbn; eauto; exfalso; clear - N; repeat rewrite NoDup_cons_iff in N; cbn in N; tauto. }
  assert (V : exists v, matching_verify_cross_correlation [sequence q a; sequence q b; sequence q c; sequence q d] [a; b; c; d] = Some v /\
    (three_cd q <-> (forall t, (D e1 (sequence q a) (sequence q b) t + D e2 (sequence q c) (sequence q d) t = 0)%Z) /\ v = true)).
  { destruct Hq as ((_ & L1 & L2 & L3 & L4) & P1 & P2 & P3 & P4).
    destruct a, b, c, d; try (exfalso; clear - N; repeat rewrite NoDup_cons_iff in N; cbn in N; tauto);
      cbn [tag_sign] in E1, E2; injection E1 as <-; injection E2 as <-;
      unfold matching_verify_cross_correlation, with_tag, range; cbn [seq Nat.sub fold_m vget nth_error tag_eqb bind sequence];
      rewrite ?L1, ?L2, ?L3, ?L4; change (seq 0 (n - 0)) with (range 0 n);
      match goal with |- context [let* _ := cross_condition (?x, ?y, ?z, ?w) _ in if _ then _ else cross_condition (?x', ?y', ?z', ?w') _] =>
        destruct (condition_loop n x y z w x' y' z' w' Hn) as (v & Ev & Hv); auto; exists v; split; [exact Ev|]; rewrite Hv; unfold three_cd, D
      end;
      (split; [intros (I1 & I2 & I3)|intros (I1 & I2 & I3)]; repeat split; intros t;
        try specialize (I1 t); try specialize (I2 t); try specialize (I3 t); lia). }
  destruct V as (v & Ev & Hv).
  exists (map (fun k => (- (paf (sequence q c) (Z.of_nat k) + paf (sequence q d) (Z.of_nat k)))%Z) (seq 1 (n / 2))).
  exists (map (fun k => (- (if e2 then cd (sequence q c) (sequence q d) (Z.of_nat k) else cd (sequence q d) (sequence q c) (Z.of_nat k)))%Z) (seq 1 (n / 2))).
  exists v. destruct (S a) as [La Pa], (S b) as [Lb Pb], (S c) as [Lc Pc], (S d) as [Ld Pd].
  split; [now apply complementary_auto|]. split; [now apply (complementary_cross n)|]. split; [exact Ev|].
  rewrite (match_data_spec n _ _ _ e1) by auto.
  assert (M : forall x y z w : list Z, Some (x, y) = Some (z, w) <-> x = z /\ y = w) by (intros; split; [intros E; injection E; auto|intros [-> ->]; auto]).
  rewrite M, !map_eq_iff.
  assert (A1 : (forall k, In k (seq 1 (n / 2)) -> (paf (sequence q a) (Z.of_nat k) + paf (sequence q b) (Z.of_nat k))%Z =
    (- (paf (sequence q c) (Z.of_nat k) + paf (sequence q d) (Z.of_nat k)))%Z) <-> complementary q).
  { rewrite <- (auto_equal n q a b c d) by auto. split; intros H k Hk; apply H; [apply in_seq; lia|]. apply in_seq in Hk. lia. }
  assert (A2 : (forall t, (D e1 (sequence q a) (sequence q b) t + D e2 (sequence q c) (sequence q d) t = 0)%Z) <->
    forall k, In k (seq 1 (n / 2)) -> (if e1 then (ccf (sequence q a) (sequence q b) (Z.of_nat k) - ccf (sequence q b) (sequence q a) (Z.of_nat k))%Z
      else (ccf (sequence q b) (sequence q a) (Z.of_nat k) - ccf (sequence q a) (sequence q b) (Z.of_nat k))%Z) =
      (- (if e2 then cd (sequence q c) (sequence q d) (Z.of_nat k) else cd (sequence q d) (sequence q c) (Z.of_nat k)))%Z).
  { transitivity (forall k, 1 <= k <= n / 2 -> (D e1 (sequence q a) (sequence q b) (Z.of_nat k) + D e2 (sequence q c) (sequence q d) (Z.of_nat k) = 0)%Z).
    - unfold D. destruct e1, e2; apply cd_half; auto.
    - unfold D, cd. split; intros H k Hk; [apply in_seq in Hk; specialize (H k ltac:(lia))|specialize (H k ltac:(apply in_seq; lia))]; destruct e1, e2; lia. }
  rewrite A1, <- A2. unfold is_QT. split.
  - intros H. assert (W := proj1 (QT_iff_WT n q Hq Hn) H). destruct H as [C _]. apply (three_cd_WT n q Hn Hq C) in W. apply Hv in W as [W1 W2]. auto.
  - intros ((C & W1) & W2). apply (QT_iff_WT n q Hq Hn). apply (three_cd_WT n q Hn Hq C). now apply Hv.
Qed.

Theorem verify_bad_tags s0 s1 s2 s3 a b c d : ~ NoDup [a; b; c; d] -> matching_verify_cross_correlation [s0; s1; s2; s3] [a; b; c; d] = None.
Proof.
  intros N. destruct a, b, c, d; try reflexivity; exfalso; apply N; repeat constructor; cbn; intuition discriminate.
Qed.

(* the filter of single sequences *)
Theorem single_filter n l bound : 1 <= n -> (forall s, In s l -> length s = n) ->
  exists keep, iter_over_filtered_dft n l bound = Some (filter keep l) /\
    forall s, In s l -> (keep s = true <-> forall k, k <= n / 2 -> (psd s k <= bound * bound)%R).
Proof.
  intros Hn H. exists (fun s => forallb (fun k => negb (gtR (psd s k) (bound * bound))) (seq 0 (n / 2 + 1))). split.
  - unfold iter_over_filtered_dft. induction l as [|s l IH]; [reflexivity|]. cbn [filter_m filter].
    pose proof (H s (or_introl eq_refl)) as L. rewrite <- L at 1. rewrite dft_sequence_spec by lia. cbn [bind].
    rewrite IH by (intros; apply H; now right). cbn [bind]. f_equal.
    match goal with |- (if ?x then _ else _) = (if ?y then _ else _) => replace x with y; [reflexivity|] end.
    rewrite L. generalize (seq 0 (n / 2 + 1)). intros ks. induction ks as [|k ks IHk]; [reflexivity|]. cbn [map forallb]. rewrite IHk, <- psd_norm. reflexivity.
  - intros s Hs. rewrite forallb_forall. split.
    + intros K k Hk. specialize (K k ltac:(apply in_seq; lia)). unfold gtR in K. destruct (Rlt_dec _ _) as [C|C]; [discriminate|]. now apply Rnot_lt_le.
    + intros K k Hk. apply in_seq in Hk. specialize (K k ltac:(lia)). unfold gtR. destruct (Rlt_dec _ _) as [C|C]; [|reflexivity]. exfalso. now apply (Rlt_not_le _ _ C).
Qed.

(* ---- tags ---- *)
Lemma tag_sign_none a b : tag_sign (a, b) = None <-> a = b /\ a <> TZ.
Proof. destruct a, b; cbn; split; intros H; try discriminate; try (split; [reflexivity|discriminate]); try reflexivity; destruct H as [H1 H2]; try discriminate; now destruct H2. Qed.
Theorem equal_tags n s1 s2 a b : 1 <= n -> length s1 = n -> length s2 = n -> pm1 s1 -> pm1 s2 ->
  (compute_cross_correlations s1 s2 (a, b) = None <-> a = b /\ a <> TZ) /\
  (compute_complementary_cross_correlations s1 s2 (a, b) = None <-> a = b /\ a <> TZ).
Proof.
  intros Hn L1 L2 P1 P2. rewrite <- tag_sign_none. destruct (tag_sign (a, b)) as [v|] eqn:E.
  - split; (split; [|discriminate]).
    + unfold compute_cross_correlations. rewrite E. cbn [bind]. rewrite L1.
      rewrite (traverse_map _ (fun k => if v then cd s1 s2 (Z.of_nat k) else cd s2 s1 (Z.of_nat k))); [discriminate|].
      intros k Hk. apply in_range_incl in Hk. pose proof (half_lt n k Hn Hk).
      unfold crossc_at, cd. rewrite !cross_correlation_spec by (auto; lia). destruct v; reflexivity.
    + rewrite (complementary_cross n s1 s2 (a, b) v) by auto. discriminate.
  - unfold compute_cross_correlations, compute_complementary_cross_correlations. rewrite E. split; split; reflexivity.
Qed.
(* the order of a pair of sequences with different tags does not matter *)
Theorem tags_swapped s1 s2 a b : a <> b -> length s1 = length s2 ->
  compute_cross_correlations s1 s2 (a, b) = compute_cross_correlations s2 s1 (b, a) /\
  compute_complementary_cross_correlations s1 s2 (a, b) = compute_complementary_cross_correlations s2 s1 (b, a).
Proof.
  intros D L. unfold compute_cross_correlations, compute_complementary_cross_correlations. rewrite L.
  destruct a, b; try (now destruct D); split; reflexivity.
Qed.
