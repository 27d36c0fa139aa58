(* What the unit tests check on samples, for every length. *)
From Coq Require Import Ascii String List ZArith Lia Arith Bool Reals Permutation Relations.
From Verif Require Import Base BaseFacts Sums ModelSequence ModelWilliamson ModelEquivalence SeqFacts TypeFacts ModelFourier FourierFacts SpecFourier ModelMatching MatchFacts MatchThms SpecEquiv OrderFacts OpFacts EquivFacts FastFacts EquivThms SpecSearch QtWt GroupRing AmicFacts ComplFacts ModelRowsum RowsumFacts SpecRowsum ModelFind SearchFacts FindUniqueFacts SpecTests Spec.
Import ListNotations.
Notation length := List.length.
Open Scope nat_scope.

Theorem cross_is_amicable n q : 1 <= n -> pm_quad n q ->
  exists b, verify_cross_correlation q = Some b /\ is_amicable q = Some b /\ (b = true <-> amicable_all q).
Proof.
  intros Hn Hq. destruct (verify_cross_correlation_spec n q Hq Hn) as (b & E & H). destruct (is_amicable_spec n q Hq Hn) as (b' & E' & H').
  pose proof (identities_amicable n Hn q (proj1 Hq)) as I. exists b. split; auto. split; [|tauto].
  rewrite E'. f_equal. destruct b, b'; auto; [|symmetry]; tauto.
Qed.

Lemma three_cd_amicable n q : 1 <= n -> pm_quad n q -> (three_cd q <-> amicable_all q).
Proof.
  intros Hn Hq. split.
  - intros (I1 & I2 & I3). set (q' := mkQuad n (q_a q) (q_b q) (q_c q) (lact Neg (q_d q))).
    destruct Hq as ((Hs & A & B & D & E) & PA & PB & PD & PE).
    assert (Wq' : wf n q') by (repeat split; cbn; auto; now rewrite lact_length).
    assert (NL : forall x t, length x = n -> ccf (lact Neg (q_d q)) x t = (- ccf (q_d q) x t)%Z) by (intros x t Lx; apply (ccf_neg_l n); auto).
    assert (NR : forall x t, length x = n -> ccf x (lact Neg (q_d q)) t = (- ccf x (q_d q) t)%Z) by (intros x t Lx; apply (ccf_neg_r n); auto).
    assert (Q' : quaternion_identities q').
    { intros t. unfold q'. cbn [q_a q_b q_c q_d]. rewrite !NL, !NR by auto. specialize (I1 t). specialize (I2 t). specialize (I3 t). unfold cd in *. lia. }
    apply (identities_amicable n Hn q' Wq') in Q' as (W1 & W2 & W3 & W4 & W5 & W6). unfold q' in *. cbn [q_a q_b q_c q_d] in *.
    unfold amicable_all, amicable in *. split; auto. split; auto. split; [|split; auto; split].
    + intros t. specialize (W3 t). rewrite NL, NR in W3 by auto. lia.
    + intros t. specialize (W5 t). rewrite NL, NR in W5 by auto. lia.
    + intros t. specialize (W6 t). rewrite NL, NR in W6 by auto. lia.
  - intros (W1 & W2 & W3 & W4 & W5 & W6). unfold amicable, three_cd, cd in *.
    repeat split; intros t; specialize (W1 t); specialize (W2 t); specialize (W3 t); specialize (W4 t); specialize (W5 t); specialize (W6 t); lia.
Qed.

Theorem matching_amicable n q a b c d : 1 <= n -> pm_quad n q -> NoDup [a; b; c; d] ->
  exists C v, compute_complementary_cross_correlations (sequence q c) (sequence q d) (c, d) = Some C /\
    matching_verify_cross_correlation [sequence q a; sequence q b; sequence q c; sequence q d] [a; b; c; d] = Some v /\
    (is_amicable q = Some true <-> compute_cross_correlations (sequence q a) (sequence q b) (a, b) = Some C /\ v = true).
Proof.
  intros Hn Hq N. assert (S : forall tg, length (sequence q tg) = n /\ pm1 (sequence q tg)) by (intros tg; destruct Hq as ((_ & ?) & ?); destruct tg; cbn; tauto).
  assert (exists e1, tag_sign (a, b) = Some e1) as (e1 & E1).
  { destruct a, b; cbn; eauto; exfalso; clear - N; repeat rewrite NoDup_cons_iff in N; cbn in N; tauto. }
  assert (exists e2, tag_sign (c, d) = Some e2) as (e2 & E2).
  { destruct c, d; cbn; eauto; exfalso; clear - N; repeat rewrite NoDup_cons_iff in N; cbn in N; tauto. }
  assert (AM : is_amicable q = Some true <-> three_cd q).
  { rewrite (three_cd_amicable n q Hn Hq). destruct (is_amicable_spec n q Hq Hn) as (x & -> & Hx). rewrite <- Hx. split; [intros E; now injection E|now intros ->]. }
  assert (V : exists v, matching_verify_cross_correlation [sequence q a; sequence q b; sequence q c; sequence q d] [a; b; c; d] = Some v /\
    (three_cd q <-> (forall t, (D e1 (sequence q a) (sequence q b) t + D e2 (sequence q c) (sequence q d) t = 0)%Z) /\ v = true)).
  { clear AM S. destruct Hq as ((_ & L1 & L2 & L3 & L4) & P1 & P2 & P3 & P4).
    destruct a, b, c, d; try (exfalso; clear - N; repeat rewrite NoDup_cons_iff in N; cbn in N; tauto);
      cbn [tag_sign] in E1, E2; injection E1 as <-; injection E2 as <-;
      unfold matching_verify_cross_correlation, with_tag, range; cbn [seq Nat.sub fold_m vget nth_error tag_eqb bind sequence];
      rewrite ?L1, ?L2, ?L3, ?L4; change (seq 0 (n - 0)) with (range 0 n);
      match goal with |- context [let* _ := cross_condition (?x, ?y, ?z, ?w) _ in if _ then _ else cross_condition (?x', ?y', ?z', ?w') _] =>
        destruct (condition_loop n x y z w x' y' z' w' Hn) as (v & Ev & Hv); auto; exists v; split; [exact Ev|]; rewrite Hv; unfold three_cd, D
      end;
      (split; [intros (I1 & I2 & I3)|intros (I1 & I2 & I3)]; repeat split; intros t;
        try specialize (I1 t); try specialize (I2 t); try specialize (I3 t); lia). }
  destruct V as (v & Ev & Hv).
  exists (map (fun k => (- (if e2 then cd (sequence q c) (sequence q d) (Z.of_nat k) else cd (sequence q d) (sequence q c) (Z.of_nat k)))%Z) (seq 1 (n / 2))).
  exists v. destruct (S a) as [La Pa], (S b) as [Lb Pb], (S c) as [Lc Pc], (S d) as [Ld Pd].
  split; [now apply (complementary_cross n)|]. split; [exact Ev|].
  rewrite AM, (cross_direct (a, b) e1 _ _ n) by auto. replace (range_incl 1 (n / 2)) with (seq 1 (n / 2)) by (unfold range_incl; f_equal; lia).
  assert (M : forall x y : list Z, Some x = Some y <-> x = y) by (intros; split; [intros E; now injection E|now intros ->]).
  rewrite M, map_eq_iff, Hv.
  assert (A2 : (forall t, (D e1 (sequence q a) (sequence q b) t + D e2 (sequence q c) (sequence q d) t = 0)%Z) <->
    forall k, In k (seq 1 (n / 2)) -> cdiff e1 (sequence q a) (sequence q b) (Z.of_nat k) =
      (- (if e2 then cd (sequence q c) (sequence q d) (Z.of_nat k) else cd (sequence q d) (sequence q c) (Z.of_nat k)))%Z).
  { transitivity (forall k, 1 <= k <= n / 2 -> (D e1 (sequence q a) (sequence q b) (Z.of_nat k) + D e2 (sequence q c) (sequence q d) (Z.of_nat k) = 0)%Z).
    - unfold D. destruct e1, e2; apply cd_half; auto.
    - unfold D, cd, cdiff. split; intros H k Hk; [apply in_seq in Hk; specialize (H k ltac:(lia))|specialize (H k ltac:(apply in_seq; lia))]; destruct e1, e2; lia. }
  rewrite A2. tauto.
Qed.

(* an explicit enumeration, for counting *)
Fixpoint choices (n k : nat) : list (list Z) :=
  match n, k with
  | 0, 0 => [[]]
  | 0, S _ => []
  | S n', 0 => map (cons (-1)%Z) (choices n' 0)
  | S n', S k' => map (cons 1%Z) (choices n' k') ++ map (cons (-1)%Z) (choices n' k)
  end.
Lemma choices_length n k : length (choices n k) = binom n k.
Proof.
  revert k. induction n as [|n IH]; intros [|k]; cbn [choices binom]; auto.
  - rewrite map_length, IH. destruct n; reflexivity.
  - now rewrite app_length, !map_length, !IH.
Qed.
Lemma map_cons_nodup (z : Z) l : NoDup l -> NoDup (map (cons z) l).
Proof. apply FinFun.Injective_map_NoDup. intros x y E. now injection E. Qed.
Lemma choices_nodup n k : NoDup (choices n k).
Proof.
  revert k. induction n as [|n IH]; intros [|k]; cbn [choices]; [repeat constructor; intros []|constructor|auto using map_cons_nodup|].
  apply SearchFacts.NoDup_app; auto using map_cons_nodup. intros x Hx Hy. apply in_map_iff in Hx as (u & <- & _). apply in_map_iff in Hy as (v & E & _). discriminate.
Qed.
Lemma choices_iff n k s : In s (choices n k) <-> length s = n /\ pm1 s /\ total s = (2 * Z.of_nat k - Z.of_nat n)%Z.
Proof.
  revert k s. induction n as [|n IH]; intros [|k] s; cbn [choices].
  - split; [intros [<-|[]]; repeat split; constructor|]. intros (L & _). destruct s; [now left|discriminate].
  - split; [intros []|]. intros (L & _ & T). destruct s; [cbn in T; lia|discriminate].
  - rewrite in_map_iff. split.
    + intros (u & <- & Hu). apply IH in Hu as (L & P & T). cbn [length total fold_right]. split; [lia|]. split; [constructor; auto|]. unfold total in T. lia.
    + intros (L & P & T). destruct s as [|x s]; [discriminate|]. inversion P as [|? ? Px Ps]; subst. cbn [length] in L. pose proof (total_bounds s Ps) as B.
      unfold total in *. cbn [fold_right] in T. exists s. destruct Px as [->| ->]; [lia|]. split; auto. apply IH. repeat split; auto; unfold total; lia.
  - rewrite in_app_iff, !in_map_iff. split.
    + intros [(u & <- & Hu)|(u & <- & Hu)]; apply IH in Hu as (L & P & T); cbn [length total fold_right]; (split; [lia|]); (split; [constructor; auto|]); unfold total in T; lia.
    + intros (L & P & T). destruct s as [|x s]; [discriminate|]. inversion P as [|? ? Px Ps]; subst. cbn [length] in L.
      unfold total in *. cbn [fold_right] in T. destruct Px as [->| ->]; [left|right]; exists s; (split; [reflexivity|]); apply IH; repeat split; auto; unfold total; lia.
Qed.
Theorem rowsum_count r n : (Z.abs r < 2 ^ 62)%Z -> (Z.of_nat n < 2 ^ 62)%Z ->
  exists l, generate_sequences_with_rowsum r n = Some l /\
    (forall k, r = (2 * Z.of_nat k - Z.of_nat n)%Z -> length l = binom n k) /\
    ((forall k, r <> (2 * Z.of_nat k - Z.of_nat n)%Z) -> l = []).
Proof.
  intros Hr Hn. destruct (generate_sequences_spec r n Hr Hn) as (l & E & N & H). exists l. split; auto. split.
  - intros k Ek. rewrite <- choices_length. apply Permutation_length, NoDup_Permutation; auto using choices_nodup.
    intros s. rewrite H, choices_iff, Ek. tauto.
  - intros Hk. destruct l as [|s l]; auto. exfalso. destruct (proj1 (H s) (or_introl eq_refl)) as (L & P & T).
    assert (X : exists k, total s = (2 * Z.of_nat k - Z.of_nat (length s))%Z).
    { clear - P. induction P as [|x s Px P (k & IH)]; [exists 0; reflexivity|]. unfold total in *. cbn [fold_right length].
      destruct Px as [->| ->]; [exists (S k)|exists k]; lia. }
    destruct X as (k & X). apply (Hk k). congruence.
Qed.

Lemma reduce_at n ord ops l : ord_ok ord -> 1 <= n <= 31 -> l <> [] -> Forall (i8_quad n) l ->
  forall fuel p, class_fuel n <= fuel -> exists r,
    reduce_to_equivalence fuel ord p l (map impl ops) = Some r /\ NoDup r /\
    forall m, In m r <-> exists x, In x l /\ least (reach ops x) m.
Proof.
  intros Ho Hn Hne Hl fuel p Hf. rewrite Forall_forall in Hl.
  unfold reduce_to_equivalence. destruct l as [|q0 l0]; [congruence|]. set (l := q0 :: l0) in *.
  assert (q_size q0 = n) as E0 by (apply Hl; now left).
  change (vget l 0) with (Some q0). cbn [bind]. rewrite E0.
  destruct (symmetry_group_spec n ord (0 :: p) ops fuel Ho) as (G & -> & _ & HG); auto; [apply small_ok; lia|]. cbn [bind].
  destruct (collect_classes_spec n ops (fun i q => generate_equivalence_class_fast ord (i :: 1 :: p) q G) l Hl) as
    (qs & cs & -> & HF & Hi & Hc & Hp).
  { intros i q Hq. destruct (fast_spec n ord (i :: 1 :: p) ops q G Ho ltac:(lia) (Hl q Hq) HG) as (c & E & _ & Hc); eauto. }
  cbn [bind]. destruct (minima_spec n ord (2 :: p) ops Ho qs cs) as (ms & -> & HFm); auto.
  exists ms. split; auto. eapply minima_reps; eauto.
Qed.

(* filtering by row sums before the reduction changes nothing *)
Theorem filter_then_reduce n ord t l : ord_ok ord -> 1 <= n <= 31 -> l <> [] ->
  Forall (fun q => pm_quad n q /\ verify q t = Some true) l ->
  exists fuel0, forall fuel p p' p'', fuel0 <= fuel -> exists all reduced filtered_reduced,
    generate_equivalent_quad_seqs fuel ord p l t = Some all /\
    reduce_to_equivalence fuel ord p' all (map impl (type_ops t)) = Some reduced /\
    reduce_to_equivalence fuel ord p'' (filter_by_rowsums all) (map impl (type_ops t)) = Some filtered_reduced /\
    Permutation reduced filtered_reduced.
Proof.
  intros Ho Hn Hl Hv. assert (Forall (i8_quad n) l) as Hi by (eapply Forall_impl; [|exact Hv]; intros q [H _]; now apply pm_i8).
  destruct (filtered_classes n ord t l Ho ltac:(lia) Hv) as (f0 & HF). exists (Nat.max f0 (class_fuel n)). intros fuel p p' p'' Hf.
  destruct (HF fuel p ltac:(lia)) as (r & Er & F1 & F2).
  destruct (equivalent_quad_seqs_at n ord t l fuel p Ho Hi ltac:(lia) ltac:(lia)) as (r' & Er' & Nr & Hr). rewrite Er in Er'. injection Er' as <-.
  assert (R8 : Forall (i8_quad n) r).
  { apply Forall_forall. intros y Hy. apply Hr in Hy as (x & Hx & R). eapply reach_i8; [|exact R]. rewrite Forall_forall in Hi. auto. }
  assert (S8 : Forall (i8_quad n) (filter_by_rowsums r)).
  { apply Forall_forall. intros y Hy. apply filter_In in Hy as [Hy _]. rewrite Forall_forall in R8. auto. }
  destruct l as [|q0 l0]; [congruence|]. destruct (F2 q0 (or_introl eq_refl)) as (y0 & _ & Hy0).
  assert (Ne : filter_by_rowsums r <> []) by (intros E; rewrite E in Hy0; destruct Hy0).
  assert (Ne' : r <> []) by (intros ->; now apply Ne).
  destruct (reduce_at n ord (type_ops t) r Ho Hn Ne' R8 fuel p' ltac:(lia)) as (a & Ea & Na & Ha).
  destruct (reduce_at n ord (type_ops t) _ Ho Hn Ne S8 fuel p'' ltac:(lia)) as (b & Eb & Nb & Hb).
  exists r, a, b. repeat (split; auto). apply NoDup_Permutation; auto. intros m. rewrite Ha, Hb. split.
  - intros (x & Hx & Lm). apply Hr in Hx as (q & Hq & R). destruct (F2 q Hq) as (y & Ry & Hy). exists y. split; auto.
    rewrite Forall_forall in Hi. pose proof (Hi q Hq) as Iq. pose proof (reach_i8 n _ _ _ Iq R) as Ix. pose proof (reach_i8 n _ _ _ Iq Ry) as Iy.
    assert (Rxy : reach (type_ops t) x y) by (eapply rt_trans; [apply (reach_sym n _ q x Iq R)|exact Ry]).
    eapply least_ext; [|exact Lm]. intros z. split; intros Hz; [eapply rt_trans; [apply (reach_sym n _ x y Ix Rxy)|exact Hz]|eapply rt_trans; eauto].
  - intros (x & Hx & Lm). exists x. split; auto. now apply filter_In in Hx as [Hx _].
Qed.

(* how many variants the negations return *)
Lemma op_count n o q (f : QuadSeq -> list Z) : wf n q -> op_ok n o -> NoDup (map f (q :: map (fun w => wact w q) (variants o n))) ->
  exists l, impl o q = Some l /\ length l = S (length (variants o n)).
Proof.
  intros W Ho N. destruct (impl_computes n o q W Ho) as (l & E & Nl & H). exists l. split; auto. apply NoDup_map_inv in N.
  rewrite <- (map_length (fun w => wact w q)). change (S (length (map (fun w => wact w q) (variants o n)))) with (length (q :: map (fun w => wact w q) (variants o n))).
  apply Permutation_length, NoDup_Permutation; auto. intros y. rewrite H. unfold variant. destruct W as (Hs & _). rewrite Hs. cbn [In]. rewrite in_map_iff.
  split; [intros [->|(w & Hw & ->)]|intros [<-|(w & <- & Hw)]]; eauto.
Qed.
Definition heads (i : nat) (q : QuadSeq) : list Z := [nth i (q_a q) 0%Z; nth i (q_b q) 0%Z; nth i (q_c q) 0%Z; nth i (q_d q) 0%Z].
Lemma nth_pm l i : pm1 l -> i < length l -> nth i l 0%Z = 1%Z \/ nth i l 0%Z = (-1)%Z.
Proof. intros P H. unfold pm1 in P. rewrite Forall_forall in P. apply P, nth_In, H. Qed.
Lemma nth_neg l i : i < length l -> nth i (lact Neg l) 0%Z = neg8 (nth i l 0%Z).
Proof. intros H. rewrite lact_nth by auto. cbn [sneg lneg lidx]. now rewrite entry_nat. Qed.
Theorem negate_counts n q : 1 <= n -> pm_quad n q ->
  (exists l, equivalent_negate q = Some l /\ length l = 5) /\ (exists l, equivalent_double_negate q = Some l /\ length l = 7) /\
  (exists l, equivalent_alternated_negation q = Some l /\ length l = if n =? 1 then 1 else 2) /\
  (exists l, equivalent_even_alternated_negation q = Some l /\ length l = if Nat.even n then 2 else 1).
Proof.
  intros Hn Hq. assert (W := proj1 Hq). destruct Hq as ((_ & La & Lb & Lc & Ld) & Pa & Pb & Pc & Pd).
  assert (A : forall l, length l = n -> 1 < n -> nth 1 (lact Alt l) 0%Z = neg8 (nth 1 l 0%Z)).
  { intros l L H. rewrite lact_nth by lia. change (lneg Alt (Z.of_nat 1)) with true. cbn [sneg lidx]. now rewrite entry_nat by lia. }
  assert (Z1 : n = 1 -> gact (All Alt) q = q).
  { intros ->. destruct W as (Hs & _). destruct q as [m a b c d]. cbn [q_size q_a q_b q_c q_d] in *. subst m.
    destruct a as [|x [|? ?]]; try discriminate; destruct b as [|y [|? ?]]; try discriminate; destruct c as [|u [|? ?]]; try discriminate; destruct d as [|v [|? ?]]; try discriminate; reflexivity. }
  assert (TW0 : NoDup (map (heads 1) [q; gact (All Alt) q]) \/ n = 1).
  { destruct (Nat.eq_dec n 1) as [->|N1]; [now right|left]. cbn [map]. unfold heads, gact, of_slots. cbn [q_a q_b q_c q_d slot].
    rewrite !A by (auto; lia). destruct (nth_pm _ 1 Pa ltac:(lia)) as [E|E]; rewrite E; repeat constructor; cbn; intuition discriminate. }
  split; [|split; [|split]].
  - apply (op_count n Negate q (heads 0) W); [discriminate|]. cbn [variants all_tags map wact fold_left]. unfold gact, heads, of_slots. cbn [tag_eq slot q_a q_b q_c q_d q_size].
    rewrite !nth_neg by lia. destruct (nth_pm _ 0 Pa ltac:(lia)) as [E1|E1], (nth_pm _ 0 Pb ltac:(lia)) as [E2|E2], (nth_pm _ 0 Pc ltac:(lia)) as [E3|E3], (nth_pm _ 0 Pd ltac:(lia)) as [E4|E4];
      rewrite E1, E2, E3, E4; repeat constructor; cbn; intuition discriminate.
  - apply (op_count n DoubleNegate q (heads 0) W); [discriminate|]. cbn [variants all_pairs map wact fold_left]. unfold gact, heads, of_slots. cbn [tag_eq slot q_a q_b q_c q_d q_size].
    rewrite !nth_neg by lia. destruct (nth_pm _ 0 Pa ltac:(lia)) as [E1|E1], (nth_pm _ 0 Pb ltac:(lia)) as [E2|E2], (nth_pm _ 0 Pc ltac:(lia)) as [E3|E3], (nth_pm _ 0 Pd ltac:(lia)) as [E4|E4];
      rewrite E1, E2, E3, E4; repeat constructor; cbn; intuition discriminate.
  - destruct TW0 as [N|E1].
    + assert (n <> 1) as N1. { intros E. rewrite (Z1 E) in N. inversion N as [|? ? N1 _]. apply N1. now left. }
      destruct (Nat.eqb_spec n 1) as [|_]; [congruence|]. apply (op_count n AlternatedNegation q (heads 1) W); [discriminate|exact N].
    + rewrite E1. cbn [Nat.eqb]. destruct (impl_computes n AlternatedNegation q W ltac:(discriminate)) as (l & E & Nl & H). exists l. split; auto.
      change 1 with (length [q]). apply Permutation_length, NoDup_Permutation; auto; [repeat constructor; intros []|]. intros y. rewrite H. unfold variant.
      cbn [variants In]. split; [intros [->|(w & [<-|[]] & ->)]|intros [<-|[]]]; auto. left. symmetry. apply (Z1 E1).
  - destruct (Nat.even n) eqn:Ev.
    + pose proof (op_count n EvenAlternatedNegation q (heads 1) W ltac:(discriminate)) as O. cbn [variants] in O. rewrite Ev in O. apply O.
      destruct TW0 as [N|E1]; [exact N|]. rewrite E1 in Ev. discriminate.
    + pose proof (op_count n EvenAlternatedNegation q (heads 1) W ltac:(discriminate)) as O. cbn [variants] in O. rewrite Ev in O. apply O. repeat constructor. intros [].
Qed.
Theorem filter_then_reduce_equivalences n ord t l : ord_ok ord -> 1 <= n <= 31 -> l <> [] ->
  Forall (fun q => pm_quad n q /\ verify q t = Some true) l ->
  exists fuel0, forall fuel p p' p'', fuel0 <= fuel -> exists all reduced filtered_reduced,
    generate_equivalent_quad_seqs fuel ord p l t = Some all /\
    reduce_to_equivalence fuel ord p' all (equivalences t) = Some reduced /\
    reduce_to_equivalence fuel ord p'' (filter_by_rowsums all) (equivalences t) = Some filtered_reduced /\
    Permutation reduced filtered_reduced.
Proof. intros Ho Hn Hl Hv. replace (equivalences t) with (map impl (type_ops t)) by (destruct t; reflexivity). now apply (filter_then_reduce n). Qed.
Theorem check_alone : exists q, pm_quad 3 q /\
  matching_verify_cross_correlation [q_a q; q_b q; q_c q; q_d q] [TW; TX; TY; TZ] = Some true /\ is_amicable q = Some false.
Proof.
  exists (mkQuad 3 [-1; 1; -1] [-1; -1; 1] [1; -1; 1] [-1; -1; 1])%Z. split; [|split; vm_compute; reflexivity].
  split; [repeat split|]. repeat split; repeat (apply Forall_cons; [cbn; auto|]); constructor.
Qed.
