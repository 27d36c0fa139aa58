(* Overflow checks: the operations, the symmetry group and its application. *)
From Coq Require Import List ZArith Lia Arith Bool Permutation Relations.
From Verif Require Import Base BaseFacts Sums ModelSequence ModelWilliamson ModelEquivalence ModelFind ModelMatrices ModelDebug ModelChecked SpecDebug SpecEquiv
  SeqFacts OpFacts EquivFacts TypeFacts FastFacts OrderFacts CanonFacts NsFacts ReduceFacts WsFacts DebugFacts DebugThms Len64Facts SpecChecked Spec.
Import ListNotations.
Notation length := List.length.
Open Scope nat_scope.

Lemma chk8_some z : i8 z -> chk8 z = Some z.
Proof. unfold i8, chk8. intros H. destruct (Z.leb_spec (-128) z), (Z.leb_spec z 127); try lia. reflexivity. Qed.
Lemma chk8_none z : (z < -128 \/ 127 < z)%Z -> chk8 z = None.
Proof. unfold chk8. intros H. destruct (Z.leb_spec (-128) z), (Z.leb_spec z 127); try lia; reflexivity. Qed.
Lemma chk8_inv z y : chk8 z = Some y -> y = z /\ i8 z.
Proof. unfold chk8, i8. destruct (Z.leb_spec (-128) z), (Z.leb_spec z 127); cbn; intros E; try discriminate. injection E as <-. lia. Qed.
Lemma traverse_some {A B} (f : A -> option B) l : (forall x, In x l -> exists y, f x = Some y) -> exists r, traverse f l = Some r.
Proof.
  induction l as [|a l IH]; intros H; cbn [traverse]; [eauto|]. destruct (H a (or_introl eq_refl)) as [y ->]. cbn [bind].
  destruct IH as [r ->]; [intros; apply H; now right|]. cbn [bind]. eauto.
Qed.
Lemma negatable x : i8 x -> x <> (-128)%Z -> exists y, chk8 (- x) = Some y.
Proof. unfold i8. intros H N. exists (- x)%Z. apply chk8_some. unfold i8. lia. Qed.

Lemma sequence_slot q t : sequence q t = slot q t. Proof. now destruct t. Qed.
Lemma tags_all t : In t tags. Proof. destruct t; cbn; tauto. Qed.
Lemma negated_some s : Forall i8 s -> ~ In (-128)%Z s -> exists r, checked_negated s = Some r.
Proof. intros H N. apply traverse_some. intros x I. apply negatable; [exact (proj1 (Forall_forall _ _) H x I)|]. now intros ->. Qed.
Lemma negated_none s : In (-128)%Z s -> checked_negated s = None.
Proof. intros I. apply (traverse_none_in _ _ (-128)%Z I). reflexivity. Qed.
Lemma odd_mod2 i : (i mod 2 =? 2 - 1) = Nat.odd i.
Proof.
  destruct (Nat.odd i) eqn:O.
  - apply Nat.odd_spec in O as [k ->]. apply Nat.eqb_eq. rewrite Nat.add_comm, Nat.mul_comm, Nat.mod_add by lia. reflexivity.
  - rewrite <- Nat.negb_even in O. apply Bool.negb_false_iff, Nat.even_spec in O as [k ->]. apply Nat.eqb_neq. rewrite Nat.mul_comm, Nat.mod_mul by lia. lia.
Qed.
Lemma in_combine_seq {A} (s : list A) i x : forall k, In (i, x) (combine (seq k (length s)) s) <-> k <= i /\ nth_error s (i - k) = Some x.
Proof.
  induction s as [|a s IH]; intros k; cbn [length seq combine].
  - split; [intros []|intros [_ E]; now destruct (i - k)].
  - cbn [In]. rewrite IH. split.
    + intros [E|[H E]]; [injection E as <- <-; split; [lia|now rewrite Nat.sub_diag]|].
      split; [lia|]. replace (i - k) with (S (i - S k)) by lia. exact E.
    + intros [H E]. destruct (Nat.eq_dec k i) as [<-|N]; [left; rewrite Nat.sub_diag in E; now injection E as ->|].
      right. split; [lia|]. replace (i - k) with (S (i - S k)) in E by lia. exact E.
Qed.
Lemma alt_some s : Forall i8 s -> (forall i, nth_error s i = Some (-128)%Z -> Nat.odd i = false) -> exists r, checked_alt_negated s 2 = Some r.
Proof.
  intros H N. apply traverse_some. intros [i x] I. cbn [fst snd]. rewrite odd_mod2. destruct (Nat.odd i) eqn:O; [|eauto].
  apply in_combine_seq in I as [_ E]. rewrite Nat.sub_0_r in E. apply negatable; [exact (proj1 (Forall_forall _ _) H x (nth_error_In _ _ E))|].
  intros ->. rewrite (N i E) in O. discriminate.
Qed.
Lemma alt_none s i : nth_error s i = Some (-128)%Z -> Nat.odd i = true -> checked_alt_negated s 2 = None.
Proof.
  intros E O. apply (traverse_none_in _ _ (i, (-128)%Z)); [apply in_combine_seq; rewrite Nat.sub_0_r; split; [lia|exact E]|].
  cbn [fst snd]. now rewrite odd_mod2, O.
Qed.

Lemma calls_alternated_some n q : i8_quad n q -> (forall t i, nth_error (slot q t) i = Some (-128)%Z -> Nat.odd i = false) -> exists r, calls_alternated q = Some r.
Proof.
  intros Hq N. apply i8_slots in Hq as [_ Hq]. apply traverse_some. intros t _. rewrite sequence_slot. apply alt_some; [apply Hq|apply N].
Qed.
Lemma calls_alternated_none q t i : nth_error (slot q t) i = Some (-128)%Z -> Nat.odd i = true -> calls_alternated q = None.
Proof. intros E O. apply (traverse_none_in _ _ t (tags_all t)). rewrite sequence_slot. now apply (alt_none _ i). Qed.

Lemma odd_even_mod n : (n mod 2 =? 1) = negb (Nat.even n).
Proof. rewrite Nat.negb_even. apply (odd_mod2 n). Qed.

Theorem checked_op_same n o t sg q : i8_quad n q -> ~ negates o q (-128)%Z -> checked_op o t sg q = debug_op o t sg q.
Proof.
  intros Hq N. assert (H8 := proj1 (i8_slots n q) Hq). destruct H8 as [_ H8].
  assert (All : (forall u, ~ In (-128)%Z (slot q u)) -> forall u, exists r, checked_negated (sequence q u) = Some r).
  { intros H u. rewrite sequence_slot. apply negated_some; auto. }
  destruct o; cbn [checked_op]; try reflexivity; cbn [negates] in N.
  - unfold checked_negate_swap, negating. destruct (traverse_some (fun p => checked_negated (sequence q (snd p))) (list_prod couples tags)) as [r E].
    { intros [c u] _. cbn [snd]. apply All. intros v I. apply N. eauto. }
    unfold calls_negate_swap. now rewrite E.
  - unfold checked_negate, negating. destruct (traverse_some (fun u => checked_negated (sequence q u)) tags) as [r E].
    { intros u _. apply All. intros v I. apply N. eauto. }
    unfold calls_negate. now rewrite E.
  - unfold checked_double_negate, negating, calls_double_negate.
    match goal with |- bind (traverse ?f ?l) _ = _ => destruct (traverse_some f l) as [r E] end.
    { intros [u v] _. cbn [fst snd]. destruct (All ltac:(intros x I; apply N; eauto) u) as [r ->]. cbn [bind]. apply All. intros x I. apply N. eauto. }
    now rewrite E.
  - unfold checked_alternated_negation, negating. destruct (calls_alternated_some n q Hq) as [r ->]; [|reflexivity].
    intros u i E. destruct (Nat.odd i) eqn:O; auto. exfalso. apply N. eauto.
  - unfold checked_even_alternated_negation, negating, calls_even_alternated. rewrite odd_even_mod. destruct (Nat.even (q_size q)) eqn:Ev; cbn [negb]; [|reflexivity].
    destruct (calls_alternated_some n q Hq) as [r ->]; [|reflexivity].
    intros u i E. destruct (Nat.odd i) eqn:O; auto. exfalso. apply N. eauto.
Qed.
Theorem checked_op_none o t sg q : negates o q (-128)%Z -> checked_op o t sg q = None.
Proof.
  destruct o; cbn [negates checked_op]; intros N; try destruct N; unfold checked_negate_swap, checked_negate, checked_double_negate, checked_alternated_negation, checked_even_alternated_negation, negating.
  - unfold calls_negate_swap. rewrite (traverse_none_in _ _ ((TW, TX), x)); [reflexivity|apply in_prod; [cbn; tauto|apply tags_all]|]. cbn [snd]. rewrite sequence_slot. now apply negated_none.
  - unfold calls_negate. rewrite (traverse_none_in _ _ x); [reflexivity|apply tags_all|]. rewrite sequence_slot. now apply negated_none.
  - unfold calls_double_negate. destruct x.
    + rewrite (traverse_none_in _ _ (TW, TX)); [reflexivity|cbn; tauto|]. cbn [fst]. rewrite sequence_slot. now rewrite negated_none.
    + rewrite (traverse_none_in _ _ (TX, TY)); [reflexivity|cbn; tauto|]. cbn [fst]. rewrite sequence_slot. now rewrite negated_none.
    + rewrite (traverse_none_in _ _ (TY, TZ)); [reflexivity|cbn; tauto|]. cbn [fst]. rewrite sequence_slot. now rewrite negated_none.
    + rewrite (traverse_none_in _ _ (TX, TZ)); [reflexivity|cbn; tauto|]. cbn [fst snd]. rewrite (sequence_slot q TZ), (negated_none _ H). now destruct (checked_negated _).
  - destruct H as (i & E & O). now rewrite (calls_alternated_none q x i).
  - unfold calls_even_alternated. rewrite odd_even_mod, H. cbn [negb]. destruct H0 as (u & i & E & O). now rewrite (calls_alternated_none q u i).
Qed.

(* ---- the application of a symmetry ---- *)

Lemma usize_id z : (0 <= z <= 127)%Z -> ModelEquivalence.as_usize z = z.
Proof. intros H. unfold ModelEquivalence.as_usize. apply Z.mod_small. change (2 ^ 64)%Z with 18446744073709551616%Z. lia. Qed.
Lemma in_range_elm q z : 1 <= q_size q -> i8 z -> z <> 0%Z -> z <> (-128)%Z -> (forall t, Forall (fun v => i8 (- v)) (slot q t)) ->
  checked_fast_element q z = fast_element q z.
Proof.
  intros Hn Hz Z0 Z1 Hv. unfold checked_fast_element, fast_element. unfold i8 in Hz. set (n := Z.of_nat (q_size q)) in *.
  assert (1 <= Z.abs z <= 127)%Z as Ha by lia. unfold abs8. rewrite (wrap8_id (Z.abs z)) by (unfold i8; lia).
  rewrite (chk8_some (Z.abs z)) by (unfold i8; lia). cbn [bind]. rewrite (chk8_some (Z.abs z - 1)) by (unfold i8; lia). cbn [bind].
  replace (1 <=? Z.abs z)%Z with true by (symmetry; apply Z.leb_le; lia). cbn [guard].
  rewrite (usize_id (Z.abs z)), (usize_id (Z.abs z - 1)) by lia.
  rewrite (wrap8_id (Z.abs z - 1)) by (unfold i8; lia). rewrite ?(usize_id (Z.abs z - 1)) by lia.
  assert (0 <= (Z.abs z - 1) mod n <= Z.abs z - 1)%Z as Hm by (split; [apply Z.mod_pos_bound; lia|apply Z.mod_le; lia]).
  set (r := ((Z.abs z - 1) mod n)%Z) in *. rewrite (wrap8_id r) by (unfold i8; lia).
  rewrite (chk8_some (Z.abs z - 1 - r)), (wrap8_id (Z.abs z - 1 - r)) by (unfold i8; lia). cbn [bind].
  set (k := (ModelEquivalence.as_usize (Z.abs z - 1 - r) / n)%Z).
  match goal with |- bind ?x _ = bind ?x _ => assert (Hs : forall s, x = Some s -> exists t, s = slot q t) end.
  { intros s. destruct (k =? 0)%Z; [intros E; injection E as <-; now exists TW|]. destruct (k =? 1)%Z; [intros E; injection E as <-; now exists TX|].
    destruct (k =? 2)%Z; [intros E; injection E as <-; now exists TY|]. destruct (k =? 3)%Z; [intros E; injection E as <-; now exists TZ|discriminate]. }
  match goal with |- bind ?x _ = bind ?x _ => destruct x as [s|]; [|reflexivity] end. cbn [bind].
  destruct (Hs s eq_refl) as [t ->]. destruct (vget _ _) as [v|] eqn:Ev; [|reflexivity]. cbn [bind]. destruct (z <? 0)%Z; [|reflexivity].
  assert (i8 (- v)) as I by (apply (proj1 (Forall_forall _ _) (Hv t)), (nth_error_In _ _ Ev)).
  rewrite (chk8_some (- v) I). unfold neg8. now rewrite wrap8_id.
Qed.
Lemma pm_negatable n q : pm_quad n q -> forall t, Forall (fun v => i8 (- v)) (slot q t).
Proof.
  intros H t. apply pm_slots in H as [_ H]. apply Forall_forall. intros v I. destruct (proj1 (Forall_forall _ _) (H t) v I) as [-> | ->]; unfold i8; lia.
Qed.
Lemma dom_small n z : n <= 31 -> dom n z -> i8 z /\ z <> 0%Z /\ z <> (-128)%Z.
Proof. unfold dom, i8. lia. Qed.
Lemma traverse_ext {A B} (f g : A -> option B) l : (forall x, In x l -> f x = g x) -> traverse f l = traverse g l.
Proof. induction l as [|a l IH]; intros H; cbn [traverse]; [reflexivity|]. rewrite (H a (or_introl eq_refl)), IH; auto. intros; apply H; now right. Qed.
Lemma checked_apply_same n q s : 1 <= n <= 31 -> pm_quad n q -> dom_quad n s -> checked_fast_apply q s = fast_apply q s.
Proof.
  intros Hn Hq [Hw Hd]. unfold checked_fast_apply, fast_apply.
  rewrite (traverse_ext (checked_fast_element q) (fast_element q)); [reflexivity|]. intros z Iz.
  assert (dom n z) as Dz.
  { rewrite !in_app_iff in Iz. pose proof (Hd TW) as A. pose proof (Hd TX) as B. pose proof (Hd TY) as C. pose proof (Hd TZ) as D. cbn [slot] in *.
    rewrite Forall_forall in A, B, C, D. destruct Iz as [I|[I|[I|I]]]; auto. }
  destruct (dom_small n z (proj2 Hn) Dz) as (H8 & H0 & H1). apply in_range_elm; auto; [rewrite (proj1 (proj1 Hq)); lia|apply (pm_negatable n q Hq)].
Qed.
Lemma reach_dom n ops s y : dom_quad n s -> reach ops s y -> dom_quad n y.
Proof.
  intros Hs R. induction R as [x y (o & _ & [->|(w & _ & ->)])|x|x y z _ IH1 _ IH2]; auto using wact_dom.
Qed.
Lemma checked_class_fast_same n ord p q G ops : ord_ok ord -> 1 <= n <= 31 -> pm_quad n q -> (forall y, In y G -> reach ops (symbolic_quad n) y) ->
  checked_class_fast ord p q G = generate_equivalence_class_fast ord p q G.
Proof.
  intros Ho Hn Hq HG. unfold checked_class_fast, generate_equivalence_class_fast. rewrite (traverse_ext (checked_fast_apply q) (fast_apply q)); [reflexivity|].
  intros s I. apply ord_in in I; auto. apply (checked_apply_same n); auto. apply (reach_dom n ops (symbolic_quad n)); auto. apply symbolic_dom. lia.
Qed.

(* -128 has no absolute value *)
Lemma checked_min q : checked_fast_element q (-128) = None. Proof. reflexivity. Qed.
Lemma symbolic_min n : 32 <= n -> exists t, nth_error (slot (symbolic_quad n) t) (127 mod n) = Some (-128)%Z.
Proof.
  intros Hn. set (k := 127 / n).
  assert (k < 4) as Hk by (apply Nat.div_lt_upper_bound; lia).
  pose proof (Nat.div_mod 127 n ltac:(lia)) as Hdm. fold k in Hdm. pose proof (Nat.mod_upper_bound 127 n ltac:(lia)) as Hm.
  assert (exists t, tag_no t = k) as [t Ht].
  { destruct k as [|[|[|[|k]]]]; [exists TW|exists TX|exists TY|exists TZ|lia]; reflexivity. }
  exists t. rewrite symbolic_slot, Ht. rewrite nth_error_map, (nth_error_nth' _ 0) by (rewrite seq_length; lia). rewrite seq_nth by lia. cbn [option_map].
  replace (0 + 127 mod n + k * n + 1) with 128 by lia. reflexivity.
Qed.
Lemma checked_symbolic n q : 32 <= n -> checked_fast_apply q (symbolic_quad n) = None.
Proof.
  intros Hn. unfold checked_fast_apply. destruct (symbolic_min n Hn) as [t Ht]. apply nth_error_In in Ht.
  rewrite (traverse_none_in _ _ (-128)%Z); [reflexivity| |apply checked_min]. rewrite !in_app_iff. destruct t; cbn [slot] in Ht; tauto.
Qed.
Lemma checked_class_fast_none ord p q n G : ord_ok ord -> 32 <= n -> In (symbolic_quad n) G -> checked_class_fast ord p q G = None.
Proof.
  intros Ho Hn HG. unfold checked_class_fast. rewrite (traverse_none_in _ _ (symbolic_quad n)); [reflexivity|now apply ord_in|now apply checked_symbolic].
Qed.

(* ---- the symmetry group ---- *)

Section Classes.
  Variables (n : nat) (ord : Order) (ops : list Op) (f : Op -> Equivalence) (q : QuadSeq).
  Hypotheses (Ho : ord_ok ord) (Hn : n <= 100) (Hq : i8_quad n q) (H : forall x o, reach ops q x -> In o ops -> f o x = impl o x).
  Lemma class_loop_same p : forall fuel k class, NoDup class -> (forall y, In y class -> reach ops q y) ->
    Base.loop fuel (class_step ord p (map f ops)) (k, class) = Base.loop fuel (class_step ord p (map impl ops)) (k, class).
  Proof.
    induction fuel as [|fuel IH]; intros k class Nd Hr; cbn [Base.loop]; auto.
    rewrite (class_step_congr ord p _ (map impl ops) k class Ho).
    2:{ intros s Hs. apply Forall2_map2. intros o Hop. auto. }
    destruct (class_step_spec n ord p ops k class Ho (small_ok n ops Hn)) as [[E _]|(class' & E & Nd' & _ & Hc)]; auto.
    - intros s Hs. eapply (proj1 (reach_i8 n ops q s Hq (Hr s Hs))).
    - now rewrite E.
    - rewrite E. apply IH; auto. intros y Hy. apply Hc in Hy as [Hy|(s & o & Hs & Ho' & Hv)]; auto.
      eapply rt_trans; [apply Hr, Hs|]. apply rt_step. eauto.
  Qed.
  Lemma class_same_of p fuel : generate_equivalence_class fuel ord p q (map f ops) = generate_equivalence_class fuel ord p q (map impl ops).
  Proof.
    unfold generate_equivalence_class, run. rewrite class_loop_same; auto; [apply nodup_1|intros y [<-|[]]; apply rt_refl].
  Qed.
End Classes.
Lemma checked_class_ops fuel ord p q t ops sg : debug_class fuel ord p q t (map checked_op ops) sg = generate_equivalence_class fuel ord p q (map (fun o => checked_op o t sg) ops).
Proof. unfold debug_class. now rewrite map_map. Qed.
Lemma slots_min n q o : i8_quad n q -> (forall t, ~ In (-128)%Z (slot q t)) -> ~ negates o q (-128)%Z.
Proof.
  intros _ N. destruct o; cbn [negates]; try tauto; try (intros (t & I); now apply (N t)).
  - intros (t & i & E & _). apply (N t). now apply nth_error_In in E.
  - intros (_ & t & i & E & _). apply (N t). now apply nth_error_In in E.
Qed.
Lemma dom_no_min n s : n <= 31 -> dom_quad n s -> forall t, ~ In (-128)%Z (slot s t).
Proof. intros Hn [_ Hd] t I. apply (proj1 (Forall_forall _ _) (Hd t)) in I. now apply (dom_small n) in I. Qed.
Theorem checked_group_same n ord p t ops fuel : ord_ok ord -> n <= 31 ->
  debug_symmetry_group fuel ord p n t (map checked_op ops) = generate_symmetry_group fuel ord p n (map impl ops).
Proof.
  intros Ho Hn. unfold debug_symmetry_group, generate_symmetry_group. rewrite checked_class_ops.
  apply (class_same_of n); auto; [lia|apply symbolic_i8|]. intros x o R I.
  assert (X8 := reach_i8 n ops _ x (symbolic_i8 n) R). rewrite (checked_op_same n); auto; [apply debug_op_symbolic|].
  apply (slots_min n); auto. apply (dom_no_min n); auto. apply (reach_dom n ops (symbolic_quad n)); auto. apply symbolic_dom. lia.
Qed.
(* odd lengths: none of the operations used for representatives negates *)
Lemma checked_canonical_ops_op t : exists ops, checked_canonical_ops t = map checked_op ops /\ canonical_ops t = map impl ops /\ (forall o, In o ops -> o <> NegateSwap /\ o <> Negate /\ o <> DoubleNegate /\ o <> AlternatedNegation) /\
  exists l, ops = Automorphism :: EvenAlternatedNegation :: l.
Proof.
  destruct t; (exists [Automorphism; EvenAlternatedNegation; UniformShift; UniformHalfShift]; split; [reflexivity|split; [reflexivity|split; [|eauto]]]) ||
    (exists [Automorphism; EvenAlternatedNegation; UniformShift; DualHalfShift]; split; [reflexivity|split; [reflexivity|split; [|eauto]]]);
    intros o [<-|[<-|[<-|[<-|[]]]]]; repeat split; discriminate.
Qed.
