(* The debug build: the assertions made by each operation, and the classes generated in it. *)
From Coq Require Import List ZArith Bool Arith Lia Relations Permutation.
From Verif Require Import Base BaseFacts Quat ModelSequence ModelWilliamson ModelEquivalence ModelFind ModelDebug SeqFacts SpecDebug SpecEquiv OpFacts TypeFacts EquivFacts EquivThms WriteFacts SpecSearch Spec.
Import ListNotations.
Open Scope nat_scope.

Lemma all_m_true {A} (f : A -> option bool) l : all_m f l = Some true <-> forall x, In x l -> f x = Some true.
Proof.
  induction l as [|x l IH]; cbn [all_m].
  - split; [intros _ x []|reflexivity].
  - destruct (f x) as [[|]|] eqn:E; cbn [bind].
    + rewrite IH. split; [intros H y [<-|Hy]; auto|intros H y Hy; apply H; now right].
    + split; [discriminate|]. intros H. rewrite (H x (or_introl eq_refl)) in E. discriminate.
    + split; [discriminate|]. intros H. rewrite (H x (or_introl eq_refl)) in E. discriminate.
Qed.

Definition tested (o : Op) : QuadSeq -> option (list QuadSeq) :=
  match o with
  | NegateSwap => tested_negate_swap
  | Reorder => tested_reorder
  | DoubleReorder => tested_double_reorder
  | UniformHalfShift => tested_uniform_half_shift
  | UniformShift => tested_uniform_shift
  | DualHalfShift => tested_half_shift
  | SingleHalfShift => tested_half_shift
  | Reverse => tested_reverse
  | Negate => tested_negate
  | DoubleNegate => tested_double_negate
  | AlternatedNegation => tested_alternated_negation
  | EvenAlternatedNegation => tested_even_alternated_negation
  | Automorphism => tested_automorphism
  | DisjointSwaps => tested_disjoint_swaps
  end.
Definition tests (o : Op) (q : QuadSeq) : Prop :=
  exists l, tested o q = Some l /\ forall y, In y l <-> asserted o q y.
Definition half (o : Op) : bool := match o with DualHalfShift | SingleHalfShift => true | _ => false end.
Lemma asserted_words o q y : half o = false -> (asserted o q y <-> exists w, In w (variants o (q_size q)) /\ y = wact w q).
Proof. destruct o; try discriminate; intros _; reflexivity. Qed.

Lemma tests_words {A} o q (Ho : half o = false) (f : A -> option QuadSeq) (w : A -> word) (l : list A) :
  tested o q = traverse f l -> (forall x, In x l -> f x = Some (wact (w x) q)) ->
  variants o (q_size q) = map w l -> tests o q.
Proof.
  intros Hi Hf Hv. exists (map (fun x => wact (w x) q) l). split.
  - now rewrite Hi, (traverse_map _ _ _ Hf).
  - intros y. rewrite asserted_words, in_map_iff, Hv by auto. split.
    + intros (x & <- & Hx). exists (w x). split; auto. now apply in_map.
    + intros (v & Hv' & ->). apply in_map_iff in Hv' as (x & <- & Hx). eauto.
Qed.
Lemma tests_nothing o q (Ho : half o = false) : tested o q = Some [] -> variants o (q_size q) = [] -> tests o q.
Proof.
  intros Hi Hv. exists []. split; auto. intros y. rewrite asserted_words, Hv by auto.
  split; [intros []|intros (w & [] & _)].
Qed.
Lemma tests_one o q (Ho : half o = false) w y : tested o q = Some [y] -> y = wact w q -> variants o (q_size q) = [w] -> tests o q.
Proof.
  intros Hi -> Hv. exists [wact w q]. split; auto. intros z. rewrite asserted_words, Hv by auto. cbn. split.
  - intros [<-|[]]; eauto.
  - intros (v & [<-|[]] & ->); auto.
Qed.

Lemma tested_words n o q : wf n q -> op_ok n o -> tests o q.
Proof.
  intros Hw Hok. pose proof (proj1 Hw) as Hs.
  destruct o.
  - (* NegateSwap *)
    apply (tests_words NegateSwap _ eq_refl (fun '(couple, tag) =>
      swap (set_sequence q (negated (sequence q tag)) tag) (fst couple) (snd couple))
      (fun '((s, t), u) => [At u Neg; Ex s t]) (list_prod couples tags)); try reflexivity.
    intros [[s t] u] H. apply in_prod_iff in H as [H _]. cbn [fst snd].
    rewrite negated_lact, sequence_slot, set_sequence_at. now apply swap_couple.
  - apply (tests_words Reorder _ eq_refl (fun couple => swap q (fst couple) (snd couple))
      (fun '(s, t) => [Ex s t]) couples); try reflexivity.
    intros [s t] H. now apply swap_couple.
  - (* DoubleReorder *)
    apply (tests_words DoubleReorder _ eq_refl (fun '((s11, s12), (s21, s22)) =>
              if negb (tag_eqb s11 s21 && tag_eqb s12 s22)
              then let* q1 := swap q s11 s12 in swap q1 s21 s22
              else Some q)
      (fun '((s, t), (s', t')) => [Ex s t; Ex s' t']) (list_prod couples couples)); try reflexivity.
    intros [[s t] [s' t']] H. apply in_prod_iff in H as [H H'].
    destruct (tag_eqb s s' && tag_eqb t t') eqn:E; cbn [negb].
    + apply andb_true_iff in E as [E1 E2]. apply tag_eqb_eq in E1, E2. subst s' t'. f_equal.
      clear. destruct q, s, t; reflexivity.
    + rewrite swap_couple by auto. cbn [bind]. rewrite swap_couple by auto. reflexivity.
  - (* UniformHalfShift *)
    destruct (Nat.even n) eqn:E.
    + apply (tests_words UniformHalfShift _ eq_refl (fun tag => shift_slot q q (q_size q / 2) tag)
        (fun t => [At t (Rot (n / 2))]) tags).
      * cbn [tested]. unfold tested_uniform_half_shift. rewrite even_mod, Hs, E. reflexivity.
      * intros t _. rewrite (shift_slot_spec n) by auto. rewrite Hs. now rewrite set_sequence_at.
      * cbn [variants]. rewrite Hs, E. reflexivity.
    + apply (tests_nothing UniformHalfShift _ eq_refl).
      * cbn [tested]. unfold tested_uniform_half_shift. rewrite even_mod, Hs, E. reflexivity.
      * cbn [variants]. rewrite Hs, E. reflexivity.
  - (* UniformShift *)
    apply (tests_words UniformShift _ eq_refl (fun offset =>
              fold_m (fun s i => let* v := values q ((i + offset) mod q_size q) in set_sequence_value s v i)
                     (range 0 (q_size q)) (Quad_new (q_size q)))
      (fun k => [All (Rot k)]) (range 1 (q_size q))); try reflexivity.
    intros k Hk. rewrite Hs in *. apply in_range in Hk.
    rewrite (uniform_fold n q (fun i => (i + k) mod n)); auto.
    + f_equal. cbn [wact fold_left]. apply wf_slots in Hw as [_ Hq]. apply quad_ext.
      * rewrite gact_size. auto.
      * intros t. rewrite slot_of_slots, gact_slot. now apply map_seq_rot.
    + intros. apply Nat.mod_upper_bound; lia.
  - (* DualHalfShift *)
    unfold tests, asserted. cbn [tested]. unfold tested_half_shift. rewrite even_mod, Hs.
    destruct (Nat.even n) eqn:E; cbn [negb]; eexists; (split; [reflexivity|]); intros y; cbn [In]; intuition congruence.
  - (* SingleHalfShift *)
    unfold tests, asserted. cbn [tested]. unfold tested_half_shift. rewrite even_mod, Hs.
    destruct (Nat.even n) eqn:E; cbn [negb]; eexists; (split; [reflexivity|]); intros y; cbn [In]; intuition congruence.
  - (* Reverse *)
    eapply (tests_one Reverse _ eq_refl) with (w := [All Rev]); try reflexivity.
    cbn [tested]. unfold tested_reverse. rewrite Hs.
    rewrite (uniform_fold n q (fun i => n - 1 - i)); auto; [|intros; lia]. cbn [bind].
    do 2 f_equal. cbn [wact fold_left]. apply wf_slots in Hw as [_ Hq]. apply quad_ext.
    + rewrite gact_size. auto.
    + intros t. rewrite slot_of_slots, gact_slot. unfold lact. rewrite Hq.
      apply map_ext_in. intros i Hi. apply in_seq in Hi. cbn [sneg lneg lidx].
      replace (Z.of_nat n - 1 - Z.of_nat i)%Z with (Z.of_nat (n - 1 - i)) by lia.
      rewrite entry_nat; auto. rewrite Hq. lia.
  - (* Negate *)
    apply (tests_words Negate _ eq_refl (fun tag => Some (
             let '(a', b', c', d') :=
               match tag with
               | TW => (negated (q_a q), q_b q, q_c q, q_d q) | TX => (q_a q, negated (q_b q), q_c q, q_d q)
               | TY => (q_a q, q_b q, negated (q_c q), q_d q) | TZ => (q_a q, q_b q, q_c q, negated (q_d q))
               end in set_all_values (Quad_new (q_size q)) a' b' c' d'))
      (fun t => [At t Neg]) tags); try reflexivity.
    intros t _. destruct q, t; cbn; rewrite ?negated_lact; reflexivity.
  - (* DoubleNegate *)
    apply (tests_words DoubleNegate _ eq_refl (fun couple =>
             let* (a', b', c', d') :=
               match couple with
               | (TW, TX) => Some (negated (q_a q), negated (q_b q), q_c q, q_d q)
               | (TW, TY) => Some (negated (q_a q), q_b q, negated (q_c q), q_d q)
               | (TW, TZ) => Some (negated (q_a q), q_b q, q_c q, negated (q_d q))
               | (TX, TY) => Some (q_a q, negated (q_b q), negated (q_c q), q_d q)
               | (TX, TZ) => Some (q_a q, negated (q_b q), q_c q, negated (q_d q))
               | (TY, TZ) => Some (q_a q, q_b q, negated (q_c q), negated (q_d q))
               | _ => None
               end in Some (set_all_values (Quad_new (q_size q)) a' b' c' d'))
      (fun '(s, t) => [At s Neg; At t Neg]) couples); try reflexivity.
    intros [s t] H. cbn in H.
    repeat (destruct H as [H|H]; [inversion H; subst; destruct q; cbn; rewrite ?negated_lact; reflexivity|]).
    destruct H.
  - (* AlternatedNegation *)
    eapply (tests_one AlternatedNegation _ eq_refl) with (w := [All Alt]); try reflexivity.
    unfold alt_negated_quad. rewrite !alt_negated_lact. destruct q; reflexivity.
  - destruct (Nat.even n) eqn:E.
    + eapply (tests_one EvenAlternatedNegation _ eq_refl) with (w := [All Alt]).
      * cbn [tested]. unfold tested_even_alternated_negation. rewrite even_mod, Hs, E. reflexivity.
      * unfold alt_negated_quad. rewrite !alt_negated_lact. destruct q; reflexivity.
      * cbn [variants]. rewrite Hs, E. reflexivity.
    + apply (tests_nothing EvenAlternatedNegation _ eq_refl).
      * cbn [tested]. unfold tested_even_alternated_negation. rewrite even_mod, Hs, E. reflexivity.
      * cbn [variants]. rewrite Hs, E. reflexivity.
  - (* Automorphism *)
    apply (tests_words Automorphism _ eq_refl (fun k =>
              let* a := permute (q_a q) k in let* b := permute (q_b q) k in
              let* c := permute (q_c q) k in let* d := permute (q_d q) k in
              Some (set_all_values (Quad_new (q_size q)) a b c d))
      (fun k => [All (Dil k)]) (filter (fun k => Nat.gcd n k =? 1) (seq 1 n))).
    + cbn [tested]. unfold tested_automorphism. rewrite Hs, COPRIMES_spec by (now apply Hok). reflexivity.
    + intros k _. rewrite !permute_lact. destruct q; reflexivity.
    + cbn [variants]. now rewrite Hs.
  - (* DisjointSwaps *)
    apply (tests_words DisjointSwaps _ eq_refl (fun '((s11, s12), (s21, s22)) =>
              let* q1 := swap q s11 s12 in swap q1 s21 s22)
      (fun '((s, t), (s', t')) => [Ex s t; Ex s' t'])
      [((TW, TX), (TY, TZ)); ((TW, TY), (TX, TZ)); ((TW, TZ), (TX, TY))]); try reflexivity.
    intros [[s t] [s' t']] H. cbn in H.
    repeat (destruct H as [H|H]; [inversion H; subst; destruct q; reflexivity|]).
    destruct H.
Qed.


Lemma debug_op_eq o t sg q : debug_op o t sg q =
  if sg then impl o q else let* l := tested o q in let* ok := all_m (fun y => verify y t) l in guard ok (impl o q).
Proof. destruct o; reflexivity. Qed.

Lemma asserted_variant o q y : asserted o q y -> variant o q y.
Proof. unfold variant. destruct o; cbn [asserted]; try (intros H; now right); intros [_ ->]; now left. Qed.
Lemma variant_pm n o q y : pm_quad n q -> variant o q y -> pm_quad n y.
Proof. intros Hq [->|(w & _ & ->)]; auto. now apply wact_pm. Qed.

Lemma debug_op_passes n o t q : pm_quad n q -> 1 <= n -> (o = Automorphism -> n <= 100) ->
  (forall y, asserted o q y -> is_type t y) -> debug_op o t false q = impl o q.
Proof.
  intros Hq Hn Hok H. rewrite debug_op_eq. destruct (tested_words n o q (proj1 Hq) Hok) as (l & -> & Hl). cbn [bind].
  rewrite (proj2 (all_m_true _ _)); [reflexivity|]. intros y Hy. apply Hl in Hy. apply (verify_true n); auto.
  apply (variant_pm n o q); auto. now apply asserted_variant.
Qed.
Lemma debug_op_panics n o t q : pm_quad n q -> 1 <= n -> (o = Automorphism -> n <= 100) ->
  (exists y, asserted o q y /\ ~ is_type t y) -> debug_op o t false q = None.
Proof.
  intros Hq Hn Hok (y & Hy & Ht). rewrite debug_op_eq. destruct (tested_words n o q (proj1 Hq) Hok) as (l & -> & Hl). cbn [bind].
  destruct (all_m (fun y => verify y t) l) as [[|]|] eqn:E; auto. exfalso. rewrite all_m_true in E. apply Ht.
  apply (verify_true n); auto. { apply (variant_pm n o q); auto. now apply asserted_variant. } apply E. now apply Hl.
Qed.
Lemma debug_op_symbolic o t q : debug_op o t true q = impl o q.
Proof. now rewrite debug_op_eq. Qed.

Lemma debug_equivalences_op t : debug_equivalences t = map debug_op (type_ops t).
Proof. destruct t; reflexivity. Qed.

Lemma foldi_congr {A B} (f g : nat -> B -> A -> option B) l : (forall i acc x, In x l -> f i acc x = g i acc x) ->
  forall i acc, foldi_from i f l acc = foldi_from i g l acc.
Proof.
  induction l as [|x l IH]; intros H i acc; cbn [foldi_from]; auto. rewrite H by now left.
  destruct (g i acc x) as [acc'|]; cbn [bind]; auto. apply IH. intros. apply H. now right.
Qed.
Lemma foldi_congr2 {A A' B} (f : nat -> B -> A -> option B) (g : nat -> B -> A' -> option B) l l' :
  Forall2 (fun x x' => forall i acc, f i acc x = g i acc x') l l' ->
  forall i acc, foldi_from i f l acc = foldi_from i g l' acc.
Proof.
  induction 1 as [|x x' l l' H _ IH]; intros i acc; cbn [foldi_from]; auto. rewrite H.
  destruct (g i acc x') as [acc'|]; cbn [bind]; auto.
Qed.
Lemma foldi_panic {A B} (f : nat -> B -> A -> option B) l x : In x l -> (forall i acc, f i acc x = None) ->
  forall i acc, foldi_from i f l acc = None.
Proof.
  intros Hx H. induction l as [|y l IH]; [destruct Hx|]. intros i acc. cbn [foldi_from]. destruct Hx as [->|Hx].
  - now rewrite H.
  - destruct (f i acc y); cbn [bind]; auto.
Qed.

Lemma class_step_congr ord p (ops ops' : list Equivalence) k class : ord_ok ord ->
  (forall s, In s class -> Forall2 (fun o o' : Equivalence => o s = o' s) ops ops') ->
  class_step ord p ops (k, class) = class_step ord p ops' (k, class).
Proof.
  intros Ho H. unfold class_step, foldi. match goal with |- bind ?x _ = bind ?y _ => assert (x = y) as -> end; auto.
  apply foldi_congr. intros i acc s Hs. apply ord_in in Hs; auto. apply foldi_congr2.
  specialize (H s Hs). clear - H. induction H as [|o o' l l' E _ IH]; constructor; auto. intros j acc. now rewrite E.
Qed.

Lemma Forall2_map2 {A B C} (R : B -> C -> Prop) (f : A -> B) (g : A -> C) l : (forall x, In x l -> R (f x) (g x)) -> Forall2 R (map f l) (map g l).
Proof. induction l as [|x l IH]; cbn [map]; intros H; constructor; [apply H; now left|apply IH; intros; apply H; now right]. Qed.

Lemma debug_class_loop n ord p ops t sg q : ord_ok ord -> n <= 100 -> i8_quad n q ->
  (forall x o, reach ops q x -> In o ops -> debug_op o t sg x = impl o x) ->
  forall fuel k class, NoDup class -> (forall y, In y class -> reach ops q y) ->
  loop fuel (class_step ord p (map (fun o => o t sg) (map debug_op ops))) (k, class) = loop fuel (class_step ord p (map impl ops)) (k, class).
Proof.
  intros Ho Hn Hq H. induction fuel as [|fuel IH]; intros k class Nd Hr; cbn [loop]; auto.
  rewrite (class_step_congr ord p _ (map impl ops) k class Ho).
  2:{ intros s Hs. rewrite map_map. apply Forall2_map2. intros o Hop. auto. }
  destruct (class_step_spec n ord p ops k class Ho (small_ok n ops Hn)) as [[E _]|(class' & E & Nd' & _ & Hc)]; auto.
  - intros s Hs. eapply (proj1 (reach_i8 n ops q s Hq (Hr s Hs))).
  - now rewrite E.
  - rewrite E. apply IH; auto. intros y Hy. apply Hc in Hy as [Hy|(s & o & Hs & Ho' & Hv)]; auto.
    eapply rt_trans; [apply Hr, Hs|]. apply rt_step. eauto.
Qed.

Lemma debug_class_same n ord p ops t sg q fuel : ord_ok ord -> n <= 100 -> i8_quad n q ->
  (forall x o, reach ops q x -> In o ops -> debug_op o t sg x = impl o x) ->
  debug_class fuel ord p q t (map debug_op ops) sg = generate_equivalence_class fuel ord p q (map impl ops).
Proof.
  intros Ho Hn Hq H. unfold debug_class, generate_equivalence_class, run.
  rewrite (debug_class_loop n ord p ops t sg q); auto; [apply nodup_1|intros y [<-|[]]; apply rt_refl].
Qed.

(* classes of members of the type *)
Lemma debug_class_member n ord p t q fuel : ord_ok ord -> 1 <= n <= 100 -> pm_quad n q -> is_type t q ->
  debug_class fuel ord p q t (debug_equivalences t) false = generate_equivalence_class fuel ord p q (equivalences t).
Proof.
  intros Ho Hn Hq Ht. rewrite debug_equivalences_op, equivalences_impl. apply (debug_class_same n); auto; [lia|now apply pm_i8|].
  intros x o Hx Hop. destruct (reach_type n t q x Hq ltac:(lia) Hx Ht) as [Px Tx]. apply (debug_op_passes n); auto; try lia.
  intros y Hy. apply asserted_variant in Hy. now apply (variant_type n t o x y).
Qed.

Lemma debug_class_panics n ord p t q fuel : ord_ok ord -> three_types t -> 1 <= n <= 100 -> pm_quad n q -> ~ is_type t q ->
  debug_class fuel ord p q t (debug_equivalences t) false = None.
Proof.
  intros Ho Ht Hn Hq Hno.
  assert (exists o, In o (type_ops t) /\ debug_op o t false q = None) as (o & Hop & E).
  { assert (K : exists o w, In o (type_ops t) /\ half o = false /\ In w (variants o (q_size q)) /\ o <> Automorphism).
    { destruct Ht as [-> |[-> | ->]].
      - exists NegateSwap, [At TW Neg; Ex TW TX]. cbn. intuition discriminate.
      - exists Negate, [At TW Neg]. cbn. intuition discriminate.
      - exists Negate, [At TW Neg]. cbn. intuition discriminate. }
    destruct K as (o & w & Hop & Hh & Hw & Hna). exists o. split; auto. apply (debug_op_panics n); auto; try lia; try congruence.
    exists (wact w q). split; [apply asserted_words; eauto|]. intros Hy. apply Hno.
    assert (R : reach (type_ops t) q (wact w q)). { apply rt_step. exists o. split; auto. right. eauto. }
    apply (reach_sym n) in R; [|now apply pm_i8]. apply (reach_type n t _ q) in R; [apply R|now apply wact_pm|lia|auto]. }
  unfold debug_class, generate_equivalence_class, run. destruct fuel as [|fuel]; auto. cbn [loop].
  assert (class_step ord p (map (fun o => o t false) (debug_equivalences t)) (0, [q]) = None) as ->; auto.
  unfold class_step, foldi. rewrite (foldi_panic _ _ q); auto. { apply ord_in; auto. now left. }
  intros i acc. apply (foldi_panic _ _ (debug_op o t false)).
  - rewrite debug_equivalences_op, map_map. apply in_map_iff. eauto.
  - intros j acc'. now rewrite E.
Qed.
