(* Each modelled equivalence operation computes exactly its documented variants. *)
From Coq Require Import List ZArith Lia Arith Bool Permutation.
From Verif Require Import Base BaseFacts Sums Quat ModelSequence ModelWilliamson ModelEquivalence
  Spec SpecEquiv SeqFacts.
Import ListNotations.
Open Scope nat_scope.

(* ---- sequences ---- *)

Lemma lact_length f l : length (lact f l) = length l.
Proof. unfold lact. now rewrite map_length, seq_length. Qed.

Lemma lact_nth f l i : i < length l ->
  nth i (lact f l) 0%Z = sneg (lneg f (Z.of_nat i)) (entry l (lidx f (length l) (Z.of_nat i))).
Proof. intros. unfold lact. now rewrite nth_map_seq. Qed.

Lemma entry_idx l (i : nat) : length l <> 0 -> entry l (Z.of_nat i) = nth (i mod length l) l 0%Z.
Proof. intros. unfold entry. now rewrite pos_nat_mod. Qed.

Lemma negated_lact l : negated l = lact Neg l.
Proof.
  apply list_ext with (d := 0%Z); [unfold negated; now rewrite lact_length, map_length|].
  intros i Hi. unfold negated in *. rewrite map_length in Hi. rewrite lact_nth by auto.
  rewrite nth_indep with (d' := neg8 0) by (rewrite map_length; auto). rewrite map_nth. cbn.
  now rewrite entry_nat.
Qed.

Lemma alt_negated_lact l : alt_negated l 2 = lact Alt l.
Proof.
  unfold alt_negated, lact.
  transitivity (map (fun p => if fst p mod 2 =? 2 - 1 then neg8 (snd p) else snd p)
                    (map (fun i => (i, nth i l 0%Z)) (seq 0 (length l)))).
  - f_equal. apply list_ext with (d := (0, 0%Z)).
    + rewrite combine_length, map_length, seq_length. lia.
    + intros i Hi. rewrite combine_length, seq_length in Hi.
      rewrite combine_nth by (now rewrite seq_length). rewrite nth_map_seq by lia.
      rewrite seq_nth by lia. reflexivity.
  - rewrite map_map. apply map_ext_in. intros i Hi. apply in_seq in Hi. cbn [fst snd lidx lneg].
    rewrite entry_nat by lia. unfold sneg.
    replace (Z.odd (Z.of_nat i)) with (i mod 2 =? 2 - 1); [reflexivity|].
    destruct (Nat.Even_or_Odd i) as [[k ->]|[k ->]].
    + rewrite Nat.mul_comm, Nat.mod_mul by lia. rewrite Nat2Z.inj_mul, Z.odd_mul. cbn. now rewrite andb_false_r.
    + rewrite Nat.add_comm, Nat.mul_comm, Nat.mod_add by lia. rewrite Nat2Z.inj_add, Nat2Z.inj_mul, Z.odd_add, Z.odd_mul. cbn.
      now rewrite andb_false_r.
Qed.

Lemma permute_lact l k : permute l k = Some (lact (Dil k) l).
Proof.
  unfold permute. apply vbuild_map. intros i Hi. rewrite (vget_nth _ _ 0%Z).
  - cbn. rewrite <- Nat2Z.inj_mul, entry_idx by lia. reflexivity.
  - apply Nat.mod_upper_bound; lia.
Qed.

Lemma half_shift_lact l : half_shift l = Some (lact (Rot (length l / 2)) l).
Proof.
  unfold half_shift. apply vbuild_map. intros i Hi. rewrite (vget_nth _ _ 0%Z).
  - cbn [sneg lneg lidx]. rewrite <- Nat2Z.inj_add, entry_idx by lia. reflexivity.
  - apply Nat.mod_upper_bound; lia.
Qed.

(* ---- loops that overwrite every entry ---- *)

(* writing g 0 .. g (n-1) over the first n entries *)
Definition over (n : nat) (g : nat -> Z) (l : list Z) : list Z :=
  map (fun i => if i <? n then g i else nth i l 0%Z) (seq 0 (length l)).

Lemma over_all g l : over (length l) g l = map g (seq 0 (length l)).
Proof.
  unfold over. apply map_ext_in. intros i Hi. apply in_seq in Hi.
  now replace (i <? length l) with true by (symmetry; apply Nat.ltb_lt; lia).
Qed.

Lemma over_all' n g l : length l = n -> over n g l = map g (seq 0 n).
Proof. intros <-. apply over_all. Qed.

Lemma over_0 g l : over 0 g l = l.
Proof. unfold over. cbn. apply map_nth_seq. Qed.

Lemma over_length n g l : length (over n g l) = length l.
Proof. unfold over. now rewrite map_length, seq_length. Qed.

Lemma over_S n g l : n < length l -> vset (over n g l) n (g n) = Some (over (S n) g l).
Proof.
  intros H. destruct (vset_some (over n g l) n (g n)) as [r Hr]; [now rewrite over_length|].
  rewrite Hr. f_equal. apply list_ext with (d := 0%Z).
  - apply vset_length in Hr. now rewrite Hr, !over_length.
  - intros i Hi. pose proof (vset_length _ _ _ _ Hr) as Hl. rewrite over_length in Hl.
    rewrite (vset_nth _ _ _ _ 0%Z i Hr). unfold over. rewrite !nth_map_seq by lia.
    destruct (Nat.eqb_spec i n) as [->|E].
    + now replace (n <? S n) with true by (symmetry; apply Nat.ltb_lt; lia).
    + destruct (Nat.ltb_spec i n), (Nat.ltb_spec i (S n)); auto; lia.
Qed.

(* a loop whose k-th round takes the state inv k to inv (k+1) *)
Lemma fold_m_range {A} (f : A -> nat -> option A) (inv : nat -> A) n :
  (forall k, k < n -> f (inv k) k = Some (inv (S k))) ->
  fold_m f (range 0 n) (inv 0) = Some (inv n).
Proof.
  intros H. rewrite range_0.
  enough (forall m k, k + m = n -> fold_m f (seq k m) (inv k) = Some (inv n)) as E by (apply E; lia).
  induction m; intros k Hk; cbn.
  - now replace k with n by lia.
  - rewrite H by lia. cbn. apply IHm. lia.
Qed.

(* ---- quadruples ---- *)

Lemma sequence_slot q t : sequence q t = slot q t.
Proof. destruct t; reflexivity. Qed.

Lemma tag_eqb_eq s t : tag_eqb s t = true <-> s = t.
Proof. destruct s, t; cbn; split; congruence. Qed.
Lemma tag_eq_eq s t : tag_eq s t = true <-> s = t.
Proof. destruct s, t; cbn; split; congruence. Qed.

Lemma slot_of_slots n f t : slot (of_slots n f) t = f t.
Proof. destruct t; reflexivity. Qed.

Lemma wf_slots n q : wf n q <-> q_size q = n /\ forall t, length (slot q t) = n.
Proof.
  unfold wf. split.
  - intros (H0 & H1 & H2 & H3 & H4). split; auto. intros []; auto.
  - intros (H0 & H). repeat split; auto; [apply (H TW)|apply (H TX)|apply (H TY)|apply (H TZ)].
Qed.

Lemma quad_ext p q : q_size p = q_size q -> (forall t, slot p t = slot q t) -> p = q.
Proof.
  destruct p, q; cbn. intros -> H.
  pose proof (H TW); pose proof (H TX); pose proof (H TY); pose proof (H TZ); cbn in *. congruence.
Qed.

Lemma gact_size g q : q_size (gact g q) = q_size q.
Proof. reflexivity. Qed.

Lemma gact_slot g q u : slot (gact g q) u =
  match g with
  | All f => lact f (slot q u)
  | At t f => if tag_eq u t then lact f (slot q u) else slot q u
  | Ex s t => slot q (exchange s t u)
  end.
Proof. unfold gact. now rewrite slot_of_slots. Qed.

Lemma gact_wf n g q : wf n q -> wf n (gact g q).
Proof.
  rewrite !wf_slots. intros [H0 H]. split; auto. intros t. rewrite gact_slot.
  destruct g; try destruct (tag_eq t t0); rewrite ?lact_length; auto.
Qed.

Lemma wact_app v w q : wact (v ++ w) q = wact w (wact v q).
Proof. unfold wact. apply fold_left_app. Qed.

Lemma wact_wf n w q : wf n q -> wf n (wact w q).
Proof. revert q; induction w; cbn; intros; auto. apply IHw. now apply gact_wf. Qed.

Lemma set_sequence_slot q s t u :
  slot (set_sequence q s t) u = if tag_eq u t then s else slot q u.
Proof. destruct t, u; reflexivity. Qed.

Lemma set_sequence_size q s t : q_size (set_sequence q s t) = q_size q.
Proof. destruct t; reflexivity. Qed.

Lemma set_sequence_at q t f : set_sequence q (lact f (slot q t)) t = gact (At t f) q.
Proof. destruct q, t; reflexivity. Qed.

Lemma swap_couple q s t : In (s, t) couples -> swap q s t = Some (gact (Ex s t) q).
Proof.
  unfold couples. cbn. intros H.
  repeat (destruct H as [H|H]; [inversion H; subst; destruct q; reflexivity|]). destruct H.
Qed.

Lemma set_all_values_size n q : wf n q -> forall a b c d,
  set_all_values (Quad_new (q_size q)) a b c d = mkQuad n a b c d.
Proof. intros (-> & _). reflexivity. Qed.

(* ---- hash sets ---- *)

Lemma list_eqb_eq x y : list_eqb x y = true <-> x = y.
Proof.
  revert y; induction x as [|a x IH]; intros [|b y]; cbn; split; intros H; try congruence.
  - apply andb_true_iff in H as [H1 H2]. apply Z.eqb_eq in H1. apply IH in H2. congruence.
  - inversion H; subst. rewrite Z.eqb_refl. cbn. now apply IH.
Qed.

Lemma quad_eqb_eq x y : quad_eqb x y = true <-> x = y.
Proof.
  unfold quad_eqb. rewrite !andb_true_iff, Nat.eqb_eq, !list_eqb_eq.
  destruct x, y; cbn. split.
  - intros ((((-> & ->) & ->) & ->) & ->). reflexivity.
  - intros H; inversion H; tauto.
Qed.

Lemma quad_eq_dec (x y : QuadSeq) : {x = y} + {x <> y}.
Proof.
  destruct (quad_eqb x y) eqn:E; [left; now apply quad_eqb_eq|right].
  intros H. apply quad_eqb_eq in H. congruence.
Qed.

Lemma mem_in x s : mem x s = true <-> In x s.
Proof.
  unfold mem. rewrite existsb_exists. split.
  - intros (y & Hy & E). apply quad_eqb_eq in E. now subst.
  - intros H. exists x. split; auto. now apply quad_eqb_eq.
Qed.

Lemma mem_not_in x s : mem x s = false <-> ~ In x s.
Proof. rewrite <- mem_in. destruct (mem x s); split; congruence || (intros; exfalso; auto). Qed.

Lemma hinsert_in x y s : In y (hinsert x s) <-> y = x \/ In y s.
Proof.
  unfold hinsert. destruct (mem x s) eqn:E; cbn; [|intuition congruence].
  apply mem_in in E. split; auto. intros [->|]; auto.
Qed.

Lemma hinsert_nodup x s : NoDup s -> NoDup (hinsert x s).
Proof.
  unfold hinsert. destruct (mem x s) eqn:E; auto. intros. constructor; auto. now apply mem_not_in.
Qed.

Lemma insert_all_in l s y : In y (insert_all l s) <-> In y l \/ In y s.
Proof.
  revert s; induction l; cbn; intros; [tauto|]. unfold insert_all in IHl. rewrite IHl, hinsert_in.
  intuition congruence.
Qed.

Lemma insert_all_nodup l s : NoDup s -> NoDup (insert_all l s).
Proof.
  revert s; induction l; cbn; intros; auto. apply IHl. now apply hinsert_nodup.
Qed.

Lemma nodup_1 {A} (x : A) : NoDup [x].
Proof. constructor; [intros []|constructor]. Qed.

(* ---- the coprime table ---- *)

Lemma coprime_loop a b fuel :
  b < fuel -> exists r, loop fuel coprime_step (a, b) = Some (Some r) /\ r = Nat.gcd a b.
Proof.
  revert a b; induction fuel; intros a b H; [lia|]. cbn.
  destruct (Nat.eqb_spec b 0) as [->|Hb]; cbn.
  - exists a. split; auto. now rewrite Nat.gcd_0_r.
  - destruct (IHfuel b (a mod b)) as (r & Hr & ->).
    + pose proof (Nat.mod_upper_bound a b Hb). lia.
    + exists (Nat.gcd b (a mod b)). split; auto. rewrite Nat.gcd_comm, Nat.gcd_mod by auto.
      apply Nat.gcd_comm.
Qed.

Lemma coprime_gcd a b : coprime a b = (Nat.gcd a b =? 1).
Proof.
  unfold coprime, coprime_init.
  destruct (Nat.ltb_spec b a);
    [destruct (coprime_loop b a (a + b + 2)) as (r & -> & ->); [lia|]; now rewrite Nat.gcd_comm
    |destruct (coprime_loop a b (a + b + 2)) as (r & -> & ->); [lia|]; reflexivity].
Qed.

Lemma COPRIMES_spec n : n <= 100 ->
  vget COPRIMES n = Some (filter (fun k => Nat.gcd n k =? 1) (seq 1 n)).
Proof.
  intros H. destruct n as [|n]; [reflexivity|]. unfold COPRIMES, vget. cbn [nth_error].
  set (F := fun i => _). rewrite (nth_error_nth' _ (F 0)).
  - rewrite map_nth. unfold range. rewrite seq_nth by lia. subst F. cbn beta.
    f_equal. unfold range_incl. replace (S (1 + n) - 1) with (S n) by lia.
    apply filter_ext. intros k. now rewrite coprime_gcd.
  - rewrite map_length. unfold range. rewrite seq_length. lia.
Qed.

Lemma COPRIMES_none n : 100 < n -> vget COPRIMES n = None.
Proof.
  intros H. unfold COPRIMES, vget. apply nth_error_None. cbn [length]. rewrite map_length.
  unfold range. rewrite seq_length. lia.
Qed.

(* ---- the operations ---- *)

Definition impl (o : Op) : Equivalence :=
  match o with
  | NegateSwap => equivalent_negate_swap
  | Reorder => equivalent_reorder
  | DoubleReorder => equivalent_double_reorder
  | UniformHalfShift => equivalent_uniform_half_shift
  | UniformShift => equivalent_uniform_shift
  | DualHalfShift => equivalent_dual_half_shift
  | SingleHalfShift => equivalent_single_half_shift
  | Reverse => equivalent_reverse
  | Negate => equivalent_negate
  | DoubleNegate => equivalent_double_negate
  | AlternatedNegation => equivalent_alternated_negation
  | EvenAlternatedNegation => equivalent_even_alternated_negation
  | Automorphism => equivalent_automorphism
  | DisjointSwaps => equivalent_disjoint_swaps
  end.

Definition op_ok (n : nat) (o : Op) : Prop := o = Automorphism -> n <= 100.

Definition computes (o : Op) (q : QuadSeq) : Prop :=
  exists l, impl o q = Some l /\ NoDup l /\ forall y, In y l <-> variant o q y.

(* an operation that inserts the images of its words *)
Lemma computes_words {A} o q (f : A -> option QuadSeq) (w : A -> word) (l : list A) :
  impl o q = (let* r := traverse f l in Some (insert_all r [q])) ->
  (forall x, In x l -> f x = Some (wact (w x) q)) ->
  variants o (q_size q) = map w l -> computes o q.
Proof.
  intros Hi Hf Hv. exists (insert_all (map (fun x => wact (w x) q) l) [q]). split; [|split].
  - rewrite Hi, (traverse_map _ _ _ Hf). reflexivity.
  - apply insert_all_nodup, nodup_1.
  - intros y. rewrite insert_all_in, in_map_iff. unfold variant. rewrite Hv. cbn. split.
    + intros [(x & <- & Hx)|[<-|[]]]; auto. right. exists (w x). split; auto. now apply in_map.
    + intros [->|(v & Hv' & ->)]; auto. apply in_map_iff in Hv' as (x & <- & Hx). left; eauto.
Qed.

(* an operation that does nothing *)
Lemma computes_nothing o q : impl o q = Some [q] -> variants o (q_size q) = [] -> computes o q.
Proof.
  intros Hi Hv. exists [q]. split; auto. split; [apply nodup_1|]. intros y. unfold variant. rewrite Hv. cbn.
  split; [intros [->|[]]; auto|intros [->|(w & [] & _)]; auto].
Qed.

Lemma computes_one o q w y : impl o q = Some (hinsert y [q]) -> y = wact w q ->
  variants o (q_size q) = [w] -> computes o q.
Proof.
  intros Hi -> Hv. exists (hinsert (wact w q) [q]). split; auto. split; [apply hinsert_nodup, nodup_1|].
  intros z. rewrite hinsert_in. unfold variant. rewrite Hv. cbn. split.
  - intros [->|[->|[]]]; eauto.
  - intros [->|(v & [<-|[]] & ->)]; auto.
Qed.

Lemma even_mod n : (n mod 2 =? 1) = negb (Nat.even n).
Proof.
  destruct (Nat.Even_or_Odd n) as [E|E].
  - replace (Nat.even n) with true by (symmetry; now apply Nat.even_spec).
    destruct E as [k ->]. rewrite Nat.mul_comm, Nat.mod_mul by lia. reflexivity.
  - replace (Nat.even n) with false.
    + destruct E as [k ->]. rewrite Nat.add_comm, Nat.mul_comm, Nat.mod_add by lia. reflexivity.
    + symmetry. rewrite <- Nat.negb_odd. apply Nat.odd_spec in E. now rewrite E.
Qed.

Lemma map_seq_rot l n k : length l = n ->
  map (fun i => nth ((i + k) mod n) l 0%Z) (seq 0 n) = lact (Rot k) l.
Proof.
  intros <-. unfold lact. apply map_ext_in. intros i Hi. apply in_seq in Hi. cbn [sneg lneg lidx].
  rewrite <- Nat2Z.inj_add, entry_idx by lia. reflexivity.
Qed.

Lemma set_set q s s' t : set_sequence (set_sequence q s t) s' t = set_sequence q s' t.
Proof. destruct t; reflexivity. Qed.

Lemma sequence_set q s t : sequence (set_sequence q s t) t = s.
Proof. destruct t; reflexivity. Qed.

Lemma set_sequence_same q t : set_sequence q (sequence q t) t = q.
Proof. destruct t, q; reflexivity. Qed.

Lemma shift_slot_spec n q s k t : wf n q -> wf n s ->
  shift_slot q s k t = Some (set_sequence s (lact (Rot k) (slot q t)) t).
Proof.
  intros Hq Hs. apply wf_slots in Hq as [Hqs Hq], Hs as [Hss Hs].
  unfold shift_slot. rewrite Hqs, !sequence_slot.
  set (g := fun i => nth ((i + k) mod n) (slot q t) 0%Z).
  pose proof (fold_m_range
    (fun (s : QuadSeq) i => let* v := vget (slot q t) ((i + k) mod n) in set_single_value s v t i)
    (fun j => set_sequence s (over j g (sequence s t)) t) n) as H.
  cbv beta in H. rewrite over_0, set_sequence_same in H. rewrite H.
  - f_equal. f_equal. rewrite <- (map_seq_rot _ n) by auto.
    apply over_all'. rewrite sequence_slot. apply Hs.
  - intros j Hj. rewrite (vget_nth _ _ 0%Z) by (rewrite Hq; apply Nat.mod_upper_bound; lia).
    cbn [bind]. fold (g j). unfold set_single_value. rewrite sequence_set.
    rewrite over_S by (rewrite sequence_slot, Hs; lia). cbn [bind]. now rewrite set_set.
Qed.

Lemma uniform_fold n q (h : nat -> nat) : wf n q -> (forall i, i < n -> h i < n) ->
  fold_m (fun s i => let* v := values q (h i) in set_sequence_value s v i) (range 0 n) (Quad_new n) =
  Some (of_slots n (fun t => map (fun i => nth (h i) (slot q t) 0%Z) (seq 0 n))).
Proof.
  intros Hq Hh. apply wf_slots in Hq as [Hs Hq].
  set (g := fun t i => nth (h i) (slot q t) 0%Z).
  pose proof (fold_m_range (fun s i => let* v := values q (h i) in set_sequence_value s v i)
    (fun j => of_slots n (fun t => over j (g t) (repeat (-1)%Z n))) n) as H.
  cbv beta in H.
  replace (of_slots n (fun t => over 0 (g t) (repeat (-1)%Z n))) with (Quad_new n) in H
    by (unfold of_slots; now rewrite !over_0).
  rewrite H.
  - unfold of_slots. rewrite !over_all' by apply repeat_length. reflexivity.
  - intros j Hj. unfold values.
    rewrite (vget_nth (q_a q) _ 0%Z) by (pose proof (Hq TW) as E; cbn in E; rewrite E; auto).
    rewrite (vget_nth (q_b q) _ 0%Z) by (pose proof (Hq TX) as E; cbn in E; rewrite E; auto).
    rewrite (vget_nth (q_c q) _ 0%Z) by (pose proof (Hq TY) as E; cbn in E; rewrite E; auto).
    rewrite (vget_nth (q_d q) _ 0%Z) by (pose proof (Hq TZ) as E; cbn in E; rewrite E; auto).
    cbn [bind]. unfold set_sequence_value, of_slots. cbn [q_a q_b q_c q_d q_size].
    rewrite (over_S j (g TW)) by (rewrite repeat_length; auto).
    rewrite (over_S j (g TX)) by (rewrite repeat_length; auto).
    rewrite (over_S j (g TY)) by (rewrite repeat_length; auto).
    rewrite (over_S j (g TZ)) by (rewrite repeat_length; auto).
    reflexivity.
Qed.

Lemma wf_set n q s t f : wf n s -> wf n q -> wf n (set_sequence s (lact f (slot q t)) t).
Proof.
  rewrite !wf_slots. intros [Hs Hl] [_ Hq]. split; [now rewrite set_sequence_size|].
  intros u. rewrite set_sequence_slot. destruct (tag_eq u t); rewrite ?lact_length; auto.
Qed.

Lemma sequence_set_other q s t u : t <> u -> sequence (set_sequence q s t) u = sequence q u.
Proof. destruct t, u; intros; congruence || reflexivity. Qed.
Lemma set_comm q s t s' t' : t <> t' ->
  set_sequence (set_sequence q s t) s' t' = set_sequence (set_sequence q s' t') s t.
Proof. destruct t, t'; intros; congruence || reflexivity. Qed.

Lemma shift_two_spec n q k t u : wf n q -> t <> u ->
  fold_m (fun s i => let* v0 := vget (sequence q t) ((i + k) mod n) in
                     let* s1 := set_single_value s v0 t i in
                     let* v1 := vget (sequence q u) ((i + k) mod n) in
                     set_single_value s1 v1 u i) (range 0 n) q =
  Some (wact [At t (Rot k); At u (Rot k)] q).
Proof.
  intros Hw Htu. apply wf_slots in Hw as [Hs Hq]. rewrite (sequence_slot q t), (sequence_slot q u).
  set (g := fun t i => nth ((i + k) mod n) (slot q t) 0%Z).
  pose proof (fold_m_range
    (fun (s : QuadSeq) i => let* v0 := vget (slot q t) ((i + k) mod n) in
                     let* s1 := set_single_value s v0 t i in
                     let* v1 := vget (slot q u) ((i + k) mod n) in
                     set_single_value s1 v1 u i)
    (fun j => set_sequence (set_sequence q (over j (g t) (slot q t)) t) (over j (g u) (slot q u)) u) n) as H.
  cbv beta in H. rewrite !over_0 in H.
  replace (set_sequence (set_sequence q (slot q t) t) (slot q u) u) with q in H
    by (rewrite <- !sequence_slot, set_sequence_same; now rewrite set_sequence_same).
  rewrite H.
  - f_equal. rewrite !over_all' by apply Hq.
    unfold g. rewrite !(map_seq_rot _ n) by auto. cbn [wact fold_left].
    rewrite set_sequence_at.
    replace (slot q u) with (slot (gact (At t (Rot k)) q) u).
    + apply set_sequence_at.
    + rewrite gact_slot. destruct (tag_eq u t) eqn:E; auto. apply tag_eq_eq in E. congruence.
  - intros j Hj. rewrite (vget_nth _ _ 0%Z) by (rewrite Hq; apply Nat.mod_upper_bound; lia).
    cbn [bind]. fold (g t j). unfold set_single_value at 1.
    rewrite sequence_set_other by auto. rewrite sequence_set, over_S by (rewrite Hq; lia). cbn [bind].
    rewrite (vget_nth _ _ 0%Z) by (rewrite Hq; apply Nat.mod_upper_bound; lia). cbn [bind]. fold (g u j).
    unfold set_single_value. rewrite sequence_set_other by auto. rewrite sequence_set.
    rewrite over_S by (rewrite Hq; lia). cbn [bind]. f_equal.
    rewrite (set_comm (set_sequence _ _ _) (over j (g u) (slot q u)) u) by auto. now rewrite !set_set.
Qed.

Lemma impl_computes n o q : wf n q -> op_ok n o -> computes o q.
Proof.
  intros Hw Hok. pose proof (proj1 Hw) as Hs.
  destruct o.
  - (* NegateSwap *)
    apply (computes_words _ _ (fun '(couple, tag) =>
      swap (set_sequence q (negated (sequence q tag)) tag) (fst couple) (snd couple))
      (fun '((s, t), u) => [At u Neg; Ex s t]) (list_prod couples tags)); try reflexivity.
    intros [[s t] u] H. apply in_prod_iff in H as [H _]. cbn [fst snd].
    rewrite negated_lact, sequence_slot, set_sequence_at. now apply swap_couple.
  - apply (computes_words _ _ (fun couple => swap q (fst couple) (snd couple))
      (fun '(s, t) => [Ex s t]) couples); try reflexivity.
    intros [s t] H. now apply swap_couple.
  - (* DoubleReorder *)
    apply (computes_words _ _ (fun '((s11, s12), (s21, s22)) =>
              if negb (tag_eqb s11 s21 && tag_eqb s12 s22)
              then let* q1 := swap q s11 s12 in swap q1 s21 s22
              else Some q)
      (fun '((s, t), (s', t')) => [Ex s t; Ex s' t']) (list_prod couples couples)); try reflexivity.
    intros [[s t] [s' t']] H. apply in_prod_iff in H as [H H'].
    destruct (tag_eqb s s' && tag_eqb t t') eqn:E; cbn [negb].
    + apply andb_true_iff in E as [E1 E2]. apply tag_eqb_eq in E1, E2. subst s' t'. f_equal.
      clear. destruct q, s, t; reflexivity.
    + rewrite swap_couple by auto. cbn [bind]. rewrite swap_couple by auto. reflexivity.
  - (* UniformHalfShift *)
    destruct (Nat.even n) eqn:E.
    + apply (computes_words _ _ (fun tag => shift_slot q q (q_size q / 2) tag)
        (fun t => [At t (Rot (n / 2))]) tags).
      * cbn [impl]. unfold equivalent_uniform_half_shift. rewrite even_mod, Hs, E. reflexivity.
      * intros t _. rewrite (shift_slot_spec n) by auto. rewrite Hs. now rewrite set_sequence_at.
      * cbn [variants]. rewrite Hs, E. reflexivity.
    + apply computes_nothing.
      * cbn [impl]. unfold equivalent_uniform_half_shift. rewrite even_mod, Hs, E. reflexivity.
      * cbn [variants]. rewrite Hs, E. reflexivity.
  - (* UniformShift *)
    apply (computes_words _ _ (fun offset =>
              fold_m (fun s i => let* v := values q ((i + offset) mod q_size q) in set_sequence_value s v i)
                     (range 0 (q_size q)) (Quad_new (q_size q)))
      (fun k => [All (Rot k)]) (range 1 (q_size q))); try reflexivity.
    intros k Hk. rewrite Hs in *. apply in_range in Hk.
    rewrite (uniform_fold n q (fun i => (i + k) mod n)); auto.
    + f_equal. cbn [wact fold_left]. apply wf_slots in Hw as [_ Hq]. apply quad_ext.
      * rewrite gact_size. auto.
      * intros t. rewrite slot_of_slots, gact_slot. now apply map_seq_rot.
    + intros. apply Nat.mod_upper_bound; lia.
  - (* DualHalfShift *)
    destruct (Nat.even n) eqn:E.
    + set (w := fun '(s, t) => [At s (Rot (n / 2)); At t (Rot (n / 2))] : word).
      exists (hinsert (wact [All (Rot (n / 2))] q) (insert_all (map (fun x => wact (w x) q) couples) [q])).
      split; [|split].
      * cbn [impl]. unfold equivalent_dual_half_shift. rewrite even_mod, Hs, E. cbn [negb].
        rewrite (traverse_map _ (fun x => wact (w x) q)).
        2:{ intros [s t] H. rewrite (shift_two_spec n) by
              (auto; cbn in H; repeat (destruct H as [H|H]; [inversion H; subst; cbn; discriminate|]); destruct H).
            reflexivity. }
        cbn [bind]. unfold tags. cbn [fold_m].
        rewrite !(shift_slot_spec n) by (repeat apply wf_set; auto). cbn [bind].
        rewrite (shift_slot_spec n) by (repeat apply wf_set; auto). cbn [bind].
        rewrite (shift_slot_spec n) by (repeat apply wf_set; auto). cbn [bind].
        rewrite (shift_slot_spec n) by (repeat apply wf_set; auto). cbn [bind].
        reflexivity.
      * apply hinsert_nodup, insert_all_nodup, nodup_1.
      * intros y. rewrite hinsert_in, insert_all_in, in_map_iff. unfold variant. cbn [variants].
        rewrite Hs, E. cbn [In]. fold w. change all_pairs with couples. split.
        -- intros [->|[(x & <- & Hx)|[<-|[]]]]; auto.
           ++ right. eexists. split; [left; reflexivity|reflexivity].
           ++ right. exists (w x). split; auto. right. now apply in_map.
        -- intros [->|(v & [<-|Hv] & ->)]; [tauto|now left|].
           apply in_map_iff in Hv as (x & <- & Hx). right; left. exists x. now split.
    + apply computes_nothing.
      * cbn [impl]. unfold equivalent_dual_half_shift. rewrite even_mod, Hs, E. reflexivity.
      * cbn [variants]. rewrite Hs, E. reflexivity.
  - (* SingleHalfShift *)
    destruct (Nat.even n) eqn:E.
    + apply (computes_words _ _ (fun tag => shift_slot q q (q_size q / 2) tag)
        (fun t => [At t (Rot (n / 2))]) tags).
      * cbn [impl]. unfold equivalent_single_half_shift. rewrite even_mod, Hs, E. reflexivity.
      * intros t _. rewrite (shift_slot_spec n) by auto. rewrite Hs. now rewrite set_sequence_at.
      * cbn [variants]. rewrite Hs, E. reflexivity.
    + apply computes_nothing.
      * cbn [impl]. unfold equivalent_single_half_shift. rewrite even_mod, Hs, E. reflexivity.
      * cbn [variants]. rewrite Hs, E. reflexivity.
  - (* Reverse *)
    eapply computes_one with (w := [All Rev]); try reflexivity.
    cbn [impl]. unfold equivalent_reverse. rewrite Hs.
    rewrite (uniform_fold n q (fun i => n - 1 - i)); auto; [|intros; lia]. cbn [bind].
    do 2 f_equal. cbn [wact fold_left]. apply wf_slots in Hw as [_ Hq]. apply quad_ext.
    + rewrite gact_size. auto.
    + intros t. rewrite slot_of_slots, gact_slot. unfold lact. rewrite Hq.
      apply map_ext_in. intros i Hi. apply in_seq in Hi. cbn [sneg lneg lidx].
      replace (Z.of_nat n - 1 - Z.of_nat i)%Z with (Z.of_nat (n - 1 - i)) by lia.
      rewrite entry_nat; auto. rewrite Hq. lia.
  - (* Negate *)
    apply (computes_words _ _ (fun tag => Some (
             let '(a', b', c', d') :=
               match tag with
               | TW => (negated (q_a q), q_b q, q_c q, q_d q) | TX => (q_a q, negated (q_b q), q_c q, q_d q)
               | TY => (q_a q, q_b q, negated (q_c q), q_d q) | TZ => (q_a q, q_b q, q_c q, negated (q_d q))
               end in set_all_values (Quad_new (q_size q)) a' b' c' d'))
      (fun t => [At t Neg]) tags); try reflexivity.
    intros t _. destruct q, t; cbn; rewrite ?negated_lact; reflexivity.
  - (* DoubleNegate *)
    apply (computes_words _ _ (fun couple =>
             let* (a', b', c', d') :=
               match couple with
               | (TW, TX) => Some (negated (q_a q), negated (q_b q), q_c q, q_d q)
               | (TW, TY) => Some (negated (q_a q), q_b q, negated (q_c q), q_d q)
               | (TW, TZ) => Some (negated (q_a q), q_b q, q_c q, negated (q_d q))
               | (TX, TY) => Some (q_a q, negated (q_b q), negated (q_c q), q_d q)
               | (TX, TZ) => Some (q_a q, negated (q_b q), q_c q, negated (q_d q))
               | (TY, TZ) => Some (q_a q, q_b q, negated (q_c q), negated (q_d q))
               | _ => None
               end in Some (set_all_values (Quad_new (q_size q)) a' b' c' d'))
      (fun '(s, t) => [At s Neg; At t Neg]) couples); try reflexivity.
    intros [s t] H. cbn in H.
    repeat (destruct H as [H|H]; [inversion H; subst; destruct q; cbn; rewrite ?negated_lact; reflexivity|]).
    destruct H.
  - (* AlternatedNegation *)
    eapply computes_one with (w := [All Alt]); try reflexivity.
    unfold alt_negated_quad. rewrite !alt_negated_lact. destruct q; reflexivity.
  - destruct (Nat.even n) eqn:E.
    + eapply computes_one with (w := [All Alt]).
      * cbn [impl]. unfold equivalent_even_alternated_negation. rewrite even_mod, Hs, E. reflexivity.
      * unfold alt_negated_quad. rewrite !alt_negated_lact. destruct q; reflexivity.
      * cbn [variants]. rewrite Hs, E. reflexivity.
    + apply computes_nothing.
      * cbn [impl]. unfold equivalent_even_alternated_negation. rewrite even_mod, Hs, E. reflexivity.
      * cbn [variants]. rewrite Hs, E. reflexivity.
  - (* Automorphism *)
    apply (computes_words _ _ (fun k =>
              let* a := permute (q_a q) k in let* b := permute (q_b q) k in
              let* c := permute (q_c q) k in let* d := permute (q_d q) k in
              Some (set_all_values (Quad_new (q_size q)) a b c d))
      (fun k => [All (Dil k)]) (filter (fun k => Nat.gcd n k =? 1) (seq 1 n))).
    + cbn [impl]. unfold equivalent_automorphism. rewrite Hs, COPRIMES_spec by (now apply Hok). reflexivity.
    + intros k _. rewrite !permute_lact. destruct q; reflexivity.
    + cbn [variants]. now rewrite Hs.
  - (* DisjointSwaps *)
    apply (computes_words _ _ (fun '((s11, s12), (s21, s22)) =>
              let* q1 := swap q s11 s12 in swap q1 s21 s22)
      (fun '((s, t), (s', t')) => [Ex s t; Ex s' t'])
      [((TW, TX), (TY, TZ)); ((TW, TY), (TX, TZ)); ((TW, TZ), (TX, TY))]); try reflexivity.
    intros [[s t] [s' t']] H. cbn in H.
    repeat (destruct H as [H|H]; [inversion H; subst; destruct q; reflexivity|]).
    destruct H.
Qed.

(* the automorphism table ends at 100 *)
Lemma automorphism_panics n q : wf n q -> 100 < n -> equivalent_automorphism q = None.
Proof. intros (Hs & _) H. unfold equivalent_automorphism. now rewrite Hs, COPRIMES_none. Qed.
