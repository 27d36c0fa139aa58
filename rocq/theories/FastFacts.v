(* Class generation through the symbolic symmetry group. *)
From Coq Require Import List ZArith Lia Arith Bool Permutation Relations.
From Verif Require Import Base BaseFacts Sums Quat ModelSequence ModelWilliamson ModelEquivalence
  Spec SpecEquiv SeqFacts OpFacts EquivFacts TypeFacts.
Import ListNotations.
Open Scope Z_scope.

Definition tag_no (t : Tag) : nat := match t with TW => 0 | TX => 1 | TY => 2 | TZ => 3 end.

Lemma nth_flat n q t j d : wf n q -> (j < n)%nat -> nth (tag_no t * n + j) (flat q) d = nth j (slot q t) d.
Proof.
  intros Hw Hj. apply wf_slots in Hw as [_ Hw]. unfold flat.
  pose proof (Hw TW) as Ha. pose proof (Hw TX) as Hb. pose proof (Hw TY) as Hc. pose proof (Hw TZ) as Hd.
  cbn [slot] in *. destruct t; cbn [tag_no slot].
  - rewrite app_nth1 by lia. f_equal.
  - rewrite app_nth2, Ha, app_nth1 by lia. f_equal. lia.
  - rewrite app_nth2, Ha, app_nth2, Hb, app_nth1 by lia. f_equal. lia.
  - rewrite app_nth2, Ha, app_nth2, Hb, app_nth2, Hc by lia. f_equal. lia.
Qed.

(* symbols: +-1 .. +-4n *)
Definition dom (n : nat) (z : Z) : Prop := i8 z /\ 1 <= Z.abs z <= 4 * Z.of_nat n.
Definition phi (q : QuadSeq) (z : Z) : Z := sneg (z <? 0) (nth (Z.to_nat (Z.abs z - 1)) (flat q) 0).

Definition tag_of (k : Z) : Tag := if k =? 0 then TW else if k =? 1 then TX else if k =? 2 then TY else TZ.

Lemma fast_element_spec n q z : wf n q -> (n <= 32)%nat -> dom n z -> fast_element q z = Some (phi q z).
Proof.
  intros Hw Hn [H8 Hz]. pose proof (proj1 Hw) as Hs. unfold fast_element. rewrite Hs.
  set (a := Z.abs z - 1). set (N := Z.of_nat n) in *.
  assert (1 <= N <= 32) as HN by (unfold N, i8 in *; lia).
  assert (0 <= a <= 127 /\ a < 4 * N) as Ha by (unfold a, i8 in *; lia).
  (* the two subterms that may wrap *)
  assert (wrap8 (abs8 z - 1) = a) as E1.
  { destruct (Z.eq_dec z (-128)) as [->|E]; [reflexivity|].
    unfold abs8. rewrite (wrap8_id (Z.abs z)) by (unfold i8 in *; lia). apply wrap8_id. unfold a in *. lia. }
  assert (as_usize (as_usize (abs8 z) - 1) mod N = a mod N) as E2.
  { destruct (Z.eq_dec z (-128)) as [->|E].
    - unfold i8 in *. assert (N = 32) as -> by lia. reflexivity.
    - f_equal. unfold abs8. rewrite (wrap8_id (Z.abs z)) by (unfold i8 in *; lia). unfold as_usize.
      rewrite (Z.mod_small (Z.abs z)) by (unfold i8 in *; lia). apply Z.mod_small. unfold a in *. lia. }
  assert (0 <= a mod N < N) as Hm by (apply Z.mod_pos_bound; lia).
  assert (0 <= a / N < 4) as Hd by (split; [apply Z.div_pos; lia|apply Z.div_lt_upper_bound; lia]).
  pose proof (Z.div_mod a N) as Hdm.
  rewrite E1, E2, (wrap8_id (a mod N)), wrap8_id by nia.
  unfold as_usize. change (2 ^ 64) with 18446744073709551616. rewrite (Z.mod_small (a - a mod N)) by nia.
  rewrite (Z.mod_small a 18446744073709551616) by lia.
  replace ((a - a mod N) / N) with (a / N).
  2:{ replace (a - a mod N) with (a / N * N) by lia. now rewrite Z.div_mul by lia. }
  assert ((if a / N =? 0 then Some (q_a q) else if a / N =? 1 then Some (q_b q)
           else if a / N =? 2 then Some (q_c q) else if a / N =? 3 then Some (q_d q) else None)
          = Some (slot q (tag_of (a / N)))) as ->.
  { unfold tag_of. destruct (a / N =? 0) eqn:?, (a / N =? 1) eqn:?, (a / N =? 2) eqn:?, (a / N =? 3) eqn:?; cbn; auto.
    exfalso. lia. }
  cbn [bind]. apply wf_slots in Hw as Hw'. destruct Hw' as [_ Hl].
  rewrite (vget_nth _ _ 0) by (rewrite Hl; lia). cbn [bind]. unfold phi, sneg. fold a.
  rewrite <- (nth_flat n) by (auto; lia).
  replace (tag_no (tag_of (a / N)) * n + Z.to_nat (a mod N))%nat with (Z.to_nat a); auto.
  assert (tag_no (tag_of (a / N)) = Z.to_nat (a / N)) as ->.
  { unfold tag_of. destruct (a / N =? 0) eqn:?, (a / N =? 1) eqn:?, (a / N =? 2) eqn:?; cbn; lia. }
  unfold N in *. nia.
Qed.

Definition dom_quad (n : nat) (s : QuadSeq) : Prop := wf n s /\ forall t, Forall (dom n) (slot s t).

Definition qmap (f : Z -> Z) (s : QuadSeq) : QuadSeq := of_slots (q_size s) (fun t => map f (slot s t)).

Lemma slice_app {A} (a b c : list A) i j : length a = i -> length b = (j - i)%nat -> (i <= j)%nat ->
  slice (a ++ b ++ c) i j = Some b.
Proof.
  intros Ha Hb Hij. unfold slice, guard. rewrite !app_length, Ha, Hb.
  replace (j <=? i + (j - i + length c))%nat with true by (symmetry; apply Nat.leb_le; lia).
  f_equal. rewrite <- Ha at 2. rewrite skipn_app, skipn_all, Nat.sub_diag. cbn [skipn app].
  rewrite <- Hb. rewrite firstn_app, firstn_all, Nat.sub_diag. cbn. now rewrite app_nil_r.
Qed.

Lemma fast_apply_spec n q s : wf n q -> (n <= 32)%nat -> dom_quad n s ->
  fast_apply q s = Some (qmap (phi q) s).
Proof.
  intros Hw Hn [Hs Hd]. unfold fast_apply. rewrite (proj1 Hw).
  rewrite (traverse_map _ (phi q)).
  2:{ intros z Hz. apply (fast_element_spec n); auto. rewrite !in_app_iff in Hz.
      assert (exists t, In z (slot s t)) as [t Ht].
      { destruct Hz as [|[|[|]]]; [exists TW|exists TX|exists TY|exists TZ]; auto. }
      specialize (Hd t). rewrite Forall_forall in Hd. auto. }
  cbn [bind]. rewrite !map_app.
  apply wf_slots in Hs as [Hss Hl].
  pose proof (Hl TW) as Ha. pose proof (Hl TX) as Hb. pose proof (Hl TY) as Hc. pose proof (Hl TZ) as He.
  cbn [slot] in *.
  set (A := map (phi q) (q_a s)). set (B := map (phi q) (q_b s)).
  set (C := map (phi q) (q_c s)). set (D := map (phi q) (q_d s)).
  assert (length A = n /\ length B = n /\ length C = n /\ length D = n) as (LA & LB & LC & LD)
    by (unfold A, B, C, D; rewrite !map_length; auto).
  assert (slice (A ++ B ++ C ++ D) 0 n = Some A) as -> by (apply (slice_app [] A); cbn; lia).
  assert (slice (A ++ B ++ C ++ D) n (2 * n) = Some B) as -> by (apply (slice_app A B); lia).
  assert (slice (A ++ B ++ C ++ D) (2 * n) (3 * n) = Some C) as ->.
  { rewrite (app_assoc A). apply (slice_app (A ++ B) C); rewrite ?app_length; lia. }
  assert (slice (A ++ B ++ C ++ D) (3 * n) (4 * n) = Some D) as ->.
  { rewrite <- (app_nil_r D) at 1. rewrite (app_assoc A), (app_assoc (A ++ B)).
    apply (slice_app ((A ++ B) ++ C) D); rewrite ?app_length; lia. }
  cbn [bind]. f_equal. unfold qmap. rewrite Hss. reflexivity.
Qed.

Lemma dom_neg8 n z : dom n z -> dom n (neg8 z).
Proof.
  unfold dom, i8, neg8. intros [H1 H2]. destruct (Z.eq_dec z (-128)) as [->|E]; [cbn in *; lia|].
  rewrite wrap8_id; lia.
Qed.

Lemma entry_dom n l i : length l <> 0%nat -> Forall (dom n) l -> dom n (entry l i).
Proof.
  intros Hl H. unfold entry. rewrite Forall_forall in H. apply H, nth_In. now apply pos_lt.
Qed.

Lemma lact_dom n f l : Forall (dom n) l -> Forall (dom n) (lact f l).
Proof.
  intros H. destruct (len0 l) as [->|Hl]; [auto|]. apply Forall_forall. intros x Hx.
  apply in_map_iff in Hx as (i & <- & _). unfold sneg.
  destruct (lneg f (Z.of_nat i)); [apply dom_neg8|]; now apply entry_dom.
Qed.

Lemma gact_dom n g s : dom_quad n s -> dom_quad n (gact g s).
Proof.
  intros [Hw Hd]. split; [now apply gact_wf|]. intros t. rewrite gact_slot.
  destruct g; try destruct (tag_eq t t0); auto using lact_dom.
Qed.

Lemma wact_dom n w s : dom_quad n s -> dom_quad n (wact w s).
Proof. revert s; induction w; cbn; intros; auto. apply IHw. now apply gact_dom. Qed.

Section Natural.
  Variables (n : nat) (f : Z -> Z).
  Hypothesis f_odd : forall z, dom n z -> f (neg8 z) = neg8 (f z).

  Lemma entry_map l i : length l <> 0%nat -> entry (map f l) i = f (entry l i).
  Proof.
    intros H. unfold entry. rewrite map_length.
    rewrite nth_indep with (d' := f 0) by (rewrite map_length; now apply pos_lt). apply map_nth.
  Qed.

  Lemma lact_natural o l : Forall (dom n) l -> map f (lact o l) = lact o (map f l).
  Proof.
    intros H. destruct (len0 l) as [->|Hl]; [reflexivity|]. unfold lact. rewrite map_map, map_length.
    apply map_ext. intros i. rewrite entry_map by auto. unfold sneg.
    destruct (lneg o (Z.of_nat i)); auto. apply f_odd. now apply entry_dom.
  Qed.

  Lemma gact_natural g s : dom_quad n s -> qmap f (gact g s) = gact g (qmap f s).
  Proof.
    intros [Hw Hd]. apply quad_ext; auto. intros t. unfold qmap at 1. rewrite slot_of_slots, !gact_slot.
    unfold qmap. rewrite ?slot_of_slots.
    destruct g; try destruct (tag_eq t t0); rewrite ?lact_natural, ?slot_of_slots by auto; auto.
  Qed.

  Lemma wact_natural w s : dom_quad n s -> qmap f (wact w s) = wact w (qmap f s).
  Proof.
    revert s. induction w as [|g w IH]; intros s Hs; auto. cbn. rewrite IH by (now apply gact_dom).
    rewrite gact_natural by auto. reflexivity.
  Qed.
End Natural.

Lemma flat_i8 n q i : i8_quad n q -> i8 (nth i (flat q) 0).
Proof.
  intros (_ & Ha & Hb & Hc & Hd). destruct (Nat.lt_ge_cases i (length (flat q))) as [H|H].
  - assert (Forall i8 (flat q)) as F by (unfold flat; rewrite !Forall_app; auto).
    rewrite Forall_forall in F. apply F, nth_In, H.
  - rewrite nth_overflow by auto. unfold i8; lia.
Qed.

Lemma phi_odd n q z : i8_quad n q -> (n <= 31)%nat -> dom n z -> phi q (neg8 z) = neg8 (phi q z).
Proof.
  intros Hq Hn [H8 Hz]. unfold phi, neg8 at 1 2. rewrite wrap8_id by lia. rewrite Z.abs_opp. unfold sneg.
  destruct (Z.ltb_spec (- z) 0), (Z.ltb_spec z 0); try lia; auto.
  symmetry. apply neg8_invol. now apply (flat_i8 n).
Qed.

Lemma symbolic_slot n t : slot (symbolic_quad n) t =
  map (fun i => wrap8 (Z.of_nat (i + tag_no t * n + 1))) (seq 0 n).
Proof. destruct t; reflexivity. Qed.

Lemma symbolic_wf n : wf n (symbolic_quad n).
Proof.
  apply wf_slots. split; auto. intros t. now rewrite symbolic_slot, map_length, seq_length.
Qed.

Lemma tag_no_lt t : (tag_no t < 4)%nat.
Proof. destruct t; cbn; lia. Qed.

Lemma symbolic_dom n : (n <= 32)%nat -> dom_quad n (symbolic_quad n).
Proof.
  intros Hn. split; [apply symbolic_wf|]. intros t. rewrite symbolic_slot. apply Forall_forall.
  intros x Hx. apply in_map_iff in Hx as (i & <- & Hi). apply in_seq in Hi.
  pose proof (tag_no_lt t). unfold dom. split; [apply wrap8_range|].
  assert (i + tag_no t * n + 1 <= 4 * n)%nat by nia.
  destruct (Nat.eq_dec (i + tag_no t * n + 1) 128) as [E|E].
  - rewrite E in *. assert (n = 32)%nat as -> by lia. cbn. lia.
  - rewrite wrap8_id by lia. lia.
Qed.

Lemma symbolic_i8 n : i8_quad n (symbolic_quad n).
Proof.
  apply i8_slots. split; [apply symbolic_wf|]. intros t. rewrite symbolic_slot. apply Forall_forall.
  intros x Hx. apply in_map_iff in Hx as (i & <- & Hi). apply wrap8_range.
Qed.

Lemma phi_symbolic n q : wf n q -> (n <= 31)%nat -> qmap (phi q) (symbolic_quad n) = q.
Proof.
  intros Hw Hn. apply quad_ext; [symmetry; apply (proj1 Hw)|].
  intros t. unfold qmap. rewrite slot_of_slots, symbolic_slot, map_map.
  pose proof Hw as Hw'. apply wf_slots in Hw' as [_ Hl].
  transitivity (map (fun i => nth i (slot q t) 0) (seq 0 n)).
  - apply map_ext_in. intros i Hi. apply in_seq in Hi. pose proof (tag_no_lt t).
    assert (i + tag_no t * n + 1 <= 4 * n)%nat by nia.
    rewrite wrap8_id by lia. unfold phi. replace (Z.of_nat (i + tag_no t * n + 1) <? 0) with false by (symmetry; apply Z.ltb_ge; lia).
    cbn [sneg]. rewrite <- (nth_flat n) by (auto; lia). f_equal. lia.
  - rewrite <- (Hl t). apply map_nth_seq.
Qed.

Lemma fast_spec n ord p ops q G : ord_ok ord -> (n <= 31)%nat -> i8_quad n q ->
  (forall y, In y G <-> reach ops (symbolic_quad n) y) ->
  exists r, generate_equivalence_class_fast ord p q G = Some r /\ NoDup r /\
            forall y, In y r <-> reach ops q y.
Proof.
  intros Ho Hn Hq HG. unfold generate_equivalence_class_fast.
  assert (forall g, In g (ord p G) -> exists w, opword ops n w /\ g = wact w (symbolic_quad n)) as Hg.
  { intros g Hg. apply ord_in in Hg; auto. apply HG in Hg. now apply (reach_word n) in Hg. }
  assert (forall w, qmap (phi q) (wact w (symbolic_quad n)) = wact w q) as Hnat.
  { intros w. rewrite (wact_natural n).
    - now rewrite phi_symbolic by (auto; apply Hq).
    - intros z. now apply phi_odd.
    - apply symbolic_dom. lia. }
  rewrite (traverse_map _ (qmap (phi q))).
  2:{ intros g H. destruct (Hg g H) as (w & Hw & ->). apply (fast_apply_spec n); [apply Hq|lia|].
      apply wact_dom, symbolic_dom. lia. }
  cbn [bind]. eexists. split; [reflexivity|]. split; [apply insert_all_nodup; constructor|].
  intros y. rewrite insert_all_in, in_map_iff, (reach_word n) by apply Hq. split.
  - intros [(g & <- & H)|[]]. destruct (Hg g H) as (w & Hw & ->). exists w. auto.
  - intros (w & Hw & ->). left. exists (wact w (symbolic_quad n)). split; auto.
    apply ord_in; auto. apply HG. apply (reach_word n); eauto.
Qed.

Lemma symmetry_group_spec n ord p ops fuel : ord_ok ord -> (forall o, In o ops -> op_ok n o) ->
  (class_fuel n <= fuel)%nat ->
  exists G, generate_symmetry_group fuel ord p n (map impl ops) = Some G /\ NoDup G /\
            forall y, In y G <-> reach ops (symbolic_quad n) y.
Proof. intros. apply (class_spec n); auto. apply symbolic_i8. Qed.

(* ---- length 32 ---- *)

(* the quadruple with its very last entry negated *)
Definition flip_last (q : QuadSeq) : QuadSeq :=
  set_sequence q (firstn 31 (q_d q) ++ [neg8 (nth 31 (q_d q) 0)]) TZ.

Lemma phi_symbolic_32 q : wf 32 q -> qmap (phi q) (symbolic_quad 32) = flip_last q.
Proof.
  intros Hw. pose proof Hw as Hw'. apply wf_slots in Hw' as [Hs Hl].
  apply quad_ext; [symmetry; exact Hs|].
  intros t. unfold qmap. rewrite slot_of_slots, symbolic_slot, map_map.
  assert (forall i, (i < 32)%nat -> (i + tag_no t * 32 + 1 <> 128)%nat ->
            phi q (wrap8 (Z.of_nat (i + tag_no t * 32 + 1))) = nth i (slot q t) 0) as H.
  { intros i Hi H. pose proof (tag_no_lt t).
    rewrite wrap8_id by lia. unfold phi. replace (Z.of_nat (i + tag_no t * 32 + 1) <? 0) with false by (symmetry; apply Z.ltb_ge; lia).
    cbn [sneg]. rewrite <- (nth_flat 32) by auto. f_equal. lia. }
  unfold flip_last. rewrite set_sequence_slot. destruct (tag_eq t TZ) eqn:E.
  - apply tag_eq_eq in E. subst t.
    change 32%nat with (31 + 1)%nat at 2. rewrite seq_app, map_app. f_equal.
    + apply list_ext with (d := 0).
      * rewrite map_length, seq_length, firstn_length. pose proof (Hl TZ). cbn [slot] in *. lia.
      * rewrite map_length, seq_length. intros i Hi. rewrite nth_map_seq by auto. rewrite H by (cbn; lia).
        cbn [slot]. rewrite <- (firstn_skipn 31 (q_d q)) at 1. rewrite app_nth1; auto.
        rewrite firstn_length. pose proof (Hl TZ). cbn [slot] in *. lia.
    + cbn [seq map]. f_equal. change (wrap8 (Z.of_nat (0 + 31 + tag_no TZ * 32 + 1))) with (-128).
      unfold phi. cbn [Z.ltb Z.compare sneg]. f_equal. apply (nth_flat 32 q TZ 31); auto.
  - transitivity (map (fun i => nth i (slot q t) 0) (seq 0 32)).
    + apply map_ext_in. intros i Hi. apply in_seq in Hi. apply H; [lia|].
      destruct t; cbn in *; discriminate || lia.
    + rewrite <- (Hl t). apply map_nth_seq.
Qed.

Lemma paf_16 l : length l = 32%nat ->
  paf l 16 = sumZ 32 (fun i => nth i l 0 * nth ((i + 16) mod 32) l 0).
Proof.
  intros Hl. unfold paf. rewrite Hl. apply sumZ_ext. intros i Hi.
  rewrite entry_nat by lia. f_equal. change 16 with (Z.of_nat 16). rewrite <- Nat2Z.inj_add, entry_idx by lia.
  now rewrite Hl.
Qed.

Lemma flip_paf l : length l = 32%nat -> pm1 l ->
  paf (firstn 31 l ++ [neg8 (nth 31 l 0)]) 16 = paf l 16 - 4 * (nth 15 l 0 * nth 31 l 0).
Proof.
  intros Hl Hp. rewrite neg8_pm by (apply pm1_nth; auto; lia). clear Hp.
  rewrite !paf_16 by (rewrite ?app_length, ?firstn_length; cbn [length]; lia).
  do 32 (destruct l as [|? l]; [discriminate|]). destruct l; [|discriminate].
  unfold sumZ. cbn -[Z.mul Z.add Z.sub Z.opp]. ring.
Qed.

Lemma flip_not_complementary q : pm_quad 32 q -> complementary q -> ~ complementary (flip_last q).
Proof.
  intros Hp Hc Hf. apply pm_slots in Hp as [Hw Hp]. pose proof Hw as Hw'. apply wf_slots in Hw' as [Hs Hl].
  specialize (Hc 16). specialize (Hf 16). unfold flip_last in Hf. cbn [q_size set_sequence q_a q_b q_c q_d] in *.
  rewrite Hs in *. rewrite flip_paf in Hf by (apply (Hl TZ) || apply (Hp TZ)).
  assert (0 < 16 < Z.of_nat 32) as H by lia. specialize (Hc H). specialize (Hf H).
  pose proof (Hl TZ) as Ld. cbn [slot] in Ld.
  assert (15 < length (q_d q) /\ 31 < length (q_d q))%nat as [L1 L2] by lia.
  destruct (pm1_nth (q_d q) 15 (Hp TZ) L1) as [E1|E1];
  destruct (pm1_nth (q_d q) 31 (Hp TZ) L2) as [E2|E2]; rewrite E1, E2 in Hf; lia.
Qed.

Lemma is_type_complementary t q : is_type t q -> complementary q.
Proof. destruct t; cbn; intros H; try tauto; apply H. Qed.

Lemma fast_wrong_32 ord p p' t q fuel : ord_ok ord -> pm_quad 32 q -> is_type t q ->
  (class_fuel 32 <= fuel)%nat ->
  exists G r y, generate_symmetry_group fuel ord p 32 (equivalences t) = Some G /\
    generate_equivalence_class_fast ord p' q G = Some r /\ In y r /\ ~ reach (type_ops t) q y.
Proof.
  intros Ho Hp Ht Hf. rewrite equivalences_impl.
  destruct (symmetry_group_spec 32 ord p (type_ops t) fuel Ho) as (G & EG & _ & HG); auto.
  { apply small_ok. lia. }
  exists G. unfold generate_equivalence_class_fast.
  rewrite (traverse_map _ (qmap (phi q))).
  2:{ intros g H. apply ord_in in H; auto. apply HG in H. apply (reach_word 32) in H as (w & Hw & ->); auto.
      apply (fast_apply_spec 32); [apply Hp|lia|]. apply wact_dom, symbolic_dom. lia. }
  cbn [bind]. eexists. exists (flip_last q). split; auto. split; [reflexivity|]. split.
  - rewrite insert_all_in. left. rewrite <- phi_symbolic_32 by apply Hp. apply in_map.
    apply ord_in; auto. apply HG. apply rt_refl.
  - intros H. apply (reach_type 32) in H as [_ H]; auto; [|lia].
    apply is_type_complementary in H. revert H. apply flip_not_complementary; auto.
    now apply is_type_complementary in Ht.
Qed.
