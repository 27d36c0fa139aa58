(* Length 32: what the substitution into the symbolic symmetry group produces, where the symbol 128
   does not fit into an i8. *)
From Coq Require Import List ZArith Lia Arith Bool Relations.
From Verif Require Import Base BaseFacts Sums ModelSequence ModelWilliamson ModelEquivalence Spec SpecEquiv
  SeqFacts OpFacts EquivFacts TypeFacts FastFacts OrderFacts CanonFacts NsFacts ReduceFacts.
Import ListNotations.
Open Scope Z_scope.

(* ---- the symbol -128 occurs once ---- *)

Definition hit (z : Z) : Z := if z =? -128 then 1 else 0.
Definition hits (l : list Z) : Z := sumZ (length l) (fun i => hit (entry l (Z.of_nat i))).

Lemma neg8_hit z : i8 z -> (neg8 z = -128 <-> z = -128).
Proof.
  unfold i8, neg8. intros H. destruct (Z.eq_dec z (-128)) as [->|E]; [now split|].
  rewrite wrap8_id by lia. lia.
Qed.

Lemma hit_sneg b z : i8 z -> hit (sneg b z) = hit z.
Proof.
  intros H. destruct b; cbn [sneg]; auto. unfold hit.
  destruct (Z.eqb_spec (neg8 z) (-128)) as [E|E], (Z.eqb_spec z (-128)) as [E'|E']; auto;
    exfalso; apply (neg8_hit z H) in E || apply E; try apply (neg8_hit z H); auto.
Qed.

Lemma hits_lact f l : Forall i8 l -> length l <> 0%nat -> good_lop (length l) f -> hits (lact f l) = hits l.
Proof.
  intros H8 Hl Hg. unfold hits. rewrite lact_length.
  transitivity (sumZ (length l) (fun i => hit (entry l (lidx f (length l) (Z.of_nat i))))).
  { apply sumZ_ext. intros i Hi. rewrite entry_nat by (now rewrite lact_length). rewrite lact_nth by auto.
    apply hit_sneg. now apply entry_i8. }
  assert (periodic (length l) (fun z => hit (entry l z))) as Hper.
  { intros i j E. f_equal. now apply entry_periodic. }
  destruct f; cbn [lidx good_lop] in *; auto.
  - apply (sumZ_shift (length l) (fun z => hit (entry l z))); auto.
  - apply (sumZ_mulk (length l) (fun z => hit (entry l z))); auto. now apply gcd_ZZ.
  - rewrite <- (sumZ_neg (length l) (fun z => hit (entry l z))) by auto.
    rewrite <- (sumZ_shift (length l) (fun z => hit (entry l (- z))) (1 - Z.of_nat (length l))).
    + apply sumZ_ext. intros i Hi. f_equal. f_equal. lia.
    + intros i j E. f_equal. apply entry_periodic.
      destruct (Z.eq_dec (i mod Z.of_nat (length l)) 0) as [E0|E0].
      * rewrite !Z.mod_opp_l_z by (lia || congruence). reflexivity.
      * rewrite !Z.mod_opp_l_nz by (lia || congruence). congruence.
Qed.

Definition all_hits (q : QuadSeq) : Z := hits (slot q TW) + hits (slot q TX) + hits (slot q TY) + hits (slot q TZ).

Lemma hits_gact n g q : i8_quad n q -> (1 <= n)%nat -> good n g -> all_hits (gact g q) = all_hits q.
Proof.
  intros Hq Hn Hg. apply i8_slots in Hq as [Hw H8]. apply wf_slots in Hw as [_ Hl].
  assert (forall f t, good_lop n f -> hits (lact f (slot q t)) = hits (slot q t)) as H.
  { intros f t Hf. apply hits_lact; auto; rewrite Hl; auto; lia. }
  unfold all_hits. rewrite !gact_slot. destruct g as [f|t f|s t].
  - now rewrite !H by exact Hg.
  - assert (good_lop n f) as Hf by (destruct f; cbn in *; tauto).
    destruct t; cbn [tag_eq]; now rewrite H.
  - destruct s, t; cbn [exchange tag_eq]; lia.
Qed.

Lemma hits_wact n w q : i8_quad n q -> (1 <= n)%nat -> Forall (good n) w -> all_hits (wact w q) = all_hits q.
Proof.
  revert q. induction w as [|g w IH]; intros q Hq Hn Hg; auto. inversion Hg; subst. cbn.
  rewrite IH by auto using gact_i8. now apply (hits_gact n).
Qed.

Lemma hits_nonneg l : 0 <= hits l.
Proof. apply sumZ_nonneg. intros i _. unfold hit. destruct (_ =? _); lia. Qed.

Lemma hits_one l i : (i < length l)%nat -> nth i l 0 = -128 -> 1 <= hits l.
Proof.
  intros Hi E. unfold hits.
  assert (forall n f, (i < n)%nat -> (forall k, 0 <= f k) -> f i = 1 -> 1 <= sumZ n f) as H.
  { clear. intros n f Hi Hf E. induction n as [|n IH]; [lia|]. rewrite sumZ_S.
    destruct (Nat.eq_dec i n) as [->|Ne].
    - pose proof (sumZ_nonneg n f (fun k _ => Hf k)). lia.
    - specialize (IH ltac:(lia)). specialize (Hf n). lia. }
  apply H; auto.
  - intros k. unfold hit. destruct (_ =? _); lia.
  - rewrite entry_nat, E by auto. reflexivity.
Qed.

Lemma hits_two l i j : (i < j < length l)%nat -> nth i l 0 = -128 -> nth j l 0 = -128 -> 2 <= hits l.
Proof.
  intros Hi E E'. unfold hits.
  assert (forall n f, (i < j < n)%nat -> (forall k, 0 <= f k) -> f i = 1 -> f j = 1 -> 2 <= sumZ n f) as H.
  { clear. intros n f Hi Hf E E'. induction n as [|n IH]; [lia|]. rewrite sumZ_S.
    destruct (Nat.eq_dec j n) as [->|Ne].
    - assert (1 <= sumZ n f); [|lia].
      assert (forall m, (i < m)%nat -> 1 <= sumZ m f) as G; [|apply G; lia].
      induction m as [|m IHm]; [lia|]. intros Hm. rewrite sumZ_S. destruct (Nat.eq_dec i m) as [->|Nm].
      + pose proof (sumZ_nonneg m f (fun k _ => Hf k)). lia.
      + specialize (IHm ltac:(lia)). specialize (Hf m). lia.
    - specialize (IH ltac:(lia)). specialize (Hf n). lia. }
  apply H; auto.
  - intros k. unfold hit. destruct (_ =? _); lia.
  - rewrite entry_nat, E by lia. reflexivity.
  - rewrite entry_nat, E' by lia. reflexivity.
Qed.

Lemma hit_unique n q t i t' i' : wf n q -> all_hits q = 1 -> (i < n)%nat -> (i' < n)%nat ->
  nth i (slot q t) 0 = -128 -> nth i' (slot q t') 0 = -128 -> t = t' /\ i = i'.
Proof.
  intros Hw H1 Hi Hi' E E'. apply wf_slots in Hw as [_ Hl].
  pose proof (hits_nonneg (slot q TW)). pose proof (hits_nonneg (slot q TX)).
  pose proof (hits_nonneg (slot q TY)). pose proof (hits_nonneg (slot q TZ)).
  assert (t = t') as ->.
  { assert (1 <= hits (slot q t)) as A by (apply (hits_one _ i); auto; now rewrite Hl).
    assert (1 <= hits (slot q t')) as A' by (apply (hits_one _ i'); auto; now rewrite Hl).
    unfold all_hits in H1. destruct t, t'; auto; exfalso; lia. }
  split; auto. destruct (Nat.eq_dec i i') as [|Ne]; auto. exfalso.
  assert (2 <= hits (slot q t')) as A.
  { destruct (Nat.lt_ge_cases i i'); [apply (hits_two _ i i')|apply (hits_two _ i' i)]; auto; rewrite Hl; lia. }
  unfold all_hits in H1. destruct t'; lia.
Qed.

Lemma symbolic_hits : all_hits (symbolic_quad 32) = 1.
Proof. vm_compute. reflexivity. Qed.

(* ---- every substituted symmetry is an image of the quadruple or of the one with its last entry negated ---- *)

Definition pm (z : Z) : Prop := z = 1 \/ z = -1.
(* a: the symbol; u, v: the entries of the images of q and of flip_last q *)
Definition rel (q : QuadSeq) (a u v : Z) : Prop :=
  dom 32 a /\ pm u /\ pm v /\ (a = -128 -> v = - u) /\ (a <> -128 -> u = v /\ phi q a = u).

Lemma phi_neg q a : i8_quad 32 q -> dom 32 a -> a <> -128 -> phi q (neg8 a) = neg8 (phi q a).
Proof.
  intros Hq [H8 Hz] Hn. unfold phi, neg8 at 1 2. rewrite wrap8_id by (unfold i8 in *; lia). rewrite Z.abs_opp. unfold sneg.
  destruct (Z.ltb_spec (- a) 0), (Z.ltb_spec a 0); try lia; auto.
  symmetry. apply neg8_invol. now apply (flat_i8 32).
Qed.

Lemma rel_sneg q b a u v : i8_quad 32 q -> rel q a u v -> rel q (sneg b a) (sneg b u) (sneg b v).
Proof.
  intros Hq (D & U & V & A & B). destruct b; cbn [sneg]; [|unfold rel; auto].
  unfold rel. rewrite (neg8_hit a (proj1 D)). split; [now apply dom_neg8|].
  rewrite !neg8_pm by auto. unfold pm in *. split; [lia|]. split; [lia|]. split; [intros E; specialize (A E); lia|].
  intros E. destruct (B E) as [-> Ep]. split; auto. rewrite phi_neg, Ep by auto. now apply neg8_pm.
Qed.

Definition related (q s x y : QuadSeq) : Prop :=
  wf 32 s /\ wf 32 x /\ wf 32 y /\
  forall t j, rel q (entry (slot s t) j) (entry (slot x t) j) (entry (slot y t) j).

Lemma related_gact q g s x y : i8_quad 32 q -> related q s x y -> related q (gact g s) (gact g x) (gact g y).
Proof.
  intros Hq (Hs & Hx & Hy & H). repeat (split; [now apply gact_wf|]). intros t j. rewrite !gact_slot.
  apply wf_slots in Hs as [_ Ls]. apply wf_slots in Hx as [_ Lx]. apply wf_slots in Hy as [_ Ly].
  assert (forall f, rel q (entry (lact f (slot s t)) j) (entry (lact f (slot x t)) j) (entry (lact f (slot y t)) j)) as L.
  { intros f. rewrite !entry_lact by (rewrite ?Ls, ?Lx, ?Ly; lia). rewrite Ls, Lx, Ly. now apply rel_sneg. }
  destruct g as [f|u f|u u']; auto. destruct (tag_eq t u); auto.
Qed.

Lemma related_wact q w s x y : i8_quad 32 q -> related q s x y -> related q (wact w s) (wact w x) (wact w y).
Proof. revert s x y. induction w; cbn; intros; auto. apply IHw; auto. now apply related_gact. Qed.

Lemma flip_last_pm q : pm_quad 32 q -> pm_quad 32 (flip_last q).
Proof.
  intros H. apply pm_slots in H as [Hw Hp]. apply pm_slots. apply wf_slots in Hw as [Hs Hl].
  assert (length (q_d q) = 32%nat) as Ld by apply (Hl TZ). split.
  - apply wf_slots. split; [exact Hs|]. intros t. unfold flip_last. rewrite set_sequence_slot.
    destruct (tag_eq t TZ); auto. rewrite app_length, firstn_length, Ld. reflexivity.
  - intros t. unfold flip_last. rewrite set_sequence_slot. destruct (tag_eq t TZ); auto.
    pose proof (Hp TZ) as Hd. cbn [slot] in Hd. unfold pm1 in *. apply Forall_app. split.
    + rewrite Forall_forall in *. intros z Hz. apply Hd. rewrite <- (firstn_skipn 31 (q_d q)). apply in_or_app. now left.
    + constructor; [|constructor]. rewrite neg8_pm; [|apply (pm1_nth (q_d q) 31); auto; lia].
      destruct (pm1_nth (q_d q) 31 Hd) as [->| ->]; auto; lia.
Qed.

Lemma pos_idx j : exists i, (i < 32)%nat /\ forall l, length l = 32%nat -> entry l j = nth i l 0.
Proof.
  exists (pos 32 j). split; [apply pos_lt; lia|]. intros l Hl. unfold entry. now rewrite Hl.
Qed.

Lemma related_start q : pm_quad 32 q -> related q (symbolic_quad 32) q (flip_last q).
Proof.
  intros Hq. pose proof (flip_last_pm q Hq) as Hf. pose proof Hq as Hq'.
  apply pm_slots in Hq' as [Hw Hp]. apply pm_slots in Hf as [Hwf Hpf].
  pose proof (symbolic_wf 32) as Hws. unfold related. do 3 (split; [assumption|]).
  apply wf_slots in Hw as [_ Lq]. apply wf_slots in Hwf as [_ Lf]. 
  intros t j. destruct (pos_idx j) as (i & Hi & Hj).
  assert (length (slot (symbolic_quad 32) t) = 32%nat) as Ls by (apply wf_slots in Hws; apply Hws).
  rewrite !Hj by auto. unfold rel.
  assert (dom 32 (nth i (slot (symbolic_quad 32) t) 0)) as D.
  { destruct (symbolic_dom 32 (le_n _)) as [_ Hd]. specialize (Hd t). rewrite Forall_forall in Hd. apply Hd, nth_In. lia. }
  split; auto. split; [apply pm1_nth; auto; rewrite Lq; lia|]. split; [apply pm1_nth; auto; rewrite Lf; lia|].
  assert (nth i (slot (flip_last q) t) 0 = phi q (nth i (slot (symbolic_quad 32) t) 0)) as E.
  { rewrite <- phi_symbolic_32 by apply Hq. unfold qmap. rewrite slot_of_slots.
    rewrite nth_indep with (d' := phi q 0) by (rewrite map_length; lia). apply map_nth. }
  assert (nth i (slot (symbolic_quad 32) t) 0 = wrap8 (Z.of_nat (i + tag_no t * 32 + 1))) as Es.
  { rewrite symbolic_slot, nth_map_seq by auto. reflexivity. }
  pose proof (tag_no_lt t) as Ht.
  destruct (Nat.eq_dec (i + tag_no t * 32 + 1) 128) as [E1|E1].
  - rewrite E1 in Es. change (wrap8 (Z.of_nat 128)) with (-128) in Es. split; [intros _|congruence].
    rewrite E, Es. unfold phi. cbn [Z.ltb Z.compare sneg].
    assert (t = TZ) as -> by (destruct t; cbn in *; auto; lia). cbn in E1. assert (i = 31)%nat as -> by lia.
    change (Z.to_nat (Z.abs (-128) - 1)) with (tag_no TZ * 32 + 31)%nat. rewrite (nth_flat 32) by (auto; apply Hq).
    apply neg8_pm. apply pm1_nth; auto; rewrite Lq; lia.
  - rewrite wrap8_id in Es by lia. split; [rewrite Es; lia|]. intros _.
    assert (phi q (nth i (slot (symbolic_quad 32) t) 0) = nth i (slot q t) 0) as E2.
    { rewrite Es. unfold phi. replace (Z.of_nat (i + tag_no t * 32 + 1) <? 0) with false by (symmetry; apply Z.ltb_ge; lia).
      cbn [sneg]. rewrite <- (nth_flat 32) by (auto; apply Hq). f_equal. lia. }
    split; auto. now rewrite E.
Qed.

Lemma phi_pm q a : pm_quad 32 q -> dom 32 a -> pm (phi q a).
Proof.
  intros Hq [H8 Ha]. unfold phi.
  assert (pm (nth (Z.to_nat (Z.abs a - 1)) (flat q) 0)) as H.
  { assert (Forall (fun x => x = 1 \/ x = -1) (flat q)) as F.
    { destruct Hq as (_ & A & B & C & D). unfold flat. unfold pm1 in *. now rewrite !Forall_app. }
    rewrite Forall_forall in F. apply F, nth_In.
    pose proof Hq as Hq'. apply pm_slots in Hq' as [Hw _]. apply wf_slots in Hw as [_ Hl].
    pose proof (Hl TW). pose proof (Hl TX). pose proof (Hl TY). pose proof (Hl TZ). cbn [slot] in *.
    unfold flat. rewrite !app_length. lia. }
  unfold sneg. destruct (a <? 0); auto. rewrite neg8_pm by exact H. unfold pm in *. lia.
Qed.

Theorem fast_element_32 q w : pm_quad 32 q -> Forall (good 32) w ->
  qmap (phi q) (wact w (symbolic_quad 32)) = wact w q \/
  qmap (phi q) (wact w (symbolic_quad 32)) = wact w (flip_last q).
Proof.
  intros Hq Hg. set (s := wact w (symbolic_quad 32)).
  destruct (related_wact q w _ _ _ (pm_i8 32 q Hq) (related_start q Hq)) as (Hs & Hx & Hy & H). fold s in Hs, H.
  assert (all_hits s = 1) as H1.
  { unfold s. rewrite (hits_wact 32), symbolic_hits by (auto using symbolic_i8; lia). reflexivity. }
  pose proof Hs as Hs'. apply wf_slots in Hs' as [Ss Ls]. apply wf_slots in Hx as [Sx Lx]. apply wf_slots in Hy as [Sy Ly].
  assert (forall t i, (i < 32)%nat -> rel q (nth i (slot s t) 0) (nth i (slot (wact w q) t) 0) (nth i (slot (wact w (flip_last q)) t) 0)) as R.
  { intros t i Hi. specialize (H t (Z.of_nat i)). rewrite !entry_nat in H by (rewrite ?Ls, ?Lx, ?Ly; lia). exact H. }
  assert (forall z, q_size z = 32%nat -> (forall t, length (slot z t) = 32%nat) ->
    (forall t i, (i < 32)%nat -> phi q (nth i (slot s t) 0) = nth i (slot z t) 0) -> qmap (phi q) s = z) as K.
  { intros z Sz Lz Hz. apply quad_ext; [unfold qmap; cbn; congruence|]. intros t. unfold qmap. rewrite slot_of_slots.
    apply list_ext with (d := 0); rewrite map_length, ?Ls, ?Lz; auto. intros i Hi.
    rewrite nth_indep with (d' := phi q 0) by (rewrite map_length, Ls; lia). rewrite map_nth. now apply Hz. }
  (* the entry that decides *)
  destruct (existsb (fun t => existsb (fun i => negb (phi q (nth i (slot s t) 0) =? nth i (slot (wact w q) t) 0)) (seq 0 32)) all_tags) eqn:Ex.
  - right. apply existsb_exists in Ex as (t0 & _ & Ex). apply existsb_exists in Ex as (i0 & Hi0 & Ex). apply in_seq in Hi0.
    apply negb_true_iff, Z.eqb_neq in Ex. apply K; auto. intros t i Hi.
    pose proof (R t0 i0 ltac:(lia)) as (D0 & U0 & V0 & A0 & B0).
    assert (nth i0 (slot s t0) 0 = -128) as E0.
    { destruct (Z.eq_dec (nth i0 (slot s t0) 0) (-128)) as [|N]; auto. now destruct (B0 N). }
    destruct (R t i Hi) as (D & U & V & A & B).
    destruct (Z.eq_dec (nth i (slot s t) 0) (-128)) as [E|N].
    + destruct (hit_unique 32 s t i t0 i0) as [-> ->]; auto; [lia|].
      specialize (A E). pose proof (phi_pm q _ Hq D) as P. unfold pm in *. lia.
    + destruct (B N) as [-> ->]. reflexivity.
  - left. apply K; auto. intros t i Hi.
    assert (~ phi q (nth i (slot s t) 0) <> nth i (slot (wact w q) t) 0); [|lia].
    intros N. apply Bool.not_true_iff_false in Ex. apply Ex. apply existsb_exists. exists t. split; [destruct t; cbn; tauto|].
    apply existsb_exists. exists i. split; [apply in_seq; lia|]. now apply negb_true_iff, Z.eqb_neq.
Qed.
