(* Lengths 33 to 63: every substituted symmetry is an image of the folded quadruple, or of the folded
   quadruple with its entry 127 negated. *)
From Coq Require Import List ZArith Lia Arith Bool Permutation Relations.
From Verif Require Import Base BaseFacts Sums ModelSequence ModelWilliamson ModelEquivalence Spec SpecEquiv
  SeqFacts OpFacts EquivFacts TypeFacts FastFacts OrderFacts CanonFacts NsFacts ReduceFacts WsFacts Len32Facts Len32Thms Len48Facts Len48Thms.
Import ListNotations.
Open Scope Z_scope.

(* negating the entry 127 of the four sequences written one after another *)
Definition flip_mid (n : nat) (x : QuadSeq) : QuadSeq :=
  of_slots n (fun t => map (fun i => let z := nth i (slot x t) 0 in if (tag_no t * n + i =? 127)%nat then neg8 z else z) (seq 0 n)).

Lemma flip_slot n x t i : (i < n)%nat ->
  nth i (slot (flip_mid n x) t) 0 = if (tag_no t * n + i =? 127)%nat then neg8 (nth i (slot x t) 0) else nth i (slot x t) 0.
Proof. intros Hi. unfold flip_mid. rewrite slot_of_slots, nth_map_seq by auto. reflexivity. Qed.

Lemma flip_wf n x : wf n (flip_mid n x).
Proof.
  apply wf_slots. split; [reflexivity|]. intros t. unfold flip_mid. now rewrite slot_of_slots, map_length, seq_length.
Qed.

Lemma flip_pm n x : pm_quad n x -> pm_quad n (flip_mid n x).
Proof.
  intros Hx. apply pm_slots. split; [apply flip_wf|]. intros t. unfold pm1. apply Forall_forall. intros z Hz.
  pose proof (flip_wf n x) as Hw. apply wf_slots in Hw as [_ Hl]. apply pm_slots in Hx as [Hw Hp]. apply wf_slots in Hw as [_ Lx].
  apply (In_nth _ _ 0) in Hz as (i & Hi & <-). rewrite Hl in Hi. rewrite flip_slot by auto.
  assert (nth i (slot x t) 0 = 1 \/ nth i (slot x t) 0 = -1) as P by (apply pm1_nth; auto; now rewrite Lx).
  destruct (_ =? _)%nat; auto. rewrite neg8_pm by auto. lia.
Qed.

(* ---- the symbol -128 occurs once ---- *)

Lemma symbolic_hits_48 n : (33 <= n <= 63)%nat -> all_hits (symbolic_quad n) = 1.
Proof.
  intros Hn. assert (forallb (fun n => all_hits (symbolic_quad n) =? 1) (seq 33 31) = true) as H by (vm_compute; reflexivity).
  rewrite forallb_forall in H. apply Z.eqb_eq, H, in_seq. lia.
Qed.

Lemma symbolic_128 n t i : (33 <= n <= 63)%nat -> (i < n)%nat ->
  (nth i (slot (symbolic_quad n) t) 0 = -128 <-> (tag_no t * n + i = 127)%nat).
Proof.
  intros Hn Hi. rewrite symbolic_slot, nth_map_seq by auto. pose proof (tag_no_lt t) as Ht. cbn [Nat.add].
  replace (i + tag_no t * n + 1)%nat with (tag_no t * n + i + 1)%nat by lia.
  assert (tag_no t * n + i < 4 * n)%nat as Hp by nia. generalize dependent (tag_no t * n + i)%nat. intros p Hp.
  destruct (Nat.le_gt_cases (p + 1) 127); [rewrite wrap8_id|rewrite wrap8_high]; lia.
Qed.

(* a: the symbol; u, v: the entries of the images of x and of flip_mid x, where x is the folded quadruple *)
Definition rel48 (n : nat) (q : QuadSeq) (a u v : Z) : Prop :=
  sym a /\ pm u /\ pm v /\ (a = -128 -> v = - u) /\ (a <> -128 -> u = v /\ psi n q a = u).

Lemma psi_pm n q a : pm_quad n q -> (33 <= n <= 63)%nat -> sym a -> pm (psi n q a).
Proof.
  intros Hq Hn [H8 Ha]. unfold psi.
  assert (pm (nth (fidx n a) (flat q) 0)) as H.
  { apply (flat_pm n); auto. unfold fidx. pose proof (back_lt n Hn). unfold i8 in H8. destruct (Z.eqb_spec a (-128)); lia. }
  unfold sneg. destruct (a <? 0); auto. rewrite neg8_pm by exact H. unfold pm in *. lia.
Qed.

Lemma psi_neg n q a : pm_quad n q -> (33 <= n <= 63)%nat -> sym a -> a <> -128 -> psi n q (neg8 a) = neg8 (psi n q a).
Proof.
  intros Hq Hn [H8 Ha] Hne. unfold psi, neg8 at 1 2. rewrite wrap8_id by (unfold i8 in *; lia).
  unfold fidx. replace (- a =? -128) with false by (symmetry; apply Z.eqb_neq; unfold i8 in *; lia).
  replace (a =? -128) with false by (symmetry; apply Z.eqb_neq; lia). rewrite Z.abs_opp. unfold sneg.
  destruct (Z.ltb_spec (- a) 0), (Z.ltb_spec a 0); try lia; auto.
  symmetry. apply neg8_invol. apply (flat_i8 n). now apply pm_i8.
Qed.

Lemma rel_sneg n q b a u v : pm_quad n q -> (33 <= n <= 63)%nat -> rel48 n q a u v -> rel48 n q (sneg b a) (sneg b u) (sneg b v).
Proof.
  intros Hq Hn (D & U & V & A & B). destruct b; cbn [sneg]; [|unfold rel48; auto].
  unfold rel48. rewrite (neg8_hit a (proj1 D)). split; [now apply sym_neg8|].
  rewrite !neg8_pm by auto. unfold pm in *. split; [lia|]. split; [lia|]. split; [intros E; specialize (A E); lia|].
  intros E. destruct (B E) as [-> Ep]. split; auto. rewrite psi_neg, Ep by auto. now apply neg8_pm.
Qed.

Definition related (n : nat) (q s x y : QuadSeq) : Prop :=
  wf n s /\ wf n x /\ wf n y /\
  forall t j, rel48 n q (entry (slot s t) j) (entry (slot x t) j) (entry (slot y t) j).

Lemma related_gact n q g s x y : pm_quad n q -> (33 <= n <= 63)%nat -> related n q s x y -> related n q (gact g s) (gact g x) (gact g y).
Proof.
  intros Hq Hn (Hs & Hx & Hy & H). repeat (split; [now apply gact_wf|]). intros t j. rewrite !gact_slot.
  apply wf_slots in Hs as [_ Ls]. apply wf_slots in Hx as [_ Lx]. apply wf_slots in Hy as [_ Ly].
  assert (forall f, rel48 n q (entry (lact f (slot s t)) j) (entry (lact f (slot x t)) j) (entry (lact f (slot y t)) j)) as L.
  { intros f. rewrite !entry_lact by (rewrite ?Ls, ?Lx, ?Ly; lia). rewrite Ls, Lx, Ly. now apply rel_sneg. }
  destruct g as [f|u f|u u']; auto. destruct (tag_eq t u); auto.
Qed.

Lemma related_wact n q w s x y : pm_quad n q -> (33 <= n <= 63)%nat -> related n q s x y -> related n q (wact w s) (wact w x) (wact w y).
Proof. revert s x y. induction w; cbn; intros; auto. apply IHw; auto. now apply related_gact. Qed.

Lemma related_start n q : pm_quad n q -> (33 <= n <= 63)%nat ->
  related n q (symbolic_quad n) (fold_quad n q) (flip_mid n (fold_quad n q)).
Proof.
  intros Hq Hn. pose proof (symbolic_sym n ltac:(lia)) as [Hws Hss]. pose proof (fold_wf n q) as Hwf.
  pose proof (flip_wf n (fold_quad n q)) as Hwl. unfold related. do 3 (split; [assumption|]).
  apply wf_slots in Hws as [_ Ls]. apply wf_slots in Hwf as [_ Lf]. apply wf_slots in Hwl as [_ Ll].
  intros t j. set (i := pos n j). assert (i < n)%nat as Hi by (apply pos_lt; lia).
  assert (forall l, length l = n -> entry l j = nth i l 0) as Hj by (intros l Hl; unfold entry; now rewrite Hl).
  rewrite !Hj by auto. rewrite flip_slot by auto.
  assert (nth i (slot (fold_quad n q) t) 0 = psi n q (nth i (slot (symbolic_quad n) t) 0)) as E.
  { unfold fold_quad, qmap. rewrite slot_of_slots.
    rewrite nth_indep with (d' := psi n q 0) by (rewrite map_length, Ls; lia). apply map_nth. }
  assert (sym (nth i (slot (symbolic_quad n) t) 0)) as S.
  { specialize (Hss t). rewrite Forall_forall in Hss. apply Hss, nth_In. now rewrite Ls. }
  pose proof (symbolic_128 n t i Hn Hi) as H128. set (a := nth i (slot (symbolic_quad n) t) 0) in *.
  pose proof (psi_pm n q a Hq Hn S) as P. rewrite E.
  split; [exact S|]. split; [exact P|]. destruct (Nat.eqb_spec (tag_no t * n + i) 127) as [E1|E1].
  - rewrite neg8_pm by exact P. apply H128 in E1. split; [unfold pm in *; lia|]. split; [reflexivity|]. congruence.
  - split; [exact P|]. split; [intros Ea; apply H128 in Ea; contradiction|]. auto.
Qed.

Theorem fast_word_48 n q w : pm_quad n q -> (33 <= n <= 63)%nat -> Forall (good n) w ->
  qmap (psi n q) (wact w (symbolic_quad n)) = wact w (fold_quad n q) \/
  qmap (psi n q) (wact w (symbolic_quad n)) = wact w (flip_mid n (fold_quad n q)).
Proof.
  intros Hq Hn Hg. set (s := wact w (symbolic_quad n)). set (x := wact w (fold_quad n q)). set (y := wact w (flip_mid n (fold_quad n q))).
  destruct (related_wact n q w _ _ _ Hq Hn (related_start n q Hq Hn)) as (Hs & Hx & Hy & H). fold s x y in Hs, Hx, Hy, H.
  assert (all_hits s = 1) as H1.
  { unfold s. rewrite (hits_wact n), symbolic_hits_48 by (auto using symbolic_i8; lia). reflexivity. }
  pose proof Hs as Hs'. apply wf_slots in Hs' as [Ss Ls]. apply wf_slots in Hx as [Sx Lx]. apply wf_slots in Hy as [Sy Ly].
  assert (forall t i, (i < n)%nat -> rel48 n q (nth i (slot s t) 0) (nth i (slot x t) 0) (nth i (slot y t) 0)) as R.
  { intros t i Hi. specialize (H t (Z.of_nat i)). rewrite !entry_nat in H by (rewrite ?Ls, ?Lx, ?Ly; lia). exact H. }
  assert (forall z, q_size z = n -> (forall t, length (slot z t) = n) ->
    (forall t i, (i < n)%nat -> psi n q (nth i (slot s t) 0) = nth i (slot z t) 0) -> qmap (psi n q) s = z) as K.
  { intros z Sz Lz Hz. apply quad_ext; [unfold qmap; cbn; congruence|]. intros t. unfold qmap. rewrite slot_of_slots.
    apply list_ext with (d := 0); rewrite map_length, ?Ls, ?Lz; auto. intros i Hi.
    rewrite nth_indep with (d' := psi n q 0) by (rewrite map_length, Ls; lia). rewrite map_nth. now apply Hz. }
  (* the entry that decides *)
  destruct (existsb (fun t => existsb (fun i => negb (psi n q (nth i (slot s t) 0) =? nth i (slot x t) 0)) (seq 0 n)) all_tags) eqn:Ex.
  - right. apply existsb_exists in Ex as (t0 & _ & Ex). apply existsb_exists in Ex as (i0 & Hi0 & Ex). apply in_seq in Hi0.
    apply negb_true_iff, Z.eqb_neq in Ex. apply K; auto. intros t i Hi.
    pose proof (R t0 i0 ltac:(lia)) as (D0 & U0 & V0 & A0 & B0).
    assert (nth i0 (slot s t0) 0 = -128) as E0.
    { destruct (Z.eq_dec (nth i0 (slot s t0) 0) (-128)) as [|N]; auto. now destruct (B0 N). }
    destruct (R t i Hi) as (D & U & V & A & B).
    destruct (Z.eq_dec (nth i (slot s t) 0) (-128)) as [E|N].
    + destruct (hit_unique n s t i t0 i0) as [-> ->]; auto; [lia|].
      specialize (A E). pose proof (psi_pm n q _ Hq Hn D) as P. unfold pm in *. lia.
    + destruct (B N) as [-> ->]. reflexivity.
  - left. apply K; auto. intros t i Hi.
    assert (~ psi n q (nth i (slot s t) 0) <> nth i (slot x t) 0); [|lia].
    intros N. apply Bool.not_true_iff_false in Ex. apply Ex. apply existsb_exists. exists t. split; [destruct t; cbn; tauto|].
    apply existsb_exists. exists i. split; [apply in_seq; lia|]. now apply negb_true_iff, Z.eqb_neq.
Qed.

(* ---- the representative ---- *)

(* the canonical forms of the substituted symmetries *)
Definition candidate_48 (n : nat) (t : SequenceType) (q z : QuadSeq) : Prop :=
  exists w, opword (pos_ops t) n w /\ canon_of t (qmap (psi n q) (wact w (symbolic_quad n))) = Some z.

Lemma pos_good t n w : opword (pos_ops t) n w -> Forall (good n) w.
Proof.
  intros H. induction H as [|w o v Hw IH Ho Hv]; [constructor|]. apply Forall_app. split; auto.
  apply (good_op n o); auto. intros E. now destruct (pos_no_alt t o Ho).
Qed.

Lemma fast_any_48 n t q w : pm_quad n q -> (33 <= n <= 63)%nat -> opword (pos_ops t) n w ->
  let y := qmap (psi n q) (wact w (symbolic_quad n)) in
  pm_quad n y /\ (reach (pos_ops t) (fold_quad n q) y \/ reach (pos_ops t) (flip_mid n (fold_quad n q)) y).
Proof.
  intros Hq Hn Hw y. pose proof (fold_pm n q Hq Hn) as Pf. pose proof (flip_pm n _ Pf) as Pl.
  destruct (fast_word_48 n q w Hq Hn (pos_good t n w Hw)) as [E|E]; fold y in E; rewrite E.
  - split; [now apply wact_pm|]. left. apply (reach_word n); [apply Pf|eauto].
  - split; [now apply wact_pm|]. right. apply (reach_word n); [apply Pl|eauto].
Qed.

Lemma qt_canonical_48 n ord p q t G : ord_ok ord -> supported t -> pm_quad n q -> (33 <= n <= 63)%nat ->
  (forall y, In y G <-> reach (pos_ops t) (symbolic_quad n) y) ->
  exists m, qt_canonical ord p q G t = Some m /\ least (candidate_48 n t q) m.
Proof.
  intros Ho Ht Hq Hn HG.
  assert (qt_canonical ord p q G t =
    (let* class := generate_equivalence_class_fast ord (0%nat :: p) q G in
     let* l := traverse (canon_of t) (ord (1%nat :: p) class) in
     let* m := min_by (ord (2%nat :: p) (insert_all l [])) in m)) as ->.
  { destruct Ht as [->|[->| ->]]; reflexivity. }
  unfold generate_equivalence_class_fast.
  rewrite (traverse_map _ (qmap (psi n q))).
  2:{ intros g H. apply ord_in in H; auto. apply HG in H. apply (reach_word n) in H as (w & Hw & ->); auto.
      pose proof (wact_sym n w _ (symbolic_sym n ltac:(lia))) as [Ws Ss].
      apply (fast_apply_gen n); [apply Hq|exact Ws|]. intros u z Hz. apply fast_element_48; [apply Hq|lia|].
      specialize (Ss u). rewrite Forall_forall in Ss. auto. }
  cbn [bind]. set (r := insert_all _ []).
  assert (forall y, In y r <-> exists w, opword (pos_ops t) n w /\ y = qmap (psi n q) (wact w (symbolic_quad n))) as Hr.
  { intros y. unfold r. rewrite insert_all_in, in_map_iff. split.
    - intros [(g & <- & H)|[]]. apply ord_in in H; auto. apply HG in H.
      apply (reach_word n) in H as (w & Hw & ->); eauto.
    - intros (w & Hw & ->). left. exists (wact w (symbolic_quad n)). split; auto. apply ord_in; auto.
      apply HG, (reach_word n); eauto. }
  assert (forall y, In y r -> pm_quad n y) as Pr.
  { intros y Hy. apply Hr in Hy as (w & Hw & ->). now apply (fast_any_48 n t q w). }
  destruct (traverse_total (canon_of t) (ord (1%nat :: p) r)) as (l & -> & Hl).
  { intros x Hx. apply (ord_in ord) in Hx; auto. destruct (canon_of_spec n t x Ht) as (c & E & _); eauto. lia. }
  cbn [bind]. set (L := ord (2%nat :: p) (insert_all l [])).
  assert (forall y, In y L <-> candidate_48 n t q y) as HL.
  { intros y. unfold L, candidate_48. rewrite (ord_in ord) by auto. rewrite insert_all_in, Hl. split.
    - intros [(x & Hx & E)|[]]. rewrite (ord_in ord) in Hx by auto. apply Hr in Hx as (w & Hw & ->). eauto.
    - intros (w & Hw & E). left. eexists. split; [|exact E]. rewrite (ord_in ord) by auto. apply Hr. eauto. }
  assert (forall y, In y L -> pm_quad n y) as PL.
  { intros y Hy. apply HL in Hy as (w & Hw & E). destruct (fast_any_48 n t q w Hq Hn Hw) as [Px _].
    destruct (canon_of_spec n t _ Ht Px) as (c & E' & Hc & _); [lia|].
    rewrite E in E'. injection E' as <-. eapply reach_pm; [apply Px|apply Hc]. }
  pose proof (min_by_spec n L (fun x Hx => proj1 (PL x Hx))) as HM.
  assert (exists m, min_by L = Some (Some m) /\ least (fun x => In x L) m) as (m & -> & Hm & Hmin).
  { destruct L as [|x0 L0] eqn:EL; auto. exfalso.
    destruct (fast_any_48 n t q [] Hq Hn (ow_nil _ _)) as [Px _].
    destruct (canon_of_spec n t _ Ht Px) as (c & E & _); [lia|].
    assert (In c []) as [] by (apply HL; exists []; split; [constructor|exact E]). }
  exists m. split; auto. split; [now apply HL|]. intros y Hy. now apply Hmin, HL.
Qed.

Lemma candidate_class_48 n t q z : supported t -> pm_quad n q -> (33 <= n <= 63)%nat -> candidate_48 n t q z ->
  pm_quad n z /\ (reach (type_ops (rep_type t)) (fold_quad n q) z \/ reach (type_ops (rep_type t)) (flip_mid n (fold_quad n q)) z).
Proof.
  intros Ht Hq Hn (w & Hw & E). destruct (fast_any_48 n t q w Hq Hn Hw) as [Px Rx].
  pose proof (fold_pm n q Hq Hn) as Pf. pose proof (flip_pm n _ Pf) as Pl.
  destruct (canon_of_spec n t _ Ht Px) as (c & E' & Hc & _); [lia|].
  rewrite E in E'. injection E' as <-. split; [eapply reach_pm; [apply Px|apply Hc]|].
  destruct Rx as [R|R]; [left|right]; apply (rep_factor n); auto; eexists; split; eauto.
Qed.

Open Scope nat_scope.

(* the least candidate, which does not depend on any order *)
Lemma least_candidate n t q : supported t -> pm_quad n q -> 33 <= n <= 63 -> exists m, least (candidate_48 n t q) m.
Proof.
  intros Ht Hq Hn. assert (ord_ok (fun _ l => l)) as Oi by (intros p l; apply Permutation.Permutation_refl).
  destruct (symmetry_group_spec n (fun _ l => l) [] (pos_ops t) (class_fuel n) Oi) as (G & _ & _ & HG); auto.
  { apply small_ok. lia. }
  destruct (qt_canonical_48 n (fun _ l => l) [] q t G Oi Ht Hq Hn HG) as (m & _ & Hm). eauto.
Qed.

Theorem reduce_any_48 n ord p l t fuel : ord_ok ord -> supported t -> 33 <= n <= 63 -> l <> [] ->
  Forall (pm_quad n) l -> class_fuel n <= fuel ->
  exists r, reduce_to_canonical_reps fuel ord p l t = Some r /\ NoDup r /\
    forall m, In m r <-> exists x, In x l /\ least (candidate_48 n t x) m.
Proof.
  intros Ho Ht Hn Hne Hl Hf. unfold reduce_to_canonical_reps.
  destruct l as [|q0 l0] eqn:El; [congruence|]. cbn [vget nth_error bind].
  assert (q_size q0 = n) as -> by (inversion Hl; subst; now destruct H1 as [[? _] _]).
  rewrite <- El in *. clear El q0 l0. rewrite canonical_ops_impl.
  destruct (symmetry_group_spec n ord (0 :: p) (pos_ops t) fuel Ho) as (G & -> & _ & HG); auto.
  { apply small_ok. lia. }
  cbn [bind].
  assert (forall l i acc, Forall (pm_quad n) l -> exists reps,
    foldi_from i (fun i acc q => let* c := qt_canonical ord (i :: 1 :: p) q G t in Some (acc ++ [c])) l acc
      = Some (acc ++ reps) /\
    forall m, In m reps <-> exists x, In x l /\ least (candidate_48 n t x) m) as H.
  { clear l Hne Hl. induction l as [|q l IH]; intros i acc Hl; cbn [foldi_from].
    - exists []. rewrite app_nil_r. split; auto. intros m. split; [intros []|intros (x & [] & _)].
    - inversion Hl; subst.
      destruct (qt_canonical_48 n ord (i :: 1 :: p) q t G Ho Ht H1 Hn HG) as (m & -> & Hm). cbn [bind].
      destruct (IH (S i) (acc ++ [m]) H2) as (reps & -> & Hr). exists (m :: reps).
      rewrite <- app_assoc. split; auto. intros m'. cbn [In]. rewrite Hr. split.
      + intros [<-|(x & Hx & H)]; [exists q; auto|exists x; auto].
      + intros (x & [<-|Hx] & H); [left; eapply least_unique; eauto|right; eauto]. }
  unfold foldi. destruct (H l 0 [] Hl) as (reps & -> & Hr). cbn [bind app].
  exists (unique reps). split; auto. destruct (unique_spec reps) as [H1 H2]. split; auto.
  intros m. rewrite H2. apply Hr.
Qed.
