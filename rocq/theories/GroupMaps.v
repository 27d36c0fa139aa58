(* The finite part of the normal forms. *)
From Coq Require Import List ZArith Lia Arith Bool.
From Verif Require Import Base ModelSequence ModelWilliamson ModelEquivalence SpecEquiv SearchFacts FastFacts GroupSize.
Import ListNotations.
Notation length := List.length.
Open Scope nat_scope.

Definition all_s : list smap := list_prod (list_prod all_tags [false; true]) [false; true].
Definition all_m : list mm := list_prod (list_prod (list_prod all_s all_s) all_s) all_s.
Lemma in_all_s s : In s all_s.
Proof. destruct s as [[t e] h]. apply in_prod; [apply in_prod|]; [destruct t; cbn; tauto|destruct e; cbn; tauto|destruct h; cbn; tauto]. Qed.
Lemma in_all_m m : In m all_m.
Proof. destruct m as [[[a b] c] d]. repeat apply in_prod; apply in_all_s. Qed.

Definition src (m : mm) (t : Tag) : nat := tag_no (fst (fst (mget m t))).
Definition eb (m : mm) (t : Tag) : bool := snd (fst (mget m t)).
Definition hb (m : mm) (t : Tag) : bool := snd (mget m t).
Definition perm (m : mm) : bool := forallb (fun '(s, t) => negb (src m s =? src m t)) all_pairs.
Definition inversions (m : mm) : bool := fold_right xorb false (map (fun '(s, t) => src m t <? src m s) all_pairs).
Definition esum (m : mm) : bool := fold_right xorb false (map (eb m) all_tags).
Definition hsum (m : mm) : bool := fold_right xorb false (map (hb m) all_tags).
Definition okm (t : SequenceType) (ev : bool) (m : mm) : bool :=
  perm m && (if ev then match t with QuaternionType => negb (hsum m) | _ => true end else negb (existsb (hb m) all_tags)) &&
  match t with QuaternionType => negb (xorb (inversions m) (esum m)) | _ => true end.
Definition L (t : SequenceType) (ev : bool) : list mm := filter (okm t ev) all_m.
Definition M (t : SequenceType) (ev : bool) : list mm := filter (fun m => negb (hb m TW)) (L t ev).
Lemma in_L t ev m : In m (L t ev) <-> okm t ev m = true.
Proof. unfold L. rewrite filter_In. pose proof (in_all_m m). tauto. Qed.

Lemma nodup_prod {A B} (l : list A) (k : list B) : NoDup l -> NoDup k -> NoDup (list_prod l k).
Proof.
  intros Hl Hk. induction Hl as [|x l Hx Hl IH]; cbn [list_prod]; [constructor|]. apply SearchFacts.NoDup_app; auto.
  - apply FinFun.Injective_map_NoDup; auto. intros y z E. now injection E.
  - intros p Hp Hq. apply in_map_iff in Hp as (y & <- & _). apply in_prod_iff in Hq. tauto.
Qed.
Lemma all_m_nodup : NoDup all_m.
Proof.
  assert (NoDup all_s). { repeat apply nodup_prod; repeat constructor; cbn; intuition discriminate. }
  apply nodup_prod; auto. apply nodup_prod; auto. now apply nodup_prod.
Qed.
Lemma M_nodup t ev : NoDup (M t ev).
Proof. unfold M, L. apply NoDup_filter, NoDup_filter, all_m_nodup. Qed.

Lemma M_QT_odd : length (M QuaternionType false) = 192. Proof. vm_compute. reflexivity. Qed.
Lemma M_QT_even : length (M QuaternionType true) = 768. Proof. vm_compute. reflexivity. Qed.
Lemma M_WT_odd : length (M WilliamsonType false) = 384. Proof. vm_compute. reflexivity. Qed.
Lemma M_WT_even : length (M WilliamsonType true) = 3072. Proof. vm_compute. reflexivity. Qed.

(* closure under the operations *)
Definition closed_under (t : SequenceType) (ev : bool) (fs : list (mm -> mm)) : bool := forallb (fun m => forallb (fun f => okm t ev (f m)) fs) (L t ev).
Lemma closed_under_ok t ev fs f m : closed_under t ev fs = true -> In f fs -> okm t ev m = true -> okm t ev (f m) = true.
Proof.
  unfold closed_under. intros H Hf Hm. rewrite forallb_forall in H. apply in_L in Hm. specialize (H m Hm). cbv beta in H. rewrite forallb_forall in H. auto.
Qed.
Definition negswaps : list (mm -> mm) := map (fun '((s, t), u) => fun m => mex s t (mneg u m)) (list_prod all_pairs all_tags).
Definition negs : list (mm -> mm) := map mneg all_tags.
Definition swaps : list (mm -> mm) := map (fun '(s, t) => mex s t) all_pairs.
Definition bools : list bool := [false; true].
Definition halves : list (mm -> mm) := map (fun '(b, u) => mhalf b u) (list_prod bools all_tags).
Definition duals : list (mm -> mm) := map (fun '(b, (s, t)) => fun m => mhalf b t (mhalf b s m)) (list_prod bools all_pairs).
Definition negalls : list (mm -> mm) := map mnegall bools.

Lemma cl_QT_odd : closed_under QuaternionType false (negswaps ++ negalls) = true. Proof. vm_compute. reflexivity. Qed.
Lemma cl_QT_even : closed_under QuaternionType true (negswaps ++ negalls ++ duals ++ [mtog]) = true. Proof. vm_compute. reflexivity. Qed.
Lemma cl_WT_odd : closed_under WilliamsonType false (negs ++ swaps ++ negalls) = true. Proof. vm_compute. reflexivity. Qed.
Lemma cl_WT_even : closed_under WilliamsonType true (negs ++ swaps ++ negalls ++ halves ++ [mtog]) = true. Proof. vm_compute. reflexivity. Qed.
Lemma okm_W ev m : okm Williamson ev m = okm WilliamsonType ev m. Proof. reflexivity. Qed.

(* the signed permutations are reached from the identity *)
Definition smap_eqb (s t : smap) : bool :=
  let '(x, e, h) := s in let '(y, e', h') := t in tag_eq x y && Bool.eqb e e' && Bool.eqb h h'.
Definition mm_eqb (m m' : mm) : bool := let '(a, b, c, d) := m in let '(a', b', c', d') := m' in smap_eqb a a' && smap_eqb b b' && smap_eqb c c' && smap_eqb d d'.
Lemma smap_eqb_eq s t : smap_eqb s t = true -> s = t.
Proof.
  destruct s as [[x e] h], t as [[y e'] h']. cbn. rewrite !andb_true_iff. intros [[A B] C]. apply eqb_prop in B, C. subst.
  destruct x, y; try discriminate; reflexivity.
Qed.
Lemma mm_eqb_eq m m' : mm_eqb m m' = true -> m = m'.
Proof. destruct m as [[[a b] c] d], m' as [[[a' b'] c'] d']. cbn. rewrite !andb_true_iff. intros [[[A B] C] D]. apply smap_eqb_eq in A, B, C, D. congruence. Qed.
Definition addm (m : mm) (l : list mm) : list mm := if existsb (mm_eqb m) l then l else m :: l.
Fixpoint grow (k : nat) (fs : list (mm -> mm)) (l : list mm) : list mm :=
  match k with 0 => l | S k => grow k fs (fold_right addm l (flat_map (fun m => map (fun f => f m) fs) l)) end.
Inductive made (fs : list (mm -> mm)) : mm -> Prop :=
  | made_id : made fs mid
  | made_step f m : In f fs -> made fs m -> made fs (f m).
Lemma addm_in x m l : In x (addm m l) -> x = m \/ In x l.
Proof. unfold addm. destruct (existsb _ _); cbn; intuition. Qed.
Lemma grow_made fs k l : (forall m, In m l -> made fs m) -> forall m, In m (grow k fs l) -> made fs m.
Proof.
  revert l. induction k as [|k IH]; intros l Hl m Hm; auto. cbn [grow] in Hm. revert Hm. apply IH. clear m. intros m Hm.
  assert (forall l', (forall x, In x l' -> made fs x) -> In m (fold_right addm l l') -> made fs m) as X.
  { clear Hm. intros l'. induction l' as [|x l' IH']; cbn [fold_right]; auto. intros H Hm. apply addm_in in Hm as [->|Hm]; [apply H; now left|].
    apply IH'; auto. intros y Hy. apply H. now right. }
  apply (X _) in Hm; auto. intros x Hx. apply in_flat_map in Hx as (y & Hy & Hx). apply in_map_iff in Hx as (f & <- & Hf). constructor; auto.
Qed.
Definition flat_maps (t : SequenceType) : list mm := L t false.
Definition reached (k : nat) (t : SequenceType) (fs : list (mm -> mm)) : bool :=
  let g := grow k fs [mid] in forallb (fun m => existsb (mm_eqb m) g) (flat_maps t).
Lemma reached_ok k t fs m : reached k t fs = true -> okm t false m = true -> made fs m.
Proof.
  unfold reached, flat_maps. cbv zeta. intros H Hm. rewrite forallb_forall in H. apply in_L, H, existsb_exists in Hm as (x & Hx & E). apply mm_eqb_eq in E as ->.
  apply grow_made in Hx; auto. intros y [<-|[]]. constructor.
Qed.
Lemma reached_QT : reached 4 QuaternionType negswaps = true. Proof. vm_compute. reflexivity. Qed.
Lemma reached_WT : reached 8 WilliamsonType (negs ++ swaps) = true. Proof. vm_compute. reflexivity. Qed.

(* the half shifts come last *)
Definition clear (m : mm) : mm := mk (fun t => let '(s, e, h) := mget m t in (s, e, false)).
Lemma clear_ok t : t = QuaternionType \/ t = WilliamsonType -> forall m, okm t true m = true -> okm t false (clear m) = true.
Proof.
  assert (H : forallb (fun t => forallb (fun m => okm t false (clear m)) (L t true)) [QuaternionType; WilliamsonType] = true) by (vm_compute; reflexivity).
  intros Ht m Hm. rewrite forallb_forall in H. specialize (H t ltac:(cbn; intuition)). cbv beta in H. rewrite forallb_forall in H. apply H, in_L, Hm.
Qed.
Lemma clear_id t m : okm t false m = true -> clear m = m.
Proof.
  unfold okm. rewrite !andb_true_iff. intros [[_ H] _]. apply negb_true_iff in H. destruct m as [[[[[a ea] ha] [[b ebb] hbb]] [[c ec] hc]] [[d ed] hd]]. cbn in H.
  destruct ha, hbb, hc, hd; try discriminate. reflexivity.
Qed.
Definition addh (m : mm) (b : bool) (u : Tag) (x : mm) : mm := if b then mhalf false u x else x.
Lemma rebuild_single m : m = addh m (hb m TZ) TZ (addh m (hb m TY) TY (addh m (hb m TX) TX (addh m (hb m TW) TW (clear m)))).
Proof.
  destruct m as [[[[[a ea] ha] [[b ebb] hbb]] [[c ec] hc]] [[d ed] hd]].
  destruct ha, hbb, hc, hd, ea, ebb, ec, ed; reflexivity.
Qed.
Definition dual (p : Tag * Tag) (x : mm) : mm := mhalf false (snd p) (mhalf false (fst p) x).
Definition hpairs (m : mm) : list (Tag * Tag) :=
  match hb m TW, hb m TX, hb m TY, hb m TZ with
  | true, true, false, false => [(TW, TX)] | true, false, true, false => [(TW, TY)] | true, false, false, true => [(TW, TZ)]
  | false, true, true, false => [(TX, TY)] | false, true, false, true => [(TX, TZ)] | false, false, true, true => [(TY, TZ)]
  | true, true, true, true => [(TW, TX); (TY, TZ)] | _, _, _, _ => []
  end.
Lemma rebuild_dual m : hsum m = false -> m = fold_right dual (clear m) (hpairs m) /\ incl (hpairs m) all_pairs.
Proof.
  destruct m as [[[[[a ea] ha] [[b ebb] hbb]] [[c ec] hc]] [[d ed] hd]]. intros H.
  destruct ha, hbb, hc, hd; try discriminate; (split; [destruct ea, ebb, ec, ed; reflexivity|intros p Hp; cbn in *; tauto]).
Qed.
Lemma mtog_mtog m : mtog (mtog m) = m.
Proof. destruct m as [[[[[a ea] ha] [[b ebb] hbb]] [[c ec] hc]] [[d ed] hd]]. destruct ha, hbb, hc, hd; reflexivity. Qed.
Lemma mnegall_false m : mnegall false m = m.
Proof. destruct m as [[[[[a ea] ha] [[b ebb] hbb]] [[c ec] hc]] [[d ed] hd]]. destruct ea, ebb, ec, ed; reflexivity. Qed.
Lemma mtog_hb m t : hb (mtog m) t = negb (hb m t).
Proof. unfold hb, mtog. rewrite mget_mk. now destruct (mget m t) as [[? ?] ?]. Qed.
Lemma odd_no_h t m u : okm t false m = true -> hb m u = false.
Proof.
  unfold okm. rewrite !andb_true_iff. intros [[_ H] _]. apply negb_true_iff in H. destruct (hb m u) eqn:E; auto.
  rewrite <- H. symmetry. apply existsb_exists. exists u. split; auto. destruct u; cbn; tauto.
Qed.
