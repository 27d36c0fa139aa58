(* Facts about Base: vectors, loops, wrap8. *)
From Coq Require Import List ZArith Lia Arith Bool Permutation.
Import ListNotations.
From Verif Require Import Base.

Lemma bind_some {A B} (x : option A) (k : A -> option B) r :
  bind x k = Some r -> exists a, x = Some a /\ k a = Some r.
Proof. destruct x; simpl; intros; try discriminate; eauto. Qed.

Lemma vget_nth {A} (v : list A) i d : i < length v -> vget v i = Some (nth i v d).
Proof. intros; unfold vget; apply nth_error_nth'; auto. Qed.

Lemma vget_some_lt {A} (v : list A) i x : vget v i = Some x -> i < length v.
Proof. unfold vget; intros; apply nth_error_Some; congruence. Qed.

Lemma traverse_map {A B} (f : A -> option B) (g : A -> B) l :
  (forall x, In x l -> f x = Some (g x)) -> traverse f l = Some (map g l).
Proof.
  induction l; simpl; intros H; auto.
  rewrite H by auto; simpl. rewrite IHl by auto. reflexivity.
Qed.

Lemma traverse_length {A B} (f : A -> option B) l r :
  traverse f l = Some r -> length r = length l.
Proof.
  revert r; induction l; simpl; intros r H; [inversion H; auto|].
  destruct (f a); try discriminate; simpl in H.
  destruct (traverse f l) eqn:E; try discriminate; simpl in H.
  inversion H; subst; simpl; f_equal; auto.
Qed.

Lemma traverse_some_in {A B} (f : A -> option B) l r :
  traverse f l = Some r -> forall x, In x l -> exists y, f x = Some y /\ In y r.
Proof.
  revert r; induction l; simpl; intros r H x Hx; [tauto|].
  destruct (f a) eqn:Ea; try discriminate; simpl in H.
  destruct (traverse f l) eqn:E; try discriminate; simpl in H.
  inversion H; subst. destruct Hx as [->|Hx].
  - exists b; simpl; auto.
  - destruct (IHl l0 eq_refl x Hx) as (y & ? & ?). exists y; simpl; auto.
Qed.

Lemma traverse_in_some {A B} (f : A -> option B) l r :
  traverse f l = Some r -> forall y, In y r -> exists x, In x l /\ f x = Some y.
Proof.
  revert r; induction l; simpl; intros r H y Hy; [inversion H; subst; inversion Hy|].
  destruct (f a) eqn:Ea; try discriminate; simpl in H.
  destruct (traverse f l) eqn:E; try discriminate; simpl in H.
  inversion H; subst. destruct Hy as [->|Hy].
  - exists a; auto.
  - destruct (IHl l0 eq_refl y Hy) as (x & ? & ?). exists x; auto.
Qed.

Lemma traverse_ext {A B} (f g : A -> option B) l :
  (forall x, In x l -> f x = g x) -> traverse f l = traverse g l.
Proof.
  induction l; simpl; intros H; auto. rewrite H by auto. destruct (g a); simpl; auto.
  rewrite IHl; auto.
Qed.

Lemma traverse_app {A B} (f : A -> option B) l1 l2 :
  traverse f (l1 ++ l2) =
  (let* a := traverse f l1 in let* b := traverse f l2 in Some (a ++ b)).
Proof.
  induction l1; simpl.
  - destruct (traverse f l2); auto.
  - destruct (f a); simpl; auto. rewrite IHl1.
    destruct (traverse f l1); simpl; auto. destruct (traverse f l2); auto.
Qed.

Lemma vbuild_map {A} n (f : nat -> option A) (g : nat -> A) :
  (forall i, i < n -> f i = Some (g i)) -> vbuild n f = Some (map g (seq 0 n)).
Proof.
  intros; apply traverse_map. intros x Hx; apply in_seq in Hx; apply H; lia.
Qed.

Lemma all_m_forallb {A} (f : A -> option bool) (g : A -> bool) l :
  (forall x, In x l -> f x = Some (g x)) -> all_m f l = Some (forallb g l).
Proof.
  induction l; simpl; intros H; auto.
  rewrite H by auto; simpl. destruct (g a); simpl; auto.
Qed.

Lemma any_m_existsb {A} (f : A -> option bool) (g : A -> bool) l :
  (forall x, In x l -> f x = Some (g x)) -> any_m f l = Some (existsb g l).
Proof.
  induction l; simpl; intros H; auto.
  rewrite H by auto; simpl. destruct (g a); simpl; auto.
Qed.

Lemma fold_m_fold_left {A B} (f : A -> B -> option A) (g : A -> B -> A) l acc :
  (forall a x, In x l -> f a x = Some (g a x)) -> fold_m f l acc = Some (fold_left g l acc).
Proof.
  revert acc; induction l; simpl; intros acc H; auto.
  rewrite H by auto; simpl. apply IHl; auto.
Qed.

Lemma fold_left_add_Z {A} (g : A -> Z) l acc :
  (fold_left (fun a x => a + g x) l acc = acc + fold_right Z.add 0 (map g l))%Z.
Proof.
  revert acc; induction l; simpl; intros; [lia|]. rewrite IHl; lia.
Qed.

Lemma sum_m_sum {A} (f : A -> option Z) (g : A -> Z) l :
  (forall x, In x l -> f x = Some (g x)) ->
  sum_m f l = Some (fold_right Z.add 0%Z (map g l)).
Proof.
  intros; unfold sum_m.
  rewrite (fold_m_fold_left _ (fun a x => a + g x)%Z).
  - rewrite fold_left_add_Z. reflexivity.
  - intros; rewrite H; auto.
Qed.

Lemma in_range lo hi i : In i (range lo hi) <-> lo <= i < hi.
Proof. unfold range; rewrite in_seq; lia. Qed.

Lemma in_range_incl lo hi i : In i (range_incl lo hi) <-> lo <= i <= hi.
Proof. unfold range_incl; rewrite in_seq; lia. Qed.

Lemma wrap8_id z : (-128 <= z <= 127)%Z -> wrap8 z = z.
Proof. intros; unfold wrap8. rewrite Z.mod_small; lia. Qed.

Lemma wrap8_range z : (-128 <= wrap8 z <= 127)%Z.
Proof. unfold wrap8. pose proof (Z.mod_pos_bound (z+128) 256). lia. Qed.

Lemma wrap8_mod z : exists k, (wrap8 z = z + 256 * k)%Z.
Proof.
  unfold wrap8. exists (- ((z+128)/256))%Z.
  pose proof (Z.div_mod (z+128) 256). lia.
Qed.

Lemma vset_length {A} (v : list A) i x r : vset v i x = Some r -> length r = length v.
Proof.
  revert i r; induction v; simpl; intros i r H; try discriminate.
  destruct i; [inversion H; auto|].
  destruct (vset v i x) eqn:E; simpl in H; try discriminate. inversion H; subst; simpl.
  f_equal; eauto.
Qed.

Lemma vset_some {A} (v : list A) i x : i < length v -> exists r, vset v i x = Some r.
Proof.
  revert i; induction v; simpl; intros i H; [lia|].
  destruct i; eauto. destruct (IHv i) as [r Hr]; [lia|]. rewrite Hr; simpl; eauto.
Qed.

Lemma vset_nth {A} (v : list A) i x r d j :
  vset v i x = Some r -> nth j r d = if Nat.eqb j i then x else nth j v d.
Proof.
  revert i r j; induction v; simpl; intros i r j H; try discriminate.
  destruct i.
  - inversion H; subst. destruct j; reflexivity.
  - destruct (vset v i x) eqn:E; simpl in H; try discriminate. inversion H; subst.
    destruct j; simpl; auto.
Qed.

Lemma vset_none {A} (v : list A) i x : length v <= i -> vset v i x = None.
Proof.
  revert i; induction v; simpl; intros i H; auto.
  destruct i; [lia|]. rewrite IHv by lia. reflexivity.
Qed.

(* loops *)
Lemma loop_mono {S R} (step : S -> option (S + R)) f1 f2 s r :
  loop f1 step s = Some r -> f1 <= f2 -> loop f2 step s = Some r.
Proof.
  revert f2 s; induction f1; simpl; intros f2 s H Hle; try discriminate.
  destruct f2; [lia|]. simpl. destruct (step s) as [[s'|r']|]; auto. apply IHf1; auto; lia.
Qed.

Lemma runs_det {S R} (step : S -> option (S + R)) s r1 r2 :
  runs step s r1 -> runs step s r2 -> r1 = r2.
Proof.
  intros [f1 H1] [f2 H2].
  apply loop_mono with (f2 := f1 + f2) in H1; [|lia].
  apply loop_mono with (f2 := f1 + f2) in H2; [|lia]. congruence.
Qed.

Lemma runs_step {S R} (step : S -> option (S + R)) s s' r :
  step s = Some (inl s') -> runs step s' r -> runs step s r.
Proof. intros H [f Hf]; exists (Datatypes.S f); simpl; rewrite H; auto. Qed.

Lemma runs_done {S R} (step : S -> option (S + R)) s r :
  step s = Some (inr r) -> runs step s (Some r).
Proof. intros H; exists 1; simpl; rewrite H; auto. Qed.

Lemma runs_panic {S R} (step : S -> option (S + R)) s :
  step s = None -> runs step s None.
Proof. intros H; exists 1; simpl; rewrite H; auto. Qed.

Lemma list_ext {A} (d : A) l1 l2 :
  length l1 = length l2 -> (forall i, i < length l1 -> nth i l1 d = nth i l2 d) -> l1 = l2.
Proof. intros; apply nth_ext with (d := d) (d' := d); auto. Qed.

Lemma nth_map_seq {A} (f : nat -> A) n i d : i < n -> nth i (map f (seq 0 n)) d = f i.
Proof.
  intros. rewrite nth_indep with (d' := f 0) by (rewrite map_length, seq_length; auto).
  rewrite map_nth. rewrite seq_nth; auto.
Qed.

Lemma map_nth_seq {A} (l : list A) d : map (fun i => nth i l d) (seq 0 (length l)) = l.
Proof.
  apply list_ext with (d := d).
  - now rewrite map_length, seq_length.
  - intros i; rewrite map_length, seq_length; intros; now rewrite nth_map_seq.
Qed.
