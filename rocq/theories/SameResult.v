(* The result files do not depend on the options nor on iteration orders. *)
From Coq Require Import Ascii String List ZArith Lia Arith Bool Relations Permutation.
From Verif Require Import Base BaseFacts Sums Quat ModelSequence ModelWilliamson ModelEquivalence ModelMatching ModelRowsum ModelWrite
  SpecEquiv EquivFacts TypeFacts OrderFacts CanonFacts WriteFacts FolderFacts SearchThms DriverFacts SpecSearch Spec.
Import ListNotations.
Notation length := List.length.
Open Scope nat_scope.

Lemma one_per_class_incl n t r r' : one_per_class n t r -> one_per_class n t r' -> forall x, In x r -> In x r'.
Proof.
  intros (_ & A & _) (_ & A' & B') x Hx. destruct (A x Hx) as (Px & Tx & Lx).
  destruct (B' x Px Tx) as (x' & I' & R' & _). destruct (A' x' I') as (Px' & _ & Lx').
  replace x with x'; auto. symmetry. apply (least_reach_iff n (type_ops t) x x'); auto using pm_i8.
Qed.
Lemma one_per_class_perm n t r r' : one_per_class n t r -> one_per_class n t r' -> Permutation r r'.
Proof.
  intros H H'. apply NoDup_Permutation; [apply H|apply H'|]. intros x. split; [now apply (one_per_class_incl n t)|now apply (one_per_class_incl n t)].
Qed.
Lemma one_per_class_W_incl n r r' : one_per_class_W n r -> one_per_class_W n r' -> forall x, In x r -> In x r'.
Proof.
  intros (_ & A & _) (_ & A' & B') x Hx. destruct (A x Hx) as (q & Pq & Tq & Lx).
  destruct (B' q Pq Tq) as (x' & I' & R' & _). destruct (A' x' I') as (q' & Pq' & _ & Lx').
  replace x with x'; auto. symmetry. apply (least_reach_iff n (type_ops WilliamsonType) q q'); auto using pm_i8.
  apply rt_trans with x'; auto. apply (reach_sym n); [now apply pm_i8|apply Lx'].
Qed.
Lemma one_per_class_W_perm n r r' : one_per_class_W n r -> one_per_class_W n r' -> Permutation r r'.
Proof.
  intros H H'. apply NoDup_Permutation; [apply H|apply H'|]. intros x. split; [now apply (one_per_class_W_incl n)|now apply (one_per_class_W_incl n)].
Qed.

Lemma Forall2_perm {A B} (R : A -> B -> Prop) l l' o o' : (forall x y y', R x y -> R x y' -> y = y') ->
  Permutation l l' -> Forall2 R l o -> Forall2 R l' o' -> Permutation o o'.
Proof.
  intros U HP. revert o o'. induction HP as [|x l l' _ IH|x y l|l l1 l2 H1 IH1 H2 IH2]; intros o o' F F'.
  - inversion F; subst. inversion F'; subst. constructor.
  - inversion F as [|? b ? o1 Rb F1]; subst. inversion F' as [|? b' ? o1' Rb' F1']; subst. rewrite (U x b b') by auto. constructor. now apply IH.
  - inversion F as [|? b ? o1 Rb F1]; subst. inversion F1 as [|? c ? o2 Rc F2]; subst.
    inversion F' as [|? c' ? o1' Rc' F1']; subst. inversion F1' as [|? b' ? o2' Rb' F2']; subst.
    rewrite (U y b b'), (U x c c') by auto.
    assert (E : o2 = o2').
    { clear -F2 F2' U. revert o2' F2'. induction F2; intros o2' F2'; inversion F2'; subst; auto. f_equal; eauto. }
    subst. apply perm_swap.
  - assert (exists o1, Forall2 R l1 o1) as (o1 & F1).
    { clear -F H1. revert o F. induction H1 as [|x l l' _ IH|x y l|l l1 l2 _ IHa _ IHb]; intros o F.
      - exists []. constructor.
      - inversion F as [|? b ? o1 Rb F1]; subst. destruct (IH _ F1) as (o2 & F2). exists (b :: o2). now constructor.
      - inversion F as [|? b ? o1 Rb F1]; subst. inversion F1 as [|? c ? o2 Rc F2]; subst. exists (c :: b :: o2). now repeat constructor.
      - destruct (IHa _ F) as (o1 & F1). now apply (IHb o1). }
    transitivity o1; eauto.
Qed.
Lemma line_of_quad_fun q x y : line_of_quad q x -> line_of_quad q y -> x = y.
Proof. intros (v & A & B) (v' & A' & B'). congruence. Qed.

Theorem driver_same n t m m' p p' ls ls' ord ord' : 1 <= n <= 31 -> three_types t -> any_listing ls -> any_listing ls' ->
  ord_ok ord -> ord_ok ord' -> (exists q, pm_quad n q /\ is_type t q) ->
  exists fuel0, forall fuel fuel' path path', fuel0 <= fuel -> fuel0 <= fuel' ->
    exists out ext out' ext', driver fuel ord path ls t n m p = Some (out, ext) /\ driver fuel' ord' path' ls' t n m' p' = Some (out', ext') /\
      Permutation out out' /\
      match ext, ext' with Some e, Some e' => Permutation e e' | None, None => True | _, _ => False end.
Proof.
  intros Hn Ht Hl Hl' Ho Ho' Hq. destruct Ht as [->|[->| ->]].
  - destruct (driver_QT n m p ls ord Hn Hl Ho Hq) as (f & H). destruct (driver_QT n m' p' ls' ord' Hn Hl' Ho' Hq) as (f' & H').
    exists (max f f'). intros fuel fuel' path path' F F'.
    destruct (H fuel path ltac:(lia)) as (r & out & E & C & L). destruct (H' fuel' path' ltac:(lia)) as (r' & out' & E' & C' & L').
    exists out, None, out', None. split; auto. split; auto. split; auto.
    apply (Forall2_perm line_of_quad r r'); auto; [exact line_of_quad_fun|]. now apply (one_per_class_perm n QuaternionType).
  - destruct (driver_WT n m p ls ord Hn Hl Ho Hq) as (f & H). destruct (driver_WT n m' p' ls' ord' Hn Hl' Ho' Hq) as (f' & H').
    exists (max f f'). intros fuel fuel' path path' F F'.
    destruct (H fuel path ltac:(lia)) as (r & out & s & ext & E & C & L & D & M).
    destruct (H' fuel' path' ltac:(lia)) as (r' & out' & s' & ext' & E' & C' & L' & D' & M').
    exists out, (Some ext), out', (Some ext'). split; auto. split; auto. split.
    + apply (Forall2_perm line_of_quad r r'); auto; [exact line_of_quad_fun|]. now apply (one_per_class_perm n WilliamsonType).
    + apply (Forall2_perm line_of_quad s s'); auto; [exact line_of_quad_fun|]. now apply (one_per_class_perm n QuaternionType).
  - destruct (driver_W n m p ls ord Hn Hl Ho Hq) as (f & H). destruct (driver_W n m' p' ls' ord' Hn Hl' Ho' Hq) as (f' & H').
    exists (max f f'). intros fuel fuel' path path' F F'.
    destruct (H fuel path ltac:(lia)) as (r & out & E & C & L). destruct (H' fuel' path' ltac:(lia)) as (r' & out' & E' & C' & L').
    exists out, None, out', None. split; auto. split; auto. split; auto.
    apply (Forall2_perm line_of_quad r r'); auto; [exact line_of_quad_fun|]. now apply (one_per_class_W_perm n).
Qed.
