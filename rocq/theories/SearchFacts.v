(* Exhaustive search by filling a vector position by position, where setting a position may also set a
   partner position.  Generic in the values. *)
From Coq Require Import List ZArith Lia Arith Bool Permutation.
From Verif Require Import Base BaseFacts.
Import ListNotations.
Open Scope nat_scope.

Fixpoint upd {A} (v : list A) (i : nat) (x : A) : list A :=
  match v, i with
  | [], _ => []
  | _ :: r, 0 => x :: r
  | y :: r, S j => y :: upd r j x
  end.
Lemma upd_length {A} (v : list A) : forall i x, length (upd v i x) = length v.
Proof. induction v; intros [|i] x; cbn; auto. Qed.
Lemma vset_upd {A} (v : list A) : forall i x, i < length v -> vset v i x = Some (upd v i x).
Proof.
  induction v as [|y v IH]; intros [|i] x H; cbn in *; try lia; auto. rewrite IH by lia. reflexivity.
Qed.
Lemma nth_upd {A} (v : list A) d : forall i j x, i < length v ->
  nth j (upd v i x) d = if j =? i then x else nth j v d.
Proof.
  induction v as [|y v IH]; intros [|i] [|j] x H; cbn in *; try lia; auto. apply IH. lia.
Qed.
Lemma upd_in {A} (v : list A) : forall i x y, In y (upd v i x) -> y = x \/ In y v.
Proof.
  induction v as [|z v IH]; intros [|i] x y H; cbn in *; auto; destruct H as [<-|H]; auto.
  apply IH in H as [|]; auto.
Qed.

(* all words of length k, first letter varying slowest *)
Fixpoint words {V} (alpha : list V) (k : nat) : list (list V) :=
  match k with
  | 0 => [[]]
  | S k => flat_map (fun x => map (cons x) (words alpha k)) alpha
  end.
Lemma words_in {V} (alpha : list V) k : forall w, In w (words alpha k) <-> length w = k /\ incl w alpha.
Proof.
  induction k as [|k IH]; intros w; cbn.
  - split; [intros [<-|[]]; split; auto; intros ? []|]. intros [H _]. destruct w; [auto|discriminate].
  - rewrite in_flat_map. split.
    + intros (x & Hx & H). apply in_map_iff in H as (w' & <- & H). apply IH in H as [H1 H2].
      cbn. split; [lia|]. intros y [<-|Hy]; auto.
    + intros [H1 H2]. destruct w as [|x w]; [discriminate|]. cbn in H1. exists x. split; [apply H2; now left|].
      apply in_map. apply IH. split; [lia|]. intros y Hy. apply H2. now right.
Qed.
Lemma NoDup_app {A} (l m : list A) : NoDup l -> NoDup m -> (forall x, In x l -> ~ In x m) -> NoDup (l ++ m).
Proof.
  intros Hl Hm H. induction Hl as [|x l Hx Hl IH]; cbn; auto. constructor.
  - rewrite in_app_iff. intros [|]; [auto|]. apply (H x); cbn; auto.
  - apply IH. intros y Hy. apply H. now right.
Qed.
Lemma NoDup_map_inj {A B} (f : A -> B) l : (forall x y, In x l -> In y l -> f x = f y -> x = y) -> NoDup l -> NoDup (map f l).
Proof.
  intros Hf Hl. induction Hl as [|x l Hx Hl IH]; cbn; constructor.
  - intros H. apply in_map_iff in H as (y & E & Hy). apply Hf in E; cbn; auto. now subst.
  - apply IH. intros; apply Hf; cbn; auto.
Qed.
Lemma NoDup_flat_map {A B} (f : A -> list B) l : NoDup l -> (forall x, In x l -> NoDup (f x)) ->
  (forall x y z, In x l -> In y l -> In z (f x) -> In z (f y) -> x = y) -> NoDup (flat_map f l).
Proof.
  intros Hl Hf Hd. induction Hl as [|x l Hx Hl IH]; cbn; [constructor|]. apply NoDup_app.
  - apply Hf. now left.
  - apply IH; [intros; apply Hf; now right|]. intros; eapply Hd; cbn; eauto.
  - intros z Hz H. apply in_flat_map in H as (y & Hy & Hz'). apply Hx.
    rewrite (Hd x y z); cbn; auto.
Qed.
Lemma words_nodup {V} (alpha : list V) k : NoDup alpha -> NoDup (words alpha k).
Proof.
  intros Ha. induction k as [|k IH]; cbn; [repeat constructor; intros []|].
  apply NoDup_flat_map; auto.
  - intros x _. apply NoDup_map_inj; auto. intros; congruence.
  - intros x y z _ _ H1 H2. apply in_map_iff in H1 as (u & <- & _). apply in_map_iff in H2 as (w & E & _).
    congruence.
Qed.
Lemma words_length {V} (alpha : list V) k : length (words alpha k) = length alpha ^ k.
Proof.
  induction k as [|k IH]; cbn; auto. rewrite <- IH. generalize (words alpha k). clear IH. intros l.
  induction alpha as [|x al IH]; cbn; auto. rewrite app_length, map_length, IH. lia.
Qed.

Section Search.
  Context {V : Type} (d : V) (n m lo : nat) (partner : nat -> nat) (twist : nat -> V -> V).
  Context (Hm : m <= n)
    (Hp : forall k, lo <= k < m -> partner k < n /\ ((partner k = k /\ forall x, twist k x = x) \/ m <= partner k))
    (Hi : forall k k', lo <= k < m -> lo <= k' < m -> partner k = partner k' -> k = k').

  Definition put (v : list V) (k : nat) (x : V) : list V := upd (upd v k x) (partner k) (twist k x).
  Fixpoint fill (v : list V) (i : nat) (w : list V) : list V :=
    match w with [] => v | x :: w => fill (put v i x) (S i) w end.
  Definition untouched (i j : nat) : Prop := forall k, i <= k < m -> j <> k /\ j <> partner k.
  Definition agree (i : nat) (v v' : list V) : Prop :=
    length v = n /\ length v' = n /\ forall j, untouched i j -> nth j v d = nth j v' d.

  Lemma put_length v k x : length (put v k x) = length v.
  Proof. unfold put. now rewrite !upd_length. Qed.
  Lemma fill_length w : forall v i, length (fill v i w) = length v.
  Proof. induction w; intros; cbn; auto. now rewrite IHw, put_length. Qed.
  Lemma nth_put v k x j : length v = n -> lo <= k < m ->
    nth j (put v k x) d = if j =? partner k then twist k x else if j =? k then x else nth j v d.
  Proof.
    intros Hv Hk. unfold put. destruct (Hp k Hk) as [H1 _].
    rewrite !nth_upd; rewrite ?upd_length, ?Hv; try lia. reflexivity.
  Qed.
  Lemma put_own v k x : length v = n -> lo <= k < m -> nth k (put v k x) d = x.
  Proof.
    intros Hv Hk. rewrite nth_put by auto. destruct (Nat.eqb_spec k (partner k)) as [E|E].
    - destruct (Hp k Hk) as [_ [[_ H]|H]]; auto. lia.
    - now rewrite Nat.eqb_refl.
  Qed.
  Lemma put_partner v k x : length v = n -> lo <= k < m -> nth (partner k) (put v k x) d = twist k x.
  Proof. intros Hv Hk. rewrite nth_put by auto. now rewrite Nat.eqb_refl. Qed.
  Lemma put_other v k x j : length v = n -> lo <= k < m -> j <> k -> j <> partner k -> nth j (put v k x) d = nth j v d.
  Proof.
    intros Hv Hk H1 H2. rewrite nth_put by auto. now rewrite (proj2 (Nat.eqb_neq _ _) H2), (proj2 (Nat.eqb_neq _ _) H1).
  Qed.

  Lemma agree_refl i v : length v = n -> agree i v v.
  Proof. unfold agree; auto. Qed.
  Lemma agree_trans i u v w : agree i u v -> agree i v w -> agree i u w.
  Proof. intros (A & B & C) (D & E & F). split; auto. split; auto. intros j Hj. rewrite C, F; auto. Qed.
  Lemma agree_put i v x : length v = n -> lo <= i < m -> agree i v (put v i x).
  Proof.
    intros Hv Hk. split; auto. split; [now rewrite put_length|]. intros j Hj.
    destruct (Hj i) as [H1 H2]; [lia|]. symmetry. now apply put_other.
  Qed.
  Lemma agree_S i v v' : agree (S i) v v' -> agree i v v'.
  Proof. intros (A & B & C). split; auto. split; auto. intros j Hj. apply C. intros k Hk. apply Hj. lia. Qed.
  Lemma put_agree i v v' x : lo <= i < m -> agree i v v' -> agree (S i) (put v i x) (put v' i x).
  Proof.
    intros Hk (A & B & C). split; [now rewrite put_length|]. split; [now rewrite put_length|]. intros j Hj.
    rewrite !nth_put by auto. destruct (Nat.eqb_spec j (partner i)); auto. destruct (Nat.eqb_spec j i); auto.
    apply C. intros k Hk'. destruct (Nat.eq_dec k i) as [->|]; auto. apply Hj. lia.
  Qed.
  Lemma agree_end v v' : agree m v v' -> v = v'.
  Proof.
    intros (A & B & C). apply (nth_ext v v' d d); [congruence|]. intros j Hj. apply C. intros k Hk. lia.
  Qed.
  Lemma fill_agree w : forall i v v', lo <= i -> length w = m - i -> i <= m -> agree i v v' -> fill v i w = fill v' i w.
  Proof.
    induction w as [|x w IH]; intros i v v' Hl Hw Hi' Ha; cbn in *.
    - replace i with m in Ha by lia. now apply agree_end.
    - apply IH; try lia. apply put_agree; auto. lia.
  Qed.

  Lemma fill_other w : forall i v j, lo <= i -> length v = n -> i + length w = m -> untouched i j -> nth j (fill v i w) d = nth j v d.
  Proof.
    induction w as [|x w IH]; intros i v j Hl Hv Hw Hj; cbn in *; auto.
    rewrite IH; try lia; auto.
    - destruct (Hj i) as [H1 H2]; [lia|]. apply put_other; auto. lia.
    - now rewrite put_length.
    - intros k Hk. apply Hj. lia.
  Qed.
  Lemma fill_own w : forall i v k, lo <= i -> length v = n -> i + length w = m -> i <= k < m ->
    nth k (fill v i w) d = nth (k - i) w d /\ nth (partner k) (fill v i w) d = twist k (nth (k - i) w d).
  Proof.
    induction w as [|x w IH]; intros i v k Hl Hv Hw Hk; cbn in *; [lia|].
    destruct (Nat.eq_dec k i) as [->|Hne].
    - rewrite Nat.sub_diag. assert (untouched (S i) i) as U1.
      { intros k Hk'. split; [lia|]. destruct (Hp k) as [_ [[H _]|H]]; lia. }
      assert (untouched (S i) (partner i)) as U2.
      { intros k Hk'. split.
        - destruct (Hp i) as [_ [[H _]|H]]; lia.
        - intros E. apply Hi in E; lia. }
      rewrite !fill_other; try lia; rewrite ?put_length; auto.
      rewrite put_own, put_partner by (auto; lia). auto.
    - destruct (IH (S i) (put v i x) k) as [H1 H2]; try lia; rewrite ?put_length; auto.
      rewrite H1, H2. replace (k - i) with (S (k - S i)) by lia. auto.
  Qed.

  Lemma fill_inj v w w' : length v = n -> lo + length w = m -> lo + length w' = m -> fill v lo w = fill v lo w' -> w = w'.
  Proof.
    intros Hv Hw Hw' E. apply (nth_ext w w' d d); [lia|]. intros j Hj.
    destruct (fill_own w lo v (lo + j)) as [H1 _]; try lia; auto.
    destruct (fill_own w' lo v (lo + j)) as [H2 _]; try lia; auto.
    rewrite E in H1. rewrite H1 in H2. replace (lo + j - lo) with j in H2 by lia. auto.
  Qed.

  Lemma leaves_in alpha v u : length v = n -> lo <= m ->
    In u (map (fill v lo) (words alpha (m - lo))) <->
    length u = n /\ (forall k, lo <= k < m -> In (nth k u d) alpha /\ nth (partner k) u d = twist k (nth k u d)) /\
    (forall j, untouched lo j -> nth j u d = nth j v d).
  Proof.
    intros Hv Hlo. rewrite in_map_iff. split.
    - intros (w & <- & Hw). apply words_in in Hw as [Hw Ha]. rewrite fill_length. split; auto. split.
      + intros k Hk. destruct (fill_own w lo v k) as [-> ->]; try lia; auto. split; auto.
        apply Ha, nth_In. lia.
      + intros j Hj. apply fill_other; auto; lia.
    - intros (Hu & Hk & Ho). exists (map (fun k => nth k u d) (seq lo (m - lo))).
      set (w := map (fun k => nth k u d) (seq lo (m - lo))).
      assert (length w = m - lo) as Hw by (unfold w; now rewrite map_length, seq_length).
      assert (forall k, lo <= k < m -> nth (k - lo) w d = nth k u d) as Hn.
      { intros k Hk'. unfold w. rewrite nth_indep with (d' := nth 0 u d) by (rewrite map_length, seq_length; lia).
        rewrite (map_nth (fun k => nth k u d)), seq_nth by lia. f_equal. lia. }
      split.
      + apply (nth_ext _ _ d d); [rewrite fill_length; lia|]. intros j Hj.
        destruct (in_dec Nat.eq_dec j (seq lo (m - lo))) as [H|H].
        { apply in_seq in H. destruct (fill_own w lo v j) as [-> _]; try lia; auto. apply Hn. lia. }
        destruct (in_dec Nat.eq_dec j (map partner (seq lo (m - lo)))) as [H'|H'].
        { apply in_map_iff in H' as (k & <- & H'). apply in_seq in H'.
          destruct (fill_own w lo v k) as [_ ->]; try lia; auto. rewrite Hn by lia. symmetry. apply Hk. lia. }
        assert (untouched lo j) as U.
        { intros k Hk'. split; intros ->.
          - apply H, in_seq. lia.
          - apply H', in_map, in_seq. lia. }
        rewrite fill_other; auto; [|lia]. symmetry. now apply Ho.
      + apply words_in. split; auto. intros x Hx. unfold w in Hx. apply in_map_iff in Hx as (k & <- & Hx).
        apply in_seq in Hx. apply Hk. lia.
  Qed.

  Lemma leaves_nodup alpha v : length v = n -> lo <= m -> NoDup alpha ->
    NoDup (map (fill v lo) (words alpha (m - lo))).
  Proof.
    intros Hv Hlo Ha. apply NoDup_map_inj; [|now apply words_nodup]. intros w w' H1 H2 E.
    apply words_in in H1 as [H1 _]. apply words_in in H2 as [H2 _]. apply (fill_inj v); auto; lia.
  Qed.

  Lemma fill_words v i alpha : map (fill v i) (words alpha (S (m - S i))) =
    flat_map (fun x => map (fill (put v i x) (S i)) (words alpha (m - S i))) alpha.
  Proof.
    cbn [words]. induction alpha as [|x al IH] at 2 4; cbn [flat_map]; auto.
    rewrite map_app. rewrite map_map. cbn [fill]. f_equal. auto.
  Qed.
End Search.
