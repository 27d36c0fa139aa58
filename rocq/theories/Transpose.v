(* transpose (sequence.rs) is index negation; C52. *)
From Coq Require Import List ZArith Lia Arith Bool.
From Verif Require Import Base BaseFacts Sums ModelSequence.
Import ListNotations.
Open Scope nat_scope.

Section T.
  Context {A : Type}.
  Implicit Types v w : list A.

  Lemma swap_elems_spec v i j : i < length v -> j < length v ->
    exists w, swap_elems v i j = Some w /\ length w = length v /\
      forall k d, nth k w d = if k =? j then nth i v d else if k =? i then nth j v d else nth k v d.
  Proof.
    intros Hi Hj. destruct v as [|a v0] eqn:Ev; [simpl in Hi; lia|]. rewrite <- Ev in *. clear Ev v0.
    unfold swap_elems. rewrite (vget_nth v i a), (vget_nth v j a) by auto. cbn [bind].
    destruct (vset_some v i (nth j v a) Hi) as [v1 E1]. rewrite E1. cbn [bind].
    pose proof (vset_length _ _ _ _ E1) as L1.
    destruct (vset_some v1 j (nth i v a)) as [v2 E2]; [lia|]. exists v2.
    pose proof (vset_length _ _ _ _ E2) as L2.
    split; auto. split; [lia|]. intros k d.
    rewrite (vset_nth _ _ _ _ d k E2), (vset_nth _ _ _ _ d k E1).
    rewrite (nth_indep v a d Hi), (nth_indep v a d Hj).
    rewrite (Nat.eqb_sym k j), (Nat.eqb_sym k i). reflexivity.
  Qed.

  (* positions in (0, n) outside l..n-l have been mirrored, the others are untouched *)
  Definition mirrored v w (l : nat) : Prop :=
    length w = length v /\
    forall k d, k < length v ->
      nth k w d = if (k =? 0) || ((l <=? k) && (k <=? length v - l)) then nth k v d else nth (length v - k) v d.

  Lemma transpose_loop v : 1 <= length v -> forall m l w,
    length v - l - l < m -> 1 <= l -> l <= length v -> mirrored v w l ->
    exists r, runs transpose_step (w, l, length v - l) (Some r) /\ length r = length v /\
      forall k d, k < length v -> nth k r d = if k =? 0 then nth k v d else nth (length v - k) v d.
  Proof.
    intros Hn. induction m; intros l w Hm Hl Hl2 [Lw Hw]; [lia|].
    destruct (Nat.ltb_spec l (length v - l)) as [Hlt|Hge].
    - destruct (swap_elems_spec w l (length v - l)) as (w' & E & L' & N'); [lia|lia|].
      destruct (IHm (l + 1) w') as (r & R & Lr & Hr).
      + lia.
      + lia.
      + lia.
      + split; [lia|]. intros k d Hk. rewrite N'.
        destruct (Nat.eqb_spec k (length v - l)) as [->|H1].
        { rewrite Hw by lia. rewrite (proj2 (Nat.leb_le l l)) by lia. rewrite (proj2 (Nat.leb_le l (length v - l))) by lia.
          rewrite (proj2 (Nat.eqb_neq l 0)) by lia. simpl.
          rewrite (proj2 (Nat.eqb_neq (length v - l) 0)) by lia.
          rewrite (proj2 (Nat.leb_gt (length v - l) (length v - (l + 1)))) by lia. rewrite andb_false_r. simpl.
          f_equal; lia. }
        destruct (Nat.eqb_spec k l) as [->|H2].
        { rewrite Hw by lia. rewrite (proj2 (Nat.leb_le l (length v - l))), Nat.leb_refl by lia.
          rewrite orb_true_r.
          rewrite (proj2 (Nat.eqb_neq l 0)) by lia. rewrite (proj2 (Nat.leb_gt (l + 1) l)) by lia. reflexivity. }
        rewrite Hw by auto.
        destruct (Nat.eqb_spec k 0); simpl; auto.
        destruct (Nat.leb_spec l k), (Nat.leb_spec (l + 1) k), (Nat.leb_spec k (length v - l)), (Nat.leb_spec k (length v - (l + 1))); simpl; auto; lia.
      + exists r. split; auto. eapply runs_step; [|replace (length v - l - 1) with (length v - (l + 1)) by lia; exact R].
        unfold transpose_step. rewrite (proj2 (Nat.ltb_lt l (length v - l))) by lia. rewrite E. cbn [bind].
        replace (length v - l - 1) with (length v - (l + 1)) by lia. reflexivity.
    - exists w. split; [|split; auto].
      + apply runs_done. unfold transpose_step. rewrite (proj2 (Nat.ltb_ge l (length v - l))) by lia. reflexivity.
      + intros k d Hk. rewrite Hw by auto. destruct (Nat.eqb_spec k 0); simpl; auto.
        destruct (Nat.leb_spec l k), (Nat.leb_spec k (length v - l)); simpl; auto. f_equal; lia.
  Qed.

  Lemma transpose_spec v : 1 <= length v ->
    exists st r, transpose_init v = Some st /\ runs transpose_step st (Some r) /\ length r = length v /\
      forall (i : Z) d, nth (pos (length v) (- i)) r d = nth (pos (length v) i) v d.
  Proof.
    intros Hn. unfold transpose_init. rewrite (proj2 (Nat.leb_le 1 _) Hn). cbn [guard].
    destruct (transpose_loop v Hn (S (length v)) 1 v) as (r & R & L & H); try lia.
    { split; auto. intros k d Hk. destruct (Nat.eqb_spec k 0); simpl; auto.
      rewrite (proj2 (Nat.leb_le k (length v - 1))) by lia. destruct k; [lia|]. reflexivity. }
    eexists; exists r. split; [reflexivity|]. split; auto. split; auto.
    intros i d. pose proof (pos_lt (length v) (- i) ltac:(lia)). pose proof (pos_lt (length v) i ltac:(lia)).
    rewrite H by auto.
    pose proof (pos_mod (length v) i ltac:(lia)) as M1. pose proof (pos_mod (length v) (- i) ltac:(lia)) as M2.
    destruct (Z.eq_dec (i mod Z.of_nat (length v)) 0) as [E|E].
    - rewrite Z.mod_opp_l_z in M2 by lia. replace (pos (length v) (-i)) with 0 by lia. simpl. f_equal; lia.
    - rewrite Z.mod_opp_l_nz in M2 by lia.
      assert (pos (length v) (- i) <> 0) by lia. rewrite (proj2 (Nat.eqb_neq _ _)) by auto. f_equal; lia.
  Qed.

  Lemma transpose_det v r1 r2 st : transpose_init v = Some st ->
    runs transpose_step st (Some r1) -> runs transpose_step st (Some r2) -> r1 = r2.
  Proof. intros _ H1 H2. pose proof (runs_det _ _ _ _ H1 H2). congruence. Qed.

  Lemma transpose_involutive v st r : transpose_init v = Some st -> runs transpose_step st (Some r) ->
    exists st', transpose_init r = Some st' /\ runs transpose_step st' (Some v).
  Proof.
    intros E R. assert (1 <= length v) as Hn.
    { unfold transpose_init, guard in E. destruct (Nat.leb_spec 1 (length v)); [auto|discriminate]. }
    destruct (transpose_spec v Hn) as (st0 & r0 & E0 & R0 & L0 & H0).
    assert (st0 = st) by congruence; subst st0.
    assert (r0 = r) by (eapply transpose_det; eauto); subst r0.
    destruct (transpose_spec r) as (st1 & r1 & E1 & R1 & L1 & H1); [lia|].
    exists st1. split; auto. replace v with r1; auto.
    destruct v as [|a v0]; [simpl in Hn; lia|].
    apply list_ext with (d := a); [lia|]. intros k Hk. rewrite L0 in *.
    specialize (H1 (- Z.of_nat k)%Z a). specialize (H0 (Z.of_nat k) a).
    rewrite Z.opp_involutive, pos_of_nat in H1 by lia. rewrite H1, H0, pos_of_nat by lia. reflexivity.
  Qed.
End T.
