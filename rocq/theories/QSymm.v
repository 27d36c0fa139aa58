(* Symmetric quaternion sequences. *)
From Coq Require Import List ZArith Lia Arith Bool QArith Qcanon.
From Verif Require Import Base BaseFacts Sums Quat ModelSequence ModelWilliamson Spec SeqFacts QuatFacts Convert.
Import ListNotations.
Open Scope nat_scope.

Lemma qsymmetric_iff n l : length l = n -> 1 <= n ->
  qsymmetric l <-> (forall t, 1 <= t < (n + 1) / 2 -> nth t l Q0 = nth (n - t) l Q0).
Proof.
  intros Hl Hn.
  assert (E : forall t, 0 < t < n -> qentry l (- Z.of_nat t) = nth (n - t) l Q0).
  { intros t Ht. rewrite <- qentry_nat by lia. apply qentry_periodic. rewrite Hl.
    replace (Z.of_nat (n - t)) with (- Z.of_nat t + 1 * Z.of_nat n)%Z by lia. rewrite Z.mod_add by lia. reflexivity. }
  pose proof (Nat.div_mod (n + 1) 2 ltac:(lia)). pose proof (Nat.mod_upper_bound (n + 1) 2 ltac:(lia)).
  split.
  - intros K t Ht. rewrite <- E by lia. rewrite K. rewrite qentry_nat; auto; lia.
  - intros H1. refine (all_shifts n (fun i => qentry l (- i) = qentry l i) Hn _ _).
    + intros t Ht. rewrite (qentry_periodic l (- t) (- (t mod Z.of_nat n))).
      * rewrite Ht. apply qentry_periodic. rewrite Hl. apply Z.mod_mod. lia.
      * rewrite Hl. apply mod_opp_cong. rewrite Z.mod_mod; lia.
    + intros i Hi. destruct (Nat.eq_dec i 0) as [->|]; [reflexivity|]. rewrite E by lia. rewrite qentry_nat by lia.
      destruct (le_lt_dec ((n + 1) / 2) i).
      * destruct (Nat.eq_dec (n - i) i) as [->|]; [reflexivity|]. rewrite H1 by lia. f_equal; lia.
      * symmetry. apply H1. lia.
Qed.

Theorem QS_is_symmetric_spec (q : QS) : length (qs_values q) = qs_size q ->
  exists b, QS_is_symmetric q = Some b /\ (b = true <-> qsymmetric (qs_values q)).
Proof.
  intros H. unfold QS_is_symmetric. set (n := qs_size q) in *.
  destruct (Nat.eq_dec n 0) as [Z0|Z0].
  { exists true. rewrite Z0. split; [reflexivity|]. split; auto. intros _ i. unfold qentry. destruct (qs_values q); [|cbn in H; lia].
    now destruct (pos _ (- i)), (pos _ i). }
  pose proof (Nat.div_mod (n + 1) 2 ltac:(lia)). pose proof (Nat.mod_upper_bound (n + 1) 2 ltac:(lia)).
  rewrite (all_m_forallb _ (fun t => quat_eqb (nth t (qs_values q) Q0) (nth (n - t) (qs_values q) Q0))).
  2:{ intros t Ht. apply in_range in Ht. unfold vget. rewrite !(nth_error_nth' _ Q0) by lia. reflexivity. }
  eexists; split; [reflexivity|]. rewrite forallb_range_iff. rewrite (qsymmetric_iff n) by (auto; lia).
  split; intros K t Ht; specialize (K t Ht); now apply quat_eqb_eq.
Qed.

Theorem to_qs_symmetric n q : pm_quad n q -> 1 <= n ->
  exists s, to_qs q = Some s /\ (qsymmetric (qs_values s) <-> symmetric (q_a q) /\ symmetric (q_b q) /\ symmetric (q_c q) /\ symmetric (q_d q)).
Proof.
  intros Hq Hn. eexists; split; [apply (to_qs_spec n q Hq)|]. cbn [qs_values].
  assert (N : forall t, t < n -> nth t (map (fun i => quad_quat (quad_at q i)) (seq 0 n)) Q0 = quad_quat (quad_at q t)).
  { intros t Ht. rewrite (nth_indep _ Q0 (quad_quat (quad_at q 0))) by (rewrite map_length, seq_length; auto).
    rewrite (map_nth (fun i => quad_quat (quad_at q i))), seq_nth by auto. reflexivity. }
  assert (Hw := proj1 Hq). destruct Hw as (Hs & Ha & Hb & Hc & Hd).
  pose proof (Nat.div_mod (n + 1) 2 ltac:(lia)). pose proof (Nat.mod_upper_bound (n + 1) 2 ltac:(lia)).
  rewrite (qsymmetric_iff n) by (rewrite ?map_length, ?seq_length; auto). rewrite !(symmetric_iff n) by auto.
  pose proof (Nat.div_mod n 2 ltac:(lia)). pose proof (Nat.mod_upper_bound n 2 ltac:(lia)).
  split.
  - intros K. assert (K' : forall t, 1 <= t <= n / 2 -> quad_at q t = quad_at q (n - t)).
    { intros t Ht. destruct (Nat.eq_dec t (n - t)) as [<-|]; [reflexivity|].
      apply quad_quat_inj; [apply (quad_at_pm n); auto; lia|apply (quad_at_pm n); auto; lia|]. rewrite <- !N by lia. apply K. lia. }
    repeat split; intros t Ht; specialize (K' t Ht); unfold quad_at in K'; congruence.
  - intros (A & B & C & D) t Ht. rewrite !N by lia. f_equal. unfold quad_at. rewrite A, B, C, D by lia. reflexivity.
Qed.

(* the two symmetry tests agree *)
Theorem symmetric_tests_agree n q : pm_quad n q -> 1 <= n ->
  exists s b, to_qs q = Some s /\ is_symmetric q = Some b /\ QS_is_symmetric s = Some b.
Proof.
  intros Hq Hn. destruct (to_qs_symmetric n q Hq Hn) as (s & E & H). destruct (is_symmetric_spec n q (proj1 Hq) Hn) as (b & Eb & Hb).
  destruct (QS_is_symmetric_spec s) as (b' & Eb' & Hb').
  { rewrite (to_qs_spec n q Hq) in E. injection E as <-. cbn. now rewrite map_length, seq_length. }
  exists s, b. split; auto. split; auto. rewrite Eb'. f_equal. destruct b, b'; auto.
  - apply Hb', H, Hb. reflexivity.
  - symmetry. apply Hb, H, Hb'. reflexivity.
Qed.
