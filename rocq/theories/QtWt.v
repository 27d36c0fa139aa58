(* C06, C07: the three types seen through verify. *)
From Coq Require Import List ZArith Lia Arith Bool.
From Verif Require Import Sums Quat ModelWilliamson Spec SeqFacts Convert GroupRing.
Open Scope nat_scope.

Lemma QT_iff_WT n q : pm_quad n q -> 1 <= n -> (is_QT q <-> is_WT q).
Proof.
  intros Hq Hn. split; [now apply (QT_WT n)|]. apply WT_QT.
Qed.

Lemma QT_WT_verify n q : pm_quad n q -> 1 <= n ->
  exists b, verify q QuaternionType = Some b /\ verify q WilliamsonType = Some b.
Proof.
  intros Hq Hn.
  destruct (verify_spec n q QuaternionType Hq Hn) as (b & E & H).
  destruct (verify_spec n q WilliamsonType Hq Hn) as (b' & E' & H').
  exists b. split; auto. rewrite E'. f_equal. apply bool_iff_eq.
  rewrite H, H'. symmetry. apply (QT_iff_WT n); auto.
Qed.

Lemma W_WT_verify n q : pm_quad n q -> 1 <= n ->
  verify q Williamson = Some true -> verify q WilliamsonType = Some true.
Proof.
  intros Hq Hn.
  destruct (verify_spec n q Williamson Hq Hn) as (b & -> & H).
  destruct (verify_spec n q WilliamsonType Hq Hn) as (b' & -> & H').
  intros E. inversion E; subst. f_equal. apply H', (W_WT n); [apply Hq|]. now apply H.
Qed.

Lemma WT_QT_verify n q : pm_quad n q -> 1 <= n ->
  verify q WilliamsonType = Some true -> verify q QuaternionType = Some true.
Proof.
  intros Hq Hn.
  destruct (verify_spec n q WilliamsonType Hq Hn) as (b & -> & H).
  destruct (verify_spec n q QuaternionType Hq Hn) as (b' & -> & H').
  intros E. inversion E; subst. f_equal. apply H', WT_QT. now apply H.
Qed.

Lemma other_types_rejected q t :
  t <> Williamson -> t <> WilliamsonType -> t <> QuaternionType -> verify q t = Some false.
Proof. destruct t; simpl; congruence. Qed.
