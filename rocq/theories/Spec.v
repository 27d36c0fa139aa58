(* Independent specification of the mathematical notions.  Nothing here refers to the model's
   functions; only the data type of quadruples is shared. *)
From Coq Require Import List ZArith Lia Arith Bool QArith Qcanon.
From Verif Require Import Sums Quat ModelWilliamson ModelSequence.
Import ListNotations.
Open Scope Z_scope.

(* entry i of a sequence, the index being read modulo the length *)
Definition entry (l : list Z) (i : Z) : Z := nth (pos (length l) i) l 0.

(* periodic autocorrelation and cross-correlation at shift t:
   sum_i l[i] l[i+t]   and   sum_i x[i] y[i-t] *)
Definition paf (l : list Z) (t : Z) : Z :=
  sumZ (length l) (fun i => entry l (Z.of_nat i) * entry l (Z.of_nat i + t)).
Definition ccf (x y : list Z) (t : Z) : Z :=
  sumZ (length x) (fun i => entry x (Z.of_nat i) * entry y (Z.of_nat i - t)).

Definition pm1 (l : list Z) : Prop := Forall (fun x => x = 1 \/ x = -1) l.

(* a well-formed quadruple of length n, and one with entries +-1 *)
Definition wf (n : nat) (q : QuadSeq) : Prop :=
  q_size q = n /\ length (q_a q) = n /\ length (q_b q) = n /\ length (q_c q) = n /\ length (q_d q) = n.
Definition pm_quad (n : nat) (q : QuadSeq) : Prop :=
  wf n q /\ pm1 (q_a q) /\ pm1 (q_b q) /\ pm1 (q_c q) /\ pm1 (q_d q).

Definition complementary (q : QuadSeq) : Prop :=
  forall t, 0 < t < Z.of_nat (q_size q) ->
    paf (q_a q) t + paf (q_b q) t + paf (q_c q) t + paf (q_d q) t = 0.

Definition amicable (x y : list Z) : Prop := forall t, ccf x y t = ccf y x t.

(* the three identities of quaternion-type sequences *)
Definition quaternion_identities (q : QuadSeq) : Prop :=
  forall t,
    ccf (q_a q) (q_b q) t - ccf (q_b q) (q_a q) t = ccf (q_d q) (q_c q) t - ccf (q_c q) (q_d q) t /\
    ccf (q_a q) (q_c q) t - ccf (q_c q) (q_a q) t = ccf (q_b q) (q_d q) t - ccf (q_d q) (q_b q) t /\
    ccf (q_a q) (q_d q) t - ccf (q_d q) (q_a q) t = ccf (q_c q) (q_b q) t - ccf (q_b q) (q_c q) t.

Definition symmetric (l : list Z) : Prop := forall i, entry l (- i) = entry l i.

Definition is_QT (q : QuadSeq) : Prop := complementary q /\ quaternion_identities q.
Definition is_WT (q : QuadSeq) : Prop :=
  complementary q /\
  amicable (q_a q) (q_b q) /\ amicable (q_a q) (q_c q) /\ amicable (q_a q) (q_d q) /\
  amicable (q_b q) (q_c q) /\ amicable (q_b q) (q_d q) /\ amicable (q_c q) (q_d q).
Definition is_W (q : QuadSeq) : Prop :=
  complementary q /\ symmetric (q_a q) /\ symmetric (q_b q) /\ symmetric (q_c q) /\ symmetric (q_d q).

Definition is_type (t : SequenceType) (q : QuadSeq) : Prop :=
  match t with
  | QuaternionType => is_QT q
  | WilliamsonType => is_WT q
  | Williamson => is_W q
  | _ => False
  end.

(* quaternion sequences *)
Definition qentry (l : list quat) (i : Z) : quat := nth (pos (length l) i) l Q0.
Definition qsum (n : nat) (f : nat -> quat) : quat := fold_right qadd Q0 (map f (seq 0 n)).

(* sum_i v[i] conj(v[i+t]) *)
Definition qpaf (l : list quat) (t : Z) : quat :=
  qsum (length l) (fun i => qmul (qentry l (Z.of_nat i)) (qconj (qentry l (Z.of_nat i + t)))).
(* sum_i conj(v[i]) v[i+t] *)
Definition qpaf_right (l : list quat) (t : Z) : quat :=
  qsum (length l) (fun i => qmul (qconj (qentry l (Z.of_nat i))) (qentry l (Z.of_nat i + t))).

(* the doubly infinite extension with v[i+n] = -v[i] *)
Definition odd_entry (l : list quat) (i : Z) : quat :=
  qscale (if Z.even (i / Z.of_nat (length l)) then 1%Qc else (-(1))%Qc) (qentry l i).
Definition qpaf_odd (l : list quat) (t : Z) : quat :=
  qsum (length l) (fun i => qmul (odd_entry l (Z.of_nat i)) (qconj (odd_entry l (Z.of_nat i + t)))).

Definition perfect (l : list quat) : Prop :=
  forall t, 0 < t < Z.of_nat (length l) -> qpaf l t = Q0.
Definition odd_perfect (l : list quat) : Prop :=
  forall t, 0 < t < Z.of_nat (length l) -> qpaf_odd l t = Q0.
Definition qsymmetric (l : list quat) : Prop := forall i, qentry l (- i) = qentry l i.

(* squared norm *)
Definition qnorm2 (p : quat) : Qc := (q_s p * q_s p + q_x p * q_x p + q_y p * q_y p + q_z p * q_z p)%Qc.
Definition unit_quat (p : quat) : Prop := qnorm2 p = 1%Qc.
