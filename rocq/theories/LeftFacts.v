(* For sequences over the 24 units, right and left perfection coincide. *)
From Coq Require Import List ZArith QArith Qcanon Lia Arith Bool Ring.
From Verif Require Import Base BaseFacts Sums Quat QuatFacts ModelSequence Spec SeqFacts GroupRing
  ModelMatrices SpecMatrix MatFacts QhmFacts.
Import ListNotations.
Open Scope nat_scope.
Notation length := List.length.

(* the quaternion (a + b i + c j + d k) / k *)
Definition iq (k : positive) (a b c d : Z) : quat := Quat (Q2Qc (a # k)) (Q2Qc (b # k)) (Q2Qc (c # k)) (Q2Qc (d # k)).
Definition dbl (x : Qc) : Z := (2 * Qnum (this x) / Zpos (Qden (this x)))%Z.
Lemma Q24_iq p : In p Q24 -> p = iq 2 (dbl (q_s p)) (dbl (q_x p)) (dbl (q_y p)) (dbl (q_z p)).
Proof.
  assert (forallb (fun p => quat_eqb p (iq 2 (dbl (q_s p)) (dbl (q_x p)) (dbl (q_y p)) (dbl (q_z p)))) Q24 = true) as H by (vm_compute; reflexivity).
  intros Hp. rewrite forallb_forall in H. apply quat_eqb_eq. now apply H.
Qed.
Lemma frac_add a b k : (Q2Qc (a # k) + Q2Qc (b # k) = Q2Qc ((a + b) # k))%Qc.
Proof. apply Qc_is_canon. unfold Qcplus. rewrite !this_Q2Qc. unfold Qeq, Qplus. cbn [Qnum Qden]. nia. Qed.
Lemma frac_opp a k : (- Q2Qc (a # k) = Q2Qc ((- a) # k))%Qc.
Proof. apply Qc_is_canon. unfold Qcopp. rewrite !this_Q2Qc. reflexivity. Qed.
Lemma frac_mul a b : (Q2Qc (a # 2) * Q2Qc (b # 2) = Q2Qc ((a * b) # 4))%Qc.
Proof. apply Qc_is_canon. unfold Qcmult. rewrite !this_Q2Qc. reflexivity. Qed.
Lemma frac_sub a b k : (Q2Qc (a # k) - Q2Qc (b # k) = Q2Qc ((a - b) # k))%Qc.
Proof. unfold Qcminus. now rewrite frac_opp, frac_add. Qed.
Lemma frac_0 a k : Q2Qc (a # k) = 0%Qc <-> a = 0%Z.
Proof.
  split; [|intros ->; apply Qc_is_canon; rewrite this_Q2Qc; reflexivity].
  intros E. assert (a # k == 0)%Q as Q by (rewrite <- (this_Q2Qc (a # k)); now rewrite E). unfold Qeq in Q. cbn in Q. lia.
Qed.
Lemma frac_inj a b k : Q2Qc (a # k) = Q2Qc (b # k) -> a = b.
Proof. intros E. assert (a - b = 0)%Z; [|lia]. apply (frac_0 (a - b) k). rewrite <- frac_sub, E. ring. Qed.
Lemma iq_add k a b c d a' b' c' d' : qadd (iq k a b c d) (iq k a' b' c' d') = iq k (a + a') (b + b') (c + c') (d + d').
Proof. unfold qadd, iq. cbn [q_s q_x q_y q_z]. now rewrite !frac_add. Qed.
Lemma iq_sum k n (fa fb fc fd : nat -> Z) : qsum n (fun i => iq k (fa i) (fb i) (fc i) (fd i)) = iq k (sumZ n fa) (sumZ n fb) (sumZ n fc) (sumZ n fd).
Proof.
  induction n as [|n IH].
  - cbn. unfold iq. unfold Q0. f_equal; symmetry; now apply frac_0.
  - rewrite qsum_S, IH, iq_add, !sumZ_S. reflexivity.
Qed.
Lemma iq_right a b c d a' b' c' d' : qmul (iq 2 a b c d) (qconj (iq 2 a' b' c' d')) =
  iq 4 (a * a' + b * b' + c * c' + d * d') (b * a' - a * b' + d * c' - c * d')
       (c * a' - a * c' + b * d' - d * b') (d * a' - a * d' + c * b' - b * c').
Proof.
  unfold qmul, qconj, iq. cbn [q_s q_x q_y q_z]. rewrite !frac_opp, !frac_mul, ?frac_add, ?frac_sub, ?frac_add, ?frac_sub, ?frac_add, ?frac_sub.
  f_equal; f_equal; f_equal; lia.
Qed.
Lemma iq_left a b c d a' b' c' d' : qmul (qconj (iq 2 a' b' c' d')) (iq 2 a b c d) =
  iq 4 (a * a' + b * b' + c * c' + d * d') (b * a' - a * b' + c * d' - d * c')
       (c * a' - a * c' + d * b' - b * d') (d * a' - a * d' + b * c' - c * b').
Proof.
  unfold qmul, qconj, iq. cbn [q_s q_x q_y q_z]. rewrite !frac_opp, !frac_mul, ?frac_add, ?frac_sub, ?frac_add, ?frac_sub, ?frac_add, ?frac_sub.
  f_equal; f_equal; f_equal; lia.
Qed.
Lemma iq_0 k a b c d : iq k a b c d = Q0 <-> a = 0%Z /\ b = 0%Z /\ c = 0%Z /\ d = 0%Z.
Proof.
  unfold iq, Q0. split.
  - intros [= E1 E2 E3 E4]. rewrite <- (frac_0 a k), <- (frac_0 b k), <- (frac_0 c k), <- (frac_0 d k).
    repeat split; apply Qc_is_canon; rewrite this_Q2Qc; apply Qred_eq_iff; assumption.
  - intros (-> & -> & -> & ->). f_equal; now apply frac_0.
Qed.

Section Left.
  Context (v : list quat) (H24 : Forall (fun p => In p Q24) v) (Hv : v <> []).
  Let n := length v.
  Let A := map (fun p => dbl (q_s p)) v.
  Let B := map (fun p => dbl (q_x p)) v.
  Let C := map (fun p => dbl (q_y p)) v.
  Let D := map (fun p => dbl (q_z p)) v.
  Lemma n_pos : n <> 0. Proof. unfold n. destruct v; cbn; congruence. Qed.
  Lemma entry_map (g : quat -> Z) i : entry (map g v) i = g (qentry v i).
  Proof.
    unfold entry, qentry. rewrite map_length. rewrite nth_indep with (d' := g Q0) by (rewrite map_length; apply pos_lt, n_pos).
    apply map_nth.
  Qed.
  Lemma qentry_24 i : In (qentry v i) Q24.
  Proof. unfold qentry. apply (proj1 (Forall_forall _ _) H24). apply nth_In, pos_lt, n_pos. Qed.
  Lemma qentry_iq i : qentry v i = iq 2 (entry A i) (entry B i) (entry C i) (entry D i).
  Proof. unfold A, B, C, D. rewrite !entry_map. apply Q24_iq, qentry_24. Qed.
  Lemma len_map (g : quat -> Z) : length (map g v) = n. Proof. apply map_length. Qed.

  Definition lcorr (t : Z) : quat := qsum n (fun i => qmul (qconj (qentry v (Z.of_nat i - t))) (qentry v (Z.of_nat i))).
  Ltac sums := unfold ccf, A, B, C, D; rewrite !map_length; fold n; rewrite <- ?sumZ_add, <- ?sumZ_sub, <- ?sumZ_add, <- ?sumZ_sub, <- ?sumZ_add.
  Lemma right_iq t : qpaf v (- t) = iq 4 (ccf A A t + ccf B B t + ccf C C t + ccf D D t)
     (ccf B A t - ccf A B t + ccf D C t - ccf C D t) (ccf C A t - ccf A C t + ccf B D t - ccf D B t)
     (ccf D A t - ccf A D t + ccf C B t - ccf B C t).
  Proof.
    unfold qpaf. fold n.
    rewrite (qsum_ext n _ (fun i => _)) by (intros i Hi; rewrite (qentry_iq (Z.of_nat i)), (qentry_iq (Z.of_nat i + - t)); apply iq_right).
    rewrite iq_sum. f_equal; unfold ccf, A, B, C, D; rewrite !map_length; fold n; rewrite ?sumZ_add, ?sumZ_sub, ?sumZ_add, ?sumZ_sub; reflexivity.
  Qed.
  Lemma left_iq t : lcorr t = iq 4 (ccf A A t + ccf B B t + ccf C C t + ccf D D t)
     (ccf B A t - ccf A B t + ccf C D t - ccf D C t) (ccf C A t - ccf A C t + ccf D B t - ccf B D t)
     (ccf D A t - ccf A D t + ccf B C t - ccf C B t).
  Proof.
    unfold lcorr.
    rewrite (qsum_ext n _ (fun i => _)) by (intros i Hi; rewrite (qentry_iq (Z.of_nat i)), (qentry_iq (Z.of_nat i - t)); apply iq_left).
    rewrite iq_sum. f_equal; unfold ccf, A, B, C, D; rewrite !map_length; fold n; rewrite ?sumZ_add, ?sumZ_sub, ?sumZ_add, ?sumZ_sub; reflexivity.
  Qed.

  Lemma right_to_left : perfect v -> forall t, (t mod Z.of_nat n <> 0)%Z -> lcorr t = Q0.
  Proof.
    intros P. pose proof n_pos as Hn0. assert (1 <= n) as Hn by lia.
    assert (forall t, qpaf v (- t) = iq 4 (if (t mod Z.of_nat n =? 0)%Z then 4 * Z.of_nat n else 0) 0 0 0) as R.
    { intros t. rewrite <- qpaf_mod by exact Hn0. fold n. destruct (Z.eqb_spec (t mod Z.of_nat n) 0) as [E|E].
      - assert ((- t) mod Z.of_nat n = 0)%Z as -> by (apply Z.mod_opp_l_z; lia).
        rewrite qpaf_0 by (intros p Hp; apply Q24_norm, (proj1 (Forall_forall _ _) H24); exact Hp).
        fold n. unfold qscale, Q1, iq. cbn [q_s q_x q_y q_z].
        assert (Q2Qc (0 # 4) = 0%Qc) as -> by now apply frac_0.
        assert (Q2Qc (4 * Z.of_nat n # 4) = qc_of_nat n) as ->.
        { apply Qc_is_canon. unfold qc_of_nat. rewrite !this_Q2Qc. unfold Qeq, inject_Z. cbn [Qnum Qden]. lia. }
        f_equal; ring.
      - rewrite P.
        + symmetry. apply iq_0. auto.
        + fold n. assert ((- t) mod Z.of_nat n <> 0)%Z.
          { intros K. apply E. rewrite <- (Z.opp_involutive t). apply Z.mod_opp_l_z; lia. }
          pose proof (Z.mod_pos_bound (- t) (Z.of_nat n)). lia. }
    assert (forall t, (ccf A A t + ccf B B t + ccf C C t + ccf D D t = (if (t mod Z.of_nat n =? 0)%Z then 4 * Z.of_nat n else 0) /\
     ccf B A t - ccf A B t + ccf D C t - ccf C D t = 0 /\ ccf C A t - ccf A C t + ccf B D t - ccf D B t = 0 /\
     ccf D A t - ccf A D t + ccf C B t - ccf B C t = 0)%Z) as R'.
    { intros t. specialize (R t). rewrite right_iq in R. 
      pose proof (f_equal q_s R) as E1. pose proof (f_equal q_x R) as E2. pose proof (f_equal q_y R) as E3. pose proof (f_equal q_z R) as E4.
      unfold iq in E1, E2, E3, E4. cbn [q_s q_x q_y q_z] in E1, E2, E3, E4. apply frac_inj in E1, E2, E3, E4. auto. }
    pose (a := ofl n A (len_map _)). pose (b := ofl n B (len_map _)). pose (c := ofl n C (len_map _)). pose (d := ofl n D (len_map _)).
    destruct (quaternion_swap n Hn a b c d (rstar n a) (rstar n b) (rstar n c) (rstar n d) (rconst n (4 * Z.of_nat n)) (4 * Z.of_nat n)) as (G1 & G2 & G3).
    - reflexivity.
    - lia.
    - apply (r_ext n Hn); intros i. rewrite !at_add, !mul_star, at_const by exact Hn. apply R'.
    - apply (r_ext n Hn); intros i. rewrite !at_sub, !at_add, at_sub, !mul_star, at_0 by exact Hn. apply R'.
    - apply (r_ext n Hn); intros i. rewrite !at_sub, !at_add, at_sub, !mul_star, at_0 by exact Hn. apply R'.
    - apply (r_ext n Hn); intros i. rewrite !at_sub, !at_add, at_sub, !mul_star, at_0 by exact Hn. apply R'.
    - intros t Ht. rewrite left_iq. apply iq_0.
      assert (forall x y : Rn n, rmul n (rstar n x) y = rmul n y (rstar n x)) as SC by (intros; apply (Rmul_comm (Rn_ring n Hn))).
      rewrite !SC in G1, G2, G3.
      apply (f_equal (fun x => at_ n x t)) in G1, G2, G3.
      rewrite !at_sub, !at_add, at_sub, !mul_star, at_0 in G1, G2, G3 by exact Hn.
      unfold a, b, c, d, ofl in G1, G2, G3. cbn [proj1_sig] in G1, G2, G3.
      destruct (R' t) as (E0 & _). rewrite (proj2 (Z.eqb_neq _ _) Ht) in E0.
      repeat split; auto; lia.
  Qed.
End Left.

Lemma conj_entry v i : v <> [] -> qentry (map qconj v) i = qconj (qentry v i).
Proof.
  intros Hv. assert (length v <> 0) by (destruct v; cbn; congruence). unfold qentry. rewrite map_length.
  rewrite nth_indep with (d' := qconj Q0) by (rewrite map_length; now apply pos_lt). apply map_nth.
Qed.
(* the left autocorrelation of v is the right autocorrelation of its conjugate *)
Lemma lcorr_qpaf v t : v <> [] -> lcorr v t = qconj (qpaf (map qconj v) (- t)) .
Proof.
  intros Hv. unfold lcorr, qpaf. rewrite map_length, qsum_conj. apply qsum_ext. intros i Hi.
  rewrite !conj_entry by auto. rewrite qconj_mul, !qconj_conj. reflexivity.
Qed.
Lemma perfect_conj v : Forall (fun p => In p Q24) v -> perfect v -> perfect (map qconj v).
Proof.
  intros H24 P. destruct v as [|x v]; [intros t Ht; cbn in Ht; lia|]. intros t Ht. rewrite map_length in Ht.
  pose proof (lcorr_qpaf (x :: v) (- t) ltac:(discriminate)) as E. rewrite Z.opp_involutive in E.
  rewrite (right_to_left (x :: v)) in E; auto; try discriminate.
  - rewrite <- (qconj_conj (qpaf _ t)). rewrite <- E. apply qconj_0.
  - intros K. set (N := Z.of_nat (length (x :: v))) in *. apply Z.mod_divide in K as [c Hc]; [|lia].
    destruct (Z.eq_dec c 0) as [->|]; [lia|]. nia.
Qed.
Lemma perfect_conj_iff v : Forall (fun p => In p Q24) v -> (perfect v <-> perfect (map qconj v)).
Proof.
  intros H24. split; [now apply perfect_conj|]. intros P.
  rewrite <- (map_id v). rewrite (map_ext _ (fun p => qconj (qconj p))) by (intros; now rewrite qconj_conj).
  rewrite <- map_map. apply perfect_conj; auto. apply Forall_forall. intros p Hp. apply in_map_iff in Hp as (q & <- & Hq).
  apply Q24_conj. now apply (proj1 (Forall_forall _ _) H24).
Qed.
