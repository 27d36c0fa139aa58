(* Conversions between quadruples, quaternion sequences and text; C03, C04, C05. *)
From Coq Require Import List ZArith Lia Arith Bool QArith Qcanon Ascii.
From Verif Require Import Base BaseFacts Sums Quat ModelSequence ModelWilliamson Spec SeqFacts QuatFacts.
Import ListNotations.
Open Scope nat_scope.

Definition injQ (z : Z) : Qc := Q2Qc (inject_Z z).

Lemma injQ_add a b : injQ (a + b) = (injQ a + injQ b)%Qc.
Proof. unfold injQ. apply Qc_is_canon. unfold Qcplus. cbn [this Q2Qc]. rewrite !Qred_correct. rewrite inject_Z_plus. reflexivity. Qed.
Lemma injQ_mul a b : injQ (a * b) = (injQ a * injQ b)%Qc.
Proof. unfold injQ. apply Qc_is_canon. unfold Qcmult. cbn [this Q2Qc]. rewrite !Qred_correct. rewrite inject_Z_mult. reflexivity. Qed.
Lemma injQ_opp a : injQ (- a) = (- injQ a)%Qc.
Proof. unfold injQ. apply Qc_is_canon. unfold Qcopp. cbn [this Q2Qc]. rewrite !Qred_correct. rewrite inject_Z_opp. reflexivity. Qed.
Lemma injQ_sub a b : injQ (a - b) = (injQ a - injQ b)%Qc.
Proof. unfold Z.sub, Qcminus. now rewrite injQ_add, injQ_opp. Qed.
Lemma injQ_0 : injQ 0 = 0%Qc.
Proof. apply Qc_is_canon. reflexivity. Qed.
Lemma injQ_inj a b : injQ a = injQ b -> a = b.
Proof.
  unfold injQ. intros E. apply (f_equal this) in E. cbn [this Q2Qc] in E.
  assert (inject_Z a == inject_Z b)%Q as K by (rewrite <- (Qred_correct (inject_Z a)), E; apply Qred_correct).
  now apply inject_Z_injective.
Qed.

(* the quaternion (a + bi + cj + dk) / 2 of four signs *)
Definition sgn_quat (a b c d : Z) : quat := qscale half (Quat (injQ a) (injQ b) (injQ c) (injQ d)).

Definition quad_quat (v : Z * Z * Z * Z) : quat :=
  let '(a, b, c, d) := v in qmul (qneg (qconj QQ)) (sgn_quat a b c d).

Definition pm (x : Z) : Prop := x = 1%Z \/ x = (-1)%Z.
Definition pm4 (v : Z * Z * Z * Z) : Prop := let '(a, b, c, d) := v in pm a /\ pm b /\ pm c /\ pm d.

Lemma to_qs_index_spec v : pm4 v ->
  exists k, to_qs_index v = Some k /\ k < 16 /\ vget QPLUS k = Some (quad_quat v).
Proof.
  destruct v as [[[a b] c] d]. intros (Ha & Hb & Hc & Hd).
  destruct Ha, Hb, Hc, Hd; subst; (eexists; split; [reflexivity|split; [lia|]]);
  simpl; f_equal; apply quat_eqb_eq; vm_compute; reflexivity.
Qed.

Lemma quaternion_to_quad_back v : pm4 v -> quaternion_to_quad (quad_quat v) = Some v.
Proof.
  destruct v as [[[a b] c] d]. intros (Ha & Hb & Hc & Hd).
  destruct Ha, Hb, Hc, Hd; subst; vm_compute; reflexivity.
Qed.

Lemma QPLUS_quad p : In p QPLUS -> exists v, pm4 v /\ quaternion_to_quad p = Some v /\ quad_quat v = p.
Proof.
  intros H.
  assert (Forall (fun p => match quaternion_to_quad p with
     | Some ((a, b, c, d) as v) => (forallb (fun x => (x =? 1) || (x =? -1))%Z [a; b; c; d] && quat_eqb (quad_quat v) p) = true
     | None => False end) QPLUS) as K.
  { repeat (constructor; [vm_compute; reflexivity|]). constructor. }
  rewrite Forall_forall in K. specialize (K p H).
  destruct (quaternion_to_quad p) as [[[[a b] c] d]|]; [|contradiction].
  apply andb_true_iff in K. destruct K as [K1 K2]. apply quat_eqb_eq in K2.
  simpl in K1. rewrite !andb_true_iff, !orb_true_iff, !Z.eqb_eq in K1.
  exists (a, b, c, d). unfold pm4, pm. intuition.
Qed.

Lemma quad_quat_QPLUS v : pm4 v -> In (quad_quat v) QPLUS.
Proof.
  intros H. destruct (to_qs_index_spec v H) as (k & _ & _ & E). unfold vget in E.
  eapply nth_error_In; eauto.
Qed.

Lemma traverse_map_map {A B C} (f : B -> option C) (h : A -> B) (g : A -> C) l :
  (forall x, In x l -> f (h x) = Some (g x)) -> traverse f (map h l) = Some (map g l).
Proof. induction l; simpl; intros H; auto. rewrite H by auto. simpl. now rewrite IHl by auto. Qed.

(* the loop of to_qs *)
Lemma vset_app {A} (l1 l2 : list A) x y : vset (l1 ++ y :: l2) (length l1) x = Some (l1 ++ x :: l2).
Proof. induction l1; simpl; auto. now rewrite IHl1. Qed.

Lemma fill_loop (g : nat -> quat) n k : k <= n ->
  forall f, (forall (s : QS) i, i < n -> f s i = QS_set_value s (g i) i) ->
  fold_m f (range 0 k) (QS_new n None) = Some (mkQS n (map g (seq 0 k) ++ repeat Q1 (n - k)) None).
Proof.
  intros Hk f Hf. rewrite range_0.
  assert (forall m j l, length l = j -> j + m <= n ->
    fold_m f (seq j m) (mkQS n (l ++ repeat Q1 (n - j)) None) =
    Some (mkQS n ((l ++ map g (seq j m)) ++ repeat Q1 (n - (j + m))) None)) as K.
  { induction m; intros j l Hl Hj; simpl.
    - rewrite app_nil_r, Nat.add_0_r. reflexivity.
    - rewrite Hf by lia. unfold QS_set_value. simpl.
      replace (n - j) with (S (n - S j)) by lia. simpl. rewrite <- Hl, vset_app. simpl. rewrite Hl.
      specialize (IHm (S j) (l ++ [g j])). rewrite <- app_assoc in IHm. simpl in IHm.
      rewrite IHm.
      + rewrite <- !app_assoc. simpl. replace (j + S m) with (S (j + m)) by lia. reflexivity.
      + rewrite app_length; simpl; lia.
      + lia. }
  specialize (K k 0 [] eq_refl ltac:(lia)). simpl in K. unfold QS_new.
  rewrite Nat.sub_0_r in K. exact K.
Qed.

Definition quad_at (q : QuadSeq) (i : nat) : Z * Z * Z * Z :=
  (nth i (q_a q) 0%Z, nth i (q_b q) 0%Z, nth i (q_c q) 0%Z, nth i (q_d q) 0%Z).

Lemma quad_at_pm n q i : pm_quad n q -> i < n -> pm4 (quad_at q i).
Proof.
  intros ((Hs & Ha & Hb & Hc & Hd) & Pa & Pb & Pc & Pd) Hi. unfold quad_at, pm4, pm.
  repeat split; apply pm1_nth; auto; lia.
Qed.

Lemma to_qs_spec n q : pm_quad n q ->
  to_qs q = Some (mkQS n (map (fun i => quad_quat (quad_at q i)) (seq 0 n)) None).
Proof.
  intros Hq. destruct Hq as [Hw Hp]. pose proof Hw as (Hs & _). unfold to_qs. rewrite Hs.
  rewrite (fill_loop (fun i => quad_quat (quad_at q i)) n n).
  - rewrite Nat.sub_diag. simpl. now rewrite app_nil_r.
  - auto.
  - intros s i Hi. rewrite (values_spec n) by auto. cbn [bind].
    destruct (to_qs_index_spec (quad_at q i) (quad_at_pm n q i (conj Hw Hp) Hi)) as (k & E & _ & E2).
    unfold quad_at in E at 1. rewrite E. cbn [bind]. rewrite E2. reflexivity.
Qed.

Lemma from_pqs_to_qs n q : pm_quad n q -> exists s, to_qs q = Some s /\ from_pqs s = Some q.
Proof.
  intros Hq. eexists; split; [apply (to_qs_spec n q Hq)|].
  destruct Hq as [Hw Hp]. pose proof Hw as (Hs & Ha & Hb & Hc & Hd).
  unfold from_pqs. cbn [qs_values qs_size].
  rewrite (traverse_map_map _ _ (quad_at q)).
  2:{ intros i Hi. apply in_seq in Hi. apply quaternion_to_quad_back.
      apply (quad_at_pm n); [split; auto|lia]. }
  cbn [bind].
  rewrite !map_map. unfold quad_at, set_all_values, Quad_new. simpl.
  f_equal. destruct q as [n' a b c d]; simpl in *; subst n'.
  f_equal; [rewrite <- Ha|rewrite <- Hb|rewrite <- Hc|rewrite <- Hd]; apply map_nth_seq.
Qed.

(* C03, second direction *)
Lemma quad_quat_inj v w : pm4 v -> pm4 w -> quad_quat v = quad_quat w -> v = w.
Proof.
  intros Hv Hw E. apply quaternion_to_quad_back in Hv, Hw. congruence.
Qed.

Definition quad_of (p : quat) : Z * Z * Z * Z :=
  match quaternion_to_quad p with Some v => v | None => (0, 0, 0, 0)%Z end.

Lemma from_pqs_spec s : (forall p, In p (qs_values s) -> In p QPLUS) ->
  from_pqs s = Some (mkQuad (qs_size s)
    (map (fun p => fst (fst (fst (quad_of p)))) (qs_values s)) (map (fun p => snd (fst (fst (quad_of p)))) (qs_values s))
    (map (fun p => snd (fst (quad_of p))) (qs_values s)) (map (fun p => snd (quad_of p)) (qs_values s))).
Proof.
  intros H. unfold from_pqs. rewrite (traverse_map _ quad_of).
  - cbn [bind]. rewrite !map_map. unfold set_all_values. simpl. do 2 f_equal;
    apply map_ext; intros p; destruct (quad_of p) as [[[? ?] ?] ?]; reflexivity.
  - intros p Hp. destruct (QPLUS_quad p (H p Hp)) as (v & _ & E & _). unfold quad_of. now rewrite E.
Qed.

Lemma to_qs_from_pqs s : length (qs_values s) = qs_size s ->
  (forall p, In p (qs_values s) -> In p QPLUS) ->
  exists q, from_pqs s = Some q /\ pm_quad (qs_size s) q /\
    to_qs q = Some (mkQS (qs_size s) (qs_values s) None).
Proof.
  intros Hl H. eexists; split; [apply from_pqs_spec; auto|].
  assert (forall p, In p (qs_values s) -> pm4 (quad_of p) /\ quad_quat (quad_of p) = p) as K.
  { intros p Hp. destruct (QPLUS_quad p (H p Hp)) as (v & Hv & E & E2). unfold quad_of. rewrite E. auto. }
  match goal with |- pm_quad _ ?x /\ _ => assert (pm_quad (qs_size s) x) as Hq end.
  { split; [unfold wf; simpl; rewrite !map_length; auto|].
    simpl. repeat split; unfold pm1; apply Forall_forall; intros x Hx; apply in_map_iff in Hx;
    destruct Hx as (p & <- & Hp); destruct (K p Hp) as [Hv _];
    destruct (quad_of p) as [[[a b] c] d]; simpl in *; unfold pm4, pm in Hv; tauto. }
  split; [exact Hq|]. rewrite (to_qs_spec _ _ Hq). do 2 f_equal.
  apply list_ext with (d := Q0); [now rewrite map_length, seq_length|].
  intros i. rewrite map_length, seq_length. intros Hi. rewrite nth_map_seq by auto.
  unfold quad_at. simpl.
  rewrite (nth_indep _ _ (fst (fst (fst (quad_of Q0))))) by (rewrite map_length; lia).
  rewrite (nth_indep (map (fun p => snd (fst (fst (quad_of p)))) _) _ (snd (fst (fst (quad_of Q0))))) by (rewrite map_length; lia).
  rewrite (nth_indep (map (fun p => snd (fst (quad_of p))) _) _ (snd (fst (quad_of Q0)))) by (rewrite map_length; lia).
  rewrite (nth_indep (map (fun p => snd (quad_of p)) _) _ (snd (quad_of Q0))) by (rewrite map_length; lia).
  rewrite (map_nth (fun p => fst (fst (fst (quad_of p)))) (qs_values s) Q0 i).
  rewrite (map_nth (fun p => snd (fst (fst (quad_of p)))) (qs_values s) Q0 i).
  rewrite (map_nth (fun p => snd (fst (quad_of p))) (qs_values s) Q0 i).
  rewrite (map_nth (fun p => snd (quad_of p)) (qs_values s) Q0 i).
  destruct (K (nth i (qs_values s) Q0)) as [_ E]; [apply nth_In; lia|].
  etransitivity; [|exact E]. destruct (quad_of (nth i (qs_values s) Q0)) as [[[? ?] ?] ?]. reflexivity.
Qed.

Lemma traverse_none_iff {A B} (f : A -> option B) l :
  traverse f l = None <-> exists x, In x l /\ f x = None.
Proof.
  induction l as [|a l IH]; simpl.
  - split; [discriminate|]. intros (x & [] & _).
  - destruct (f a) eqn:E; simpl.
    + destruct (traverse f l) eqn:F; simpl.
      * split; [discriminate|]. intros (x & [<-|Hx] & Ex); [congruence|].
        assert (Some l0 = None) by (apply IH; eauto). discriminate.
      * split; auto. intros _. destruct (proj1 IH eq_refl) as (x & Hx & Ex). eauto.
    + split; auto. intros _. eauto.
Qed.

Lemma QPLUS_iff_quad p : In p QPLUS <-> quaternion_to_quad p <> None.
Proof.
  split.
  - intros H. destruct (QPLUS_quad p H) as (v & _ & E & _). congruence.
  - unfold quaternion_to_quad. destruct (position _ Q24) as [i|] eqn:E; cbn [bind]; [|tauto].
    intros Hn. unfold vget in Hn. apply nth_error_Some in Hn. change (length QUADRUPLETS) with 16 in Hn.
    assert (forall (l : list quat) i, position (fun p' => quat_eqb p' p) l = Some i -> nth_error l i = Some p) as K.
    { clear. induction l as [|a l IH]; simpl; intros i; [discriminate|].
      destruct (quat_eqb a p) eqn:Ea.
      - intros H; inversion H; subst. apply quat_eqb_eq in Ea. now subst.
      - destruct (position _ l) as [j|] eqn:Ej; simpl; [|discriminate]. intros H; inversion H; subst. simpl. auto. }
    apply K in E. change Q24 with (QPLUS ++ skipn 16 Q24) in E.
    rewrite nth_error_app1 in E by (change (length QPLUS) with 16; lia). exact (nth_error_In QPLUS i E).
Qed.

Lemma from_pqs_none s : from_pqs s = None <-> exists p, In p (qs_values s) /\ ~ In p QPLUS.
Proof.
  unfold from_pqs. destruct (traverse quaternion_to_quad (qs_values s)) eqn:E; cbn [bind].
  - split; [discriminate|]. intros (p & Hp & Hn).
    assert (traverse quaternion_to_quad (qs_values s) = None); [|congruence].
    apply traverse_none_iff. exists p. split; auto.
    destruct (quaternion_to_quad p) eqn:F; auto. exfalso. apply Hn, QPLUS_iff_quad. congruence.
  - split; auto. intros _. apply traverse_none_iff in E. destruct E as (p & Hp & En).
    exists p. split; auto. rewrite QPLUS_iff_quad. tauto.
Qed.

(* C04 *)
Lemma letter_round c p :
  (let* i := position (Ascii.eqb c) Q24_STRING in vget Q24 i) = Some p -> quaternion_to_string p = Some c.
Proof.
  assert (forall (l : list ascii) i, position (Ascii.eqb c) l = Some i -> nth_error l i = Some c) as K.
  { clear. induction l as [|a l IH]; simpl; intros i; [discriminate|].
    destruct (Ascii.eqb_spec c a).
    - intros H; inversion H; subst. reflexivity.
    - destruct (position _ l) as [j|] eqn:Ej; simpl; [|discriminate]. intros H; inversion H; subst. simpl. auto. }
  destruct (position _ Q24_STRING) as [i|] eqn:E; simpl; [|discriminate].
  pose proof (K _ _ E) as E2. intros E3.
  assert (i < 24) as Hi.
  { assert (nth_error Q24_STRING i <> None) as H by congruence. apply nth_error_Some in H. exact H. }
  clear K E. unfold vget in E3.
  do 24 (destruct i as [|i]; [apply Some_inj in E2 || (injection E2 as <-); injection E3 as <-; vm_compute; reflexivity|]).
  lia.
Qed.

Lemma letter_back p : In p Q24 -> exists c, quaternion_to_string p = Some c /\
  (let* i := position (Ascii.eqb c) Q24_STRING in vget Q24 i) = Some p.
Proof.
  intros H.
  assert (Forall (fun p => match quaternion_to_string p with
     | Some c => match position (Ascii.eqb c) Q24_STRING with
                 | Some i => match vget Q24 i with Some p' => quat_eqb p' p = true | None => False end
                 | None => False end
     | None => False end) Q24) as K.
  { repeat (constructor; [vm_compute; reflexivity|]). constructor. }
  rewrite Forall_forall in K. specialize (K p H).
  destruct (quaternion_to_string p) as [c|]; [|contradiction]. exists c. split; auto.
  destruct (position _ Q24_STRING); [|contradiction]. simpl. destruct (vget Q24 n); [|contradiction].
  apply quat_eqb_eq in K. congruence.
Qed.

Lemma from_str_to_string s : (forall p, In p (qs_values s) -> In p Q24) ->
  exists txt, QS_to_string_raw s = Some txt /\
    QS_from_str txt = Some (mkQS (length (qs_values s)) (qs_values s) None).
Proof.
  intros H. unfold QS_to_string_raw, QS_from_str.
  assert (exists txt, traverse quaternion_to_string (qs_values s) = Some txt /\ length txt = length (qs_values s) /\
     traverse (fun c => let* i := position (Ascii.eqb c) Q24_STRING in vget Q24 i) txt = Some (qs_values s)) as (txt & E1 & E2 & E3).
  { induction (qs_values s) as [|p l IH].
    - exists []. auto.
    - destruct (letter_back p) as (c & Ec & Eb); [apply H; simpl; auto|].
      destruct IH as (txt & E1 & E2 & E3); [intros; apply H; simpl; auto|].
      exists (c :: txt). cbn [traverse]. rewrite Ec, E1, Eb, E3. simpl. auto. }
  exists txt. split; auto. rewrite E3. simpl. now rewrite E2.
Qed.

Lemma to_string_from_str txt s : QS_from_str txt = Some s ->
  QS_to_string_raw s = Some txt /\ qs_size s = length txt /\ length (qs_values s) = length txt
  /\ (forall p, In p (qs_values s) -> In p Q24).
Proof.
  unfold QS_from_str. destruct (traverse _ txt) as [v|] eqn:E; simpl; [|discriminate].
  intros H; inversion H; subst; clear H. unfold QS_to_string_raw. simpl.
  repeat split.
  - revert v E. induction txt as [|c txt IH]; cbn [traverse]; intros v E.
    + inversion E; subst. reflexivity.
    + destruct (let* i := position (Ascii.eqb c) Q24_STRING in vget Q24 i) as [p|] eqn:Ep; [|discriminate].
      cbn [bind] in E. destruct (traverse _ txt) as [ps|]; [|discriminate]. simpl in E. inversion E; subst.
      apply letter_round in Ep. simpl. rewrite Ep. simpl. now rewrite (IH ps eq_refl).
  - eapply traverse_length; eauto.
  - intros p Hp. destruct (traverse_in_some _ _ _ E p Hp) as (c & _ & Ec).
    destruct (position _ Q24_STRING); [|discriminate]. cbn [bind] in Ec. exact (nth_error_In Q24 _ Ec).
Qed.

Lemma from_str_none txt : QS_from_str txt = None <-> exists c, In c txt /\ ~ In c Q24_STRING.
Proof.
  assert (forall c, (let* i := position (Ascii.eqb c) Q24_STRING in vget Q24 i) = None <-> ~ In c Q24_STRING) as K.
  { intros c. split.
    - intros H Hin. assert (exists i, position (Ascii.eqb c) Q24_STRING = Some i /\ i < 24) as (i & Ei & Hi).
      { change 24 with (length Q24_STRING). clear H. induction Q24_STRING as [|a l IH]; [contradiction|]. simpl.
        destruct (Ascii.eqb_spec c a); [exists 0; split; auto; lia|].
        destruct Hin as [->|Hin]; [congruence|]. destruct (IH Hin) as (i & -> & Hi). exists (S i). split; auto. lia. }
      rewrite Ei in H. simpl in H. apply nth_error_None in H. change (length Q24) with 24 in H. lia.
    - intros H. destruct (position _ Q24_STRING) as [i|] eqn:E; auto. exfalso. apply H.
      clear H. revert i E. generalize Q24_STRING. induction l as [|a l IH]; simpl; [discriminate|]. intros i.
      destruct (Ascii.eqb_spec c a); auto. destruct (position _ l); [|discriminate]. right. eapply IH; eauto. }
  unfold QS_from_str. destruct (traverse _ txt) eqn:E; simpl.
  - split; [discriminate|]. intros (c & Hc & Hn).
    match type of E with ?t = _ => assert (t = None); [|congruence] end.
    apply traverse_none_iff. exists c. split; auto. apply K; auto.
  - split; auto. intros _. apply traverse_none_iff in E. destruct E as (c & Hc & En). exists c. split; auto. apply K; auto.
Qed.

(* C05 *)
Lemma qsum_quat n (f g h k : nat -> Z) :
  qsum n (fun i => Quat (injQ (f i)) (injQ (g i)) (injQ (h i)) (injQ (k i))) =
  Quat (injQ (sumZ n f)) (injQ (sumZ n g)) (injQ (sumZ n h)) (injQ (sumZ n k)).
Proof.
  induction n.
  - unfold qsum, sumZ. simpl. rewrite injQ_0. reflexivity.
  - rewrite qsum_S, IHn, !sumZ_S, !injQ_add. reflexivity.
Qed.

Definition sgn_at (q : QuadSeq) (i : Z) : quat :=
  sgn_quat (entry (q_a q) i) (entry (q_b q) i) (entry (q_c q) i) (entry (q_d q) i).

Definition quarter : Qc := (half * half)%Qc.

Lemma sgn_product a b c d a' b' c' d' :
  qmul (sgn_quat a b c d) (qconj (sgn_quat a' b' c' d')) =
  qscale quarter (Quat (injQ (a * a' + b * b' + c * c' + d * d'))
    (injQ (b * a' - a * b' + d * c' - c * d')) (injQ (c * a' - a * c' + b * d' - d * b'))
    (injQ (d * a' - a * d' + c * b' - b * c'))).
Proof.
  unfold sgn_quat, quarter, qmul, qconj, qscale. simpl.
  repeat rewrite ?injQ_add, ?injQ_sub, ?injQ_mul. f_equal; ring.
Qed.

Lemma ccf_sum n x y t : length x = n -> sumZ n (fun i => (entry x (Z.of_nat i) * entry y (Z.of_nat i + t))%Z) = ccf x y (- t).
Proof. intros <-. unfold ccf. apply sumZ_ext; intros. now rewrite Z.sub_opp_r. Qed.

Lemma sgn_corr n q t : wf n q ->
  qsum n (fun i => qmul (sgn_at q (Z.of_nat i)) (qconj (sgn_at q (Z.of_nat i + t)))) =
  qscale quarter (Quat
    (injQ (paf (q_a q) t + paf (q_b q) t + paf (q_c q) t + paf (q_d q) t))
    (injQ (ccf (q_b q) (q_a q) (-t) - ccf (q_a q) (q_b q) (-t) + ccf (q_d q) (q_c q) (-t) - ccf (q_c q) (q_d q) (-t)))
    (injQ (ccf (q_c q) (q_a q) (-t) - ccf (q_a q) (q_c q) (-t) + ccf (q_b q) (q_d q) (-t) - ccf (q_d q) (q_b q) (-t)))
    (injQ (ccf (q_d q) (q_a q) (-t) - ccf (q_a q) (q_d q) (-t) + ccf (q_c q) (q_b q) (-t) - ccf (q_b q) (q_c q) (-t)))).
Proof.
  intros (Hs & Ha & Hb & Hc & Hd).
  unfold sgn_at. erewrite qsum_ext; [|intros i Hi; apply sgn_product].
  rewrite <- qsum_scale. f_equal. rewrite qsum_quat.
  f_equal; f_equal; rewrite ?sumZ_add, ?sumZ_sub, ?sumZ_add, ?sumZ_sub.
  - unfold paf. rewrite Ha, Hb, Hc, Hd. reflexivity.
  - rewrite !ccf_sum by auto. reflexivity.
  - rewrite !ccf_sum by auto. reflexivity.
  - rewrite !ccf_sum by auto. reflexivity.
Qed.

Lemma quarter_neq0 : quarter <> 0%Qc.
Proof. intros E. apply (f_equal (fun x => Qc_eq_bool x 0)) in E. vm_compute in E. discriminate. Qed.

Lemma qscale_inj0 c p : c <> 0%Qc -> qscale c p = Q0 -> p = Q0.
Proof.
  destruct p as [s x y z]. intros Hc E.
  pose proof (f_equal q_s E) as E1. pose proof (f_equal q_x E) as E2.
  pose proof (f_equal q_y E) as E3. pose proof (f_equal q_z E) as E4. simpl in *.
  apply Qcmult_integral in E1, E2, E3, E4.
  unfold Q0. f_equal; tauto.
Qed.

Lemma qmul_unit_zero u p : unit_quat u -> (qmul (qmul u p) (qconj u) = Q0 <-> p = Q0).
Proof.
  intros Hu. split.
  - intros E. apply (f_equal (fun x => qmul (qmul (qconj u) x) u)) in E.
    rewrite !qmul_assoc, qconj_mul_self in E.
    replace (qmul (qmul (qmul (qscale (qnorm2 u) Q1) p) (qconj u)) u) with
      (qmul (qmul (qscale (qnorm2 u) Q1) p) (qmul (qconj u) u)) in E by (now rewrite !qmul_assoc).
    rewrite qconj_mul_self, Hu, !qscale_1, qmul_1_l, qmul_1_r, qmul_0_r, qmul_0_l in E. exact E.
  - intros ->. now rewrite qmul_0_r, qmul_0_l.
Qed.

Lemma unit_mQQ : unit_quat (qneg (qconj QQ)).
Proof. unfold unit_quat. apply Qc_eq_bool_iff. vm_compute. reflexivity. Qed.

Lemma qentry_to_qs n q i : wf n q -> n <> 0 ->
  qentry (map (fun i => quad_quat (quad_at q i)) (seq 0 n)) i = qmul (qneg (qconj QQ)) (sgn_at q i).
Proof.
  intros (Hs & Ha & Hb & Hc & Hd) Hn. unfold qentry. rewrite map_length, seq_length.
  rewrite nth_map_seq by now apply pos_lt.
  unfold quad_at, quad_quat, sgn_at, entry. rewrite Ha, Hb, Hc, Hd. reflexivity.
Qed.

Lemma QT_perfect n q : pm_quad n q -> 1 <= n ->
  exists s, to_qs q = Some s /\ length (qs_values s) = qs_size s /\ (is_QT q <-> perfect (qs_values s)).
Proof.
  intros Hq Hn. eexists; split; [apply (to_qs_spec n q Hq)|]. cbn [qs_values qs_size].
  split; [now rewrite map_length, seq_length|].
  destruct Hq as [Hw Hp].
  set (v := map _ _).
  assert (Hlen : length v = n) by (unfold v; now rewrite map_length, seq_length).
  assert (Hpaf : forall t, qpaf v t = Q0 <->
     (paf (q_a q) t + paf (q_b q) t + paf (q_c q) t + paf (q_d q) t = 0)%Z /\
     (ccf (q_b q) (q_a q) (-t) - ccf (q_a q) (q_b q) (-t) + ccf (q_d q) (q_c q) (-t) - ccf (q_c q) (q_d q) (-t) = 0)%Z /\
     (ccf (q_c q) (q_a q) (-t) - ccf (q_a q) (q_c q) (-t) + ccf (q_b q) (q_d q) (-t) - ccf (q_d q) (q_b q) (-t) = 0)%Z /\
     (ccf (q_d q) (q_a q) (-t) - ccf (q_a q) (q_d q) (-t) + ccf (q_c q) (q_b q) (-t) - ccf (q_b q) (q_c q) (-t) = 0)%Z).
  { intros t. unfold qpaf. rewrite Hlen.
    rewrite (qsum_ext n _ (fun i => qmul (qmul (qneg (qconj QQ)) (qmul (sgn_at q (Z.of_nat i)) (qconj (sgn_at q (Z.of_nat i + t))))) (qconj (qneg (qconj QQ))))).
    2:{ intros i Hi. unfold v. rewrite !(qentry_to_qs n) by (auto; lia). rewrite qconj_mul, !qmul_assoc. reflexivity. }
    rewrite qsum_mul_r, qsum_mul_l, qmul_unit_zero by apply unit_mQQ.
    rewrite (sgn_corr n) by auto.
    match goal with |- qscale _ (Quat (injQ ?x) (injQ ?y) (injQ ?z) (injQ ?w)) = _ <-> _ => set (X := x); set (Y := y); set (Z' := z); set (W := w) end.
    split.
    - intros E. apply qscale_inj0 in E; [|apply quarter_neq0]. unfold Q0 in E.
      assert (forall a b c d, Quat (injQ a) (injQ b) (injQ c) (injQ d) = Quat 0 0 0 0 -> a = 0 /\ b = 0 /\ c = 0 /\ d = 0)%Z as K.
      { intros a b c d E'. rewrite <- injQ_0 in E'.
        repeat split; apply injQ_inj; congruence. }
      apply K in E. exact E.
    - intros (-> & -> & -> & ->). rewrite injQ_0. apply qscale_0_r. }
  unfold is_QT, perfect, complementary. rewrite Hlen. destruct Hw as (Hs & Ha & Hb & Hc & Hd). rewrite Hs.
  split.
  - intros (H1 & H2) t Ht. apply Hpaf. specialize (H2 (-t)%Z). split; [apply H1; auto|]. lia.
  - intros H. split.
    + intros t Ht. apply Hpaf; auto.
    + apply (quaternion_identities_iff n); [unfold wf; auto|auto|].
      intros i Hi. destruct (Nat.eq_dec i 0) as [->|Hi0].
      * simpl Z.of_nat. rewrite (ccf_0_sym (q_a q) (q_b q)), (ccf_0_sym (q_a q) (q_c q)), (ccf_0_sym (q_a q) (q_d q)),
          (ccf_0_sym (q_d q) (q_c q)), (ccf_0_sym (q_b q) (q_d q)), (ccf_0_sym (q_c q) (q_b q)) by congruence. lia.
      * assert (0 < Z.of_nat n - Z.of_nat i < Z.of_nat n)%Z as Hb' by lia.
        destruct (proj1 (Hpaf _) (H _ Hb')) as (_ & E1 & E2 & E3).
        assert (forall x y, length x = n -> length y = n -> ccf x y (- (Z.of_nat n - Z.of_nat i)) = ccf x y (Z.of_nat i)) as K.
        { intros x y Hx Hy. rewrite <- (ccf_mod x y (- _)), <- (ccf_mod x y (Z.of_nat i)) by congruence.
          rewrite Hx. f_equal. replace (- (Z.of_nat n - Z.of_nat i))%Z with (Z.of_nat i + (-1) * Z.of_nat n)%Z by lia.
          apply Z.mod_add; lia. }
        rewrite !K in E1, E2, E3 by auto. lia.
Qed.

Lemma bool_iff_eq (b1 b2 : bool) : (b1 = true <-> b2 = true) -> b1 = b2.
Proof. destruct b1, b2; intuition congruence. Qed.

Lemma QT_verify_perfect n q : pm_quad n q -> 1 <= n ->
  exists s b, to_qs q = Some s /\ verify q QuaternionType = Some b /\ QS_is_perfect s = Some b.
Proof.
  intros Hq Hn. destruct (QT_perfect n q Hq Hn) as (s & E & L & H).
  destruct (verify_spec n q QuaternionType Hq Hn) as (b & Eb & Hb).
  destruct (is_perfect_spec s L) as (b' & Eb' & Hb').
  exists s, b. split; auto. split; auto. rewrite Eb'. f_equal. apply bool_iff_eq.
  rewrite Hb, Hb', <- H. reflexivity.
Qed.
