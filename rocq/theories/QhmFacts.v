(* Proofs about quaternionic matrices (QHM). *)
From Coq Require Import List ZArith QArith Qcanon Lia Arith Bool Ascii.
From Verif Require Import Base BaseFacts Sums Quat QuatFacts ModelSequence ModelWilliamson Spec SeqFacts
  ModelMatrices SpecMatrix MatFacts.
Import ListNotations.
Open Scope nat_scope.
Notation length := List.length.

(* ---- the 24 units ---- *)
Definition in24 (p : quat) : bool := existsb (quat_eqb p) Q24.
Lemma in24_iff p : in24 p = true <-> In p Q24.
Proof.
  unfold in24. rewrite existsb_exists. split.
  - intros (x & Hx & E). apply quat_eqb_eq in E. now subst.
  - intros H. exists p. split; auto. now apply quat_eqb_eq.
Qed.
Lemma Q24_mul p q : In p Q24 -> In q Q24 -> In (qmul p q) Q24.
Proof.
  assert (forallb (fun p => forallb (fun q => in24 (qmul p q)) Q24) Q24 = true) as H by (vm_compute; reflexivity).
  intros Hp Hq. rewrite forallb_forall in H. specialize (H p Hp). rewrite forallb_forall in H. apply in24_iff. now apply H.
Qed.
Lemma Q24_conj p : In p Q24 -> In (qconj p) Q24.
Proof.
  assert (forallb (fun p => in24 (qconj p)) Q24 = true) as H by (vm_compute; reflexivity).
  intros Hp. rewrite forallb_forall in H. apply in24_iff. now apply H.
Qed.
Lemma Q24_norm p : In p Q24 -> qnorm2 p = 1%Qc.
Proof.
  assert (forallb (fun p => Qc_eq_bool (qnorm2 p) 1%Qc) Q24 = true) as H by (vm_compute; reflexivity).
  intros Hp. rewrite forallb_forall in H. apply Qc_eq_bool_iff. now apply H.
Qed.
Lemma unit_mul_conj p : qnorm2 p = 1%Qc -> qmul p (qconj p) = Q1.
Proof. intros H. rewrite qmul_conj, H. apply qscale_1. Qed.
Lemma unit_conj_mul p : qnorm2 p = 1%Qc -> qmul (qconj p) p = Q1.
Proof. intros H. rewrite qconj_mul_self, H. apply qscale_1. Qed.

(* halves of integers *)
Definition halfint (x : Qc) : Prop := exists k : Z, x = Q2Qc (k # 2).
Lemma this_Q2Qc q : (this (Q2Qc q) == q)%Q.
Proof. apply Qred_correct. Qed.
Lemma halfint_add x y : halfint x -> halfint y -> halfint (x + y)%Qc.
Proof.
  intros [a ->] [b ->]. exists (a + b)%Z. apply Qc_is_canon. unfold Qcplus. rewrite !this_Q2Qc. unfold Qeq, Qplus. cbn. lia.
Qed.
Lemma halfint_opp x : halfint x -> halfint (- x)%Qc.
Proof. intros [a ->]. exists (- a)%Z. apply Qc_is_canon. unfold Qcopp. rewrite !this_Q2Qc. unfold Qeq, Qopp. cbn. lia. Qed.
Lemma halfint_nat n : halfint (qc_of_nat n).
Proof. exists (2 * Z.of_nat n)%Z. apply Qc_is_canon. unfold qc_of_nat. rewrite !this_Q2Qc. unfold Qeq, inject_Z. cbn [Qnum Qden]. lia. Qed.
Definition qhalf (p : quat) : Prop := halfint (q_s p) /\ halfint (q_x p) /\ halfint (q_y p) /\ halfint (q_z p).
Lemma Q24_half p : In p Q24 -> qhalf p.
Proof.
  assert (forallb (fun x => existsb (fun k => Qc_eq_bool x (Q2Qc (k # 2))) [0; 1; -1; 2; -2]%Z)
    (flat_map (fun p => [q_s p; q_x p; q_y p; q_z p]) Q24) = true) as H by (vm_compute; reflexivity).
  intros Hp. rewrite forallb_forall in H.
  assert (forall x, In x [q_s p; q_x p; q_y p; q_z p] -> halfint x) as K.
  { intros x Hx. specialize (H x). rewrite existsb_exists in H. destruct H as (k & _ & E).
    - apply in_flat_map. eauto.
    - exists k. now apply Qc_eq_bool_iff. }
  repeat split; apply K; cbn; auto.
Qed.
Lemma qhalf_add p q : qhalf p -> qhalf q -> qhalf (qadd p q).
Proof. intros (? & ? & ? & ?) (? & ? & ? & ?). repeat split; cbn; now apply halfint_add. Qed.
Lemma qhalf_sum n f : (forall i, i < n -> qhalf (f i)) -> qhalf (qsum n f).
Proof.
  induction n as [|n IH]; intros H.
  - change (qsum 0 f) with Q0. repeat split; exists 0%Z; apply Qc_is_canon; reflexivity.
  - rewrite qsum_S. apply qhalf_add; [apply IH; intros|]; apply H; lia.
Qed.

Lemma tolerance_zero x : halfint x -> qc_ltb (qc_abs x) f32_tolerance = Qc_eq_bool x 0%Qc.
Proof.
  intros [k ->]. destruct (Z.eq_dec k 0) as [->|Hk]; [reflexivity|].
  assert (Qc_eq_bool (Q2Qc (k # 2)) 0%Qc = false) as ->.
  { destruct (Qc_eq_bool _ _) eqn:E; auto. apply Qc_eq_bool_iff in E. exfalso.
    assert (k # 2 == 0)%Q as Q. { rewrite <- (this_Q2Qc (k # 2)). now rewrite E. }
    unfold Qeq in Q. cbn in Q. lia. }
  unfold qc_ltb. destruct (Qclt_le_dec _ _) as [H|H]; auto. exfalso. unfold qc_abs in H.
  destruct (Qclt_le_dec (Q2Qc (k # 2)) 0) as [L|L].
  - unfold Qclt, Qcopp, f32_tolerance in *. rewrite ?this_Q2Qc in H. rewrite ?this_Q2Qc in L.
    unfold Qlt, Qopp in *. cbn [Qnum Qden] in *. lia.
  - unfold Qclt, Qcle, f32_tolerance in *. rewrite ?this_Q2Qc in H. rewrite ?this_Q2Qc in L.
    unfold Qlt, Qle in *. cbn [Qnum Qden] in *. lia.
Qed.

(* ---- verification ---- *)
Definition entries_in24 (m : list (list quat)) : Prop := Forall (Forall (fun p => In p Q24)) m.
Lemma qhm_inner_spec n x y : length x = n -> length y = n -> qhm_inner n x y = Some (qdot x y).
Proof.
  intros Lx Ly. unfold qhm_inner, qdot. rewrite Lx.
  apply for_m_states with (st := fun k => qsum k (fun i => qmul (nth i x Q0) (qconj (nth i y Q0)))); auto.
  intros i Hi. rewrite (vget_nth x i Q0), (vget_nth y i Q0) by lia. cbn [bind]. replace (i + 1) with (S i) by lia. now rewrite qsum_S.
Qed.
Lemma qdot_tab n f i j : i < n -> j < n -> qdot (nth i (tab n f) []) (nth j (tab n f) []) = qsum n (fun k => qmul (f i k) (qconj (f j k))).
Proof.
  intros Hi Hj. unfold qdot. rewrite !tab_row, map_length, seq_length by auto. apply qsum_ext. intros k Hk. now rewrite !nth_map_seq.
Qed.
Definition c0 := cell Q1.
Lemma in24_cell n m i j : square n m -> entries_in24 m -> i < n -> j < n -> In (c0 m i j) Q24.
Proof.
  intros [L S] H Hi Hj.
  assert (In (nth i m []) m) as Hr by (apply nth_In; lia).
  pose proof (proj1 (Forall_forall _ _) S _ Hr) as Lr. pose proof (proj1 (Forall_forall _ _) H _ Hr) as H'. cbn in Lr.
  apply (proj1 (Forall_forall _ _) H'). apply nth_In. lia.
Qed.
Lemma entries_tab n f : (forall i j, i < n -> j < n -> In (f i j) Q24) -> entries_in24 (tab n f).
Proof.
  intros H. apply Forall_forall. intros r Hr. apply in_map_iff in Hr as (i & <- & Hi). apply in_seq in Hi.
  apply Forall_forall. intros x Hx. apply in_map_iff in Hx as (j & <- & Hj). apply in_seq in Hj. apply H; lia.
Qed.

Lemma tol_match (same : bool) n r : qhalf r ->
  (if same then qc_ltb (qc_abs (q_s r - qc_of_nat n)%Qc) f32_tolerance else qc_ltb (qc_abs (q_s r)) f32_tolerance) &&
  (qc_ltb (qc_abs (q_x r)) f32_tolerance && qc_ltb (qc_abs (q_y r)) f32_tolerance && qc_ltb (qc_abs (q_z r)) f32_tolerance)
  = quat_eqb r (if same then qscale (qc_of_nat n) Q1 else Q0).
Proof.
  intros (Hs & Hx & Hy & Hz). rewrite !(tolerance_zero (q_x r)), !(tolerance_zero (q_y r)), !(tolerance_zero (q_z r)) by auto.
  assert (forall a b, Qc_eq_bool (a - b)%Qc 0%Qc = Qc_eq_bool a b) as Esub.
  { intros a b. apply eq_true_iff_eq. rewrite !Qc_eq_bool_iff. split; [intros E|intros ->; ring].
    replace a with (a - b + b)%Qc by ring. rewrite E. ring. }
  unfold quat_eqb. destruct same.
  - rewrite tolerance_zero by (unfold Qcminus; apply halfint_add; auto; apply halfint_opp, halfint_nat). rewrite Esub.
    cbn [q_s q_x q_y q_z qscale Q1].
    replace (qc_of_nat n * 1)%Qc with (qc_of_nat n) by ring. replace (qc_of_nat n * 0)%Qc with 0%Qc by ring.
    destruct (Qc_eq_bool (q_s r) (qc_of_nat n)), (Qc_eq_bool (q_x r) 0), (Qc_eq_bool (q_y r) 0), (Qc_eq_bool (q_z r) 0); reflexivity.
  - rewrite tolerance_zero by auto. cbn [q_s q_x q_y q_z Q0].
    destruct (Qc_eq_bool (q_s r) 0), (Qc_eq_bool (q_x r) 0), (Qc_eq_bool (q_y r) 0), (Qc_eq_bool (q_z r) 0); reflexivity.
Qed.

Lemma QHM_verify_spec n h : qhm_size h = n -> square n (qhm_matrix h) -> entries_in24 (qhm_matrix h) ->
  exists b, QHM_verify h = Some b /\ (b = true <-> qhadamard n (qhm_matrix h)).
Proof.
  intros Hs Sq H24. unfold QHM_verify. rewrite Hs. set (m := qhm_matrix h) in *.
  rewrite (all_m_forallb _ (fun i => forallb (fun j => quat_eqb (qdot (nth i m []) (nth j m []))
     (if i =? j then qscale (qc_of_nat n) Q1 else Q0)) (range 0 n))).
  - eexists. split; [reflexivity|]. rewrite forallb_forall. unfold qhadamard. split.
    + intros H. split; auto. intros i j Hi Hj. specialize (H i ltac:(apply in_range; lia)). rewrite forallb_forall in H.
      apply quat_eqb_eq. apply H. apply in_range; lia.
    + intros [_ H] i Hi. apply in_range in Hi. apply forallb_forall. intros j Hj. apply in_range in Hj.
      apply quat_eqb_eq. apply H; lia.
  - intros i Hi. apply in_range in Hi. apply all_m_forallb. intros j Hj. apply in_range in Hj.
    destruct Sq as [L S].
    assert (forall k, k < n -> length (nth k m []) = n) as Lr by (intros k Hk; apply (proj1 (Forall_forall _ _) S); apply nth_In; lia).
    unfold QHM_row. fold m. rewrite (vget_nth m i []), (vget_nth m j []) by lia. cbn [bind].
    rewrite qhm_inner_spec by (apply Lr; lia). cbn [bind]. f_equal. apply tol_match.
    unfold qdot. rewrite Lr by lia. apply qhalf_sum. intros k Hk. apply Q24_half. apply Q24_mul; [|apply Q24_conj].
    + rewrite nth_indep with (d' := Q1) by (rewrite Lr; lia). apply (in24_cell n); auto; try lia. now split.
    + rewrite nth_indep with (d' := Q1) by (rewrite Lr; lia). apply (in24_cell n); auto; try lia. now split.
Qed.

(* ---- circulant matrix of a sequence ---- *)
Definition qcirc (v : list quat) (i j : nat) : quat := qentry v (Z.of_nat j - Z.of_nat i).
Lemma from_pqs_spec q : length (qs_values q) = qs_size q ->
  QHM_from_pqs q = Some (mkQHM (qs_size q) (tab (qs_size q) (qcirc (qs_values q)))).
Proof.
  intros L. unfold QHM_from_pqs. set (n := qs_size q) in *. set (v := qs_values q) in *.
  rewrite (vbuild_map n _ (fun i => map (qcirc v i) (seq 0 n))); [reflexivity|].
  intros i Hi. apply vbuild_map. intros j Hj.
  rewrite (vget_nth v _ Q0) by (rewrite L; apply Nat.mod_upper_bound; lia). f_equal. unfold qcirc.
  rewrite <- L. rewrite <- qentry_mod_nat by lia. apply qentry_periodic. rewrite L.
  replace (Z.of_nat (j + n - i)) with (Z.of_nat j - Z.of_nat i + 1 * Z.of_nat n)%Z by lia. apply Z.mod_add. lia.
Qed.
Lemma qcirc_dot n v i j : length v = n -> n <> 0 ->
  qsum n (fun k => qmul (qcirc v i k) (qconj (qcirc v j k))) = qpaf v (Z.of_nat i - Z.of_nat j).
Proof.
  intros L Hn. unfold qpaf. rewrite L.
  rewrite <- (qsum_shift n (fun k => qmul (qentry v k) (qconj (qentry v (k + (Z.of_nat i - Z.of_nat j))%Z))) (- Z.of_nat i)).
  - apply qsum_ext. intros k Hk. unfold qcirc. replace (Z.of_nat k + - Z.of_nat i + (Z.of_nat i - Z.of_nat j))%Z with (Z.of_nat k - Z.of_nat j)%Z by lia. reflexivity.
  - rewrite <- L. apply qpaf_term.
Qed.
Lemma qc_of_nat_S n : qc_of_nat (S n) = (qc_of_nat n + 1)%Qc.
Proof. apply Qc_is_canon. unfold Qcplus, qc_of_nat. rewrite !this_Q2Qc. change (this 1%Qc) with 1%Q. unfold Qeq, Qplus, inject_Z. cbn [Qnum Qden]. lia. Qed.
Lemma qpaf_0 v : (forall p, In p v -> qnorm2 p = 1%Qc) -> qpaf v 0 = qscale (qc_of_nat (length v)) Q1.
Proof.
  intros H. unfold qpaf.
  rewrite (qsum_ext _ _ (fun _ => Q1)).
  - induction (length v) as [|k IH]; [reflexivity|]. rewrite qsum_S, IH, qc_of_nat_S. unfold qadd, qscale, Q1. cbn. f_equal; ring.
  - intros i Hi. rewrite Z.add_0_r, qentry_nat by auto. apply unit_mul_conj. apply H. now apply nth_In.
Qed.
Lemma from_pqs_verify q : length (qs_values q) = qs_size q -> Forall (fun p => In p Q24) (qs_values q) ->
  exists h b, QHM_from_pqs q = Some h /\ QHM_verify h = Some b /\ QS_is_perfect q = Some b /\
    (b = true <-> qhadamard (qs_size q) (qhm_matrix h)) /\ qhm_size h = qs_size q.
Proof.
  intros L H. rewrite from_pqs_spec by auto. set (n := qs_size q) in *. set (v := qs_values q) in *.
  assert (entries_in24 (tab n (qcirc v))) as E24.
  { apply entries_tab. intros i j Hi Hj. unfold qcirc, qentry. apply (proj1 (Forall_forall _ _) H). apply nth_In. apply pos_lt. lia. }
  destruct (QHM_verify_spec n (mkQHM n (tab n (qcirc v)))) as (b & Eb & Hb); auto; [apply tab_square|].
  destruct (is_perfect_spec q L) as (b' & Eb' & Hb').
  assert (b = b') as <-.
  2:{ eexists _, b. split; [reflexivity|]. split; [exact Eb|]. split; [exact Eb'|]. split; [exact Hb|reflexivity]. }
  apply eq_true_iff_eq. rewrite Hb, Hb'. cbn [qhm_matrix]. fold v. split.
  - intros [_ Q] t Ht. rewrite L in Ht.
    specialize (Q (Z.to_nat t) 0 ltac:(lia) ltac:(lia)). rewrite qdot_tab, (qcirc_dot n) in Q by (auto; lia).
    rewrite Z.sub_0_r, Z2Nat.id in Q by lia. destruct (Nat.eqb_spec (Z.to_nat t) 0); auto. lia.
  - intros P. split; [apply tab_square|]. intros i j Hi Hj. rewrite qdot_tab, (qcirc_dot n) by (auto; lia).
    destruct (Nat.eqb_spec i j) as [->|Hij].
    + rewrite Z.sub_diag. rewrite qpaf_0; [now rewrite L|].
      intros p Hp. apply Q24_norm. now apply (proj1 (Forall_forall _ _) H).
    + rewrite <- qpaf_mod by lia. apply P. rewrite L.
      assert ((Z.of_nat i - Z.of_nat j) mod Z.of_nat n <> 0)%Z.
      { intros K. apply Z.mod_divide in K as [c Hc]; [|lia]. destruct (Z.eq_dec c 0); [lia|].
        assert (Z.of_nat n <= Z.abs (c * Z.of_nat n))%Z by (rewrite Z.abs_mul; nia). lia. }
      pose proof (Z.mod_pos_bound (Z.of_nat i - Z.of_nat j) (Z.of_nat n)). lia.
Qed.

(* ---- dephasing ---- *)
Definition dcol (f : nat -> nat -> quat) i j := qmul (f i j) (qconj (f 0 j)).
Definition dph (f : nat -> nat -> quat) i j := qmul (qconj (dcol f i 0)) (dcol f i j).
Lemma dephase_rows_tab n g : qhm_dephase_rows n (tab n g) = Some (tab n (fun i j => qmul (qconj (g i 0)) (g i j))).
Proof.
  unfold qhm_dephase_rows.
  rewrite (sweep n n n g (fun i j => qmul (qconj (g i 0)) (g i j)) (tri_row n)
    (fun m row inv_col => let* x := mget m row 0 in let* y := mget m row (n - 1 - inv_col) in
       mset m row (n - 1 - inv_col) (qmul (qconj x) y)))
    by (auto using tri_row_0, tri_row_r; sweep_step tri_row).
  f_equal. apply tab_ext. intros i j Hi Hj. unfold mix. destruct (tri_end n i j Hi Hj) as (_ & -> & _ & _). reflexivity.
Qed.
Lemma QHM_dephase_tab n f : QHM_dephase (mkQHM n (tab n f)) = Some (mkQHM n (tab n (dph f))).
Proof.
  unfold QHM_dephase. cbn [qhm_size qhm_matrix].
  rewrite (sweep n n n f (dcol f) (tri_col n)
    (fun m col inv_row => let* x := mget m (n - 1 - inv_row) col in let* y := mget m 0 col in
       mset m (n - 1 - inv_row) col (qmul x (qconj y))))
    by (auto using tri_col_0, tri_col_r; unfold dcol; sweep_step tri_col).
  cbn [bind]. rewrite (tab_ext n _ (dcol f)).
  2:{ intros i j Hi Hj. unfold mix. destruct (tri_end n i j Hi Hj) as (-> & _). reflexivity. }
  rewrite dephase_rows_tab. reflexivity.
Qed.
Lemma QHM_dephased_tab n f : QHM_dephased (mkQHM n (tab n f)) = Some (mkQHM n (tab n (dph f))).
Proof.
  unfold QHM_dephased. cbn [qhm_size qhm_matrix]. rewrite mconst_tab.
  rewrite (sweep n n n (fun _ _ => Q0) (dcol f) (tri_col n)
    (fun m col inv_row => let* x := mget (tab n f) (n - 1 - inv_row) col in let* y := mget (tab n f) 0 col in
       mset m (n - 1 - inv_row) col (qmul x (qconj y))))
    by (auto using tri_col_0, tri_col_r; unfold dcol; sweep_step tri_col).
  cbn [bind]. rewrite (tab_ext n _ (dcol f)).
  2:{ intros i j Hi Hj. unfold mix. destruct (tri_end n i j Hi Hj) as (-> & _). reflexivity. }
  rewrite dephase_rows_tab. reflexivity.
Qed.
Lemma quaternion_to_string_24 p : In p Q24 -> exists c, quaternion_to_string p = Some c.
Proof.
  assert (forallb (fun p => match quaternion_to_string p with Some _ => true | None => false end) Q24 = true) as H by (vm_compute; reflexivity).
  intros Hp. rewrite forallb_forall in H. specialize (H p Hp). destruct (quaternion_to_string p); [eauto|discriminate].
Qed.
Lemma for_m_total {S} n (body : S -> nat -> option S) : (forall s i, i < n -> exists r, body s i = Some r) ->
  forall s, exists r, for_m n body s = Some r.
Proof.
  intros H. unfold for_m. assert (forall i, In i (range 0 n) -> i < n) as Hin by (intros i Hi; apply in_range in Hi; lia).
  induction (range 0 n) as [|x l IH]; intros s; cbn [fold_m]; [eauto|].
  destruct (H s x) as [r ->]; [apply Hin; cbn; auto|]. cbn [bind]. apply IH. intros i Hi. apply Hin. cbn; auto.
Qed.
Lemma QHM_to_string_24 n m : square n m -> entries_in24 m -> exists s, QHM_to_string (mkQHM n m) = Some s.
Proof.
  intros Sq H. rewrite (square_tab n m Q1) by auto. unfold QHM_to_string. cbn [qhm_size qhm_matrix].
  apply for_m_total. intros s i Hi.
  match goal with |- context [for_m n ?b (?x ++ ?y)] => destruct (for_m_total n b) with (s := x ++ y) as [r ->] end.
  - intros s' j Hj. rewrite mget_tab by auto. cbn [bind].
    destruct (quaternion_to_string_24 (cell Q1 m i j)) as [c ->]; [now apply (in24_cell n)|]. cbn [bind]. eauto.
  - cbn [bind]. eauto.
Qed.
Lemma dephase_spec n h : qhm_size h = n -> square n (qhm_matrix h) -> entries_in24 (qhm_matrix h) ->
  exists d, QHM_dephase h = Some d /\ QHM_dephased h = Some d /\ qhm_size d = n /\ square n (qhm_matrix d) /\
    entries_in24 (qhm_matrix d) /\ normalised Q1 n (qhm_matrix d) /\
    (qhadamard n (qhm_matrix d) <-> qhadamard n (qhm_matrix h)) /\ (exists s, QHM_to_string d = Some s).
Proof.
  destruct h as [n' m]. cbn [qhm_size qhm_matrix]. intros -> Sq H24.
  set (f := cell Q1 m). assert (m = tab n f) as Em by now apply square_tab.
  assert (forall i j, i < n -> j < n -> In (f i j) Q24) as F by (intros; now apply (in24_cell n)).
  rewrite Em. exists (mkQHM n (tab n (dph f))). cbn [qhm_size qhm_matrix].
  assert (forall i j, i < n -> j < n -> In (dcol f i j) Q24) as F1.
  { intros. unfold dcol. apply Q24_mul; [|apply Q24_conj]; apply F; lia. }
  assert (entries_in24 (tab n (dph f))) as F2.
  { apply entries_tab. intros. unfold dph. apply Q24_mul; [apply Q24_conj|]; apply F1; lia. }
  split; [apply QHM_dephase_tab|]. split; [apply QHM_dephased_tab|]. split; auto. split; [apply tab_square|]. split; auto. split; [|split].
  - assert (forall i j, i < n -> j < n -> qmul (f i j) (qconj (f i j)) = Q1) as U by (intros; apply unit_mul_conj, Q24_norm; auto).
    intros k Hk. rewrite !cell_tab by lia. unfold dph. split.
    + unfold dcol. rewrite !U by lia. now rewrite qconj_1, qmul_1_l.
    + apply unit_conj_mul, Q24_norm, F1; lia.
  - unfold qhadamard.
    assert (forall i j, i < n -> j < n -> qdot (nth i (tab n (dph f)) []) (nth j (tab n (dph f)) []) =
      qmul (qmul (qconj (dcol f i 0)) (qdot (nth i (tab n f) []) (nth j (tab n f) []))) (dcol f j 0)) as E.
    { intros i j Hi Hj. rewrite !qdot_tab by auto. rewrite <- qsum_mul_l, <- qsum_mul_r. apply qsum_ext. intros k Hk.
      unfold dph. rewrite qconj_mul, qconj_conj.
      assert (qmul (dcol f i k) (qconj (dcol f j k)) = qmul (f i k) (qconj (f j k))) as <-.
      { unfold dcol. rewrite qconj_mul, qconj_conj, <- qmul_assoc, (qmul_assoc (qconj (f 0 k))).
        rewrite (unit_conj_mul (f 0 k)) by (apply Q24_norm, F; lia). now rewrite qmul_1_l. }
      now rewrite !qmul_assoc. }
    assert (forall i, i < n -> qmul (dcol f i 0) (qconj (dcol f i 0)) = Q1 /\ qmul (qconj (dcol f i 0)) (dcol f i 0) = Q1) as U.
    { intros i Hi. assert (qnorm2 (dcol f i 0) = 1%Qc) by (apply Q24_norm, F1; lia). split; [now apply unit_mul_conj|now apply unit_conj_mul]. }
    assert (forall c x y, qmul (qmul x (qscale c Q1)) y = qscale c (qmul x y)) as Sc.
    { intros c x y. rewrite <- (qscale_mul_r c x Q1), qmul_1_r. symmetry. apply qscale_mul_l. }
    split; intros [_ H]; (split; [apply tab_square|]); intros i j Hi Hj; specialize (H i j Hi Hj).
    + rewrite E in H by auto.
      assert (qdot (nth i (tab n f) []) (nth j (tab n f) []) =
        qmul (qmul (dcol f i 0) (if i =? j then qscale (qc_of_nat n) Q1 else Q0)) (qconj (dcol f j 0))) as ->.
      { rewrite <- H. rewrite !qmul_assoc. rewrite (proj1 (U i Hi)), qmul_1_l. rewrite <- qmul_assoc, (proj1 (U j Hj)). now rewrite qmul_1_r. }
      destruct (Nat.eqb_spec i j) as [->|].
      * rewrite Sc. now rewrite (proj1 (U j Hj)).
      * now rewrite qmul_0_r, qmul_0_l.
    + rewrite E by auto. rewrite H. destruct (Nat.eqb_spec i j) as [->|].
      * rewrite Sc. now rewrite (proj2 (U j Hj)).
      * now rewrite qmul_0_r, qmul_0_l.
  - apply QHM_to_string_24; auto. apply tab_square.
Qed.

(* ---- non-commuting entries ---- *)
Definition noncommuting (S : quat -> Prop) : Prop := exists x y, S x /\ S y /\ qmul x y <> qmul y x.
Lemma non_commuting_from_spec h (v : nat * nat -> quat) : forall cells U,
  (forall c, In c cells -> QHM_get h (fst c) (snd c) = Some (v c)) ->
  (forall x y, In x U -> In y U -> qmul x y = qmul y x) ->
  exists b, non_commuting_from h cells U = Some b /\ (b = true <-> noncommuting (fun x => In x U \/ In x (map v cells))).
Proof.
  induction cells as [|[i j] cells IH]; intros U Hv HU; cbn [non_commuting_from].
  - exists false. split; auto. split; [discriminate|]. intros (x & y & [Hx|[]] & [Hy|[]] & N). exfalso. auto.
  - pose proof (Hv (i, j) ltac:(cbn; auto)) as E. cbn [fst snd] in E. rewrite E. cbn [bind].
    set (new := v (i, j)).
    assert (forall c, In c cells -> QHM_get h (fst c) (snd c) = Some (v c)) as Hv' by (intros; apply Hv; cbn; auto).
    destruct (existsb (fun e => quat_eqb e new) U) eqn:E1.
    + apply existsb_exists in E1 as (e & He & Ee). apply quat_eqb_eq in Ee. subst e.
      destruct (IH U Hv' HU) as (b & -> & Hb). exists b. split; auto. rewrite Hb. cbn [map]. fold new.
      split; intros (x & y & Hx & Hy & N); exists x, y; split; [|split| |split]; auto; cbn [In] in *;
        intuition (subst; auto).
    + destruct (existsb (fun elm => negb (quat_eqb (qmul new elm) (qmul elm new))) U) eqn:E2.
      * exists true. split; auto. split; auto. intros _. apply existsb_exists in E2 as (e & He & Ne).
        exists new, e. split; [right; cbn; auto|]. split; auto. intros K. rewrite (proj2 (quat_eqb_eq _ _) K) in Ne. discriminate.
      * assert (forall e, In e U -> qmul new e = qmul e new) as Hc.
        { intros e He. destruct (quat_eqb (qmul new e) (qmul e new)) eqn:K; [now apply quat_eqb_eq|].
          exfalso. assert (existsb (fun elm => negb (quat_eqb (qmul new elm) (qmul elm new))) U = true) as T.
          { apply existsb_exists. exists e. split; auto. now rewrite K. } congruence. }
        destruct (IH (U ++ [new]) Hv') as (b & -> & Hb).
        { intros x y Hx Hy. apply in_app_or in Hx as [Hx|[<-|[]]]; apply in_app_or in Hy as [Hy|[<-|[]]]; auto. symmetry. auto. }
        exists b. split; auto. rewrite Hb. cbn [map]. fold new.
        split; intros (x & y & Hx & Hy & N); exists x, y; split; [|split| |split]; auto;
          rewrite ?in_app_iff in *; cbn [In] in *; tauto.
Qed.
Lemma contains_non_commuting_spec n h : qhm_size h = n -> square n (qhm_matrix h) ->
  exists b, contains_non_commuting_elements h = Some b /\
  (b = true <-> exists i j k l, 1 <= i < n /\ 1 <= j < n /\ 1 <= k < n /\ 1 <= l < n /\
     qmul (cell Q1 (qhm_matrix h) i j) (cell Q1 (qhm_matrix h) k l) <> qmul (cell Q1 (qhm_matrix h) k l) (cell Q1 (qhm_matrix h) i j)).
Proof.
  intros Hs Sq. unfold contains_non_commuting_elements. rewrite Hs.
  destruct (non_commuting_from_spec h (fun c => cell Q1 (qhm_matrix h) (fst c) (snd c)) (list_prod (range 1 n) (range 1 n)) []) as (b & E & Hb).
  - intros [i j] Hc. apply in_prod_iff in Hc as [Hi Hj]. apply in_range in Hi, Hj. unfold QHM_get. cbn [fst snd].
    rewrite (square_tab n (qhm_matrix h) Q1) at 1 by auto. apply mget_tab; lia.
  - intros x y [].
  - exists b. split; auto. rewrite Hb. split.
    + intros (x & y & [[]|Hx] & [[]|Hy] & N). apply in_map_iff in Hx as ([i j] & <- & Hx), Hy as ([k l] & <- & Hy).
      apply in_prod_iff in Hx as [Hi Hj], Hy as [Hk Hl]. apply in_range in Hi, Hj, Hk, Hl. exists i, j, k, l. auto 10.
    + intros (i & j & k & l & Hi & Hj & Hk & Hl & N).
      exists (cell Q1 (qhm_matrix h) i j), (cell Q1 (qhm_matrix h) k l). split; [right|split; [right|auto]]; apply in_map_iff.
      * exists (i, j). split; auto. apply in_prod_iff. split; apply in_range; lia.
      * exists (k, l). split; auto. apply in_prod_iff. split; apply in_range; lia.
Qed.
Lemma contains_non_commuting_normalised n h : qhm_size h = n -> square n (qhm_matrix h) -> normalised Q1 n (qhm_matrix h) ->
  exists b, contains_non_commuting_elements h = Some b /\
  (b = true <-> exists i j k l, i < n /\ j < n /\ k < n /\ l < n /\
     qmul (cell Q1 (qhm_matrix h) i j) (cell Q1 (qhm_matrix h) k l) <> qmul (cell Q1 (qhm_matrix h) k l) (cell Q1 (qhm_matrix h) i j)).
Proof.
  intros Hs Sq Hn. destruct (contains_non_commuting_spec n h Hs Sq) as (b & E & Hb). exists b. split; auto. rewrite Hb. split.
  - intros (i & j & k & l & Hi & Hj & Hk & Hl & N). exists i, j, k, l. repeat split; auto; lia.
  - intros (i & j & k & l & Hi & Hj & Hk & Hl & N). exists i, j, k, l.
    assert (forall a b, a < n -> b < n -> cell Q1 (qhm_matrix h) a b <> Q1 -> 1 <= a < n /\ 1 <= b < n) as K.
    { intros a c Ha Hc Ne. destruct (Hn a Ha) as [_ Z1], (Hn c Hc) as [Z2 _]. destruct a, c; try (exfalso; congruence). lia. }
    assert (cell Q1 (qhm_matrix h) i j <> Q1 /\ cell Q1 (qhm_matrix h) k l <> Q1) as [N1 N2].
    { split; intros Eq; apply N; rewrite Eq; now rewrite qmul_1_l, qmul_1_r. }
    destruct (K i j Hi Hj N1), (K k l Hk Hl N2). repeat split; auto; lia.
Qed.
Lemma dephase_scales n h : qhm_size h = n -> square n (qhm_matrix h) -> entries_in24 (qhm_matrix h) ->
  exists d u v, QHM_dephase h = Some d /\
    forall i j, i < n -> j < n -> In (u i) Q24 /\ In (v j) Q24 /\
      cell Q1 (qhm_matrix d) i j = qmul (u i) (qmul (cell Q1 (qhm_matrix h) i j) (v j)).
Proof.
  destruct h as [n' m]. cbn [qhm_size qhm_matrix]. intros -> Sq H24.
  set (f := cell Q1 m). assert (m = tab n f) as Em by now apply square_tab.
  assert (forall i j, i < n -> j < n -> In (f i j) Q24) as F by (intros; now apply (in24_cell n)).
  rewrite Em. exists (mkQHM n (tab n (dph f))), (fun i => qconj (dcol f i 0)), (fun j => qconj (f 0 j)).
  split; [apply QHM_dephase_tab|]. intros i j Hi Hj. cbn [qhm_matrix]. rewrite cell_tab by auto.
  split; [|split; [apply Q24_conj, F; lia|reflexivity]].
  unfold dcol. apply Q24_conj, Q24_mul; [|apply Q24_conj]; apply F; lia.
Qed.
