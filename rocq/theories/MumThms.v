(* Hadamard matrices of operators and measurements obtained from quaternionic Hadamard matrices. *)
From Coq Require Import List ZArith QArith Qcanon Lia Arith Bool Ring.
From Verif Require Import Base BaseFacts Sums Quat QuatFacts ModelSequence Spec SeqFacts
  ModelMatrices SpecMatrix MatFacts QhmFacts ModelMum SpecMum ProductFacts MumFacts LeftFacts.
Import ListNotations.
Open Scope nat_scope.
Notation length := List.length.

Lemma two_div a i : a < 2 -> (2 * i + a) / 2 = i /\ (2 * i + a) mod 2 = a.
Proof.
  intros H. pose proof (Nat.div_mod (2 * i + a) 2 ltac:(lia)) as E. pose proof (Nat.mod_upper_bound (2 * i + a) 2 ltac:(lia)). lia.
Qed.
Lemma HMUO_blocks n h : qhm_size h = n -> square n (qhm_matrix h) ->
  exists u, HMUO_from_qhm h = Some u /\ hmuo_matrix_size u = 2 * n /\ op_wf (2 * n) (hmuo_operator u) /\
  forall j k, j < n -> k < n -> exists o, quaternion_to_operator (qconj (cell Q1 (qhm_matrix h) j k)) = Some o /\
    forall a b, a < 2 -> b < 2 -> at2 (hmuo_operator u) (2 * j + a) (2 * k + b) = at2 o a b.
Proof.
  destruct h as [n' m]. cbn [qhm_size qhm_matrix]. intros -> Sq. set (f := cell Q1 m).
  assert (mkQHM n m = mkQHM n (tab n f)) as -> by (f_equal; now apply square_tab).
  rewrite HMUO_from_qhm_tab. eexists. split; [reflexivity|]. cbn [hmuo_matrix_size hmuo_operator]. split; auto. split; [apply op_wf_op|].
  intros j k Hj Hk. rewrite quaternion_to_operator_op. eexists. split; [reflexivity|]. intros a b Ha Hb.
  rewrite !at2_op by lia. destruct (two_div a j Ha) as [-> ->], (two_div b k Hb) as [-> ->]. unfold f. reflexivity.
Qed.
Lemma HMUO_hadamard n h : qhm_size h = n -> qhadamard n (qhm_matrix h) -> Forall (Forall (fun p => In p Q24)) (qhm_matrix h) ->
  exists u, HMUO_from_qhm h = Some u /\
  (* every 2 x 2 block is unitary *)
  (forall j k a b, j < n -> k < n -> a < 2 -> b < 2 ->
     csum 2 (fun c => cmul (cconj (at2 (hmuo_operator u) (2 * j + c) (2 * k + a))) (at2 (hmuo_operator u) (2 * j + c) (2 * k + b))) =
     cdelta (a =? b) C1) /\
  (* U_j1* U_l1 + ... + U_jn* U_ln is n times the identity when j = l and 0 otherwise *)
  (forall j l a b, j < n -> l < n -> a < 2 -> b < 2 ->
     csum n (fun k => csum 2 (fun c => cmul (cconj (at2 (hmuo_operator u) (2 * j + c) (2 * k + a))) (at2 (hmuo_operator u) (2 * l + c) (2 * k + b)))) =
     cdelta ((j =? l) && (a =? b)) (creal n)).
Proof.
  intros Hs [Sq Hh] H24. destruct (HMUO_blocks n h Hs Sq) as (u & E & _ & _ & Hb). exists u. split; auto.
  set (f := cell Q1 (qhm_matrix h)).
  assert (forall j k a b, j < n -> k < n -> a < 2 -> b < 2 -> at2 (hmuo_operator u) (2 * j + a) (2 * k + b) = qmat (qconj (f j k)) a b) as B.
  { intros j k a b Hj Hk Ha Hb'. destruct (Hb j k Hj Hk) as (o & Eo & Ho). rewrite quaternion_to_operator_op in Eo. injection Eo as <-.
    rewrite Ho by auto. now rewrite at2_op. }
  assert (forall j l k a b, j < n -> l < n -> k < n -> a < 2 -> b < 2 ->
    csum 2 (fun c => cmul (cconj (at2 (hmuo_operator u) (2 * j + c) (2 * k + a))) (at2 (hmuo_operator u) (2 * l + c) (2 * k + b)))
    = qmat (qmul (f j k) (qconj (f l k))) a b) as P.
  { intros j l k a b Hj Hl Hk Ha Hb'. rewrite qmat_mul by auto. apply csum_ext. intros c Hc. rewrite !B by auto.
    rewrite <- qmat_conj by auto. now rewrite qconj_conj. }
  split.
  - intros j k a b Hj Hk Ha Hb'. rewrite P by auto. rewrite unit_mul_conj by (apply Q24_norm; now apply (in24_cell n)). now apply qmat_1.
  - intros j l a b Hj Hl Ha Hb'. rewrite (csum_ext n _ (fun k => qmat (qmul (f j k) (qconj (f l k))) a b)) by (intros; now apply P).
    rewrite <- qmat_sum. specialize (Hh j l Hj Hl).
    assert (qsum n (fun k => qmul (f j k) (qconj (f l k))) = qdot (nth j (qhm_matrix h) []) (nth l (qhm_matrix h) [])) as ->.
    { rewrite (square_tab n (qhm_matrix h) Q1) by auto. rewrite qdot_tab by auto. reflexivity. }
    rewrite Hh. destruct (j =? l); cbn [andb].
    + rewrite qmat_scale, qmat_1 by auto. unfold creal. destruct (a =? b); unfold cdelta; ring.
    + apply qmat_0.
Qed.

(* ---- measurements ---- *)
Definition mumop (n : nat) (f : nat -> nat -> quat) (b : nat) : Operator :=
  op (n * 2) (fun r c => qmat (qmul (f b (r mod n)) (qconj (f b (c mod n)))) (r / n) (c / n)).
Lemma nth_mum n f b : b < n -> nth b (map (mumop n f) (seq 0 n)) OP0 = mumop n f b.
Proof. intros. now apply nth_map_seq. Qed.
Lemma idx n i : i < n * 2 -> n <> 0 /\ i mod n < n /\ i / n < 2.
Proof. intros H. assert (n <> 0) by lia. split; auto. split; [now apply Nat.mod_upper_bound|apply Nat.div_lt_upper_bound; lia]. Qed.
Lemma mumop_mul n f b c i j : i < n * 2 -> j < n * 2 ->
  csum (n * 2) (fun k => cmul (at2 (mumop n f b) i k) (at2 (mumop n f c) k j)) =
  qmat (qmul (qmul (f b (i mod n)) (qsum n (fun k => qmul (qconj (f b k)) (f c k)))) (qconj (f c (j mod n)))) (i / n) (j / n).
Proof.
  intros Hi Hj. destruct (idx n i Hi) as (Hn & Hi1 & Hi2), (idx n j Hj) as (_ & Hj1 & Hj2).
  set (F := fun e k => cmul (qmat (qmul (f b (i mod n)) (qconj (f b k))) (i / n) e) (qmat (qmul (f c k) (qconj (f c (j mod n)))) e (j / n))).
  transitivity (csum (2 * n) (fun m => F (m / n) (m mod n))).
  { rewrite (Nat.mul_comm 2 n). apply csum_ext. intros m Hm. unfold mumop. rewrite !at2_op by auto. reflexivity. }
  rewrite csum_pairs. transitivity (csum n (fun k => csum 2 (fun e => F e k))); [apply (csum_swap 2 n F)|]. unfold F.
  rewrite (csum_ext n _ (fun k => qmat (qmul (qmul (f b (i mod n)) (qconj (f b k))) (qmul (f c k) (qconj (f c (j mod n))))) (i / n) (j / n))).
  2:{ intros k Hk. now rewrite qmat_mul. }
  rewrite <- qmat_sum. f_equal. rewrite <- qsum_mul_l, <- qsum_mul_r. apply qsum_ext. intros k Hk. now rewrite !qmul_assoc.
Qed.
Lemma divmod_eq n i j : n <> 0 -> ((i / n =? j / n) && (i mod n =? j mod n)) = (i =? j).
Proof.
  intros Hn. destruct (Nat.eqb_spec i j) as [->|Hne]; [now rewrite !Nat.eqb_refl|].
  destruct (Nat.eqb_spec (i / n) (j / n)), (Nat.eqb_spec (i mod n) (j mod n)); auto. exfalso. apply Hne.
  rewrite (Nat.div_mod i n), (Nat.div_mod j n) by auto. congruence.
Qed.
Lemma mum_square n f b : (forall j k, j < n -> k < n -> qnorm2 (f j k) = 1%Qc) -> b < n ->
  qsum n (fun k => qmul (qconj (f b k)) (f b k)) = qscale (qc_of_nat n) Q1.
Proof.
  intros U Hb. rewrite (qsum_ext n _ (fun _ => Q1)) by (intros; apply unit_conj_mul; auto).
  clear U Hb. induction n as [|k IH]; [reflexivity|]. rewrite qsum_S, IH, qc_of_nat_S. unfold qadd, qscale, Q1. cbn. f_equal; ring.
Qed.
Lemma mum_idempotent n h : qhm_size h = n -> square n (qhm_matrix h) -> Forall (Forall (fun p => In p Q24)) (qhm_matrix h) ->
  exists m, MUM_from_qhm h = Some m /\ mum_matrix_size m = n * 2 /\ length (mum_sequence m) = n /\
  forall b, b < n -> let Q := nth b (mum_sequence m) OP0 in op_wf (n * 2) Q /\
    conjugate_transpose Q = Some Q /\
    (forall i j, i < n * 2 -> j < n * 2 -> csum (n * 2) (fun k => cmul (at2 Q i k) (at2 Q k j)) = cmul (creal n) (at2 Q i j)).
Proof.
  destruct h as [n' m]. cbn [qhm_size qhm_matrix]. intros -> Sq H24. set (f := cell Q1 m).
  assert (forall j k, j < n -> k < n -> qnorm2 (f j k) = 1%Qc) as U by (intros; apply Q24_norm; now apply (in24_cell n)).
  assert (mkQHM n m = mkQHM n (tab n f)) as -> by (f_equal; now apply square_tab).
  rewrite MUM_from_qhm_tab. eexists. split; [reflexivity|]. cbn [mum_matrix_size mum_sequence]. fold (mumop n f). split; auto.
  split; [now rewrite map_length, seq_length|]. intros b Hb. cbv zeta. change (fun b0 : nat => op (n * 2) _) with (mumop n f). rewrite nth_mum by auto.
  split; [apply op_wf_op|]. split.
  - unfold mumop. rewrite conjugate_transpose_op. f_equal. apply op_ext. intros i j Hi Hj.
    destruct (idx n i Hi) as (Hn & Hi1 & Hi2), (idx n j Hj) as (_ & Hj1 & Hj2). rewrite <- qmat_conj by auto. now rewrite qconj_mul, qconj_conj.
  - intros i j Hi Hj. rewrite mumop_mul by auto. rewrite mum_square by auto.
    destruct (idx n i Hi) as (Hn & Hi1 & Hi2), (idx n j Hj) as (_ & Hj1 & Hj2).
    unfold mumop. rewrite at2_op by auto. rewrite <- qscale_mul_r, qmul_1_r, <- qscale_mul_l. now rewrite qmat_scale.
Qed.
Lemma mum_projective n f : (forall j k, j < n -> k < n -> qnorm2 (f j k) = 1%Qc) ->
  (forall b c, b < n -> c < n -> b <> c -> qsum n (fun k => qmul (qconj (f b k)) (f c k)) = Q0) ->
  (forall j k, j < n -> k < n -> qsum n (fun b => qmul (f b j) (qconj (f b k))) = if j =? k then qscale (qc_of_nat n) Q1 else Q0) ->
  projective (n * 2) (creal n) (map (mumop n f) (seq 0 n)).
Proof.
  intros U L R. assert (length (map (mumop n f) (seq 0 n)) = n) as Len by now rewrite map_length, seq_length.
  split; [|split; [|split]].
  - apply Forall_forall. intros o Ho. apply in_map_iff in Ho as (b & <- & _). apply op_wf_op.
  - intros b i j Hb Hi Hj. rewrite Len in Hb. rewrite nth_mum by auto. unfold mumop. rewrite !at2_op by auto.
    destruct (idx n i Hi) as (Hn & Hi1 & Hi2), (idx n j Hj) as (_ & Hj1 & Hj2). rewrite <- qmat_conj by auto. now rewrite qconj_mul, qconj_conj.
  - intros b c i j Hb Hc Hi Hj. rewrite Len in Hb, Hc. rewrite !nth_mum by auto. rewrite mumop_mul by auto.
    destruct (idx n i Hi) as (Hn & Hi1 & Hi2), (idx n j Hj) as (_ & Hj1 & Hj2).
    destruct (Nat.eqb_spec b c) as [->|Hne]; cbn [cdelta].
    + rewrite mum_square by auto. unfold mumop. rewrite at2_op by auto.
      rewrite <- qscale_mul_r, qmul_1_r, <- qscale_mul_l. now rewrite qmat_scale.
    + rewrite L by auto. rewrite qmul_0_r, qmul_0_l. apply qmat_0.
  - intros i j Hi Hj. rewrite Len.
    destruct (idx n i Hi) as (Hn & Hi1 & Hi2), (idx n j Hj) as (_ & Hj1 & Hj2).
    rewrite (csum_ext n _ (fun b => qmat (qmul (f b (i mod n)) (qconj (f b (j mod n)))) (i / n) (j / n))).
    2:{ intros b Hb. rewrite nth_mum by auto. unfold mumop. now rewrite at2_op. }
    rewrite <- qmat_sum, R by auto. rewrite <- (divmod_eq n i j) by auto.
    destruct (i mod n =? j mod n).
    + rewrite qmat_scale, qmat_1 by auto. rewrite andb_true_r. unfold creal. destruct (i / n =? j / n); unfold cdelta; ring.
    + rewrite andb_false_r. apply qmat_0.
Qed.
Lemma mum_of_perfect q : length (qs_values q) = qs_size q -> 1 <= qs_size q -> Forall (fun p => In p Q24) (qs_values q) -> QS_is_perfect q = Some true ->
  exists h m, QHM_from_pqs q = Some h /\ MUM_from_qhm h = Some m /\ mum_matrix_size m = qs_size q * 2 /\ length (mum_sequence m) = qs_size q /\
    projective (qs_size q * 2) (creal (qs_size q)) (mum_sequence m).
Proof.
  intros L Hn H24 P. destruct (is_perfect_spec q L) as (b & Eb & Hb). rewrite Eb in P. injection P as ->. pose proof (proj1 Hb eq_refl) as P.
  rewrite from_pqs_spec by auto. set (n := qs_size q) in *. set (v := qs_values q) in *. set (f := qcirc v).
  exists (mkQHM n (tab n f)). eexists. split; [reflexivity|]. split; [apply MUM_from_qhm_tab|].
  cbn [mum_matrix_size mum_sequence]. split; auto. split; [now rewrite map_length, seq_length|].
  change (fun b0 : nat => op (n * 2) _) with (mumop n f).
  assert (v <> []) as Hv by (intros K; rewrite K in L; cbn in L; lia).
  apply mum_projective.
  - intros j k Hj Hk. apply Q24_norm. unfold f, qcirc. now apply qentry_24.
  - intros b c Hb' Hc Hne. transitivity (lcorr v (Z.of_nat b - Z.of_nat c)).
    + unfold lcorr. rewrite L.
      rewrite <- (qsum_shift n (fun i => qmul (qconj (qentry v (i - (Z.of_nat b - Z.of_nat c))%Z)) (qentry v i)) (- Z.of_nat c)).
      * apply qsum_ext. intros k Hk. unfold f, qcirc. do 2 f_equal. f_equal. lia.
      * intros i j E. rewrite <- L in E. rewrite (qentry_periodic v i j E). f_equal. f_equal. apply qentry_periodic.
        unfold Z.sub at 1 3. now apply mod_add_cong.
    + apply right_to_left; auto. rewrite L. intros K. apply Z.mod_divide in K as [d Hd]; [|lia].
      destruct (Z.eq_dec d 0) as [->|]; [lia|]. nia.
  - intros j k Hj Hk.
    transitivity (qpaf v (Z.of_nat k - Z.of_nat j)).
    + unfold qpaf. rewrite L.
      set (F := fun i => qmul (qentry v i) (qconj (qentry v (i + (Z.of_nat k - Z.of_nat j))%Z))).
      assert (periodic n F) as PF by (rewrite <- L; apply qpaf_term).
      assert (periodic n (fun i => F (i + Z.of_nat j)%Z)) as PF' by now apply shift_periodic.
      change (qsum n (fun b : nat => qmul (f b j) (qconj (f b k))) = qsum n (fun i => F (Z.of_nat i))).
      rewrite <- (qsum_shift n F (Z.of_nat j) PF). rewrite <- (qsum_neg n (fun i => F (i + Z.of_nat j)%Z) PF').
      apply qsum_ext. intros i Hi. unfold F, f, qcirc. f_equal; [f_equal; lia|]. do 2 f_equal. lia.
    + destruct (Nat.eqb_spec j k) as [->|Hne].
      * rewrite Z.sub_diag, qpaf_0; [now rewrite L|]. intros p Hp. apply Q24_norm. now apply (proj1 (Forall_forall _ _) H24).
      * apply perfect_mod; [auto|lia|]. rewrite L. intros K. apply Z.mod_divide in K as [d Hd]; [|lia].
        destruct (Z.eq_dec d 0) as [->|]; [lia|]. nia.
Qed.

(* ---- products ---- *)
Lemma crt_inj p q i j : Nat.gcd p q = 1 -> p <> 0 -> q <> 0 -> i < p * q -> j < p * q -> i mod p = j mod p -> i mod q = j mod q -> i = j.
Proof.
  intros G Hp Hq Hi Hj Ep Eq.
  assert (forall a b m, m <> 0 -> a mod m = b mod m -> a <= b -> Nat.divide m (b - a)) as D.
  { intros a b m Hm E Hle. exists (b / m - a / m). rewrite (Nat.div_mod a m Hm) at 1. rewrite (Nat.div_mod b m Hm) at 1.
    rewrite E. pose proof (Nat.div_le_mono a b m Hm Hle). nia. }
  assert (forall a b, a <= b -> b < p * q -> a mod p = b mod p -> a mod q = b mod q -> a = b) as K.
  { intros a b Hle Hb Ep' Eq'. pose proof (D a b p Hp Ep' Hle) as Dp. pose proof (D a b q Hq Eq' Hle) as [c Hc].
    rewrite Hc in Dp. rewrite Nat.mul_comm in Dp. apply Nat.gauss in Dp; auto. destruct Dp as [d Hd]. subst c.
    destruct d; [lia|]. nia. }
  destruct (Nat.le_gt_cases i j); [|symmetry]; apply K; auto; lia.
Qed.
Definition tensop (d2 d : nat) (a b : Operator) : Operator := op d (tens d2 (at2 a) (at2 b)).
Lemma tensor_wf d1 d2 a b : op_wf d1 a -> op_wf d2 b -> tensor a b = Some (tensop d2 (d1 * d2) a b).
Proof. intros Ha Hb. rewrite (op_wf_eq d1 a Ha) at 1. rewrite (op_wf_eq d2 b Hb) at 1. apply tensor_op. Qed.
Lemma mum_product_spec d1 d2 m1 m2 : Forall (op_wf d1) (mum_sequence m1) -> Forall (op_wf d2) (mum_sequence m2) ->
  let p := mum_length m1 in let q := mum_length m2 in
  mum_product m1 m2 = Some (mkMUM (mum_matrix_size m1 * mum_matrix_size m2)
    (map (fun k => tensop d2 (d1 * d2) (nth (k mod p) (mum_sequence m1) OP0) (nth (k mod q) (mum_sequence m2) OP0)) (seq 0 (p * q)))).
Proof.
  intros W1 W2 p q. unfold mum_product. cbv zeta. fold p q. set (g := fun k => tensop _ _ _ _).
  assert (forall (x : option (list Operator)) y s, x = Some y -> (let* v := x in Some (MUM_new s v)) = Some (mkMUM s y)) as Hb by (intros x y s ->; reflexivity).
  apply Hb. apply for_m_states with (st := fun i => map g (seq 0 (i * q))); auto.
  intros i Hi. apply for_m_states with (st := fun j => map g (seq 0 (i * q + j))); [f_equal; f_equal; lia|f_equal; f_equal; lia|].
  intros j Hj. assert ((i * q + j) mod p < p) by (apply Nat.mod_upper_bound; lia). assert ((i * q + j) mod q < q) by (apply Nat.mod_upper_bound; lia).
  rewrite (vget_nth _ _ OP0), (vget_nth (mum_sequence m2) _ OP0) by assumption. cbn [bind].
  rewrite (tensor_wf d1 d2) by (apply (proj1 (Forall_forall _ _) W1) || apply (proj1 (Forall_forall _ _) W2); now apply nth_In). cbn [bind].
  rewrite Nat.add_assoc, (Nat.add_1_r (i * q + j)), seq_S, map_app. reflexivity.
Qed.
Lemma tens_mul d1 d2 (f g f' g' : nat -> nat -> cplx) i j :
  csum (d1 * d2) (fun k => cmul (tens d2 f g i k) (tens d2 f' g' k j)) =
  cmul (csum d1 (fun k => cmul (f (i / d2) k) (f' k (j / d2)))) (csum d2 (fun k => cmul (g (i mod d2) k) (g' k (j mod d2)))).
Proof.
  set (F := fun a b => cmul (cmul (f (i / d2) a) (g (i mod d2) b)) (cmul (f' a (j / d2)) (g' b (j mod d2)))).
  transitivity (csum (d1 * d2) (fun m => F (m / d2) (m mod d2))); [reflexivity|].
  rewrite csum_pairs. rewrite <- csum_mul_r. apply csum_ext. intros a Ha. rewrite <- csum_mul_l. apply csum_ext. intros b Hb. unfold F. ring.
Qed.
Lemma cdelta_mul x y a b : cmul (cdelta x a) (cdelta y b) = cdelta (x && y) (cmul a b).
Proof. destruct x, y; unfold cdelta; cbn [andb]; ring. Qed.
Lemma cconj_mul a b : cconj (cmul a b) = cmul (cconj a) (cconj b).
Proof. apply c_ext; cbn; ring. Qed.
Lemma mum_product_projective m1 m2 d1 d2 c1 c2 : projective d1 c1 (mum_sequence m1) -> projective d2 c2 (mum_sequence m2) ->
  mum_matrix_size m1 = d1 -> mum_matrix_size m2 = d2 -> Nat.gcd (mum_length m1) (mum_length m2) = 1 ->
  exists m, mum_product m1 m2 = Some m /\ mum_matrix_size m = d1 * d2 /\ mum_length m = mum_length m1 * mum_length m2 /\
    projective (d1 * d2) (cmul c1 c2) (mum_sequence m).
Proof.
  intros (W1 & A1 & M1 & S1) (W2 & A2 & M2 & S2) <- <- G.
  rewrite (mum_product_spec _ _ m1 m2 W1 W2). eexists. split; [reflexivity|]. cbn [mum_matrix_size]. split; auto.
  set (d1 := mum_matrix_size m1) in *. set (d2 := mum_matrix_size m2) in *.
  unfold mum_length in *. cbn [mum_sequence]. rewrite map_length, seq_length. split; auto.
  set (l1 := mum_sequence m1) in *. set (l2 := mum_sequence m2) in *. set (p := length l1) in *. set (q := length l2) in *.
  set (T := fun k => tensop d2 (d1 * d2) (nth (k mod p) l1 OP0) (nth (k mod q) l2 OP0)).
  assert (length (map T (seq 0 (p * q))) = p * q) as Len by now rewrite map_length, seq_length.
  assert (forall k, k < p * q -> nth k (map T (seq 0 (p * q))) OP0 = T k) as Nth by (intros; now apply nth_map_seq).
  assert (forall k, k < p * q -> p <> 0 /\ q <> 0 /\ k mod p < p /\ k mod q < q) as K.
  { intros k Hk. assert (p <> 0) by nia. assert (q <> 0) by nia. repeat split; auto; now apply Nat.mod_upper_bound. }
  assert (forall i, i < d1 * d2 -> d2 <> 0 /\ i / d2 < d1 /\ i mod d2 < d2) as I.
  { intros i Hi. assert (d2 <> 0) by nia. split; auto. split; [apply Nat.div_lt_upper_bound; lia|now apply Nat.mod_upper_bound]. }
  split; [|split; [|split]]; rewrite ?Len.
  - apply Forall_forall. intros o Ho. apply in_map_iff in Ho as (b & <- & _). apply op_wf_op.
  - intros b i j Hb Hi Hj. rewrite Nth by auto. unfold T, tensop. rewrite !at2_op by auto.
    destruct (K b Hb) as (_ & _ & Hb1 & Hb2), (I i Hi) as (_ & Hi1 & Hi2), (I j Hj) as (_ & Hj1 & Hj2).
    unfold tens. rewrite cconj_mul. f_equal; [now apply A1|now apply A2].
  - intros b b' i j Hb Hb' Hi Hj. rewrite !Nth by auto.
    destruct (K b Hb) as (Hp & Hq & Hb1 & Hb2), (K b' Hb') as (_ & _ & Hb1' & Hb2'), (I i Hi) as (_ & Hi1 & Hi2), (I j Hj) as (_ & Hj1 & Hj2).
    transitivity (csum (d1 * d2) (fun k => cmul (tens d2 (at2 (nth (b mod p) l1 OP0)) (at2 (nth (b mod q) l2 OP0)) i k)
       (tens d2 (at2 (nth (b' mod p) l1 OP0)) (at2 (nth (b' mod q) l2 OP0)) k j))).
    { apply csum_ext. intros k Hk. unfold T, tensop. now rewrite !at2_op. }
    rewrite tens_mul, M1, M2 by auto. rewrite cdelta_mul.
    assert ((b mod p =? b' mod p) && (b mod q =? b' mod q) = (b =? b')) as ->.
    { destruct (Nat.eqb_spec b b') as [->|Hne]; [now rewrite !Nat.eqb_refl|].
      destruct (Nat.eqb_spec (b mod p) (b' mod p)), (Nat.eqb_spec (b mod q) (b' mod q)); auto. exfalso. apply Hne. now apply (crt_inj p q). }
    f_equal. unfold T, tensop. rewrite at2_op by auto. unfold tens. ring.
  - intros i j Hi Hj. destruct (I i Hi) as (Hd & Hi1 & Hi2), (I j Hj) as (_ & Hj1 & Hj2).
    set (F := fun a b => cmul (at2 (nth a l1 OP0) (i / d2) (j / d2)) (at2 (nth b l2 OP0) (i mod d2) (j mod d2))).
    transitivity (csum (p * q) (fun k => F (k mod p) (k mod q))).
    { apply csum_ext. intros k Hk. rewrite Nth by auto. unfold T, tensop. now rewrite at2_op. }
    rewrite csum_crt by auto.
    transitivity (cmul (csum p (fun a => at2 (nth a l1 OP0) (i / d2) (j / d2))) (csum q (fun b => at2 (nth b l2 OP0) (i mod d2) (j mod d2)))).
    { rewrite <- csum_mul_r. apply csum_ext. intros a Ha. rewrite <- csum_mul_l. reflexivity. }
    rewrite S1, S2 by auto. rewrite cdelta_mul. now rewrite divmod_eq.
Qed.

(* ---- HMUO::tensor ---- *)
Lemma HMUO_tensor_size a b : op_wf (hmuo_matrix_size a) (hmuo_operator a) -> op_wf (hmuo_matrix_size b) (hmuo_operator b) ->
  exists u, HMUO_tensor a b = Some u /\ op_wf (hmuo_matrix_size a * hmuo_matrix_size b) (hmuo_operator u) /\
    (forall i j, i < hmuo_matrix_size a * hmuo_matrix_size b -> j < hmuo_matrix_size a * hmuo_matrix_size b ->
      let n := hmuo_matrix_size b in
      at2 (hmuo_operator u) i j = cmul (at2 (hmuo_operator a) (i / n) (j / n)) (at2 (hmuo_operator b) (i mod n) (j mod n))) /\
    (hmuo_matrix_size u = op_size (hmuo_operator u) <->
       hmuo_matrix_size a + hmuo_matrix_size b = hmuo_matrix_size a * hmuo_matrix_size b).
Proof.
  intros Ha Hb. unfold HMUO_tensor. rewrite (tensor_wf _ _ _ _ Ha Hb). eexists. split; [reflexivity|]. cbn [hmuo_matrix_size hmuo_operator].
  split; [apply op_wf_op|]. split; [intros i j Hi Hj; cbv zeta; unfold tensop; now rewrite at2_op|]. reflexivity.
Qed.
(* sizes of matrices of operators are even; the reported size is right only for 2 x 2 blocks tensored together *)
Lemma HMUO_tensor_even x y : (1 <= x -> 1 <= y -> 2 * x + 2 * y = (2 * x) * (2 * y) <-> x = 1 /\ y = 1).
Proof. intros Hx Hy. split; [|intros [-> ->]; reflexivity]. intros E. assert (x = 1 \/ 2 <= x) as [->|] by lia; [lia|]. nia. Qed.

(* ---- dephasing first destroys the measurement ---- *)
Definition pqs5 : QS := mkQS 5 [Q1; Q1; QI; qneg QQ; QI] None.
Definition num (c : cplx) : Z * Z * Z * Z := (Qnum (this (re c)), Zpos (Qden (this (re c))), Qnum (this (im c)), Zpos (Qden (this (im c)))).
Definition clash (m : MUM) (b b' i j : nat) : bool :=
  let d := mum_matrix_size m in
  let x := num (csum d (fun k => cmul (at2 (nth b (mum_sequence m) OP0) i k) (at2 (nth b' (mum_sequence m) OP0) k j))) in
  match x with (0, _, 0, _)%Z => false | _ => true end.
Lemma dephased_mum_refuted : exists q h d m, QS_is_perfect q = Some true /\ length (qs_values q) = qs_size q /\
  Forall (fun p => In p Q24) (qs_values q) /\
  QHM_from_pqs q = Some h /\ QHM_verify h = Some true /\ QHM_dephased h = Some d /\ QHM_verify d = Some true /\ MUM_from_qhm d = Some m /\
  ~ projective (qs_size q * 2) (creal (qs_size q)) (mum_sequence m).
Proof.
  exists pqs5.
  destruct (QHM_from_pqs pqs5) as [h|] eqn:E1; [|vm_compute in E1; discriminate].
  destruct (QHM_dephased h) as [d|] eqn:E2.
  2:{ exfalso. assert ((let* h := QHM_from_pqs pqs5 in QHM_dephased h) = None) as K by (rewrite E1; exact E2). vm_compute in K. discriminate. }
  destruct (MUM_from_qhm d) as [m|] eqn:E3.
  2:{ exfalso. assert ((let* h := QHM_from_pqs pqs5 in let* d := QHM_dephased h in MUM_from_qhm d) = None) as K by (rewrite E1; cbn [bind]; rewrite E2; exact E3).
      vm_compute in K. discriminate. }
  exists h, d, m. split; [vm_compute; reflexivity|]. split; [reflexivity|]. split.
  { apply Forall_forall. intros p Hp. apply in24_iff. cbn in Hp. destruct Hp as [<-|[<-|[<-|[<-|[<-|[]]]]]]; vm_compute; reflexivity. }
  split; auto. split.
  { assert ((let* h := QHM_from_pqs pqs5 in QHM_verify h) = Some true) as K by (vm_compute; reflexivity). rewrite E1 in K. exact K. }
  split; auto. split.
  { assert ((let* h := QHM_from_pqs pqs5 in let* d := QHM_dephased h in QHM_verify d) = Some true) as K by (vm_compute; reflexivity).
    rewrite E1 in K. cbn [bind] in K. rewrite E2 in K. exact K. }
  split; auto.
  assert ((let* h := QHM_from_pqs pqs5 in let* d := QHM_dephased h in let* m := MUM_from_qhm d in
     Some (List.length (mum_sequence m), mum_matrix_size m, clash m 1 2 1 0)) = Some (5, 10, true)) as K by (vm_compute; reflexivity).
  rewrite E1 in K. cbn [bind] in K. rewrite E2 in K. cbn [bind] in K. rewrite E3 in K. cbn [bind] in K.
  assert (forall A (x y : A), Some x = Some y -> x = y) as SI by (intros A x y [= ->]; reflexivity). apply SI in K. injection K as KL KS KC.
  intros (_ & _ & M & _). specialize (M 1 2 1 0). rewrite KL in M. cbn [qs_size pqs5] in M. unfold clash in KC. rewrite KS in KC.
  change (5 * 2) with 10 in M. rewrite M in KC by lia. cbn in KC. discriminate.
Qed.

Lemma HMUO_tensor_refuted : exists h a u, HMUO_from_qhm h = Some a /\ QHM_verify h = Some true /\ HMUO_tensor a a = Some u /\
  hmuo_matrix_size u <> op_size (hmuo_operator u).
Proof.
  exists (mkQHM 2 [[Q1; Q1]; [QI; qneg QI]]).
  assert (square 2 [[Q1; Q1]; [QI; qneg QI]]) as Sq by (split; [reflexivity|repeat constructor]).
  destruct (HMUO_blocks 2 (mkQHM 2 [[Q1; Q1]; [QI; qneg QI]]) eq_refl Sq) as (u & E & Hs & W & _). exists u.
  rewrite <- Hs in W. destruct (HMUO_tensor_size u u W W) as (v & Ev & _ & _ & S). exists v. split; [exact E|]. split; [vm_compute; reflexivity|].
  split; [exact Ev|]. intros K. apply S in K. rewrite Hs in K. cbn in K. lia.
Qed.
Lemma is_perfect_conj q : length (qs_values q) = qs_size q -> Forall (fun p => In p Q24) (qs_values q) ->
  QS_is_perfect (mkQS (qs_size q) (map qconj (qs_values q)) (qs_symmetry q)) = QS_is_perfect q.
Proof.
  intros L H. destruct (is_perfect_spec q L) as (b & E & Hb).
  destruct (is_perfect_spec (mkQS (qs_size q) (map qconj (qs_values q)) (qs_symmetry q))) as (b' & E' & Hb'); [cbn; now rewrite map_length|].
  rewrite E, E'. f_equal. cbn [qs_values] in Hb'. rewrite <- (perfect_conj_iff _ H) in Hb'. destruct b, b'; auto; intuition congruence.
Qed.
Lemma creal_mul a b : creal (a * b) = cmul (creal a) (creal b).
Proof.
  unfold creal. apply c_ext; cbn [re im cmul]; [|ring].
  rewrite Qcmult_0_l. unfold Qcminus. rewrite <- (Qcplus_0_r (qc_of_nat (a * b))). f_equal.
  induction a as [|a IH]; [cbn [Nat.mul]; change (qc_of_nat 0) with 0%Qc; ring|].
  replace (S a * b) with (b + a * b) by lia. rewrite qc_of_nat_S. transitivity (qc_of_nat b + qc_of_nat (a * b))%Qc; [|rewrite IH; ring].
  clear IH. generalize (a * b). intros k. induction b as [|b IH]; [cbn [Nat.add]; change (qc_of_nat 0) with 0%Qc; ring|].
  cbn [Nat.add]. rewrite !qc_of_nat_S, IH. ring.
Qed.
Lemma mum_product_of_perfect p q : length (qs_values p) = qs_size p -> length (qs_values q) = qs_size q ->
  1 <= qs_size p -> 1 <= qs_size q -> Nat.gcd (qs_size p) (qs_size q) = 1 ->
  Forall (fun x => In x Q24) (qs_values p) -> Forall (fun x => In x Q24) (qs_values q) ->
  QS_is_perfect p = Some true -> QS_is_perfect q = Some true ->
  exists hp hq mp mq m, QHM_from_pqs p = Some hp /\ QHM_from_pqs q = Some hq /\ MUM_from_qhm hp = Some mp /\ MUM_from_qhm hq = Some mq /\
    mum_product mp mq = Some m /\ mum_length m = qs_size p * qs_size q /\
    projective (qs_size p * 2 * (qs_size q * 2)) (creal (qs_size p * qs_size q)) (mum_sequence m).
Proof.
  intros Lp Lq Hp Hq G Fp Fq Pp Pq.
  destruct (mum_of_perfect p Lp Hp Fp Pp) as (hp & mp & E1 & E2 & S1 & N1 & R1).
  destruct (mum_of_perfect q Lq Hq Fq Pq) as (hq & mq & E3 & E4 & S2 & N2 & R2).
  destruct (mum_product_projective mp mq _ _ _ _ R1 R2 S1 S2) as (m & E & S & N & R); [unfold mum_length; now rewrite N1, N2|].
  exists hp, hq, mp, mq, m. repeat (split; [assumption|]). split; [rewrite N; unfold mum_length; now rewrite N1, N2|].
  rewrite creal_mul. exact R.
Qed.
