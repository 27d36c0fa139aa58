(* Operators: entrywise description of every function of mum.rs. *)
From Coq Require Import List ZArith QArith Qcanon Lia Arith Bool Ring.
From Verif Require Import Base BaseFacts Sums Quat QuatFacts ModelSequence Spec SeqFacts
  ModelMatrices SpecMatrix MatFacts QhmFacts ModelMum SpecMum ProductFacts.
Import ListNotations.
Open Scope nat_scope.
Notation length := List.length.

Lemma c_ext a b : re a = re b -> im a = im b -> a = b.
Proof. destruct a, b. cbn. intros -> ->. reflexivity. Qed.
Definition copp (a : cplx) : cplx := Cplx (- re a) (- im a).
Definition csub (a b : cplx) : cplx := cadd a (copp b).
Lemma c_ring : ring_theory C0 C1 cadd cmul csub copp (@eq cplx).
Proof. constructor; intros; apply c_ext; cbn; ring. Qed.
Add Ring cring : c_ring.
Lemma cadd_comm x y : cadd x y = cadd y x. Proof. ring. Qed.
Lemma cadd_assoc x y z : cadd x (cadd y z) = cadd (cadd x y) z. Proof. ring. Qed.
Lemma cadd_0_l x : cadd C0 x = x. Proof. ring. Qed.
Lemma csum_ext n f g : (forall i, i < n -> f i = g i) -> csum n f = csum n g.
Proof. apply gsum_ext. Qed.
Lemma csum_S n f : csum (S n) f = cadd (csum n f) (f n).
Proof. apply (gsum_S C0 cadd cadd_comm cadd_assoc cadd_0_l). Qed.
Lemma csum_zero n f : (forall i, i < n -> f i = C0) -> csum n f = C0.
Proof. apply (gsum_zero C0 cadd cadd_comm cadd_assoc cadd_0_l). Qed.
Lemma csum_mul_l n c f : csum n (fun i => cmul c (f i)) = cmul c (csum n f).
Proof. induction n; [cbn; ring|]. rewrite !csum_S, IHn. ring. Qed.
Lemma csum_mul_r n c f : csum n (fun i => cmul (f i) c) = cmul (csum n f) c.
Proof. induction n; [cbn; ring|]. rewrite !csum_S, IHn. ring. Qed.
Lemma csum_swap n m (f : nat -> nat -> cplx) : csum n (fun i => csum m (fun j => f i j)) = csum m (fun j => csum n (fun i => f i j)).
Proof. apply (gsum_swap C0 cadd cadd_comm cadd_assoc cadd_0_l). Qed.
Lemma csum_add n f g : csum n (fun i => cadd (f i) (g i)) = cadd (csum n f) (csum n g).
Proof. apply (gsum_add C0 cadd cadd_comm cadd_assoc cadd_0_l). Qed.
Lemma csum_pairs p q F : csum (p * q) (fun m => F (m / q) (m mod q)) = csum p (fun a => csum q (F a)).
Proof. apply (gsum_pairs C0 cadd cadd_comm cadd_assoc cadd_0_l). Qed.
Lemma csum_crt p q F : Nat.gcd p q = 1 -> csum (p * q) (fun k => F (k mod p) (k mod q)) = csum p (fun a => csum q (F a)).
Proof. apply (gsum_crt C0 cadd cadd_comm cadd_assoc cadd_0_l). Qed.
Lemma csum_one n (i : nat) (f : nat -> cplx) : i < n -> (forall k, k < n -> k <> i -> f k = C0) -> csum n f = f i.
Proof.
  intros Hi H. induction n as [|n IH]; [lia|]. rewrite csum_S. destruct (Nat.eq_dec i n) as [->|Hne].
  - rewrite csum_zero; [ring|]. intros k Hk. apply H; lia.
  - rewrite (H n) by lia. rewrite IH; [ring|lia|]. intros k Hk Hki. apply H; lia.
Qed.

(* an operator given by its entries *)
Definition op (n : nat) (f : nat -> nat -> cplx) : Operator := mkOp n (tab n f).
Lemma op_wf_op n f : op_wf n (op n f).
Proof. split; auto. apply tab_square. Qed.
Lemma op_wf_eq n a : op_wf n a -> a = op n (at2 a).
Proof. destruct a as [m v]. intros [E S]. cbn in *. subst m. unfold op. f_equal. now apply square_tab. Qed.
Lemma at2_op n f i j : i < n -> j < n -> at2 (op n f) i j = f i j.
Proof. intros. unfold at2. cbn. now apply cell_tab. Qed.
Lemma op_ext n f g : (forall i j, i < n -> j < n -> f i j = g i j) -> op n f = op n g.
Proof. intros H. unfold op. f_equal. now apply tab_ext. Qed.
Lemma op_eq n a b : op_wf n a -> op_wf n b -> (forall i j, i < n -> j < n -> at2 a i j = at2 b i j) -> a = b.
Proof. intros Ha Hb H. rewrite (op_wf_eq n a Ha), (op_wf_eq n b Hb). now apply op_ext. Qed.

Lemma vbuild_tab {A} n (h : nat -> nat -> option A) f : (forall i j, i < n -> j < n -> h i j = Some (f i j)) ->
  vbuild n (fun i => vbuild n (fun j => h i j)) = Some (tab n f).
Proof.
  intros H. rewrite (vbuild_map n _ (fun i => map (f i) (seq 0 n))); [reflexivity|].
  intros i Hi. apply vbuild_map. intros j Hj. now apply H.
Qed.
Lemma op_add_op n f g : op_add (op n f) (op n g) = Some (op n (fun i j => cadd (f i j) (g i j))).
Proof.
  unfold op_add. cbn [op op_size op_values]. rewrite (vbuild_tab n _ (fun i j => cadd (f i j) (g i j))); [reflexivity|].
  intros i j Hi Hj. now rewrite !mget_tab.
Qed.
Lemma op_scale_op n f c : op_scale (op n f) c = Some (op n (fun i j => cmul (f i j) c)).
Proof.
  unfold op_scale. cbn [op op_size op_values]. rewrite (vbuild_tab n _ (fun i j => cmul (f i j) c)); [reflexivity|].
  intros i j Hi Hj. now rewrite !mget_tab.
Qed.
Lemma conjugate_transpose_op n f : conjugate_transpose (op n f) = Some (op n (fun i j => cconj (f j i))).
Proof.
  unfold conjugate_transpose. cbn [op op_size op_values]. rewrite (vbuild_tab n _ (fun i j => cconj (f j i))); [reflexivity|].
  intros i j Hi Hj. now rewrite !mget_tab.
Qed.
Lemma empty_op n : Operator_empty n = op n (fun _ _ => C0).
Proof. unfold Operator_empty, op. now rewrite mconst_tab. Qed.
Lemma basis_op n j k : j < n -> k < n -> computational_basis n j k = Some (op n (fun a b => if (a =? j) && (b =? k) then C1 else C0)).
Proof.
  intros Hj Hk. unfold computational_basis. rewrite mconst_tab.
  rewrite mset_tab by auto. reflexivity.
Qed.

(* tensor product *)
Definition tens (m : nat) (f g : nat -> nat -> cplx) (r c : nat) : cplx := cmul (f (r / m) (c / m)) (g (r mod m) (c mod m)).
Lemma tensor_op n m f g : tensor (op n f) (op m g) = Some (op (n * m) (tens m f g)).
Proof.
  unfold tensor. cbn [op op_size op_values]. rewrite mconst_tab. cbv zeta.
  set (code := fun r c => ((r / m * n + c / m) * m + r mod m) * m + c mod m).
  set (st := fun K => tab (n * m) (fun r c => if code r c <? K then tens m f g r c else C0)).
  assert (forall r c, r < n * m -> c < n * m -> m <> 0 /\ r / m < n /\ c / m < n /\ r mod m < m /\ c mod m < m) as B.
  { intros r c Hr Hc. assert (m <> 0) as Hm by nia. split; auto.
    split; [apply Nat.div_lt_upper_bound; lia|]. split; [apply Nat.div_lt_upper_bound; lia|]. split; now apply Nat.mod_upper_bound. }
  assert (forall (x : option (list (list cplx))) y, x = Some y -> (let* v := x in Some (mkOp (n * m) v)) = Some (mkOp (n * m) y)) as Hb by (intros x y ->; reflexivity).
  apply Hb.
  apply for_m_states with (st := fun i => st (i * n * m * m)).
  - unfold st. apply tab_ext. intros r c Hr Hc. destruct (Nat.ltb_spec (code r c) (0 * n * m * m)); auto. lia.
  - unfold st. apply tab_ext. intros r c Hr Hc. destruct (Nat.ltb_spec (code r c) (n * n * m * m)) as [|L]; auto. exfalso.
    destruct (B r c Hr Hc) as (Hm & H1 & H2 & H3 & H4). unfold code in L.
    assert ((r / m * n + c / m) + 1 <= n * n) by nia. assert ((r / m * n + c / m) * m + r mod m + 1 <= n * n * m) by nia. nia.
  - intros i Hi. apply for_m_states with (st := fun j => st ((i * n + j) * m * m)); [f_equal; lia|f_equal; nia|].
    intros j Hj. apply for_m_states with (st := fun p => st (((i * n + j) * m + p) * m)); [f_equal; lia|f_equal; nia|].
    intros p Hp. apply for_m_states with (st := fun q => st (((i * n + j) * m + p) * m + q)); [f_equal; lia|f_equal; nia|].
    intros q Hq. rewrite !mget_tab by auto. cbn [bind]. unfold st.
    assert ((i * m + p) / m = i /\ (i * m + p) mod m = p /\ (j * m + q) / m = j /\ (j * m + q) mod m = q) as (E1 & E2 & E3 & E4).
    { rewrite !Nat.div_add_l, !Nat.div_small by lia. rewrite !(Nat.add_comm (_ * m)), !Nat.mod_add, !Nat.mod_small by lia. lia. }
    apply mset_tab_as; try nia.
    + unfold code, tens. rewrite E1, E2, E3, E4.
      destruct (Nat.ltb_spec (((i * n + j) * m + p) * m + q) (((i * n + j) * m + p) * m + (q + 1))); auto. lia.
    + intros r c Hr Hc Hne. destruct (B r c Hr Hc) as (Hm & H1 & H2 & H3 & H4).
      assert (code r c <> ((i * n + j) * m + p) * m + q) as Ne.
      { intros E. unfold code in E. apply lex_eq in E as [E Eq]; auto. apply lex_eq in E as [E Ep]; auto. apply lex_eq in E as [Ei Ej]; auto.
        rewrite (Nat.div_mod r m), (Nat.div_mod c m) in Hne by auto. lia. }
      destruct (Nat.ltb_spec (code r c) (((i * n + j) * m + p) * m + (q + 1))), (Nat.ltb_spec (code r c) (((i * n + j) * m + p) * m + q)); auto; lia.
Qed.

(* the 2 x 2 matrix of a quaternion *)
Definition qmat (q : quat) (i j : nat) : cplx :=
  match i, j with
  | 0, 0 => Cplx (q_s q) (q_z q)
  | 0, _ => Cplx (- q_y q) (q_x q)
  | _, 0 => Cplx (q_y q) (q_x q)
  | _, _ => Cplx (q_s q) (- q_z q)
  end.
Lemma lt2 i : i < 2 -> i = 0 \/ i = 1. Proof. lia. Qed.
Lemma quaternion_to_operator_op q : quaternion_to_operator q = Some (op 2 (qmat q)).
Proof.
  unfold quaternion_to_operator.
  assert (forall a b c d, make_operator a b c d = op 2 (fun i j => match i, j with 0, 0 => a | 0, _ => b | _, 0 => c | _, _ => d end)) as M by reflexivity.
  unfold OP1, OPX, OPY, OPZ. rewrite !M, !op_scale_op. cbn [bind]. rewrite op_add_op. cbn [bind]. rewrite op_add_op. cbn [bind].
  rewrite op_add_op. f_equal. apply op_ext. intros i j Hi Hj.
  destruct (lt2 i Hi) as [-> | ->], (lt2 j Hj) as [-> | ->]; apply c_ext; cbn; ring.
Qed.
Lemma qmat_mul p q i j : i < 2 -> j < 2 -> qmat (qmul p q) i j = csum 2 (fun k => cmul (qmat p i k) (qmat q k j)).
Proof.
  intros Hi Hj. destruct (lt2 i Hi) as [-> | ->], (lt2 j Hj) as [-> | ->]; apply c_ext; cbn; ring.
Qed.
Lemma qmat_add p q i j : qmat (qadd p q) i j = cadd (qmat p i j) (qmat q i j).
Proof. destruct i, j; apply c_ext; cbn; ring. Qed.
Lemma qmat_conj p i j : i < 2 -> j < 2 -> qmat (qconj p) i j = cconj (qmat p j i).
Proof. intros Hi Hj. destruct (lt2 i Hi) as [-> | ->], (lt2 j Hj) as [-> | ->]; apply c_ext; cbn; ring. Qed.
Lemma qmat_0 i j : qmat Q0 i j = C0.
Proof. destruct i, j; apply c_ext; cbn; ring. Qed.
Lemma qmat_sum n f i j : qmat (qsum n f) i j = csum n (fun k => qmat (f k) i j).
Proof. induction n; [apply qmat_0|]. now rewrite qsum_S, qmat_add, csum_S, IHn. Qed.
Lemma qmat_scale c p i j : i < 2 -> j < 2 -> qmat (qscale c p) i j = cmul (Cplx c 0) (qmat p i j).
Proof. intros Hi Hj. destruct (lt2 i Hi) as [-> | ->], (lt2 j Hj) as [-> | ->]; apply c_ext; cbn; ring. Qed.
Lemma qmat_1 i j : i < 2 -> j < 2 -> qmat Q1 i j = cdelta (i =? j) C1.
Proof. intros Hi Hj. destruct (lt2 i Hi) as [-> | ->], (lt2 j Hj) as [-> | ->]; apply c_ext; cbn; ring. Qed.

Lemma q2o_hom p q : exists a b c, quaternion_to_operator p = Some a /\ quaternion_to_operator q = Some b /\
  quaternion_to_operator (qmul p q) = Some c /\ is_product 2 a b c.
Proof.
  rewrite !quaternion_to_operator_op. eexists _, _, _. split; [reflexivity|]. split; [reflexivity|]. split; [reflexivity|].
  repeat split; try apply tab_square. intros i j Hi Hj. rewrite at2_op, qmat_mul by auto. apply csum_ext. intros k Hk. now rewrite !at2_op.
Qed.
Lemma q2o_add p q : exists a b c, quaternion_to_operator p = Some a /\ quaternion_to_operator q = Some b /\
  quaternion_to_operator (qadd p q) = Some c /\ op_add a b = Some c /\ is_sum 2 a b c.
Proof.
  rewrite !quaternion_to_operator_op. eexists _, _, _. split; [reflexivity|]. split; [reflexivity|]. split; [reflexivity|].
  assert (forall i j, qmat (qadd p q) i j = cadd (qmat p i j) (qmat q i j)) as E by (intros; apply qmat_add).
  split; [rewrite op_add_op; f_equal; now apply op_ext|].
  repeat split; try apply tab_square. intros i j Hi Hj. now rewrite !at2_op.
Qed.
Lemma q2o_conj p : exists a b, quaternion_to_operator p = Some a /\ quaternion_to_operator (qconj p) = Some b /\
  conjugate_transpose a = Some b /\ is_adjoint 2 a b.
Proof.
  rewrite !quaternion_to_operator_op. eexists _, _. split; [reflexivity|]. split; [reflexivity|].
  split; [rewrite conjugate_transpose_op; f_equal; apply op_ext; intros; now rewrite qmat_conj|].
  repeat split; try apply tab_square. intros i j Hi Hj. rewrite !at2_op by auto. now apply qmat_conj.
Qed.
Lemma q2o_inj p q : quaternion_to_operator p = quaternion_to_operator q -> p = q.
Proof.
  rewrite !quaternion_to_operator_op. intros [= E1 E2 E3 E4 E5 E6 E7 E8]. destruct p, q. cbn in *. congruence.
Qed.
Lemma conjugate_transpose_involutive n a : op_wf n a -> exists b, conjugate_transpose a = Some b /\ is_adjoint n a b /\ conjugate_transpose b = Some a.
Proof.
  intros H. rewrite (op_wf_eq n a H). rewrite conjugate_transpose_op. eexists. split; [reflexivity|]. split.
  - split; [apply op_wf_op|]. split; [apply op_wf_op|]. intros i j Hi Hj. now rewrite !at2_op.
  - rewrite conjugate_transpose_op. f_equal. apply op_ext. intros i j Hi Hj. destruct (at2 a i j). apply c_ext; cbn; ring.
Qed.

(* ---- Hadamard matrices of operators ---- *)
Lemma op_for n (body : Operator -> nat -> nat -> option Operator) d (g : nat -> nat -> nat -> nat -> cplx) :
  (forall f j k, j < n -> k < n -> body (op d f) j k = Some (op d (fun r c => cadd (f r c) (g j k r c)))) ->
  for_m n (fun m j => for_m n (fun m k => body m j k) m) (Operator_empty d) =
  Some (op d (fun r c => csum n (fun j => csum n (fun k => g j k r c)))).
Proof.
  intros H. rewrite empty_op.
  apply for_m_states with (st := fun i => op d (fun r c => csum i (fun j => csum n (fun k => g j k r c)))); auto.
  intros j Hj. apply for_m_states with (st := fun i => op d (fun r c => cadd (csum j (fun j => csum n (fun k => g j k r c))) (csum i (fun k => g j k r c)))).
  - apply op_ext. intros. cbn. ring.
  - apply op_ext. intros. rewrite Nat.add_1_r. now rewrite csum_S.
  - intros k Hk. rewrite H by auto. f_equal. apply op_ext. intros. rewrite (Nat.add_1_r k), csum_S. ring.
Qed.
Lemma HMUO_from_qhm_tab n f : HMUO_from_qhm (mkQHM n (tab n f)) =
  Some (mkHMUO (2 * n) (op (2 * n) (fun r c => qmat (qconj (f (r / 2) (c / 2))) (r mod 2) (c mod 2)))).
Proof.
  unfold HMUO_from_qhm. cbn [qhm_size]. cbv zeta.
  rewrite (op_for n _ (2 * n) (fun j k r c => tens 2 (fun a b => if (a =? j) && (b =? k) then C1 else C0) (qmat (qconj (f j k))) r c)).
  - cbn [bind]. do 2 f_equal. apply op_ext. intros r c Hr Hc.
    assert (r / 2 < n) by (apply Nat.div_lt_upper_bound; lia). assert (c / 2 < n) by (apply Nat.div_lt_upper_bound; lia).
    rewrite (csum_one n (r / 2)); auto.
    + rewrite (csum_one n (c / 2)); auto.
      * unfold tens. rewrite !Nat.eqb_refl. cbn [andb]. ring.
      * intros k Hk Hne. unfold tens. rewrite (proj2 (Nat.eqb_neq (c / 2) k)) by auto. rewrite andb_false_r. ring.
    + intros j Hj Hne. apply csum_zero. intros k Hk. unfold tens. rewrite (proj2 (Nat.eqb_neq (r / 2) j)) by auto. cbn [andb]. ring.
  - intros g j k Hj Hk. unfold QHM_get. cbn [qhm_matrix]. rewrite mget_tab by auto. cbn [bind].
    rewrite basis_op by auto. cbn [bind]. rewrite quaternion_to_operator_op. cbn [bind]. rewrite tensor_op. cbn [bind].
    rewrite (Nat.mul_comm n 2). now rewrite op_add_op.
Qed.
Lemma MUM_from_qhm_tab n f : MUM_from_qhm (mkQHM n (tab n f)) =
  Some (mkMUM (n * 2) (map (fun b => op (n * 2) (fun r c => qmat (qmul (f b (r mod n)) (qconj (f b (c mod n)))) (r / n) (c / n))) (seq 0 n))).
Proof.
  unfold MUM_from_qhm. cbn [qhm_size]. cbv zeta.
  rewrite (vbuild_map n _ (fun b => op (n * 2) (fun r c => qmat (qmul (f b (r mod n)) (qconj (f b (c mod n)))) (r / n) (c / n)))); [reflexivity|].
  intros b Hb.
  rewrite (op_for n _ (n * 2) (fun j k r c => tens n (qmat (qmul (f b j) (qconj (f b k)))) (fun a b => if (a =? j) && (b =? k) then C1 else C0) r c)).
  - cbn [bind]. f_equal. apply op_ext. intros r c Hr Hc.
    assert (r mod n < n) by (apply Nat.mod_upper_bound; lia). assert (c mod n < n) by (apply Nat.mod_upper_bound; lia).
    rewrite (csum_one n (r mod n)); auto.
    + rewrite (csum_one n (c mod n)); auto.
      * unfold tens. rewrite !Nat.eqb_refl. cbn [andb]. ring.
      * intros k Hk Hne. unfold tens. rewrite (proj2 (Nat.eqb_neq (c mod n) k)) by auto. rewrite andb_false_r. ring.
    + intros j Hj Hne. apply csum_zero. intros k Hk. unfold tens. rewrite (proj2 (Nat.eqb_neq (r mod n) j)) by auto. cbn [andb]. ring.
  - intros g j k Hj Hk. unfold QHM_get. cbn [qhm_matrix]. rewrite !mget_tab by auto. cbn [bind].
    rewrite basis_op by auto. cbn [bind]. rewrite quaternion_to_operator_op. cbn [bind]. rewrite tensor_op. cbn [bind].
    rewrite (Nat.mul_comm 2 n). now rewrite op_add_op.
Qed.
