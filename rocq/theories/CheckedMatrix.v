(* Overflow checks: the verification of a Hadamard matrix. *)
From Coq Require Import List ZArith Lia Arith Bool.
From Verif Require Import Base BaseFacts Sums Quat ModelSequence ModelWilliamson SeqFacts ModelMatrices SpecMatrix MatFacts HmFacts ModelChecked SpecEquiv SpecChecked CheckedFacts Spec.
Import ListNotations.
Notation length := List.length.
Open Scope nat_scope.

Definition i8_dec z : {i8 z} + {~ i8 z}.
Proof. unfold i8. destruct (Z_le_dec (-128) z), (Z_le_dec z 127); [left|right|right|right]; lia. Defined.

Section Inner.
  Variables (n : nat) (x y : list Z).
  Hypotheses (Lx : length x = n) (Ly : length y = n) (Px : pm1 x) (Py : pm1 y).
  Let body := fun result i => let* a := vget x i in let* b := vget y i in let* m := chk8 (a * b)%Z in chk8 (result + m)%Z.
  Lemma body_step k : k < n -> body (partial_dot x y k) k = chk8 (partial_dot x y (S k)).
  Proof.
    intros Hk. unfold body. rewrite (vget_nth x k 0%Z), (vget_nth y k 0%Z) by lia. cbn [bind].
    rewrite chk8_some; [cbn [bind]; unfold partial_dot; now rewrite sumZ_S|].
    destruct (pm1_nth x k Px), (pm1_nth y k Py); try lia; rewrite H, H0; unfold i8; lia.
  Qed.
  Lemma inner_from : forall m k, k + m = n ->
    fold_m body (seq k m) (partial_dot x y k) = if forallb (fun j => if i8_dec (partial_dot x y j) then true else false) (seq (S k) m) then Some (partial_dot x y n) else None.
  Proof.
    induction m as [|m IH]; intros k Hk; cbn [seq fold_m forallb]; [now rewrite <- Hk, Nat.add_0_r|].
    rewrite body_step by lia. destruct (i8_dec (partial_dot x y (S k))) as [H|H].
    - rewrite chk8_some by auto. cbn [bind andb]. apply IH. lia.
    - rewrite chk8_none by (unfold i8 in H; lia). reflexivity.
  Qed.
  Lemma inner_some : (forall k, k <= n -> i8 (partial_dot x y k)) -> checked_inner n x y = Some (dot x y).
  Proof.
    intros H. unfold checked_inner, for_m, range. rewrite Nat.sub_0_r. change 0%Z with (partial_dot x y 0). fold body. rewrite inner_from by lia.
    rewrite (proj2 (forallb_forall _ _)). { unfold partial_dot, dot. now rewrite Lx. }
    intros j Hj. apply in_seq in Hj. destruct (i8_dec _) as [|N]; auto. exfalso. apply N, H. lia.
  Qed.
  Lemma inner_none k : k <= n -> ~ i8 (partial_dot x y k) -> checked_inner n x y = None.
  Proof.
    intros Hk H. unfold checked_inner, for_m, range. rewrite Nat.sub_0_r. change 0%Z with (partial_dot x y 0). fold body. rewrite inner_from by lia.
    destruct (forallb _ _) eqn:E; [|reflexivity]. rewrite forallb_forall in E. destruct k as [|k]; [exfalso; apply H; unfold partial_dot, i8; cbn; lia|].
    specialize (E (S k) ltac:(apply in_seq; lia)). cbn beta in E. destruct (i8_dec (partial_dot x y (S k))); [contradiction|discriminate].
  Qed.
  Lemma inner_value v : checked_inner n x y = Some v -> v = dot x y.
  Proof.
    unfold checked_inner, for_m, range. rewrite Nat.sub_0_r. change 0%Z with (partial_dot x y 0). fold body. rewrite inner_from by lia.
    destruct (forallb _ _); [|discriminate]. intros E. injection E as <-. unfold partial_dot, dot. now rewrite Lx.
  Qed.
  Lemma partial_bound k : k <= n -> (Z.abs (partial_dot x y k) <= Z.of_nat k)%Z.
  Proof.
    intros Hk. unfold partial_dot. rewrite <- (Z.mul_1_r (Z.of_nat k)). apply sumZ_bound. intros i Hi.
    destruct (pm1_nth x i Px), (pm1_nth y i Py); try lia; rewrite H, H0; lia.
  Qed.
  (* the sums of a product that ends at 0 stay below half the length *)
  Lemma partial_half k : k <= n -> dot x y = 0%Z -> (2 * Z.abs (partial_dot x y k) <= Z.of_nat n)%Z.
  Proof.
    intros Hk E. assert (B := partial_bound k Hk). unfold dot in E. rewrite Lx in E. replace n with (k + (n - k)) in E by lia. rewrite sumZ_split in E.
    assert (Z.abs (sumZ (n - k) (fun j => nth (k + j) x 0 * nth (k + j) y 0)%Z) <= Z.of_nat (n - k))%Z as C.
    { rewrite <- (Z.mul_1_r (Z.of_nat (n - k))). apply sumZ_bound. intros i Hi.
      destruct (pm1_nth x (k + i) Px), (pm1_nth y (k + i) Py); try lia; rewrite H, H0; lia. }
    unfold partial_dot in *. lia.
  Qed.
End Inner.

Lemma all_m_yes {A} (f : A -> option bool) l : all_m f l = Some true -> forall a, In a l -> f a = Some true.
Proof.
  induction l as [|a l IH]; cbn [all_m]; [intros _ ? []|]. destruct (f a) as [[|]|] eqn:Ea; cbn [bind]; try discriminate. intros E z [<-|Hz]; auto.
Qed.
Lemma all_m_no {A} (f : A -> option bool) l : all_m f l = Some false -> exists a, In a l /\ f a = Some false.
Proof.
  induction l as [|a l IH]; cbn [all_m]; [discriminate|]. destruct (f a) as [[|]|] eqn:Ea; cbn [bind]; try discriminate.
  - intros E. destruct (IH E) as (z & Hz & E'). exists z. split; auto. now right.
  - intros _. exists a. split; auto. now left.
Qed.
Lemma all_m_all {A} (f : A -> option bool) l : (forall a, In a l -> f a = Some true) -> all_m f l = Some true.
Proof. induction l as [|a l IH]; intros H; cbn [all_m]; auto. rewrite (H a (or_introl eq_refl)). cbn [bind]. apply IH. intros; apply H; now right. Qed.
Lemma all_m_first {A} (f : A -> option bool) a l : f a = None -> all_m f (a :: l) = None.
Proof. intros E. cbn [all_m]. now rewrite E. Qed.
Lemma all_m_ext {A} (f g : A -> option bool) l : (forall a, In a l -> f a = g a) -> all_m f l = all_m g l.
Proof.
  induction l as [|a l IH]; intros H; cbn [all_m]; auto. rewrite (H a (or_introl eq_refl)). destruct (g a) as [[|]|]; cbn [bind]; auto. apply IH. intros; apply H; now right.
Qed.

Section Matrix.
  Variables (n : nat) (h : HM).
  Hypotheses (Hs : hm_size h = n) (Hp : pm_matrix n (hm_matrix h)).
  Let row i := nth i (hm_matrix h) [].
  Lemma row_get i : i < n -> HM_row h i = Some (row i).
  Proof. intros Hi. unfold HM_row. apply vget_nth. rewrite (proj1 (proj1 Hp)). lia. Qed.
  Lemma row_ok i : i < n -> length (row i) = n /\ pm1 (row i). Proof. intros Hi. now apply pm_matrix_row. Qed.

  Lemma pair_get i j : i < n -> j < n ->
    (let* row1_vec := HM_row h i in let* row2_vec := HM_row h j in let* result := checked_inner n row1_vec row2_vec in Some (result =? 0)%Z) =
    (let* v := checked_inner n (row i) (row j) in Some (v =? 0)%Z).
  Proof. intros Hi Hj. now rewrite !row_get by auto. Qed.
  (* the answer, when there is one, is right for every size *)
  Theorem checked_verify_sound b : checked_HM_verify h = Some b -> (b = true <-> orthogonal_rows n (hm_matrix h)).
  Proof.
    unfold checked_HM_verify. rewrite Hs. intros E. destruct b; (split; [|]); try discriminate; auto.
    - intros _.
      assert (G : forall i j, i < j -> j < n -> dot (row i) (row j) = 0%Z).
      { intros i j Hij Hj. assert (H := all_m_yes _ _ (all_m_yes _ _ E i ltac:(apply in_range; lia)) j ltac:(apply in_range; lia)). cbn beta in H.
        rewrite pair_get in H by lia. destruct (row_ok i ltac:(lia)), (row_ok j Hj).
        destruct (checked_inner n (row i) (row j)) as [v|] eqn:Ev; cbn [bind] in H; [|discriminate]. injection H as H. apply Z.eqb_eq in H.
        apply (inner_value n) in Ev; auto. congruence. }
      intros i j Hi Hj Hij. fold (row i) (row j). destruct (row_ok i Hi), (row_ok j Hj).
      destruct (lt_eq_lt_dec i j) as [[L|L]|L]; [now apply G|contradiction|]. rewrite (dot_comm n) by auto. now apply G.
    - intros O. exfalso. apply all_m_no in E as (i & Hi & E). apply all_m_no in E as (j & Hj & E). apply in_range in Hi, Hj.
      rewrite pair_get in E by lia. destruct (row_ok i ltac:(lia)), (row_ok j ltac:(lia)).
      destruct (checked_inner n (row i) (row j)) as [v|] eqn:Ev; cbn [bind] in E; [|discriminate]. injection E as E. apply Z.eqb_neq in E.
      apply (inner_value n) in Ev; auto. apply E. rewrite Ev. apply O; lia.
  Qed.
  (* an overflow in the first pair of rows *)
  Lemma checked_verify_first k : 2 <= n -> k <= n -> ~ i8 (partial_dot (row 0) (row 1) k) -> checked_HM_verify h = None.
  Proof.
    intros Hn Hk H. unfold checked_HM_verify. rewrite Hs. replace (range 0 n) with (0 :: seq 1 (n - 1)).
    2:{ unfold range. rewrite Nat.sub_0_r. destruct n; [lia|]. cbn [seq]. f_equal. f_equal. lia. }
    apply all_m_first. replace (range (0 + 1) n) with (1 :: seq 2 (n - 2)).
    2:{ unfold range. cbn [Nat.add]. destruct n as [|[|m]]; [lia|lia|]. cbn [seq Nat.sub]. f_equal. f_equal. lia. }
    apply all_m_first. rewrite pair_get by lia. destruct (row_ok 0 ltac:(lia)), (row_ok 1 ltac:(lia)). now rewrite (inner_none n (row 0) (row 1)) with (k := k).
  Qed.
  (* up to size 127 there is nothing to check *)
  Theorem checked_verify_small : n <= 127 -> checked_HM_verify h = HM_verify h.
  Proof.
    intros Hn. unfold checked_HM_verify, HM_verify. rewrite Hs. apply all_m_ext. intros i Hi. apply all_m_ext. intros j Hj. apply in_range in Hi, Hj.
    rewrite !row_get by lia. cbn [bind]. destruct (row_ok i ltac:(lia)), (row_ok j ltac:(lia)). rewrite hm_inner_spec by auto. rewrite inner_some; auto.
    - cbn [bind]. rewrite wrap8_id; auto. assert (B := dot_bound n (row i) (row j)). assert (Z.abs (dot (row i) (row j)) <= Z.of_nat n)%Z by auto. unfold i8. lia.
    - intros k Hk. assert (Z.abs (partial_dot (row i) (row j) k) <= Z.of_nat k)%Z by (apply (partial_bound n); auto). unfold i8. lia.
  Qed.
  (* and up to size 255 a matrix with orthogonal rows is accepted *)
  Theorem checked_verify_orthogonal : n <= 255 -> orthogonal_rows n (hm_matrix h) -> checked_HM_verify h = Some true.
  Proof.
    intros Hn O. unfold checked_HM_verify. rewrite Hs. apply all_m_all. intros i Hi. apply all_m_all. intros j Hj. apply in_range in Hi, Hj.
    rewrite pair_get by lia. destruct (row_ok i ltac:(lia)), (row_ok j ltac:(lia)).
    assert (E : dot (row i) (row j) = 0%Z) by (apply O; lia).
    rewrite inner_some; auto; [cbn [bind]; now rewrite E|].
    intros k Hk. assert (2 * Z.abs (partial_dot (row i) (row j) k) <= Z.of_nat n)%Z by (apply (partial_half n); auto). unfold i8. lia.
  Qed.
End Matrix.

(* the matrix of ones: accepted by the release build when its size is a multiple of 256 *)
Theorem checked_ones n : 128 <= n -> checked_HM_verify (HM_new n) = None.
Proof.
  intros Hn. assert (hm_matrix (HM_new n) = tab n (fun _ _ => 1%Z)) as E by apply mconst_tab.
  apply (checked_verify_first n (HM_new n) eq_refl) with (k := 128); try lia.
  - rewrite E. apply pm_matrix_tab. auto.
  - rewrite E. unfold partial_dot. rewrite !tab_row by lia. rewrite (sumZ_ext 128 _ (fun _ => 1%Z)).
    + rewrite sumZ_const. unfold i8. lia.
    + intros i Hi. rewrite !nth_map_seq by lia. reflexivity.
Qed.

(* a Hadamard matrix of size 256 on which the check panics *)
Definition double (m : list (list Z)) : list (list Z) := flat_map (fun r => [r ++ r; r ++ map Z.opp r]) m.
Definition sylvester256 : HM := mkHM 256 (Nat.iter 8 double [[1%Z]]).
Fixpoint zdot (x y : list Z) : Z := match x, y with a :: x, b :: y => (a * b + zdot x y)%Z | _, _ => 0%Z end.
Lemma dot_zdot x : forall y, dot x y = zdot x y.
Proof.
  induction x as [|a x IH]; intros y; [reflexivity|]. unfold dot. cbn [length]. change (S (length x)) with (1 + length x). rewrite sumZ_split. destruct y as [|b y].
  - cbn [zdot]. rewrite !sumZ_zero; auto; intros i _; rewrite (nth_overflow (@nil Z)) by (cbn; lia); apply Z.mul_0_r.
  - cbn [zdot]. rewrite <- IH. unfold dot. cbn [Nat.add nth]. unfold sumZ at 1. cbn [seq map fold_right nth]. lia.
Qed.
Definition pm_test (n : nat) (m : list (list Z)) : bool :=
  (length m =? n) && forallb (fun r => (length r =? n) && forallb (fun x => (x =? 1)%Z || (x =? -1)%Z) r) m.
Lemma pm_test_ok n m : pm_test n m = true -> pm_matrix n m.
Proof.
  unfold pm_test. intros H. apply andb_true_iff in H as [L H]. apply Nat.eqb_eq in L. rewrite forallb_forall in H. split; [split; auto|]; apply Forall_forall; intros r Hr;
    specialize (H r Hr); apply andb_true_iff in H as [H1 H2]; [now apply Nat.eqb_eq|]. rewrite forallb_forall in H2. apply Forall_forall. intros x Hx. specialize (H2 x Hx). lia.
Qed.
Lemma sylvester_orthogonal : hadamard 256 (hm_matrix sylvester256).
Proof.
  split; [apply pm_test_ok; vm_compute; reflexivity|].
  assert (H : (fun m => forallb (fun i => let r := nth i m [] in forallb (fun j => (i =? j) || (zdot r (nth j m []) =? 0)%Z) (seq 0 256)) (seq 0 256)) (hm_matrix sylvester256) = true) by (vm_compute; reflexivity).
  cbv beta in H. intros i j Hi Hj Hij. rewrite forallb_forall in H. specialize (H i ltac:(apply in_seq; lia)). cbv zeta in H. rewrite forallb_forall in H.
  specialize (H j ltac:(apply in_seq; lia)). apply orb_true_iff in H as [H|H]; [apply Nat.eqb_eq in H; contradiction|]. apply Z.eqb_eq in H. now rewrite dot_zdot.
Qed.
Theorem checked_256_refuted : exists h, hm_size h = 256 /\ hadamard 256 (hm_matrix h) /\ HM_verify h = Some true /\ checked_HM_verify h = None.
Proof.
  exists sylvester256. assert (O := sylvester_orthogonal). split; [reflexivity|]. split; [exact O|]. split.
  - destruct (HM_verify_spec 256 sylvester256 eq_refl (proj1 O)) as (b & -> & H). f_equal. apply H. intros i j Hi Hj Hij. now rewrite (proj2 O i j Hi Hj Hij).
  - apply (checked_verify_first 256 sylvester256 eq_refl (proj1 O)) with (k := 128); try lia.
    assert (partial_dot (nth 0 (hm_matrix sylvester256) []) (nth 1 (hm_matrix sylvester256) []) 128 = 128%Z) as -> by (vm_compute; reflexivity). unfold i8. lia.
Qed.
