(* The printed forms of matrices determine the matrices. *)
From Coq Require Import Ascii String List ZArith Lia Arith Bool.
From Verif Require Import Base BaseFacts Sums Quat QuatFacts ModelSequence Spec SeqFacts Convert
  ModelMatrices SpecMatrix MatFacts HmFacts QhmFacts SpecPrint.
Import ListNotations.
Open Scope nat_scope.
Notation length := List.length.

Lemma for_m_append {A} n (body : list A -> nat -> option (list A)) (g : nat -> list A) acc :
  (forall s i, i < n -> body s i = Some (s ++ g i)) -> for_m n body acc = Some (acc ++ concat (map g (seq 0 n))).
Proof.
  intros H. apply for_m_states with (st := fun k => acc ++ concat (map g (seq 0 k))); auto; [cbn; now rewrite app_nil_r|].
  intros i Hi. rewrite H by auto. f_equal. rewrite Nat.add_1_r. rewrite seq_S, map_app, concat_app. cbn. now rewrite app_nil_r, app_assoc.
Qed.
Lemma map_tab {A B} n (f : nat -> nat -> A) (g : list A -> B) : map g (tab n f) = map (fun i => g (map (f i) (seq 0 n))) (seq 0 n).
Proof. unfold tab. now rewrite map_map. Qed.

Lemma HM_to_string_spec n m : square n m -> HM_to_string (mkHM n m) = Some (concat (map (bar_line sign_char) m)).
Proof.
  intros Sq. rewrite (square_tab n m 0%Z) by auto. set (f := cell 0%Z m). unfold HM_to_string. cbn [hm_size hm_matrix].
  rewrite (for_m_append n _ (fun i => bar_line sign_char (map (f i) (seq 0 n)))).
  - rewrite map_tab. reflexivity.
  - intros s i Hi. rewrite (for_m_append n _ (fun j => [sign_char (f i j); " "%char])).
    + cbn [bind]. unfold bar_line, chars. rewrite map_map. cbn [list_ascii_of_string]. rewrite <- !app_assoc. reflexivity.
    + intros s' j Hj. rewrite mget_tab by auto. reflexivity.
Qed.
Definition letter_of (p : quat) : ascii := match quaternion_to_string p with Some c => c | None => " "%char end.
Lemma QHM_to_string_spec n m : square n m -> entries_in24 m -> QHM_to_string (mkQHM n m) = Some (concat (map (bar_line letter_of) m)).
Proof.
  intros Sq H. rewrite (square_tab n m Q1) by auto. set (f := cell Q1 m). unfold QHM_to_string. cbn [qhm_size qhm_matrix].
  rewrite (for_m_append n _ (fun i => bar_line letter_of (map (f i) (seq 0 n)))).
  - rewrite map_tab. reflexivity.
  - intros s i Hi. rewrite (for_m_append n _ (fun j => [letter_of (f i j); " "%char])).
    + cbn [bind]. unfold bar_line, chars. rewrite map_map. cbn [list_ascii_of_string]. rewrite <- !app_assoc. reflexivity.
    + intros s' j Hj. rewrite mget_tab by auto. cbn [bind]. unfold letter_of.
      destruct (quaternion_to_string_24 (f i j)) as [c ->]; [now apply (in24_cell n)|]. reflexivity.
Qed.

Lemma join_snoc sep l x : join sep (l ++ [x]) = concat (map (fun y => y ++ sep) l) ++ x.
Proof.
  induction l as [|y l IH]; [reflexivity|]. cbn [app map concat]. rewrite <- !app_assoc, <- IH.
  destruct l; reflexivity.
Qed.
Lemma join_seq sep k (g : nat -> list ascii) :
  join sep (map g (seq 0 (S k))) = concat (map (fun i => g i ++ sep) (seq 0 k)) ++ g k.
Proof. rewrite seq_S, map_app. cbn [map]. rewrite join_snoc, map_map. reflexivity. Qed.

Lemma magma_row_spec n f i s : 1 <= n -> i < n ->
  magma_row (mkHM n (tab n f)) i s = Some (s ++ chars "[" ++ join (chars ",") (map sign_word (map (f i) (seq 0 n)))).
Proof.
  intros Hn Hi. unfold magma_row. cbn [hm_size hm_matrix]. destruct n as [|k]; [lia|]. rewrite Nat.sub_succ, Nat.sub_0_r.
  rewrite (for_m_append k _ (fun j => sign_word (f i j) ++ chars ",")).
  - cbn [bind]. rewrite mget_tab by lia. cbn [bind]. f_equal. rewrite map_map, (join_seq _ k (fun j => sign_word (f i j))).
    rewrite <- !app_assoc. reflexivity.
  - intros s' j Hj. rewrite mget_tab by lia. reflexivity.
Qed.
Lemma HM_to_string_magma_spec n m : square n m -> 1 <= n -> HM_to_string_magma (mkHM n m) = Some (magma_text m).
Proof.
  intros Sq Hn. rewrite (square_tab n m 0%Z) by auto. set (f := cell 0%Z m). unfold HM_to_string_magma. cbn [hm_size].
  destruct (Nat.eqb_spec n 0); [lia|]. cbn [negb guard].
  destruct n as [|k]; [lia|]. replace (S k - 1) with k by lia. set (n := S k) in *.
  rewrite (for_m_append k _ (fun i => bracket_row (map (f i) (seq 0 n)) ++ chars ",")).
  - cbn [bind]. rewrite magma_row_spec by lia. cbn [bind]. f_equal. unfold magma_text. rewrite map_tab.
    unfold n at 4. rewrite (join_seq _ k (fun i => bracket_row (map (f i) (seq 0 n)))).
    unfold bracket_row at 3. unfold chars. rewrite <- !app_assoc. reflexivity.
  - intros s i Hi. rewrite magma_row_spec by lia. cbn [bind]. unfold bracket_row, chars. rewrite <- !app_assoc. reflexivity.
Qed.
Lemma HM_to_string_magma_empty m : HM_to_string_magma (mkHM 0 m) = None.
Proof. reflexivity. Qed.

(* injectivity *)
Definition prefix_code {A} (D : A -> Prop) (g : A -> list ascii) : Prop :=
  forall x y s t, D x -> D y -> g x ++ s = g y ++ t -> x = y /\ s = t.
Lemma concat_code {A} (D : A -> Prop) g : prefix_code D g -> forall l1 l2 s t,
  Forall D l1 -> Forall D l2 -> length l1 = length l2 -> concat (map g l1) ++ s = concat (map g l2) ++ t -> l1 = l2 /\ s = t.
Proof.
  intros P. induction l1 as [|x l1 IH]; intros [|y l2] s t H1 H2 L E; cbn in L; try lia; [auto|].
  cbn [map concat] in E. rewrite <- !app_assoc in E. inversion H1; subst. inversion H2; subst.
  apply P in E as [-> E]; auto. apply IH in E as [-> ->]; auto.
Qed.
Lemma join_code {A} (D : A -> Prop) g sep : prefix_code D g -> forall l1 l2 s t,
  Forall D l1 -> Forall D l2 -> length l1 = length l2 -> join sep (map g l1) ++ s = join sep (map g l2) ++ t -> l1 = l2 /\ s = t.
Proof.
  intros P. induction l1 as [|x l1 IH]; intros [|y l2] s t H1 H2 L E; cbn in L; try lia; [auto|].
  inversion H1; subst. inversion H2; subst.
  destruct l1 as [|x' l1], l2 as [|y' l2]; cbn in L; try lia.
  - cbn in E. apply P in E as [-> ->]; auto.
  - change (join sep (map g (x :: x' :: l1))) with (g x ++ sep ++ join sep (map g (x' :: l1))) in E.
    change (join sep (map g (y :: y' :: l2))) with (g y ++ sep ++ join sep (map g (y' :: l2))) in E.
    rewrite <- !app_assoc in E. apply P in E as [-> E]; auto. apply app_inv_head in E.
    apply IH in E as [-> ->]; auto.
Qed.
Lemma bar_line_code {A} (D : A -> Prop) (show : A -> ascii) n : (forall x y, D x -> D y -> show x = show y -> x = y) ->
  prefix_code (fun r => length r = n /\ Forall D r) (bar_line show).
Proof.
  intros I r1 r2 s t [L1 D1] [L2 D2] E. unfold bar_line in E. rewrite <- !app_assoc in E. apply app_inv_head in E.
  assert (prefix_code D (fun x => [show x; " "%char])) as P.
  { intros x y s' t' Hx Hy E'. injection E' as E1 E2. split; auto. }
  apply (concat_code D _ P) in E as [-> E]; auto; [|congruence]. now apply app_inv_head in E.
Qed.
Lemma sign_char_inj x y : x = 1%Z \/ x = (-1)%Z -> y = 1%Z \/ y = (-1)%Z -> sign_char x = sign_char y -> x = y.
Proof. intros [-> | ->] [-> | ->]; cbn; auto; discriminate. Qed.
Definition pmz (x : Z) : Prop := x = 1%Z \/ x = (-1)%Z.
Lemma sign_word_code : prefix_code pmz sign_word.
Proof.
  intros x y s t [-> | ->] [-> | ->] E; cbn in E; injection E; intros; subst; auto; discriminate.
Qed.
Lemma bracket_code n : prefix_code (fun r => length r = n /\ Forall pmz r) bracket_row.
Proof.
  intros r1 r2 s t [L1 D1] [L2 D2] E. unfold bracket_row in E. rewrite <- !app_assoc in E. apply app_inv_head in E.
  apply (join_code pmz _ _ sign_word_code) in E as [-> E]; auto; [|congruence]. now apply app_inv_head in E.
Qed.
Lemma square_rows {A} n (D : A -> Prop) m : square n m -> Forall (Forall D) m -> Forall (fun r => length r = n /\ Forall D r) m.
Proof. intros [_ S] H. rewrite Forall_forall in *. auto. Qed.
Lemma pm_rows n m : pm_matrix n m -> Forall (fun r => length r = n /\ Forall pmz r) m.
Proof. intros [S H]. apply square_rows; auto. Qed.

Lemma HM_to_string_inj n m1 m2 : pm_matrix n m1 -> pm_matrix n m2 ->
  HM_to_string (mkHM n m1) = HM_to_string (mkHM n m2) -> m1 = m2.
Proof.
  intros H1 H2 E. rewrite !HM_to_string_spec in E by (apply H1 || apply H2). injection E as E.
  rewrite <- (app_nil_r (concat _)) in E. rewrite <- (app_nil_r (concat (map _ m2))) in E.
  apply (concat_code _ _ (bar_line_code pmz sign_char n sign_char_inj)) in E as [-> _]; auto using pm_rows.
  destruct H1 as [[] _], H2 as [[] _]. congruence.
Qed.
Lemma HM_magma_inj n m1 m2 : pm_matrix n m1 -> pm_matrix n m2 -> 1 <= n ->
  HM_to_string_magma (mkHM n m1) = HM_to_string_magma (mkHM n m2) -> m1 = m2.
Proof.
  intros H1 H2 Hn E. rewrite !HM_to_string_magma_spec in E by (auto; apply H1 || apply H2). injection E as E.
  apply (join_code _ _ _ (bracket_code n)) in E as [-> _]; auto using pm_rows.
  destruct H1 as [[] _], H2 as [[] _]. congruence.
Qed.
Lemma letter_of_inj x y : In x Q24 -> In y Q24 -> letter_of x = letter_of y -> x = y.
Proof.
  intros Hx Hy. unfold letter_of. destruct (letter_back x Hx) as (c & -> & Hc), (letter_back y Hy) as (d & -> & Hd).
  intros ->. congruence.
Qed.
Lemma QHM_to_string_inj n m1 m2 : square n m1 -> square n m2 -> entries_in24 m1 -> entries_in24 m2 ->
  QHM_to_string (mkQHM n m1) = QHM_to_string (mkQHM n m2) -> m1 = m2.
Proof.
  intros S1 S2 H1 H2 E. rewrite !QHM_to_string_spec in E by auto. injection E as E.
  rewrite <- (app_nil_r (concat _)) in E. rewrite <- (app_nil_r (concat (map _ m2))) in E.
  apply (concat_code _ _ (bar_line_code (fun p => In p Q24) letter_of n letter_of_inj)) in E as [-> _]; auto using (square_rows n).
  destruct S1, S2. congruence.
Qed.
