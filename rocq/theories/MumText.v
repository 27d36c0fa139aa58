(* The printed forms of operators and measurements determine them. *)
From Coq Require Import Ascii String List ZArith Lia Arith Bool QArith Qcanon.
From Verif Require Import Base BaseFacts ModelMatrices SpecMatrix ModelMum SpecMum ModelMumText.
Import ListNotations.
Notation length := List.length.
Open Scope nat_scope.

Section Text.
Variable show : cplx -> list ascii.
Hypothesis show_inj : forall x y, show x = show y -> x = y.
Hypothesis show_chars : forall x c, In c (show x) -> c <> space /\ c <> bar.

Lemma token_inj x y (u v : list ascii) : ~ In space x -> ~ In space y -> x ++ space :: u = y ++ space :: v -> x = y /\ u = v.
Proof.
  revert y. induction x as [|a x IH]; intros [|b y] Hx Hy E; cbn [app] in E.
  - now injection E as ->.
  - injection E as <- _. exfalso. apply Hy. now left.
  - injection E as -> _. exfalso. apply Hx. now left.
  - injection E as -> E. destruct (IH y) as [-> ->]; auto; intros I; [apply Hx|apply Hy]; now right.
Qed.
Lemma no_space x : ~ In space (show x). Proof. intros I. destruct (show_chars x space I) as [H _]. now apply H. Qed.
Definition cells (r : list cplx) : list ascii := concat (map (fun x => show x ++ [space]) r).
Definition row_text (r : list cplx) : list ascii := bar :: space :: cells r ++ [bar; endl].
Definition rows_text (m : list (list cplx)) : list ascii := concat (map row_text m).
Lemma show_bar x u v : show x ++ space :: u = bar :: v -> False.
Proof.
  destruct (show x) as [|a s] eqn:E; cbn [app]; intros H; injection H as H _; [discriminate|]. destruct (show_chars x bar) as [_ B]; [rewrite E; left; exact H|now apply B].
Qed.
Lemma cells_inj r r' u v : cells r ++ bar :: u = cells r' ++ bar :: v -> r = r' /\ u = v.
Proof.
  unfold cells. revert r'. induction r as [|x r IH]; intros [|y r'] E; cbn [map concat app] in E.
  - now injection E as ->.
  - rewrite <- !app_assoc in E. symmetry in E. now apply show_bar in E.
  - rewrite <- !app_assoc in E. now apply show_bar in E.
  - rewrite <- !app_assoc in E. cbn [app] in E. apply token_inj in E as [E1 E2]; [|apply no_space|apply no_space]. apply show_inj in E1 as ->.
    destruct (IH r' E2) as [-> ->]. auto.
Qed.
Lemma row_inj r r' u v : row_text r ++ u = row_text r' ++ v -> r = r' /\ u = v.
Proof.
  unfold row_text. cbn [app]. intros E. injection E as E. rewrite <- !app_assoc in E. cbn [app] in E. apply cells_inj in E as [-> E]. now injection E as ->.
Qed.
Lemma rows_inj m m' u v : rows_text m ++ endl :: u = rows_text m' ++ endl :: v -> m = m' /\ u = v.
Proof.
  unfold rows_text. revert m'. induction m as [|r m IH]; intros [|r' m'] E; cbn [map concat app] in E.
  - now injection E as ->.
  - discriminate.
  - discriminate.
  - rewrite <- !app_assoc in E. apply row_inj in E as [-> E]. destruct (IH m' E) as [-> ->]. auto.
Qed.
Lemma map_tab {A B} (g : A -> B) (l : list A) d n : length l = n -> map (fun i => g (nth i l d)) (seq 0 n) = map g l.
Proof.
  intros <-. induction l as [|x l IH]; auto. cbn [length seq map nth]. f_equal. rewrite <- seq_shift, map_map. exact IH.
Qed.
Lemma op_text n a : op_wf n a -> op_to_string show a = Some (rows_text (op_values a)).
Proof.
  intros (S & L & F). unfold op_to_string. rewrite S.
  rewrite (vbuild_map n _ (fun i => row_text (nth i (op_values a) []))).
  - cbn [bind]. unfold rows_text. f_equal. f_equal. now apply map_tab.
  - intros i Hi. assert (Lr : length (nth i (op_values a) []) = n) by (rewrite Forall_forall in F; apply F, nth_In; lia).
    rewrite (vbuild_map n _ (fun j => show (nth j (nth i (op_values a) []) C0) ++ [space])).
    + cbn [bind]. unfold row_text, cells. cbn [app]. do 5 f_equal. exact (map_tab (fun x => show x ++ [space]) _ C0 n Lr).
    + intros j Hj. unfold mget, vget. rewrite (nth_error_nth' (op_values a) []) by lia. cbn [bind]. rewrite (nth_error_nth' _ C0) by lia. reflexivity.
Qed.
Lemma op_eq n n' a b : op_wf n a -> op_wf n' b -> op_values a = op_values b -> a = b.
Proof. intros (S & L & _) (S' & L' & _) E. destruct a as [s v], b as [s' v']. cbn [op_size op_values] in *. subst. reflexivity. Qed.
Lemma op_text_inj n n' a b : op_wf n a -> op_wf n' b -> op_to_string show a = op_to_string show b -> a = b.
Proof.
  intros Ha Hb. rewrite (op_text n a Ha), (op_text n' b Hb). intros E. injection E as E. apply (op_eq n n'); auto.
  apply (rows_inj _ _ [] []). now rewrite E.
Qed.
Definition wf_ops (l : list Operator) : Prop := Forall (fun a => op_wf (op_size a) a) l.
Lemma traverse_text l : wf_ops l -> traverse (fun mat => let* s := op_to_string show mat in Some (s ++ [endl; endl])) l =
  Some (map (fun a => rows_text (op_values a) ++ [endl; endl]) l).
Proof.
  induction 1 as [|a l Ha _ IH]; [reflexivity|]. cbn [traverse map]. rewrite (op_text _ a Ha). cbn [bind]. rewrite IH. reflexivity.
Qed.
Lemma mum_ops_inj l l' : wf_ops l -> wf_ops l' ->
  concat (map (fun a => rows_text (op_values a) ++ [endl; endl]) l) = concat (map (fun a => rows_text (op_values a) ++ [endl; endl]) l') -> l = l'.
Proof.
  intros H. revert l'. induction H as [|a l Ha _ IH]; intros l' H' E; inversion H' as [|b l'' Hb Hl]; subst; cbn [map concat] in E; auto.
  - rewrite <- app_assoc in E. destruct (op_values b); discriminate.
  - rewrite <- app_assoc in E. destruct (op_values a); discriminate.
  - rewrite <- !app_assoc in E. cbn [app] in E. apply rows_inj in E as [E1 E2]. injection E2 as E2. rewrite (op_eq _ _ a b Ha Hb E1), (IH l'' Hl E2). reflexivity.
Qed.
Lemma mum_text_inj m m' : mum_matrix_size m = mum_matrix_size m' -> wf_ops (mum_sequence m) -> wf_ops (mum_sequence m') ->
  MUM_to_string show m = MUM_to_string show m' -> m = m'.
Proof.
  intros S H H'. unfold MUM_to_string. rewrite !traverse_text by auto. cbn [bind]. intros E. injection E as E. apply mum_ops_inj in E; auto.
  destruct m, m'. cbn in *. congruence.
Qed.
Lemma hmuo_text_inj h h' n n' : hmuo_matrix_size h = n -> hmuo_matrix_size h' = n' -> op_wf n (hmuo_operator h) -> op_wf n' (hmuo_operator h') ->
  HMUO_to_string show h = HMUO_to_string show h' -> h = h'.
Proof.
  intros S S' H H'. unfold HMUO_to_string. rewrite (op_text n), (op_text n') by auto. cbn [bind]. intros E. injection E as E.
  apply (rows_inj _ _ [endl] [endl]) in E as [E _]. apply (op_eq n n') in E; auto.
  destruct h as [s o], h' as [s' o']. cbn [hmuo_matrix_size hmuo_operator] in *. subst o'. destruct H as [H _], H' as [H' _]. congruence.
Qed.
End Text.

(* ---- a printer which satisfies the hypotheses ---- *)
From Verif Require Import ModelWrite TextFacts.
Definition show_q (x : cplx) : list ascii := join [Qnum (re x); Z.pos (Qden (re x)); Qnum (im x); Z.pos (Qden (im x))].
Lemma show_q_inj x y : show_q x = show_q y -> x = y.
Proof.
  intros E. apply join_inj in E. injection E as E1 E2 E3 E4. destruct x as [a b], y as [c d]. cbn [re im] in *.
  assert (K : forall u v : Qc, Qnum u = Qnum v -> Qden u = Qden v -> u = v). { intros u v A B. apply Qc_is_canon. unfold Qeq. now rewrite A, B. }
  f_equal; apply K; auto.
Qed.
Lemma join_bar fs : Forall (fun c => c <> space /\ c <> bar) (join fs).
Proof.
  assert (N : forall z, Forall (fun c => c <> space /\ c <> bar) (isize_to_string z)).
  { intros z. eapply Forall_impl; [|apply isize_chars]. intros c [->|[A B]]; split; try discriminate; intros ->; vm_compute in A, B; lia. }
  induction fs as [|x [|y fs] IH]; [constructor| |].
  - cbn [join]. apply N.
  - rewrite join_cons. apply Forall_app. split; [apply N|]. constructor; [split; discriminate|]. exact IH.
Qed.
Lemma show_q_chars x c : In c (show_q x) -> c <> space /\ c <> bar.
Proof. intros I. exact (proj1 (Forall_forall _ _) (join_bar _) c I). Qed.

(* ---- empty measurements ---- *)
Lemma empty_wf n : op_wf n (Operator_empty n).
Proof.
  split; [reflexivity|]. split; [apply repeat_length|]. apply Forall_forall. intros r I. apply repeat_spec in I as ->. apply repeat_length.
Qed.
Lemma empty_zero n i j : at2 (Operator_empty n) i j = C0.
Proof.
  unfold at2, cell, Operator_empty, mconst. cbn [op_values]. destruct (Nat.lt_ge_cases i n) as [Hi|Hi].
  - replace (nth i (repeat (repeat C0 n) n) []) with (repeat C0 n).
    + destruct (Nat.lt_ge_cases j n) as [Hj|Hj]; [apply nth_repeat|]. apply nth_overflow. now rewrite repeat_length.
    + symmetry. erewrite nth_indep by (rewrite repeat_length; lia). apply nth_repeat.
  - rewrite (nth_overflow (repeat _ n)) by (rewrite repeat_length; lia). now destruct j.
Qed.
Lemma mum_empty len n : mum_length (MUM_empty len n) = len /\ mum_matrix_size (MUM_empty len n) = n /\
  forall a, In a (mum_sequence (MUM_empty len n)) -> op_wf n a /\ forall i j, at2 a i j = C0.
Proof.
  unfold mum_length, MUM_empty. cbn [mum_sequence mum_matrix_size]. split; [apply repeat_length|]. split; auto.
  intros a I. apply repeat_spec in I as ->. split; [apply empty_wf|apply empty_zero].
Qed.
Lemma hmuo_empty n : hmuo_matrix_size (HMUO_empty n) = n /\ op_wf n (hmuo_operator (HMUO_empty n)) /\ forall i j, at2 (hmuo_operator (HMUO_empty n)) i j = C0.
Proof. split; [reflexivity|]. split; [apply empty_wf|apply empty_zero]. Qed.
Lemma hmuo_new : forall show k n a, op_wf k a -> hmuo_matrix_size (HMUO_new n a) = n /\ hmuo_operator (HMUO_new n a) = a /\
  exists s, op_to_string show a = Some s /\ HMUO_to_string show (HMUO_new n a) = Some (s ++ [ascii_of_nat 10; ascii_of_nat 10]).
Proof.
  intros show k n a H. split; [reflexivity|]. split; [reflexivity|]. eexists. split; [exact (op_text show k a H)|]. unfold HMUO_to_string. cbn [HMUO_new hmuo_operator]. rewrite (op_text show k a H). reflexivity.
Qed.
