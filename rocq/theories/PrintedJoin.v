(* The text printed by the command join. *)
From Coq Require Import Ascii String List ZArith Lia Arith Bool Permutation Sorting.Sorted.
From Verif Require Import Base BaseFacts Sums ModelSequence ModelWilliamson ModelEquivalence SeqFacts ReduceFacts ModelRowsum SpecRowsum ModelMatching ModelWrite TextFacts WriteFacts JoinFacts DirFacts FolderFacts SingleFacts DriverFacts ModelMain SpecPrint ArgFacts MainFacts MainThms DriverMain
  ModelLog LogFolder LogText LogFacts LogStages LogJoin DriverLog SpecLog SpecFiles SpecSearch SpecMain SpecSolver SolverFacts SpecSplit SpecMixed SpecPrinted PrintedFacts Spec.
Import ListNotations.
Notation length := List.length.
Open Scope nat_scope.
#[local] Opaque usize_to_string isize_to_string.

(* ---- keys ---- *)

Lemma strip_firstn p : forall s, (exists r, strip_prefix p s = Some r) <-> firstn (length p) s = p.
Proof.
  induction p as [|a p IH]; intros s; [split; [reflexivity|intros _; now exists s]|]. destruct s as [|b s].
  { split; [intros (r & H); discriminate|intros H; discriminate H]. }
  change (firstn (length (a :: p)) (b :: s)) with (b :: firstn (length p) s). specialize (IH s). cbn [strip_prefix]. destruct (Ascii.eqb_spec a b) as [->|N].
  - rewrite IH. split; [intros ->; reflexivity|intros H; now injection H].
  - split; [intros (r & H); discriminate|intros H; injection H; congruence].
Qed.
Lemma split_key s : forall k r, split_at (lit "_:_") s = (k, Some r) -> key_text s = k.
Proof.
  induction s as [|c s IH]; intros k r E; [discriminate|]. cbn [split_at] in E. cbn [key_text].
  assert (X := strip_firstn (lit "_:_") (c :: s)). change (length (lit "_:_")) with 3 in X.
  destruct (strip_prefix (lit "_:_") (c :: s)) as [r0|] eqn:E0.
  - injection E as <- <-. destruct (list_eq_dec ascii_dec _ _) as [|N]; auto. elim N. apply X. eauto.
  - destruct (list_eq_dec ascii_dec _ _) as [Y|_]; [apply X in Y as (? & Y); discriminate|].
    destruct (split_at (lit "_:_") s) as [a o]. injection E as <- ->. f_equal. now apply (IH a r).
Qed.
Lemma parsed_key line k ij : parsed line k ij -> key_text line = k.
Proof. intros H. apply parsed_split in H as (r & H). now apply split_key in H. Qed.

(* ---- counting ---- *)

Lemma f2_len {A B} (P : A -> B -> Prop) l m : Forall2 P l m -> length l = length m. Proof. intros F. induction F; cbn; auto. Qed.
Definition eqk (a b : text) : bool := if list_eq_dec ascii_dec (key_text a) (key_text b) then true else false.
Definition cnt (l1 l2 : Lines) : nat := list_sum (map (fun a => length (filter (eqk a) l2)) l1).
Lemma same_keys_cnt l1 l2 : same_keys l1 l2 = cnt l1 l2.
Proof.
  unfold same_keys, cnt. induction l1 as [|a l1 IH]; [reflexivity|]. cbn [list_prod map list_sum fold_right]. rewrite filter_app, app_length, IH. f_equal.
  clear. induction l2 as [|b l2 IH]; [reflexivity|]. cbn [map filter fst snd]. unfold eqk at 1. destruct (list_eq_dec _ _ _); cbn [length]; now rewrite IH.
Qed.
Lemma cnt_app_l a b c : cnt (a ++ b) c = cnt a c + cnt b c.
Proof. unfold cnt. now rewrite map_app, list_sum_app. Qed.
Lemma cnt_app_r a b c : cnt a (b ++ c) = cnt a b + cnt a c.
Proof.
  unfold cnt. induction a as [|x a IH]; [reflexivity|]. cbn [map]. change (list_sum (?h :: ?t)) with (h + list_sum t). rewrite filter_app, app_length, IH. lia.
Qed.
Lemma cnt_group x a b : Forall (fun l => key_text l = x) a -> Forall (fun l => key_text l = x) b -> cnt a b = length a * length b.
Proof.
  intros A B. unfold cnt. induction A as [|l a Hl A IH]; [reflexivity|]. cbn [map length]. change (list_sum (?h :: ?t)) with (h + list_sum t). rewrite IH. cbn [Nat.mul]. f_equal.
  clear -Hl B. induction B as [|m b Hm B IH]; [reflexivity|]. cbn [filter]. assert (E : eqk l m = true) by (unfold eqk; rewrite Hl, Hm; destruct (list_eq_dec _ x x); congruence). rewrite E. cbn [length]. now rewrite IH.
Qed.
Lemma cnt_zero a b : (forall x y, In x a -> In y b -> key_text x <> key_text y) -> cnt a b = 0.
Proof.
  intros H. unfold cnt. induction a as [|x a IH]; [reflexivity|]. cbn [map]. change (list_sum (?h :: ?t)) with (h + list_sum t). rewrite IH by (intros; apply H; auto; now right).
  assert (F : filter (eqk x) b = []).
  { assert (K := H x). clear -K. induction b as [|y b IH]; [reflexivity|]. cbn [filter]. unfold eqk at 1. destruct (list_eq_dec _ _ _) as [E|_].
    - elim (K y); auto; now left.
    - apply IH. intros z Hz Iz. apply K; auto. now right. }
  now rewrite F.
Qed.

Lemma same_key_group x l : forall m rest, same_key x l = Some (m, rest) -> exists pre, l = pre ++ rest /\ length pre = length m /\ Forall (fun a => key_text a = x) pre.
Proof.
  induction l as [|h l IH]; intros m rest E; cbn [same_key] in E; [injection E as <- <-; exists []; auto|].
  apply bind_some in E as ([k ij] & Ek & E). destruct (text_eqb x k) eqn:Eq.
  - apply text_eqb_eq in Eq. subst k. apply bind_some in E as ([m' rest'] & E1 & E). injection E as <- <-. destruct (IH _ _ E1) as (pre & -> & L & F).
    exists (h :: pre). cbn. split; auto. split; [now rewrite L|]. constructor; auto. now apply (parsed_key h x ij).
  - injection E as <- <-. exists []. auto.
Qed.
Lemma matches_upper : forall fuel l1 l2 k k', run fuel matches_step (l1, l2, k) = Some k' -> k' <= k + cnt l1 l2.
Proof.
  induction fuel as [|fuel IH]; intros l1 l2 k k' E; [discriminate|]. rewrite run_S in E. unfold matches_step in E at 1.
  destruct l1 as [|a l1]; [injection E as <-; lia|]. destruct l2 as [|b l2]; [injection E as <-; lia|].
  destruct (get_line_from a) as [[s1 i1]|]; [|discriminate]. cbn [bind] in E. destruct (get_line_from b) as [[s2 i2]|]; [|discriminate]. cbn [bind] in E.
  destruct (text_eqb s1 s2).
  - destruct (same_key s1 (a :: l1)) as [[m1 r1]|] eqn:E1; [|discriminate]. cbn [bind] in E. destruct (same_key s1 (b :: l2)) as [[m2 r2]|] eqn:E2; [|discriminate]. cbn [bind] in E.
    apply IH in E. apply same_key_group in E1 as (p1 & -> & L1 & F1). apply same_key_group in E2 as (p2 & -> & L2 & F2).
    assert (G := cnt_group s1 p1 p2 F1 F2). assert (G' : length p1 * length p2 = length m1 * length m2) by (f_equal; assumption). rewrite cnt_app_l, !cnt_app_r. assert (G2 : cnt p1 p2 = length m1 * length m2) by exact (eq_trans G G'). lia.
  - destruct (text_ltb s1 s2); apply IH in E.
    + change (a :: l1) with ([a] ++ l1). rewrite cnt_app_l. lia.
    + change (b :: l2) with ([b] ++ l2). rewrite cnt_app_r. lia.
Qed.
Lemma pair_parsed s : pair_text s -> exists k ij, parsed s k ij.
Proof.
  intros (k & i & j & ks & js & Hk & Hi & Hj & ->). exists k, (i, j). rewrite (numeral_string ks i Hi), (numeral_string js j Hj). clear Hi Hj.
  assert (Ni := usize_num (Z.of_nat i) ltac:(lia)). assert (Nj := usize_num (Z.of_nat j) ltac:(lia)).
  unfold parsed, get_line_from. change (chars "_:_") with (lit "_:_"). change (chars "_") with (lit "_"). rewrite split_at_colon.
  2:{ apply Forall_forall. intros c Hc ->. now apply Hk. }
  cbn [bind]. rewrite split_at_none.
  2:{ apply Forall_app; split; [eapply Forall_impl; [|exact Ni]; apply num_char_colon|].
      apply Forall_app; split; [repeat constructor; discriminate|]. eapply Forall_impl; [|exact Nj]; apply num_char_colon. }
  rewrite split_at_und by (eapply Forall_impl; [|exact Ni]; apply num_char_und). rewrite parse_usize_to_string by lia. cbn [bind].
  rewrite split_at_und_none by (eapply Forall_impl; [|exact Nj]; apply num_char_und). rewrite parse_usize_to_string by lia. cbn [bind]. now rewrite !Nat2Z.id.
Qed.
Definition apart (l : Lines) : Prop := forall a b, In a l -> In b l -> unrelated (key_text a) (key_text b).
Lemma separate_apart l : separate_keys l -> apart l.
Proof.
  intros H a b Ia Ib. destruct (list_eq_dec ascii_dec (key_text a) (key_text b)) as [E|N]; [now left|right]. split; intros (r & E).
  - assert (r = []) by (apply (H a b); auto). subst r. rewrite app_nil_r in E. congruence.
  - assert (r = []) by (apply (H b a); auto). subst r. rewrite app_nil_r in E. congruence.
Qed.
Lemma matches_exact : forall fuel l1 l2 k k', sorted l1 -> sorted l2 -> ok_lines l1 -> ok_lines l2 -> apart (l1 ++ l2) -> run fuel matches_step (l1, l2, k) = Some k' -> k' = k + cnt l1 l2.
Proof.
  induction fuel as [|fuel IH]; intros l1 l2 k k' S1 S2 O1 O2 A E; [discriminate|]. rewrite run_S in E. unfold matches_step in E at 1.
  destruct l1 as [|a l1]; [injection E as <-; cbn; lia|]. destruct l2 as [|b l2]; [injection E as <-; rewrite cnt_zero; [lia|intros ? ? ? []]|].
  inversion O1 as [|? ? (k1 & ij1 & P1) O1']; subst. inversion O2 as [|? ? (k2 & ij2 & P2) O2']; subst.
  rewrite P1 in E. cbn [bind] in E. rewrite P2 in E. cbn [bind] in E.
  destruct (text_eqb k1 k2) eqn:Eq.
  - apply text_eqb_eq in Eq. subst k2.
    destruct (same_key_spec k1 (a :: l1) O1) as (m1 & p1 & r1 & K1 & L1 & F1 & R1). destruct (same_key_spec k1 (b :: l2) O2) as (m2 & p2 & r2 & K2 & L2 & F2 & R2).
    rewrite K1 in E. cbn [bind] in E. rewrite K2 in E. cbn [bind] in E.
    assert (N1 : p1 <> []). { intros ->. cbn in L1. subst r1. destruct R1 as (kk & ij & Pk & Nk). unfold parsed in *. congruence. }
    assert (N2 : p2 <> []). { intros ->. cbn in L2. subst r2. destruct R2 as (kk & ij & Pk & Nk). unfold parsed in *. congruence. }
    assert (G : forall p m, Forall2 (fun line ij => parsed line k1 ij) p m -> Forall (fun l => key_text l = k1) p).
    { intros p m F. induction F; constructor; auto. eapply parsed_key; eauto. }
    rewrite L1 in S1, O1, A |- *. rewrite L2 in S2, O2, A |- *. apply Forall_app in O1 as [O1 O1r]. apply Forall_app in O2 as [O2 O2r].
    assert (Z1 : forall l, In l r1 -> key_text l <> k1).
    { intros l Il Ek. unfold ok_lines in O1r. rewrite Forall_forall in O1r. destruct (O1r l Il) as (kk & ij & Pk). assert (kk = k1) as -> by (rewrite <- Ek; symmetry; eapply parsed_key; eauto).
      now apply (rest_other k1 p1 r1 m1 l ij). }
    assert (Z2 : forall l, In l r2 -> key_text l <> k1).
    { intros l Il Ek. unfold ok_lines in O2r. rewrite Forall_forall in O2r. destruct (O2r l Il) as (kk & ij & Pk). assert (kk = k1) as -> by (rewrite <- Ek; symmetry; eapply parsed_key; eauto).
      now apply (rest_other k1 p2 r2 m2 l ij). }
    assert (G1 := G _ _ F1). assert (G2 := G _ _ F2). rewrite Forall_forall in G1, G2.
    apply IH in E; auto; try (now apply sorted_app_r in S1); try (now apply sorted_app_r in S2).
    2:{ intros u v Iu Iv. apply A; apply in_app_iff; [apply in_app_iff in Iu as [I|I]|apply in_app_iff in Iv as [I|I]]; [left|right|left|right]; apply in_app_iff; now right. }
    assert (Gc := cnt_group k1 p1 p2 (G _ _ F1) (G _ _ F2)). rewrite E, cnt_app_l, !cnt_app_r.
    rewrite (cnt_zero p1 r2) by (intros u v Iu Iv Euv; apply (Z2 v Iv); rewrite <- Euv; auto).
    rewrite (cnt_zero r1 p2) by (intros u v Iu Iv Euv; apply (Z1 u Iu); rewrite Euv; auto).
    assert (Gl : length p1 * length p2 = length m1 * length m2) by (f_equal; eapply f2_len; eassumption). assert (Gd : cnt p1 p2 = length m1 * length m2) by exact (eq_trans Gc Gl). rewrite Gd. lia.
  - apply text_eqb_neq in Eq. assert (Ka := parsed_key _ _ _ P1). assert (Kb := parsed_key _ _ _ P2).
    destruct (text_ltb k1 k2) eqn:Lt; apply IH in E; auto; try (now inversion S1); try (now inversion S2).
    + change (a :: l1) with ([a] ++ l1). rewrite cnt_app_l, (cnt_zero [a]); [lia|]. intros u v [<-|[]] Iv Euv. rewrite Ka in Euv.
      destruct Iv as [<-|Iv]; [congruence|]. unfold ok_lines in O2'. rewrite Forall_forall in O2'. destruct (O2' v Iv) as (kv & ij & Pv). assert (Kv := parsed_key _ _ _ Pv).
      assert (U : unrelated k1 k2) by (rewrite <- Ka, <- Kb; apply A; [now left|apply in_app_iff; right; now left]).
      pose proof (sorted_head_le _ _ _ S2 Iv) as Le. unfold text_le in Le. replace kv with k1 in Pv by congruence.
      rewrite (order_keys _ _ _ _ _ _ Pv P2 U Eq) in Le. congruence.
    + intros u v Iu Iv. apply A; now right.
    + change (b :: l2) with ([b] ++ l2). rewrite cnt_app_r, (cnt_zero (a :: l1) [b]); [lia|]. intros u v Iu [<-|[]] Euv. rewrite Kb in Euv.
      destruct Iu as [<-|Iu]; [congruence|]. unfold ok_lines in O1'. rewrite Forall_forall in O1'. destruct (O1' u Iu) as (ku & ij & Pu). assert (Ku := parsed_key _ _ _ Pu).
      assert (U : unrelated k2 k1) by (rewrite <- Ka, <- Kb; apply A; [apply in_app_iff; right; now left|now left]).
      pose proof (sorted_head_le _ _ _ S1 Iu) as Le. unfold text_le in Le. replace ku with k2 in Pu by congruence.
      rewrite (order_keys _ _ _ _ _ _ Pu P1 U) in Le by congruence. destruct (text_ltb_total _ _ Lt) as [|T]; congruence.
    + intros u v Iu Iv. apply A; apply in_app_iff; [apply in_app_iff in Iu as [I|I]|apply in_app_iff in Iv as [I|I]]; auto; right; now right.
Qed.
Lemma matches_of_spec f g k : matches_of f g = Some k -> matches f g k.
Proof.
  intros E. unfold matches_of in E. split; [rewrite same_keys_cnt; apply matches_upper in E; lia|]. intros [S1 P1] [S2 P2] A. rewrite same_keys_cnt.
  apply matches_exact in E; auto using separate_apart.
  - unfold ok_lines. eapply Forall_impl; [|exact P1]. apply pair_parsed.
  - unfold ok_lines. eapply Forall_impl; [|exact P2]. apply pair_parsed.
Qed.

(* ---- the number of results ---- *)

Lemma collect_length t order sq l : forall res r, fold_m (JoinFacts.collect t order sq) l res = Some r -> length r <= length res + length l.
Proof.
  induction l as [|p l IH]; intros res r E; cbn [fold_m] in E; [injection E as <-; lia|]. apply bind_some in E as (res' & E1 & E). apply IH in E. cbn [length].
  destruct p as [[i1 i2] [i3 i4]]. unfold JoinFacts.collect in E1. apply bind_some in E1 as ([[[w x] y] z] & _ & E1). apply bind_some in E1 as (b & _ & E1). injection E1 as <-.
  destruct b; [rewrite app_length in E; cbn in E|]; lia.
Qed.
Lemma found_bound t order sq : forall fuel l1 l2 res r k k', run fuel (join_step t order sq) (l1, l2, res) = Some r -> run fuel matches_step (l1, l2, k) = Some k' ->
  length r + k <= length res + k'.
Proof.
  induction fuel as [|fuel IH]; intros l1 l2 res r k k' E F; [discriminate|]. rewrite run_S in E. rewrite run_S in F. unfold join_step in E at 1. unfold matches_step in F at 1.
  destruct l1 as [|a l1]; [injection E as <-; injection F as <-; lia|]. destruct l2 as [|b l2]; [injection E as <-; injection F as <-; lia|].
  destruct (get_line_from a) as [[s1 i1]|]; [|discriminate]. cbn [bind] in E, F. destruct (get_line_from b) as [[s2 i2]|]; [|discriminate]. cbn [bind] in E, F.
  destruct (text_eqb s1 s2).
  - destruct (same_key s1 (a :: l1)) as [[m1 r1]|]; [|discriminate]. cbn [bind] in E, F. destruct (same_key s1 (b :: l2)) as [[m2 r2]|]; [|discriminate]. cbn [bind] in E, F.
    match type of E with context [fold_m ?f ?l ?x] => change (fold_m f l x) with (fold_m (JoinFacts.collect t order sq) l x) in E end.
    destruct (fold_m (JoinFacts.collect t order sq) (ModelFourier.iproduct m1 m2) res) as [res'|] eqn:Ec; [|discriminate]. cbn [bind] in E. apply collect_length in Ec.
    assert (Lp : length (ModelFourier.iproduct m1 m2) = length m1 * length m2) by apply prod_length. specialize (IH _ _ _ _ _ _ E F). lia.
  - destruct (text_ltb s1 s2); eapply IH; eauto.
Qed.

(* ---- the directories ---- *)

Lemma filter_two {A} (f : A -> bool) l x y : filter f l = [x; y] -> exists a b c, l = a ++ x :: b ++ y :: c /\ f x = true /\ f y = true /\ forall e, In e (a ++ b ++ c) -> f e = false.
Proof.
  assert (N : forall l, filter f l = [] -> forall e, In e l -> f e = false).
  { clear. induction l as [|h l IH]; intros E e I; [destruct I|]. cbn [filter] in E. destruct (f h) eqn:Fh; [discriminate|]. destruct I as [<-|I]; auto. }
  assert (O : forall l y, filter f l = [y] -> exists b c, l = b ++ y :: c /\ f y = true /\ forall e, In e (b ++ c) -> f e = false).
  { clear -N. induction l as [|h l IH]; intros y E; cbn [filter] in E; [discriminate|]. destruct (f h) eqn:Fh.
    - injection E as <- E. exists [], l. cbn. split; auto. split; auto. now apply N.
    - destruct (IH y E) as (b & c & -> & Fy & Z). exists (h :: b), c. cbn. split; auto. split; auto. intros e [<-|I]; auto. }
  induction l as [|h l IH]; intros E; cbn [filter] in E; [discriminate|]. destruct (f h) eqn:Fh.
  - injection E as <- E. destruct (O l y E) as (b & c & -> & Fy & Z). exists [], b, c. cbn. auto.
  - destruct (IH E) as (a & b & c & -> & Fx & Fy & Z). exists (h :: a), b, c. cbn. split; auto. split; auto. split; auto. intros e [<-|I]; auto.
Qed.
Lemma printed_dir ls name d files order sq t r : get_order_from_dir (ls_pair ls name d) = Some (files, order) -> join_pairs_files (fst files) (snd files) t order sq = Some r ->
  exists l k, match_log ls name d = Some l /\ dir_lines ls name d k l /\ length r <= k.
Proof.
  intros Eo Er. unfold match_log. unfold get_order_from_dir in Eo. destruct (filter _ (ls_pair ls name d)) as [|[n0 f0] [|[n1 f1] [|]]] eqn:Ef; try discriminate.
  apply bind_some in Eo as ([t1 t2] & _ & Eo). apply bind_some in Eo as ([t3 t4] & _ & Eo). injection Eo as <- <-. cbn [fst snd] in Er. unfold join_pairs_files in Er.
  destruct (matches_some _ _ _ _ _ _ _ _ 0 Er) as (k & Ek). assert (B := found_bound _ _ _ _ _ _ _ _ _ _ Er Ek). cbn [length] in B.
  change (run (S (length f0 + length f1)) matches_step (f0, f1, 0)) with (matches_of f0 f1) in Ek. rewrite Ek. cbn [bind].
  apply filter_two in Ef as (a & b & c & Es & F0 & F1 & Z). cbn [fst] in F0, F1. apply ends_with_spec in F0. apply ends_with_spec in F1.
  eexists. exists k. split; [reflexivity|]. split; [|lia]. exists n0, f0, n1, f1, a, b, c, (count k). split; auto. split; auto. split; auto. split.
  { intros e I H. specialize (Z e I). apply (ends_with_spec (fst e) (lit ".pair.sorted")) in H. congruence. }
  split; [now apply matches_of_spec|]. split; [apply count_canonical|]. reflexivity.
Qed.
Lemma printed_dirs ls t sl res0 res : fold_m (fun result '(name, d) =>
      let* sequences := get_sequences_from_dir (ls_seq ls name d) in
      let* (files, order) := get_order_from_dir (ls_pair ls name d) in
      let* r := join_pairs_files (fst files) (snd files) t order sequences in
      Some (result ++ r)) sl res0 = Some res ->
  exists entries, traverse (fun '(name, d) => match_log ls name d) sl = Some (map snd entries) /\
    Forall2 (fun (e : list ascii * Dir) (b : nat * list (list ascii)) => dir_lines ls (fst e) (snd e) (fst b) (snd b)) sl entries /\ length res <= length res0 + list_sum (map fst entries).
Proof.
  revert res0. induction sl as [|[name d] sl IH]; intros res0 E; cbn [fold_m] in E.
  - injection E as <-. exists []. split; [reflexivity|]. split; [constructor|]. cbn. lia.
  - apply bind_some in E as (res1 & E1 & E). apply bind_some in E1 as (sq & _ & E1). apply bind_some in E1 as ([files order] & Eo & E1). apply bind_some in E1 as (r & Er & E1). injection E1 as <-.
    destruct (printed_dir _ _ _ _ _ _ _ _ Eo Er) as (l & k & El & Dl & B). destruct (IH _ E) as (entries & Et & F & B2).
    exists ((k, l) :: entries). split; [|split; [constructor; auto|]].
    + cbn [traverse map snd]. rewrite El. cbn [bind]. now rewrite Et.
    + cbn [map fst]. change (list_sum (k :: ?x)) with (k + list_sum x). rewrite app_length in B2. lia.
Qed.
Lemma unique_length l : length (unique l) <= length l.
Proof. apply NoDup_incl_length; [apply unique_spec|]. intros x. apply unique_spec. Qed.

(* ---- the remarks ---- *)

Lemma split_stacked s : forall l p, split_lines s = (l, p) -> s = stacked l ++ p.
Proof.
  unfold stacked. induction s as [|c s IH]; intros l p E; cbn [split_lines] in E; [injection E as <- <-; reflexivity|].
  destruct (split_lines s) as [l0 p0]. destruct (Ascii.eqb_spec c ModelMatrices.nl) as [->|N].
  - injection E as <- <-. cbn. f_equal. now apply IH.
  - specialize (IH _ _ eq_refl). destruct l0 as [|h l0]; injection E as <- <-; rewrite IH; reflexivity.
Qed.
Lemma stacked_app a b : stacked (a ++ b) = stacked a ++ stacked b.
Proof. unfold stacked. now rewrite map_app, concat_app. Qed.
Lemma amicable_pairs q : amicable_all q <-> forall u v, In u [q_a q; q_b q; q_c q; q_d q] -> In v [q_a q; q_b q; q_c q; q_d q] -> amicable u v.
Proof.
  assert (R : forall u, amicable u u) by (intros u s; reflexivity). assert (S : forall u v, amicable u v -> amicable v u) by (intros u v H s; symmetry; apply H).
  split.
  - intros (A & B & C & D & E & F) u v Iu Iv. cbn [In] in Iu, Iv.
    destruct Iu as [<-|[<-|[<-|[<-|[]]]]], Iv as [<-|[<-|[<-|[<-|[]]]]]; auto.
  - intros H. repeat split; apply H; cbn; auto.
Qed.
Definition note (q : QuadSeq) : option text :=
  let* b := is_amicable q in if b then Some [] else let* s := QuadSeq_to_string q in Some (lit "Seq is valid QTS, but not amicable (not WTS): " ++ s).
Lemma remarks_spec n r notes : 1 <= n -> Forall (pm_quad n) r -> traverse note r = Some notes -> Forall2 remark r notes.
Proof.
  intros Hn F. revert notes. induction F as [|q r Hq F IH]; intros notes E; cbn [traverse] in E; [injection E as <-; constructor|].
  apply bind_some in E as (s & Es & E). apply bind_some in E as (notes' & En & E). injection E as <-. constructor; auto.
  destruct (is_amicable_spec n q Hq Hn) as (b & Eb & Hb). rewrite amicable_pairs in Hb. unfold note in Es. rewrite Eb in Es. cbn [bind] in Es. destruct b.
  - injection Es as <-. left. split; auto. now apply Hb.
  - rewrite (quad_to_text n q Hq) in Es. cbn [bind] in Es. injection Es as <-. right. split; [intros H; apply Hb in H; discriminate|reflexivity].
Qed.
Lemma notes_total r am qs : traverse is_amicable r = Some am -> qseq_text r = Some qs -> exists notes, traverse note r = Some notes.
Proof.
  intros A Q. unfold qseq_text in Q. apply fold_all in Q. revert am A. induction Q as [|q r (c & c' & Hq) Q IH]; intros am A; [exists []; auto|].
  cbn [traverse] in A |- *. apply bind_some in A as (b & Eb & A). apply bind_some in A as (am' & Ea & _). destruct (IH _ Ea) as (notes & En). rewrite En.
  apply bind_some in Hq as (s & Es & _). unfold note at 1. rewrite Eb. cbn [bind]. rewrite Es. destruct b; cbn [bind]; eauto.
Qed.

(* ---- the command ---- *)

Theorem printed_join ck fuel ord p ls n t pl pl' : clock_ok ck -> 1 <= n -> find_write_place fuel ord p ls n t pl = Some pl' ->
  exists lines s, find_write_log ck fuel ord p ls n t pl = Some (pl', lines, s) /\ join_text ck ls n t (pl_dirs pl) pl' (stacked lines ++ s).
Proof.
  intros Hck Hn E. unfold find_write_place in E. apply bind_some in E as (r & Ej & E). apply bind_some in E as (am & Ea & E).
  apply bind_some in E as (out & Eo & E). apply bind_some in E as (qout & Eq & E). unfold join_pairs in Ej. apply bind_some in Ej as (res & E1 & Ej). apply bind_some in Ej as (fl & E2 & Er).
  destruct (printed_dirs ls t (ls_folder ls (pl_dirs pl)) [] res E1) as (entries & Et & Fe & B). cbn [length] in B.
  assert (Lf : length fl <= length res).
  { destruct t; try discriminate; apply bind_some in E2 as (u & Eu & E2); injection E2 as <-; apply traverse_length in Eu; pose proof (unique_length u); lia. }
  set (head := concat (map snd entries) ++
      [chars "Matching took: " ++ seconds (tm_match ck) ++ chars " seconds."; []; count_lines (chars "after matching") (type_word t) (count (length res));
       chars "Filtered with " ++ operations t ++ chars "; now filtering " ++ count (length fl) ++ chars " sequences up to " ++ equivalence_name t ++ chars " equivalence ...";
       count_lines (chars "after reducing to equivalence") (type_word t) (count (length r)); chars "Reducing to equivalence took " ++ seconds (tm_reduce ck) ++ chars " seconds."; []]).
  assert (EL : join_pairs_log ck fuel ord (0 :: p) ls t (pl_dirs pl) = Some (r, head)).
  { unfold join_pairs_log. rewrite E1. cbn [bind]. rewrite Et. cbn [bind].
    destruct t; try discriminate; apply bind_some in E2 as (u & Eu & E2); injection E2 as <-; rewrite Eu; cbn [bind]; rewrite Er; cbn [bind];
      apply f_equal; apply f_equal; unfold head; rewrite <- !app_assoc; reflexivity. }
  assert (NT : exists nts, match t with
                | QuaternionType => traverse (fun q => let* b := is_amicable q in
                    if b then Some [] else let* s := QuadSeq_to_string q in Some (lit "Seq is valid QTS, but not amicable (not WTS): " ++ s)) r
                | _ => Some []
                end = Some nts /\ (t = QuaternionType -> traverse note r = Some nts) /\ (t <> QuaternionType -> nts = [])).
  { destruct t; try (exists []; split; [reflexivity|split; [discriminate|reflexivity]]). destruct (notes_total r am qout Ea Eq) as (nts & En). exists nts. split; [exact En|]. split; auto. now intros []. }
  destruct NT as (nts & N1 & N2 & N3).
  assert (Lo : length r = length out) by (symmetry; exact (traverse_length _ _ _ Eo)).
  unfold find_write_log. rewrite EL. cbn [bind]. match goal with |- context [bind ?X _] => replace X with (Some nts) by (symmetry; exact N1) end. cbn [bind].
  destruct (split_lines (concat nts)) as [ln pending] eqn:Es. apply split_stacked in Es. rewrite Eo. cbn [bind]. rewrite Eq. cbn [bind].
  assert (Lines : Forall (pm_quad n) r -> Forall2 line_of_quad r out /\ (t = QuaternionType -> Forall2 remark r nts)).
  { intros Pm. split; [|intros Ht; apply (remarks_spec n); auto]. destruct (seq_lines_spec n r) as (o & Eo' & Fo); [now apply Forall_forall|]. rewrite Eo in Eo'. injection Eo' as ->. exact Fo. }
  assert (Fin : forall pl1 more, pl_seq pl1 = Some out -> match t with
    | WilliamsonType => exists qts c4 t3, pl_qts pl1 = Some qts /\ canonical_numeral c4 (length qts) /\ time_text (tm_qts ck) t3 /\
        more = [chars "In order to generate all Williamson-type sequences up to Hadamard equivalence, we now generate a complete list up to QT equivalence ...";
                count_lines (chars "after reducing to equivalence") (chars "qts") c4; chars "Reducing to equivalence took " ++ t3 ++ chars " seconds."; []]
    | _ => more = []
    end -> join_text ck ls n t (pl_dirs pl) pl1 (stacked head ++ concat nts ++ stacked more)).
  { intros pl1 more Hp Hm. exists entries, (length res), (length fl), r, out, (count (length res)), (count (length fl)), (count (length r)), (seconds (tm_match ck)), (seconds (tm_reduce ck)), nts, more.
    split; auto. split; auto. split; auto. split; auto. split; auto. split; [apply count_canonical|]. split; [apply count_canonical|]. split; [rewrite Lo; apply count_canonical|].
    split; [apply seconds_time, Hck|]. split; [apply seconds_time, Hck|]. split; auto. }
  destruct t; try discriminate.
  1,3: injection E as <-; eexists; eexists; split; [reflexivity|]; rewrite stacked_app, <- app_assoc, <- Es; assert (G := Fin (set_seq pl out qout) [] eq_refl eq_refl); rewrite app_nil_r in G; exact G.
  apply bind_some in E as (ext & E3 & E). apply bind_some in E as (r' & E4 & E). apply bind_some in E as (out' & E5 & E). apply bind_some in E as (qout' & E6 & E). injection E as <-.
  rewrite E3. cbn [bind]. rewrite E4. cbn [bind]. rewrite E5. cbn [bind]. rewrite E6. cbn [bind]. eexists. eexists. split; [reflexivity|].
  rewrite N3 in * by discriminate. cbn [concat] in Es. destruct pending; [|destruct (stacked ln); discriminate]. destruct ln as [|h ln]; [|destruct h; discriminate].
  rewrite !app_nil_r, stacked_app. apply (Fin (set_qts (set_seq pl out qout) out' qout')); [reflexivity|].
  exists out', (count (length r')), (seconds (tm_qts ck)). split; [reflexivity|]. split; [rewrite (traverse_length _ _ _ E5); apply count_canonical|]. split; [apply seconds_time, Hck|]. reflexivity.
Qed.
Theorem join_printed {L} ck (e : Env L) fuel n t y w w' : clock_ok ck -> 1 <= n -> (Z.of_nat n < 2 ^ 64)%Z -> canonical_numeral y n ->
  run_main fuel e [chars "rust"; chars "join"; type_word t; y] w = Some w' ->
  exists lines s, run_log ck fuel e [chars "join"; type_word t; y] w = (w', lines, s) /\
    join_text ck (e_ls e) n t (pl_dirs (place_of w (type_word t) y)) (place_of w' (type_word t) y) (stacked lines ++ s).
Proof.
  intros Hck Hn Hn2 Hy E. assert (C := cl_join (chars "rust") t y _ (numeral_length_arg y n Hy ltac:(lia))). apply parse_args_iff in C.
  unfold run_main in E. match type of E with context [parse_args ?a] => replace (parse_args a) with (Some (Join t (Z.of_nat n))) in E by (symmetry; exact C) end. cbn [bind exec] in E.
  rewrite type_word_string, <- (numeral_string y n Hy), Nat2Z.id in E. apply bind_some in E as (pl & Ew & E). apply bind_some in E as (pl' & Ef & E). injection E as <-.
  destruct (printed_join ck fuel (e_ord e) (e_path e) (e_ls e) n t pl pl' Hck Hn Ef) as (lines & s & El & J). exists lines, s. split.
  - unfold run_log. match goal with |- context [parse_args ?a] => replace (parse_args a) with (Some (Join t (Z.of_nat n))) by (symmetry; exact C) end. cbn [bind exec_log].
    rewrite type_word_string, <- (numeral_string y n Hy), Nat2Z.id, Ew. cbn [bind]. rewrite El. reflexivity.
  - unfold place_of. rewrite Ew, write_same. exact J.
Qed.
