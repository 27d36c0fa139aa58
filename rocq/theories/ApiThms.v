(* Facts about the functions which no command calls. *)
From Coq Require Import Ascii String List ZArith Lia Arith Bool Reals Permutation.
From Verif Require Import Base BaseFacts Sums Quat ModelSequence ModelWilliamson ModelEquivalence ModelFourier SpecFourier MatchFacts MatchThms ModelMatrices SpecMatrix
  ModelGraph SpecGraph GraphThms ModelRowsum SpecRowsum RowsumFacts ModelMatching ModelWrite TextFacts WriteFacts FolderFacts SplitFacts FloatQuat SingleFacts ModelApi SpecSplit SpecSearch Spec.
Import ListNotations.
Notation length := List.length.
Open Scope nat_scope.

(* ---- couples with their positions ---- *)
Lemma nodup_enumerate {A} (l : list A) : NoDup (enumerate l).
Proof.
  unfold enumerate. generalize 0 as k. induction l as [|x l IH]; intros k; cbn [length seq combine]; constructor; [|apply IH].
  intros H. apply in_combine_l in H. apply in_seq in H. lia.
Qed.
Lemma snd_enumerate {A} (l : list A) : map snd (enumerate l) = l.
Proof. unfold enumerate. generalize 0 as k. induction l as [|x l IH]; intros k; cbn [length seq combine map snd]; [reflexivity|now rewrite IH]. Qed.
Lemma nodup_product {A B} (l : list A) (m : list B) : NoDup l -> NoDup m -> NoDup (list_prod l m).
Proof.
  intros H Hm. induction H as [|x l Hx H IH]; cbn [list_prod]; [constructor|]. apply SearchFacts.NoDup_app; auto.
  - apply FinFun.Injective_map_NoDup; auto. intros u v E. congruence.
  - intros p I J. apply in_map_iff in I as (y & <- & _). apply in_prod_iff in J as [J _]. contradiction.
Qed.
Lemma map_product {A B C D} (f : A -> C) (g : B -> D) l m : map (fun c => (f (fst c), g (snd c))) (list_prod l m) = list_prod (map f l) (map g m).
Proof. induction l as [|x l IH]; cbn [list_prod map]; auto. rewrite map_app, IH, !map_map. reflexivity. Qed.
Lemma filter_m_map {A B} (h : A -> B) (f : B -> option bool) l : filter_m f (map h l) = option_map (map h) (filter_m (fun x => f (h x)) l).
Proof.
  induction l as [|x l IH]; auto. cbn [map filter_m]. destruct (f (h x)) as [b|]; cbn [bind]; auto. rewrite IH.
  destruct (filter_m (fun x => f (h x)) l); cbn [bind option_map]; auto. destruct b; reflexivity.
Qed.
Lemma filter_m_ext {A} (f g : A -> option bool) l : (forall x, f x = g x) -> filter_m f l = filter_m g l.
Proof. intros H. induction l as [|x l IH]; auto. cbn [filter_m]. now rewrite H, IH. Qed.

Definition forget (c : (nat * list Z) * (nat * list Z)) : list Z * list Z := (snd (fst c), snd (snd c)).
Lemma enum_forget n l1 l2 bound : option_map (map forget) (iter_over_enumerate_filtered_couples n l1 l2 bound) = iter_over_filtered_couples n l1 l2 bound.
Proof.
  unfold iter_over_filtered_couples, iter_over_enumerate_filtered_couples, iproduct.
  rewrite <- (snd_enumerate l1) at 2. rewrite <- (snd_enumerate l2) at 2. rewrite <- map_product, filter_m_map.
  unfold forget. f_equal. apply filter_m_ext. intros [[i s1] [j s2]]. reflexivity.
Qed.
Lemma enum_spec n l1 l2 bound : 1 <= n -> (forall s, In s l1 \/ In s l2 -> length s = n) ->
  exists ps, iter_over_enumerate_filtered_couples n l1 l2 bound = Some ps /\ NoDup ps /\
    (forall i s1 j s2, In ((i, s1), (j, s2)) ps <-> nth_error l1 i = Some s1 /\ nth_error l2 j = Some s2 /\ forall k, k <= n / 2 -> (psd s1 k + psd s2 k <= bound)%R) /\
    iter_over_filtered_couples n l1 l2 bound = Some (map (fun c => (snd (fst c), snd (snd c))) ps).
Proof.
  intros Hn H. set (g := fun c : (nat * list Z) * (nat * list Z) => match couple_within n bound (snd (fst c)) (snd (snd c)) with Some v => v | None => false end).
  assert (E : iter_over_enumerate_filtered_couples n l1 l2 bound = Some (filter g (list_prod (enumerate l1) (enumerate l2)))).
  { unfold iter_over_enumerate_filtered_couples. apply filter_m_filter. intros [[i x] [j y]] I. apply in_prod_iff in I as [A B].
    apply in_enumerate in A. apply in_enumerate in B. apply nth_error_In in A. apply nth_error_In in B. unfold g. cbn [fst snd].
    destruct (couple_within_spec n bound x y Hn (H _ (or_introl A)) (H _ (or_intror B))) as (v & -> & _). reflexivity. }
  eexists. split; [exact E|]. split; [apply NoDup_filter, nodup_product; apply nodup_enumerate|]. split.
  - intros i s1 j s2. rewrite filter_In, in_prod_iff, !in_enumerate. split.
    + intros ((A & B) & G). split; auto. split; auto. apply nth_error_In in A. apply nth_error_In in B. unfold g in G. cbn [fst snd] in G.
      destruct (couple_within_spec n bound s1 s2 Hn (H _ (or_introl A)) (H _ (or_intror B))) as (v & Ev & Hv). rewrite Ev in G. now apply Hv.
    + intros (A & B & W). split; auto. apply nth_error_In in A. apply nth_error_In in B. unfold g. cbn [fst snd].
      destruct (couple_within_spec n bound s1 s2 Hn (H _ (or_introl A)) (H _ (or_intror B))) as (v & Ev & Hv). rewrite Ev. now apply Hv.
  - assert (F := enum_forget n l1 l2 bound). rewrite E in F. cbn [option_map] in F. now rewrite <- F.
Qed.

(* ---- two graphs ---- *)
Lemma isomorphic_spec (L : Type) (canon : Graph -> L) same n a b : SpecGraph.canonical canon same -> hm_hadamard n a -> hm_hadamard n b ->
  exists ga gb, graph_from_hm a = Some ga /\ graph_from_hm b = Some gb /\
    (are_isomorphic canon same ga gb = true <-> hadamard_equivalent n (hm_matrix a) (hm_matrix b)).
Proof.
  intros C [Sa Ha] [Sb Hb]. destruct (graph_iso_iff n a b Sa Sb Ha Hb) as (ga & gb & Ga & Gb & H). exists ga, gb. split; auto. split; auto.
  rewrite <- H. apply C.
Qed.

(* ---- all row sums, one half at a time ---- *)
Section Half.
Variables (t : SequenceType) (m : MatchOption) (n : nat) (pr : RowsumPairing).
Hypotheses (Ht : searchable t) (Hn : 1 <= n) (Hn2 : (Z.of_nat n < 2 ^ 62)%Z).
Lemma single_jobs fuel rss h i f : generate_rowsums fuel n t = Some rss -> (h, i) = (First, 1) \/ (h, i) = (Second, 2) ->
  write_pair_single fuel t n m (Some pr) i f = fold_m (fun f j => job_folder t m n pr j f) (map (fun r => (r, h)) rss) f.
Proof.
  intros E H. unfold write_pair_single. rewrite E. cbn [bind]. rewrite fold_m_map. apply fold_m_ext_in. intros g r _. unfold job_folder. cbn [fst snd].
  destruct H as [H|H]; injection H as -> ->; reflexivity.
Qed.
Lemma both_halves : exists fuel0, forall fuel, fuel0 <= fuel -> forall i j, (i, j) = (1, 2) \/ (i, j) = (2, 1) ->
  exists f0 f1 f2 c, write_pair_single fuel t n m (Some pr) i [] = Some f0 /\ write_pair_single fuel t n m (Some pr) j f0 = Some f1 /\
    write_pairs fuel n t m (Some pr) [] = Some (f2, c) /\ same_dirs f2 f1.
Proof.
  destruct (generate_rowsums_spec n t) as (fuel0 & G). exists fuel0. intros fuel Hf i j Hij. destruct (G fuel Hf) as (rss & Er & Nd & Hrss).
  assert (Fe : Forall (feasible n) rss) by (apply Forall_forall; intros r I; now apply Hrss).
  destruct (write_folder_of t m n pr Ht Hn Hn2 rss [] 0%Z Fe Nd) as (c & Ec). { intros r _ []. }
  set (hi := if i =? 1 then First else Second). set (hj := if j =? 1 then First else Second).
  assert (Li : (hi, i) = (First, 1) \/ (hi, i) = (Second, 2)) by (unfold hi; destruct Hij as [E|E]; injection E as -> ->; auto).
  assert (Lj : (hj, j) = (First, 1) \/ (hj, j) = (Second, 2)) by (unfold hj; destruct Hij as [E|E]; injection E as -> ->; auto).
  set (ji := map (fun r => (r, hi)) rss). set (jj := map (fun r => (r, hj)) rss).
  assert (Mem : forall h r k, In (r, k) (map (fun r => (r, h : Part)) rss) <-> In r rss /\ k = h).
  { intros h r k. rewrite in_map_iff. split; [intros (s & E & I); now injection E as -> ->|intros [I ->]; eauto]. }
  assert (Ff : forall h r k, In (r, k) (map (fun r => (r, h : Part)) rss) -> feasible n r).
  { intros h r k I. apply Mem in I as [I _]. eapply Forall_forall in Fe; eauto. }
  destruct (jobs_after t m n pr Ht Hn Hn2 ji [] [] (Ff hi) (after_nil _ _ _ _)) as (f0 & E0 & A0). cbn [app] in A0.
  destruct (jobs_after t m n pr Ht Hn Hn2 jj ji f0 (Ff hj) A0) as (f1 & E1 & A1).
  assert (D : forall r, In r rss <-> done (ji ++ jj) r).
  { intros r. unfold done. rewrite !in_app_iff. unfold ji, jj. rewrite !Mem.
    destruct Hij as [E|E]; injection E as -> ->; unfold hi, hj; cbn [Nat.eqb]; intuition discriminate. }
  exists f0, f1, (folder_of t m n pr rss), c.
  rewrite (single_jobs fuel rss hi i [] Er Li), (single_jobs fuel rss hj j f0 Er Lj). split; [exact E0|]. split; [exact E1|].
  split; [unfold write_pairs; rewrite Er; cbn [bind]; exact Ec|].
  apply (jobs_same t m n pr Ht Hn Hn2 rss (ji ++ jj) f1); auto. intros r h I. apply D. apply in_app_iff in I as [I|I]; apply Mem in I; tauto.
Qed.
End Half.

(* ---- equals and contains ---- *)
Lemma equals_from p x y : all_m (fun i => let* u := vget (p ++ x) i in let* v := vget (p ++ y) i in Some (Z.eqb u v)) (seq (length p) (length x)) =
  all_m (fun i => let* u := vget x i in let* v := vget y i in Some (Z.eqb u v)) (seq 0 (length x)).
Proof.
  replace (seq (length p) (length x)) with (map (fun i => length p + i) (seq 0 (length x))).
  2:{ transitivity (seq (length p + 0) (length x)); [|now rewrite Nat.add_0_r]. generalize (length x) as m. generalize 0 as k. intros k m. revert k.
      induction m as [|m IH]; intros k; cbn [seq map]; auto. rewrite IH. f_equal. f_equal. lia. }
  induction (seq 0 (length x)) as [|k l IH]; auto. cbn [map all_m]. unfold vget. rewrite !nth_error_app2 by lia. rewrite !Nat.add_sub_swap, !Nat.sub_diag by lia. cbn [Nat.add]. unfold vget in IH.
  now rewrite IH.
Qed.
Lemma equals_nil y : equals [] y = Some true. Proof. reflexivity. Qed.
Lemma equals_short a x : equals (a :: x) [] = None. Proof. reflexivity. Qed.
Lemma equals_cons a x b y : equals (a :: x) (b :: y) = if Z.eqb a b then equals x y else Some false.
Proof.
  unfold equals, range. cbn [length Nat.sub seq all_m vget nth_error bind]. rewrite Nat.sub_0_r. destruct (Z.eqb_spec a b) as [->|]; auto.
  exact (equals_from [b] x y).
Qed.
Lemma equals_true x y : equals x y = Some true <-> exists r, y = x ++ r.
Proof.
  revert y. induction x as [|a x IH]; intros y. { rewrite equals_nil. split; [exists y; reflexivity|auto]. }
  destruct y as [|b y]. { rewrite equals_short. split; [discriminate|intros (r & E); discriminate]. }
  rewrite equals_cons. destruct (Z.eqb_spec a b) as [->|D].
  - rewrite IH. split; intros (r & E); exists r; cbn [app] in *; congruence.
  - split; [discriminate|]. intros (r & E). cbn [app] in E. congruence.
Qed.
Lemma equals_none x y : equals x y = None <-> exists a r, x = y ++ a :: r.
Proof.
  revert y. induction x as [|a x IH]; intros y. { rewrite equals_nil. split; [discriminate|]. intros (b & r & E). destruct y; discriminate. }
  destruct y as [|b y]. { rewrite equals_short. split; [exists a, x; reflexivity|auto]. }
  rewrite equals_cons. destruct (Z.eqb_spec a b) as [->|D].
  - rewrite IH. split; intros (c & r & E); exists c, r; cbn [app] in *; congruence.
  - split; [discriminate|]. intros (c & r & E). cbn [app] in E. congruence.
Qed.
Lemma equals_same x y : length x = length y -> equals x y = Some true /\ x = y \/ equals x y = Some false /\ x <> y.
Proof.
  intros H. destruct (equals x y) as [[]|] eqn:E; auto.
  - left. split; auto. apply equals_true in E as (r & ->). rewrite app_length in H. destruct r; [now rewrite app_nil_r|cbn in H; lia].
  - right. split; auto. intros ->. assert (equals y y = Some true) by (apply equals_true; exists []; now rewrite app_nil_r). congruence.
  - exfalso. apply equals_none in E as (a & r & ->). rewrite app_length in H. cbn in H. lia.
Qed.
Lemma contains_spec n set q : wf n q -> (forall s, In s set -> wf n s) ->
  contains set q = Some true /\ In q set \/ contains set q = Some false /\ ~ In q set.
Proof.
  intros Hq. induction set as [|s set IH]; intros Hs; [right; split; [reflexivity|intros []]|].
  assert (Ws := Hs s (or_introl eq_refl)). assert (IH' := IH (fun x I => Hs x (or_intror I))). clear IH Hs.
  destruct q as [nq a b c d], s as [ns a' b' c' d']. destruct Hq as (? & ? & ? & ? & ?), Ws as (? & ? & ? & ? & ?). cbn [q_size q_a q_b q_c q_d] in *. subst nq ns.
  unfold contains in *. cbn [any_m q_a q_b q_c q_d] in *.
  assert (K : forall v, and_m (and_m (and_m (equals a a') (equals b b')) (equals c c')) (equals d d') = Some v ->
    (v = true <-> mkQuad n a b c d = mkQuad n a' b' c' d')).
  { intros v. destruct (equals_same a a') as [[-> ->]|[-> N]]; [congruence| |cbn [and_m bind]; intros E; injection E as <-; split; [discriminate|congruence]].
    destruct (equals_same b b') as [[-> ->]|[-> N]]; [congruence| |cbn [and_m bind]; intros E; injection E as <-; split; [discriminate|congruence]].
    destruct (equals_same c c') as [[-> ->]|[-> N]]; [congruence| |cbn [and_m bind]; intros E; injection E as <-; split; [discriminate|congruence]].
    destruct (equals_same d d') as [[-> ->]|[-> N]]; [congruence| |]; cbn [and_m bind]; intros E; injection E as <-; split; congruence. }
  assert (S : exists v, and_m (and_m (and_m (equals a a') (equals b b')) (equals c c')) (equals d d') = Some v).
  { destruct (equals_same a a') as [[-> _]|[-> _]]; [congruence| |]; (destruct (equals_same b b') as [[-> _]|[-> _]]; [congruence| |]);
    (destruct (equals_same c c') as [[-> _]|[-> _]]; [congruence| |]); (destruct (equals_same d d') as [[-> _]|[-> _]]; [congruence| |]); cbn [and_m bind]; eauto. }
  destruct S as (v & Ev). assert (Kv := K v Ev). rewrite Ev. cbn [bind]. destruct v.
  - left. split; auto. left. symmetry. now apply Kv.
  - destruct IH' as [[E I]|[E I]]; [left|right]; (split; [exact E|]); [now right|]. intros [J|J]; [|contradiction]. symmetry in J. apply Kv in J. discriminate.
Qed.

(* ---- the iterator ---- *)
Lemma into_iter_spec n q : wf n q -> length (Quad_into_iter q) = 4 * n /\ forall i, i < n ->
  nth_error (Quad_into_iter q) i = nth_error (q_a q) i /\ nth_error (Quad_into_iter q) (n + i) = nth_error (q_b q) i /\
  nth_error (Quad_into_iter q) (2 * n + i) = nth_error (q_c q) i /\ nth_error (Quad_into_iter q) (3 * n + i) = nth_error (q_d q) i.
Proof.
  destruct q as [nq a b c d]. intros (? & ? & ? & ? & ?). unfold Quad_into_iter. cbn [sequence q_size q_a q_b q_c q_d] in *. subst nq.
  split; [rewrite !app_length; lia|]. intros i Hi. split; [|split; [|split]].
  - rewrite !nth_error_app1; auto; rewrite ?app_length; lia.
  - rewrite (nth_error_app1 ((a ++ b) ++ c)), (nth_error_app1 (a ++ b)), nth_error_app2 by (rewrite ?app_length; lia). f_equal. lia.
  - rewrite (nth_error_app1 ((a ++ b) ++ c)), nth_error_app2 by (rewrite ?app_length; lia). f_equal. rewrite app_length. lia.
  - rewrite nth_error_app2 by (rewrite ?app_length; lia). f_equal. rewrite !app_length. lia.
Qed.

(* ---- set_values ---- *)
Section SetValues.
Variables (q : QS) (v e : list quat).
Hypothesis Hv : length v = qs_size q.
Lemma set_paf t : QS_periodic_autocorrelation (QS_set_values q (v ++ e)) t = QS_periodic_autocorrelation (QS_set_values q v) t.
Proof.
  unfold QS_periodic_autocorrelation. cbn [QS_set_values qs_size qs_values]. apply fold_m_ext_in. intros acc i I. apply in_seq in I. unfold vget.
  rewrite !nth_error_app1; auto; try lia. rewrite Hv. apply Nat.mod_upper_bound. lia.
Qed.
Lemma set_odd t : QS_odd_periodic_autocorrelation (QS_set_values q (v ++ e)) t = QS_odd_periodic_autocorrelation (QS_set_values q v) t.
Proof.
  unfold QS_odd_periodic_autocorrelation. cbn [QS_set_values qs_size qs_values]. apply fold_m_ext_in. intros acc i I. apply in_seq in I. unfold vget.
  rewrite !nth_error_app1; auto; try lia. rewrite Hv. apply Nat.mod_upper_bound. lia.
Qed.
Lemma set_perfect : QS_is_perfect (QS_set_values q (v ++ e)) = QS_is_perfect (QS_set_values q v).
Proof. unfold QS_is_perfect. cbn [QS_set_values qs_size]. destruct (qs_size q =? 1); auto. apply all_m_ext. intros t _. now rewrite set_paf. Qed.
Lemma set_odd_perfect : QS_is_odd_perfect (QS_set_values q (v ++ e)) = QS_is_odd_perfect (QS_set_values q v).
Proof. unfold QS_is_odd_perfect. cbn [QS_set_values qs_size]. destruct (qs_size q =? 1); auto. apply all_m_ext. intros t _. now rewrite set_odd. Qed.
Lemma set_symmetric : QS_is_symmetric (QS_set_values q (v ++ e)) = QS_is_symmetric (QS_set_values q v).
Proof.
  unfold QS_is_symmetric. cbn [QS_set_values qs_size qs_values]. apply all_m_ext. intros t I. unfold range in I. apply in_seq in I. unfold vget.
  assert (2 * ((qs_size q + 1) / 2) <= qs_size q + 1) by (apply Nat.mul_div_le; lia).
  rewrite !nth_error_app1; auto; lia.
Qed.
End SetValues.
Lemma traverse_app {A B} (f : A -> option B) l m x y : traverse f l = Some x -> traverse f m = Some y -> traverse f (l ++ m) = Some (x ++ y).
Proof.
  revert x. induction l as [|a l IH]; intros x; cbn [traverse app]; intros E Em; [now injection E as <-|].
  destruct (f a) as [b|]; cbn [bind] in *; [|discriminate]. destruct (traverse f l) as [r|]; cbn [bind] in *; [|discriminate]. injection E as <-.
  rewrite (IH r eq_refl Em). reflexivity.
Qed.
Lemma set_long q v e : length v = qs_size q ->
  (forall t, QS_periodic_autocorrelation (QS_set_values q (v ++ e)) t = QS_periodic_autocorrelation (QS_set_values q v) t) /\
  (forall t, QS_odd_periodic_autocorrelation (QS_set_values q (v ++ e)) t = QS_odd_periodic_autocorrelation (QS_set_values q v) t) /\
  QS_is_perfect (QS_set_values q (v ++ e)) = QS_is_perfect (QS_set_values q v) /\
  QS_is_odd_perfect (QS_set_values q (v ++ e)) = QS_is_odd_perfect (QS_set_values q v) /\
  QS_is_symmetric (QS_set_values q (v ++ e)) = QS_is_symmetric (QS_set_values q v) /\
  forall x y, QS_to_string_raw (QS_set_values q v) = Some x -> traverse quaternion_to_string e = Some y -> QS_to_string_raw (QS_set_values q (v ++ e)) = Some (x ++ y).
Proof.
  intros H. split; [intros; now apply set_paf|]. split; [intros; now apply set_odd|]. split; [now apply set_perfect|]. split; [now apply set_odd_perfect|].
  split; [now apply set_symmetric|]. intros x y. unfold QS_to_string_raw. cbn [QS_set_values qs_values]. apply traverse_app.
Qed.
Lemma set_short q v : length v < qs_size q ->
  (forall t, QS_periodic_autocorrelation (QS_set_values q v) t = None) /\ (forall t, QS_odd_periodic_autocorrelation (QS_set_values q v) t = None) /\
  (2 <= qs_size q -> QS_is_perfect (QS_set_values q v) = None /\ QS_is_odd_perfect (QS_set_values q v) = None).
Proof.
  intros H.
  assert (P : forall t, QS_periodic_autocorrelation (QS_set_values q v) t = None).
  { intros t. unfold QS_periodic_autocorrelation. cbn [QS_set_values qs_size qs_values]. apply (fold_m_none _ _ (length v)); [apply in_seq; lia|].
    intros a. unfold vget. now rewrite (proj2 (nth_error_None v (length v)) (le_n _)). }
  assert (O : forall t, QS_odd_periodic_autocorrelation (QS_set_values q v) t = None).
  { intros t. unfold QS_odd_periodic_autocorrelation. cbn [QS_set_values qs_size qs_values]. apply (fold_m_none _ _ (length v)); [apply in_seq; lia|].
    intros a. unfold vget. now rewrite (proj2 (nth_error_None v (length v)) (le_n _)). }
  split; auto. split; auto. intros H2. unfold QS_is_perfect, QS_is_odd_perfect. cbn [QS_set_values qs_size].
  destruct (Nat.eqb_spec (qs_size q) 1); [lia|]. unfold range_incl.
  assert (1 <= (qs_size q + 1) / 2) by (apply Nat.div_le_lower_bound; lia).
  destruct ((qs_size q + 1) / 2) as [|k] eqn:E; [lia|]. cbn [Nat.sub seq all_m]. rewrite P, O. auto.
Qed.

(* ---- fresh matrices and columns ---- *)
Lemma nth_error_repeat {A} (x : A) n i : i < n -> nth_error (repeat x n) i = Some x.
Proof. revert i. induction n as [|n IH]; intros [|i] H; cbn; auto; try lia. apply IH. lia. Qed.
Lemma new_matrix n i j : QHM_get (QHM_new n) i j = if (i <? n) && (j <? n) then Some Q1 else None.
Proof.
  unfold QHM_get, QHM_new, mconst, mget, vget. cbn [qhm_matrix]. destruct (Nat.ltb_spec i n) as [Hi|Hi]; cbn [andb].
  - rewrite nth_error_repeat by auto. cbn [bind]. destruct (Nat.ltb_spec j n) as [Hj|Hj]; [now apply nth_error_repeat|]. apply nth_error_None. now rewrite repeat_length.
  - rewrite (proj2 (nth_error_None _ i)); auto. now rewrite repeat_length.
Qed.
Lemma column n h j : qhm_size h = n -> square n (qhm_matrix h) -> j < n ->
  exists l, QHM_col h j = Some l /\ length l = n /\ forall i, i < n -> nth_error l i = QHM_get h i j.
Proof.
  intros Sz (Lm & F) Hj. unfold QHM_col. rewrite Sz.
  assert (G : forall i, i < n -> mget (qhm_matrix h) i j = Some (cell Q1 (qhm_matrix h) i j)).
  { intros i Hi. unfold mget, vget, cell. rewrite (nth_error_nth' (qhm_matrix h) []) by lia. cbn [bind]. apply nth_error_nth'.
    rewrite Forall_forall in F. rewrite F; auto. apply nth_In. lia. }
  exists (map (fun i => cell Q1 (qhm_matrix h) i j) (seq 0 n)). split; [|split].
  - apply vbuild_map. exact G.
  - now rewrite map_length, seq_length.
  - intros i Hi. unfold QHM_get. rewrite G by auto. erewrite map_nth_error; [reflexivity|]. rewrite (nth_error_nth' _ 0) by (rewrite seq_length; lia). now rewrite seq_nth by lia.
Qed.
Lemma no_column n h j : qhm_size h = n -> square n (qhm_matrix h) -> 1 <= n <= j -> QHM_col h j = None.
Proof.
  intros Sz (Lm & F) Hj. unfold QHM_col, vbuild. rewrite Sz. destruct n as [|n]; [lia|]. cbn [seq traverse].
  replace (mget (qhm_matrix h) 0 j) with (@None quat); auto. unfold mget, vget. rewrite (nth_error_nth' (qhm_matrix h) []) by lia. cbn [bind]. symmetry.
  apply nth_error_None. rewrite Forall_forall in F. rewrite F; [lia|]. apply nth_In. lia.
Qed.
