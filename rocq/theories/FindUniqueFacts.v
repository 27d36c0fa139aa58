(* The reductions of find_unique.rs: one minimum per class. *)
From Coq Require Import List ZArith Lia Arith Bool Permutation Relations.
From Verif Require Import Base BaseFacts Sums Quat ModelSequence ModelWilliamson Spec SeqFacts
  ModelEquivalence SpecEquiv OpFacts EquivFacts TypeFacts OrderFacts FastFacts EquivThms ModelFind.
Import ListNotations.
Open Scope nat_scope.

Lemma find_minimum_spec n ord p class : ord_ok ord -> class <> [] -> (forall x, In x class -> wf n x) ->
  exists m, find_minimum ord p class = Some m /\ least (fun x => In x class) m.
Proof.
  intros Ho Hne Hw. unfold find_minimum.
  assert (forall x, In x (ord p class) <-> In x class) as Hin by (intros; now apply ord_in).
  destruct (ord p class) as [|x l] eqn:E.
  - exfalso. destruct class as [|y c]; [congruence|]. now apply (proj2 (Hin y)); left.
  - cbn [fold_m bind].
    assert (forall l m0, fold_m (fun mini elm =>
              match mini with
              | Some best => let* b := will_less_than elm best in Some (if b then Some elm else mini)
              | None => Some (Some elm)
              end) l (Some m0)
            = (let* m := fold_m (fun mini elm => let* b := will_less_than elm mini in Some (if b then elm else mini)) l m0
               in Some (Some m))) as Hf.
    { clear. induction l as [|y l IH]; intros m0; cbn [fold_m bind]; [reflexivity|].
      destruct (will_less_than y m0) as [[|]|]; cbn [bind]; auto. }
    rewrite Hf. destruct (fold_min n l x) as (m & -> & Lm).
    + apply Hw, Hin. now left.
    + intros y Hy. apply Hw, Hin. now right.
    + cbn [bind]. exists m. split; auto. eapply least_ext; [|apply Lm]. intros y. rewrite <- Hin. cbn. intuition congruence.
Qed.

Lemma reach_wf n ops x y : i8_quad n x -> reach ops x y -> wf n y.
Proof. intros Hx H. now apply (reach_i8 n) in H; [apply H|]. Qed.

Definition is_class (ops : list Op) (q : QuadSeq) (c : list QuadSeq) : Prop := forall y, In y c <-> reach ops q y.

Lemma collect_classes_spec n ops gen l :
  (forall q, In q l -> i8_quad n q) ->
  (forall i q, In q l -> exists c, gen i q = Some c /\ is_class ops q c) ->
  exists qs classes, collect_classes gen l = Some classes /\ Forall2 (is_class ops) qs classes /\
    incl qs l /\ (forall x, In x l -> exists q, In q qs /\ reach ops q x) /\
    ForallOrdPairs (fun q q' => ~ reach ops q q') qs.
Proof.
  intros Hl Hgen. unfold collect_classes, foldi.
  assert (forall rest i don qs classes, (forall q, In q rest -> In q l) ->
    Forall2 (is_class ops) qs classes -> incl qs don -> (forall x, In x don -> exists q, In q qs /\ reach ops q x) ->
    ForallOrdPairs (fun q q' => ~ reach ops q q') qs ->
    exists qs' classes', foldi_from i (fun i classes q =>
           if existsb (mem q) classes then Some classes
           else let* c := gen i q in Some (classes ++ [c])) rest classes = Some classes' /\
      Forall2 (is_class ops) qs' classes' /\ incl qs' (don ++ rest) /\
      (forall x, In x (don ++ rest) -> exists q, In q qs' /\ reach ops q x) /\
      ForallOrdPairs (fun q q' => ~ reach ops q q') qs') as H.
  { induction rest as [|x rest IH]; intros i don qs classes Hr HF Hi Hc Hp; cbn [foldi_from bind].
    { exists qs, classes. rewrite app_nil_r. auto. }
    replace (don ++ x :: rest) with ((don ++ [x]) ++ rest) by now rewrite <- app_assoc.
    assert (existsb (mem x) classes = true <-> exists q, In q qs /\ reach ops q x) as Hex.
    { clear - HF. induction HF as [|q c qs cs Hq HF IH]; cbn.
      - split; [discriminate|intros (q & [] & _)].
      - rewrite orb_true_iff, mem_in, IH, (Hq x). split.
        + intros [H|(q' & H1 & H2)]; eauto.
        + intros (q' & [<-|H1] & H2); eauto. }
    destruct (existsb (mem x) classes) eqn:E; cbn [bind].
    - apply (IH (S i) (don ++ [x]) qs); auto using in_cons.
      + intros q Hq. apply in_or_app; auto.
      + intros y Hy. apply in_app_or in Hy as [Hy|[<-|[]]]; auto. now apply Hex.
    - destruct (Hgen i x (Hr x (in_eq _ _))) as (c & -> & Hcl). cbn [bind].
      assert (~ exists q, In q qs /\ reach ops q x) as Hn by (intros H; apply Hex in H; discriminate).
      apply (IH (S i) (don ++ [x]) (qs ++ [x])); auto using in_cons.
      + apply Forall2_app; auto.
      + intros q Hq. apply in_app_or in Hq as [Hq|Hq]; apply in_or_app; auto.
      + intros y Hy. apply in_app_or in Hy as [Hy|[<-|[]]].
        * destruct (Hc y Hy) as (q & Hq & R). exists q. split; auto. apply in_or_app; auto.
        * exists x. split; [apply in_or_app; right; now left|apply rt_refl].
      + clear - Hp Hn. induction Hp as [|q qs Hq Hp IH]; cbn.
        * repeat constructor.
        * constructor.
          { apply Forall_app. split; auto. constructor; auto. intros R. apply Hn. exists q. split; auto. now left. }
          apply IH. intros (q' & Hq' & R). apply Hn. exists q'. split; auto. now right. }
  destruct (H l 0 [] [] []) as (qs & cs & E & H1 & H2 & H3 & H4); auto; try constructor; try (intros ? []).
  exists qs, cs. auto.
Qed.

Lemma minima_spec n ord p ops : ord_ok ord -> forall qs classes, (forall q, In q qs -> i8_quad n q) ->
  Forall2 (is_class ops) qs classes -> exists ms, minima ord p classes = Some ms /\
    Forall2 (fun q m => least (reach ops q) m) qs ms.
Proof.
  intros Ho. unfold minima, foldi.
  assert (forall qs classes i acc, (forall q, In q qs -> i8_quad n q) -> Forall2 (is_class ops) qs classes ->
    exists ms, foldi_from i (fun i acc c => let* m := find_minimum ord (i :: p) c in Some (acc ++ [m])) classes acc
               = Some (acc ++ ms) /\ Forall2 (fun q m => least (reach ops q) m) qs ms) as H.
  { intros qs classes i acc Hq HF. revert i acc. induction HF as [|q c qs cs Hc HF IH]; intros i acc; cbn [foldi_from bind].
    - exists []. rewrite app_nil_r. auto.
    - destruct (find_minimum_spec n ord (i :: p) c Ho) as (m & -> & Lm).
      + intros E. specialize (proj2 (Hc q) (rt_refl _ _ _)). now rewrite E.
      + intros x Hx. apply Hc in Hx. eapply reach_wf; [|apply Hx]. apply Hq. now left.
      + cbn [bind]. destruct (IH (fun q Hq' => Hq q (or_intror Hq')) (S i) (acc ++ [m])) as (ms & -> & HFm).
        exists (m :: ms). rewrite <- app_assoc. split; auto. constructor; auto.
        eapply least_ext; [|apply Lm]. intros y. apply Hc. }
  intros qs classes Hq HF. destruct (H qs classes 0 [] Hq HF) as (ms & E & HFm). exists ms. auto.
Qed.

Lemma minima_reps n ops l qs ms : (forall q, In q l -> i8_quad n q) -> incl qs l ->
  (forall x, In x l -> exists q, In q qs /\ reach ops q x) ->
  ForallOrdPairs (fun q q' => ~ reach ops q q') qs ->
  Forall2 (fun q m => least (reach ops q) m) qs ms ->
  NoDup ms /\ forall m, In m ms <-> exists x, In x l /\ least (reach ops x) m.
Proof.
  intros Hl Hi Hc Hp HF. split.
  - assert (forall q, In q qs -> i8_quad n q) as Hq by auto. clear Hc Hl Hi l. revert Hp.
    induction HF as [|q m qs ms Hm HF IH]; intros Hp; constructor; inversion Hp; subst; auto using in_cons.
    intros Hin. assert (exists q', In q' qs /\ least (reach ops q') m) as (q' & Hq' & Lm').
    { clear - HF Hin. induction HF; [destruct Hin|]. destruct Hin as [->|Hin]; [eexists; split; [now left|eauto]|].
      destruct (IHHF Hin) as (q' & H1 & H2). exists q'. split; [now right|auto]. }
    rewrite Forall_forall in H1. apply (H1 q' Hq').
    apply (least_reach_iff n ops q q' m m); auto using in_cons, in_eq.
  - intros m. split.
    + intros Hin. assert (exists q, In q qs /\ least (reach ops q) m) as (q & Hq & Lm).
      { clear - HF Hin. induction HF; [destruct Hin|]. destruct Hin as [->|Hin]; [eexists; split; [now left|eauto]|].
        destruct (IHHF Hin) as (q' & H1 & H2). exists q'. split; [now right|auto]. }
      exists q. auto.
    + intros (x & Hx & Lm). destruct (Hc x Hx) as (q & Hq & R).
      assert (exists m', In m' ms /\ least (reach ops q) m') as (m' & Hm' & Lm').
      { clear - HF Hq. induction HF; [destruct Hq|]. destruct Hq as [->|Hq]; [eexists; split; [now left|eauto]|].
        destruct (IHHF Hq) as (q' & H1 & H2). exists q'. split; [now right|auto]. }
      replace m with m'; auto. apply (least_reach_iff n ops q x m' m); auto.
Qed.

Lemma reduce_to_equivalence_spec n ord ops l : ord_ok ord -> 1 <= n <= 31 -> l <> [] ->
  Forall (i8_quad n) l ->
  exists fuel0, forall fuel p, fuel0 <= fuel -> exists r,
    reduce_to_equivalence fuel ord p l (map impl ops) = Some r /\ NoDup r /\
    forall m, In m r <-> exists x, In x l /\ least (reach ops x) m.
Proof.
  intros Ho Hn Hne Hl. exists (class_fuel n). intros fuel p Hf. rewrite Forall_forall in Hl.
  unfold reduce_to_equivalence. destruct l as [|q0 l0]; [congruence|]. set (l := q0 :: l0) in *.
  assert (q_size q0 = n) as E0 by (apply Hl; now left).
  change (vget l 0) with (Some q0). cbn [bind]. rewrite E0.
  destruct (symmetry_group_spec n ord (0 :: p) ops fuel Ho) as (G & -> & _ & HG); auto; [apply small_ok; lia|]. cbn [bind].
  destruct (collect_classes_spec n ops (fun i q => generate_equivalence_class_fast ord (i :: 1 :: p) q G) l Hl) as
    (qs & cs & -> & HF & Hi & Hc & Hp).
  { intros i q Hq. destruct (fast_spec n ord (i :: 1 :: p) ops q G Ho ltac:(lia) (Hl q Hq) HG) as (c & E & _ & Hc); eauto. }
  cbn [bind]. destruct (minima_spec n ord (2 :: p) ops Ho qs cs) as (ms & -> & HFm); auto.
  exists ms. split; auto. eapply minima_reps; eauto.
Qed.

Lemma ord_nodup ord p l : ord_ok ord -> NoDup l -> NoDup (ord p l).
Proof. intros Ho. apply Permutation_NoDup. symmetry. apply Ho. Qed.

Lemma reduce_to_equivalence_par_spec n ord ops l : ord_ok ord -> 1 <= n <= 31 -> l <> [] ->
  Forall (i8_quad n) l ->
  exists fuel0, forall fuel p, fuel0 <= fuel -> exists r,
    reduce_to_equivalence_par fuel ord p l (map impl ops) = Some r /\ NoDup r /\
    forall m, In m r <-> exists x, In x l /\ least (reach ops x) m.
Proof.
  intros Ho Hn Hne Hl. exists (class_fuel n). intros fuel p Hf. rewrite Forall_forall in Hl.
  unfold reduce_to_equivalence_par. destruct l as [|q0 l0]; [congruence|]. set (l := q0 :: l0) in *.
  assert (q_size q0 = n) as E0 by (apply Hl; now left).
  change (vget l 0) with (Some q0). cbn [bind]. rewrite E0.
  destruct (symmetry_group_spec n ord (0 :: p) ops fuel Ho) as (G & -> & _ & HG); auto; [apply small_ok; lia|]. cbn [bind].
  destruct (foldi_union (fun i res q =>
      let* class := generate_equivalence_class_fast ord (i :: 1 :: p) q G in
      let* m := find_minimum ord (i :: 2 :: p) class in
      Some (hinsert m res)) (fun x m => least (reach ops x) m) l) with (i := 0) (acc := @nil QuadSeq) as (r & E & Nr & Hr).
  - intros i acc x Hx Na.
    destruct (fast_spec n ord (i :: 1 :: p) ops x G Ho ltac:(lia) (Hl x Hx) HG) as (c & -> & _ & Hc). cbn [bind].
    destruct (find_minimum_spec n ord (i :: 2 :: p) c Ho) as (m & -> & Lm).
    + intros E. specialize (proj2 (Hc x) (rt_refl _ _ _)). now rewrite E.
    + intros y Hy. apply Hc in Hy. eapply reach_wf; [|apply Hy]. auto.
    + cbn [bind]. eexists. split; [reflexivity|]. split; [now apply hinsert_nodup|].
      assert (least (reach ops x) m) as Lm' by (eapply least_ext; [|apply Lm]; apply Hc).
      intros y. rewrite hinsert_in. split.
      * intros [->|H]; auto.
      * intros [H|H]; auto. left. eapply least_unique; eauto.
  - constructor.
  - unfold foldi. rewrite E. cbn [bind]. eexists. split; [reflexivity|]. split; [now apply ord_nodup|].
    intros m. rewrite ord_in, Hr by auto. cbn. intuition.
Qed.

Lemma reduce_agree n ord ord' ops l : ord_ok ord -> ord_ok ord' -> 1 <= n <= 31 -> l <> [] -> Forall (i8_quad n) l ->
  exists fuel0, forall fuel p p', fuel0 <= fuel -> exists r r',
    reduce_to_equivalence fuel ord p l (map impl ops) = Some r /\
    reduce_to_equivalence_par fuel ord' p' l (map impl ops) = Some r' /\ Permutation r r'.
Proof.
  intros Ho Ho' Hn Hne Hl.
  destruct (reduce_to_equivalence_spec n ord ops l Ho Hn Hne Hl) as (f1 & H1).
  destruct (reduce_to_equivalence_par_spec n ord' ops l Ho' Hn Hne Hl) as (f2 & H2).
  exists (f1 + f2). intros fuel p p' Hf.
  destruct (H1 fuel p) as (r & E & Nr & Hr); [lia|]. destruct (H2 fuel p') as (r' & E' & Nr' & Hr'); [lia|].
  exists r, r'. repeat split; auto. apply NoDup_Permutation; auto. intros x. now rewrite Hr, Hr'.
Qed.

Lemma reduce_empty_panics fuel ord p ops :
  reduce_to_equivalence fuel ord p [] ops = None /\ reduce_to_equivalence_par fuel ord p [] ops = None /\
  reduce_to_equivalence_set_dif fuel ord p [] ops = None.
Proof. repeat split. Qed.

(* ---- set difference ---- *)
Lemma hremove_in x y s : In y (hremove x s) <-> In y s /\ y <> x.
Proof.
  unfold hremove. rewrite filter_In. split; intros [H1 H2]; split; auto.
  - intros ->. rewrite (proj2 (quad_eqb_eq x x) eq_refl) in H2. discriminate.
  - destruct (quad_eqb x y) eqn:E; auto. apply quad_eqb_eq in E. congruence.
Qed.

Lemma fold_hremove l : forall s y, In y (fold_left (fun res e => hremove e res) l s) <-> In y s /\ ~ In y l.
Proof.
  induction l as [|x l IH]; intros s y; cbn; [tauto|]. rewrite IH, hremove_in. intuition congruence.
Qed.

Lemma hremove_nodup x s : NoDup s -> NoDup (hremove x s).
Proof. apply NoDup_filter. Qed.

Lemma fold_hremove_nodup l : forall s, NoDup s -> NoDup (fold_left (fun res e => hremove e res) l s).
Proof. induction l; cbn; auto using hremove_nodup. Qed.

Lemma set_dif_spec n ord ops l : ord_ok ord -> 1 <= n <= 31 -> l <> [] -> Forall (i8_quad n) l ->
  exists fuel0, forall fuel p, fuel0 <= fuel -> exists r,
    reduce_to_equivalence_set_dif fuel ord p l (map impl ops) = Some r /\ NoDup r /\
    forall x, In x r <-> In x l /\ forall y, In y l -> reach ops y x -> y = x.
Proof.
  intros Ho Hn Hne Hl. exists (class_fuel n). intros fuel p Hf. rewrite Forall_forall in Hl.
  unfold reduce_to_equivalence_set_dif. destruct l as [|q0 l0]; [congruence|]. set (l := q0 :: l0) in *.
  assert (q_size q0 = n) as E0 by (apply Hl; now left).
  change (vget l 0) with (Some q0). cbn [bind]. rewrite E0.
  destruct (symmetry_group_spec n ord (0 :: p) ops fuel Ho) as (G & -> & _ & HG); auto; [apply small_ok; lia|]. cbn [bind].
  assert (forall rest i res, (forall q, In q rest -> i8_quad n q) -> NoDup res ->
    exists r, foldi_from i (fun i res q =>
      let* class := generate_equivalence_class_fast ord (i :: 1 :: p) q G in
      Some (fold_left (fun res e => hremove e res) (ord (i :: 2 :: p) (hremove q class)) res)) rest res = Some r /\ NoDup r /\
      forall x, In x r <-> In x res /\ forall y, In y rest -> reach ops y x -> y = x) as H.
  { induction rest as [|q rest IH]; intros i res Hr Nr; cbn [foldi_from bind].
    - exists res. split; auto. split; auto. intros x. split; [intros H; split; auto; intros y []|tauto].
    - destruct (fast_spec n ord (i :: 1 :: p) ops q G Ho ltac:(lia) (Hr q (in_eq _ _)) HG) as (c & -> & _ & Hc).
      cbn [bind]. destruct (IH (S i) (fold_left (fun res e => hremove e res) (ord (i :: 2 :: p) (hremove q c)) res))
        as (r & -> & Nr' & Hr'); auto using in_cons, fold_hremove_nodup.
      exists r. split; auto. split; auto. intros x. rewrite Hr', fold_hremove, ord_in, hremove_in, (Hc x) by auto. split.
      + intros [[H1 H2] H3]. split; auto. intros y [<-|Hy] R; auto.
        destruct (quad_eqb q x) eqn:E; [now apply quad_eqb_eq|]. exfalso. apply H2. split; auto.
        intros ->. rewrite (proj2 (quad_eqb_eq q q) eq_refl) in E. discriminate.
      + intros [H1 H2]. split; [split; auto|auto using in_cons]. intros [R Hne']. apply Hne'. symmetry. apply H2; auto. now left. }
  unfold foldi. cbv zeta. destruct (H l 0 (insert_all l [])) as (r & -> & Nr & Hr); auto.
  - apply insert_all_nodup. constructor.
  - cbn [bind]. eexists. split; [reflexivity|]. split; [now apply ord_nodup|].
    intros x. rewrite ord_in, Hr, insert_all_in by auto. cbn. intuition.
Qed.
