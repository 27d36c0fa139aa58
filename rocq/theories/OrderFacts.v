(* The lexicographic order, and minima computed by loops. *)
From Coq Require Import List ZArith Lia Arith Bool Permutation Relations.
From Verif Require Import Base BaseFacts Sums Quat ModelSequence ModelWilliamson ModelEquivalence
  Spec SpecEquiv SeqFacts OpFacts EquivFacts.
Import ListNotations.
Open Scope Z_scope.

Lemma lex_irrefl l : ~ lex l l.
Proof. intros H. remember l as m eqn:E in H at 2. revert E. induction H; intros E; inversion E; subst; auto; lia. Qed.

Lemma lex_trans l m k : lex l m -> lex m k -> lex l k.
Proof.
  intros H. revert k. induction H; intros k Hk; inversion Hk; subst.
  - apply lex_here; lia.
  - now apply lex_here.
  - now apply lex_here.
  - apply lex_later. auto.
Qed.

Lemma lex_asym l m : lex l m -> ~ lex m l.
Proof. intros H1 H2. exact (lex_irrefl l (lex_trans _ _ _ H1 H2)). Qed.

Lemma lex_total l m : length l = length m -> lex l m \/ l = m \/ lex m l.
Proof.
  revert m; induction l as [|x l IH]; intros [|y m] H; try discriminate; auto.
  injection H as H. destruct (Z.lt_trichotomy x y) as [E|[->|E]].
  - left; now apply lex_here.
  - destruct (IH m H) as [|[->|]]; auto using lex_later.
  - right; right; now apply lex_here.
Qed.

Lemma lex_app x y l m : length x = length y ->
  (lex (x ++ l) (y ++ m) <-> lex x y \/ (x = y /\ lex l m)).
Proof.
  revert y; induction x as [|a x IH]; intros [|b y] H; try discriminate; cbn.
  - split; auto. intros [E|[_ E]]; auto. inversion E.
  - injection H as H. split.
    + intros E. inversion E; subst; [left; now apply lex_here|].
      apply IH in H1 as [|[-> ]]; auto using lex_later.
    + intros [E|[E1 E2]].
      * inversion E; subst; [now apply lex_here|]. apply lex_later. apply IH; auto.
      * injection E1 as -> ->. apply lex_later. apply IH; auto.
Qed.

Lemma seq_less_than_spec l m : length l = length m ->
  exists b, seq_less_than l m = Some b /\ (b = true <-> lex l m).
Proof.
  revert m; induction l as [|x l IH]; intros [|y m] H; try discriminate; cbn.
  - exists false. split; auto. split; [discriminate|inversion 1].
  - injection H as H. destruct (Z.ltb_spec x y); [|destruct (Z.gtb_spec x y)].
    + exists true. split; auto. split; auto. intros; now apply lex_here.
    + exists false. split; auto. split; [discriminate|]. intros E; inversion E; subst; lia.
    + assert (x = y) as -> by lia. destruct (IH m H) as (b & -> & Hb). exists b. split; auto.
      rewrite Hb. split; [apply lex_later|]. intros E; inversion E; subst; auto; lia.
Qed.

Lemma will_less_than_aux_spec l m : length l = length m ->
  exists c, will_less_than_aux l m = Some c /\
    match c with Lt => lex l m | Eq => l = m | Gt => lex m l end.
Proof.
  revert m; induction l as [|x l IH]; intros [|y m] H; try discriminate; cbn.
  - exists Eq. auto.
  - injection H as H. destruct (Z.ltb_spec x y); [|destruct (Z.gtb_spec x y)].
    + exists Lt. split; auto. now apply lex_here.
    + exists Gt. split; auto. now apply lex_here.
    + assert (x = y) as -> by lia. destruct (IH m H) as (b & -> & Hb). exists b. split; auto.
      destruct b; subst; auto using lex_later.
Qed.

Lemma will_less_than_spec n x y : wf n x -> wf n y ->
  exists b, will_less_than x y = Some b /\ (b = true <-> quad_lt x y).
Proof.
  intros (Sx & Ax & Bx & Cx & Dx) (Sy & Ay & By & Cy & Dy).
  enough (exists b, will_less_than x y = Some b /\
    (b = true <-> lex (q_a x) (q_a y) \/ q_a x = q_a y /\ (lex (q_b x) (q_b y) \/ q_b x = q_b y /\
       (lex (q_c x) (q_c y) \/ q_c x = q_c y /\ lex (q_d x) (q_d y))))) as (b & E & H).
  { exists b. split; auto. rewrite H. unfold quad_lt, flat. rewrite !lex_app by congruence. reflexivity. }
  unfold will_less_than.
  destruct (will_less_than_aux_spec (q_a x) (q_a y)) as (c & -> & Hc); [congruence|]. cbn [bind].
  destruct c.
  2:{ exists true. split; auto. tauto. }
  2:{ exists false. split; auto. split; [discriminate|]. intros [E|[E _]].
      - destruct (lex_asym _ _ Hc E). - rewrite E in Hc. destruct (lex_irrefl _ Hc). }
  rewrite Hc.
  destruct (will_less_than_aux_spec (q_b x) (q_b y)) as (c & -> & Hc2); [congruence|]. cbn [bind].
  destruct c.
  2:{ exists true. split; auto. tauto. }
  2:{ exists false. split; auto. split; [discriminate|]. intros [E|[_ [E|[E _]]]].
      - destruct (lex_irrefl _ E). - destruct (lex_asym _ _ Hc2 E). - rewrite E in Hc2. destruct (lex_irrefl _ Hc2). }
  rewrite Hc2.
  destruct (will_less_than_aux_spec (q_c x) (q_c y)) as (c & -> & Hc3); [congruence|]. cbn [bind].
  destruct c.
  2:{ exists true. split; auto. tauto. }
  2:{ exists false. split; auto. split; [discriminate|]. intros [E|[_ [E|[_ [E|[E _]]]]]].
      - destruct (lex_irrefl _ E). - destruct (lex_irrefl _ E). - destruct (lex_asym _ _ Hc3 E).
      - rewrite E in Hc3. destruct (lex_irrefl _ Hc3). }
  rewrite Hc3.
  destruct (seq_less_than_spec (q_d x) (q_d y)) as (b & -> & Hb); [congruence|]. exists b. split; auto.
  rewrite Hb. split; [tauto|]. intros [E|[_ [E|[_ [E|[_ E]]]]]]; auto; destruct (lex_irrefl _ E).
Qed.

Lemma flat_inj n x y : wf n x -> wf n y -> flat x = flat y -> x = y.
Proof.
  intros (Sx & Ax & Bx & Cx & Dx) (Sy & Ay & By & Cy & Dy) H. unfold flat in H.
  assert (forall (a b l m : list Z), length a = length b -> a ++ l = b ++ m -> a = b /\ l = m) as A.
  { clear. induction a; intros [|b0 b] l m Hl E; try discriminate; cbn in *; auto.
    injection Hl as Hl. injection E as -> E. apply IHa in E as [-> ->]; auto. }
  apply A in H as [H1 H]; [|congruence]. apply A in H as [H2 H]; [|congruence].
  apply A in H as [H3 H]; [|congruence]. destruct x, y; cbn in *. congruence.
Qed.

Lemma flat_length n x : wf n x -> length (flat x) = (4 * n)%nat.
Proof. intros (S & A & B & C & D). unfold flat. rewrite !app_length. lia. Qed.

Lemma quad_lt_total n x y : wf n x -> wf n y -> quad_lt x y \/ x = y \/ quad_lt y x.
Proof.
  intros Hx Hy. destruct (lex_total (flat x) (flat y)) as [|[E|]]; auto.
  - now rewrite !(flat_length n).
  - right; left. now apply (flat_inj n).
Qed.

Lemma quad_le_trans x y z : quad_le x y -> quad_le y z -> quad_le x z.
Proof.
  intros [->|H1] [->|H2]; unfold quad_le; auto. right. exact (lex_trans _ _ _ H1 H2).
Qed.

Lemma quad_le_antisym x y : quad_le x y -> quad_le y x -> x = y.
Proof. intros [->|H1] [E|H2]; auto. destruct (lex_asym _ _ H1 H2). Qed.

Lemma quad_not_lt n x y : wf n x -> wf n y -> ~ quad_lt x y -> quad_le y x.
Proof. intros Hx Hy H. destruct (quad_lt_total n x y Hx Hy) as [|[->|]]; unfold quad_le; auto. contradiction. Qed.

Lemma least_unique P m m' : least P m -> least P m' -> m = m'.
Proof. intros [H1 H2] [H3 H4]. apply quad_le_antisym; auto. Qed.

Lemma least_ext (P Q : QuadSeq -> Prop) m : (forall x, P x <-> Q x) -> least P m -> least Q m.
Proof. intros H [H1 H2]. split; [now apply H|]. intros y Hy. apply H2. now apply H. Qed.

(* "for elm in l { if will_less_than(elm, mini) { mini = elm } }" *)
Lemma fold_min n l m0 : wf n m0 -> (forall x, In x l -> wf n x) ->
  exists m, fold_m (fun mini elm => let* b := will_less_than elm mini in Some (if b then elm else mini)) l m0
            = Some m /\ least (fun x => x = m0 \/ In x l) m.
Proof.
  revert m0. induction l as [|x l IH]; intros m0 H0 H; cbn [fold_m].
  - exists m0. split; auto. split; auto. intros y [->|[]]. now left.
  - destruct (will_less_than_spec n x m0) as (b & Eb & Hb); auto using in_eq. rewrite Eb. cbn [bind].
    set (m1 := if b then x else m0).
    assert (wf n m1) as H1 by (unfold m1; destruct b; auto using in_eq).
    destruct (IH m1 H1 (fun y Hy => H y (in_cons _ _ _ Hy))) as (m & -> & Hm & Hl).
    exists m. split; auto. unfold m1 in *. split.
    + destruct b; destruct Hm as [->|]; cbn; auto.
    + assert (quad_le m x /\ quad_le m m0) as [L1 L2].
      { destruct b.
        - assert (quad_le m x) as L by (apply Hl; auto). split; auto. eapply quad_le_trans; [apply L|].
          right. now apply Hb.
        - assert (quad_le m m0) as L by (apply Hl; auto). split; auto. eapply quad_le_trans; [apply L|].
          apply (quad_not_lt n); auto using in_eq. intros E. apply Hb in E. discriminate. }
      intros y [->|[<-|Hy]]; auto.
Qed.

Lemma min_by_spec n l : (forall x, In x l -> wf n x) ->
  match l with
  | [] => min_by l = Some None
  | _ => exists m, min_by l = Some (Some m) /\ least (fun x => In x l) m
  end.
Proof.
  destruct l as [|x l]; intros H; [reflexivity|]. cbn [min_by].
  enough (exists m, fold_m (fun m y => let* lt := will_less_than m y in
                          if lt then Some m
                          else let* gt := will_less_than y m in Some (if gt then y else m)) l x = Some m
                    /\ least (fun y => y = x \/ In y l) m) as (m & -> & Hm).
  { exists m. cbn. split; auto. eapply least_ext; [|apply Hm]. intros y. cbn. intuition congruence. }
  assert (wf n x) as H0 by auto using in_eq.
  assert (forall y, In y l -> wf n y) as H' by auto using in_cons. clear H. revert x H0.
  induction l as [|y l IH]; intros x H0; cbn [fold_m].
  - exists x. split; auto. split; auto. intros z [->|[]]. now left.
  - destruct (will_less_than_spec n x y) as (b & Eb & Hb); auto using in_eq. rewrite Eb. cbn [bind].
    destruct (will_less_than_spec n y x) as (c & Ec & Hc); auto using in_eq. rewrite Ec. cbn [bind].
    assert (exists m1, (if b then Some x else Some (if c then y else x)) = Some m1 /\ (m1 = x \/ m1 = y) /\
              quad_le m1 x /\ quad_le m1 y) as (m1 & -> & Hm1 & L1 & L2).
    { destruct b; [exists x; split; auto; split; auto; split; [now left|right; now apply Hb]|].
      destruct c; [exists y; split; auto; split; auto; split; [right; now apply Hc|now left]|].
      exists x; split; auto; split; auto; split; [now left|].
      apply (quad_not_lt n); auto using in_eq. intros E; apply Hc in E; discriminate. }
    cbn [bind]. destruct (IH (fun z Hz => H' z (in_cons _ _ _ Hz)) m1) as (m & -> & Hm & Hl).
    { destruct Hm1 as [->| ->]; auto using in_eq. }
    exists m. split; auto. split.
    + destruct Hm as [->|]; cbn; auto. destruct Hm1 as [->| ->]; auto.
    + assert (quad_le m m1) by (apply Hl; auto).
      intros z [->|[<-|Hz]]; eauto using quad_le_trans.
Qed.

(* ---- the canonical representative ---- *)

Lemma canonical_spec n ord p q t fuel :
  ord_ok ord -> (n <= 100)%nat -> i8_quad n q -> (class_fuel n <= fuel)%nat ->
  exists m, generate_canonical_representative fuel ord p q t = Some m /\ least (reach (type_ops t) q) m.
Proof.
  intros Ho Hn Hq Hf. unfold generate_canonical_representative. rewrite equivalences_impl.
  destruct (class_spec n ord (0%nat :: p) (type_ops t) q fuel Ho (small_ok n _ Hn) Hq Hf) as (r & -> & _ & Hr).
  cbn [bind]. destruct (fold_min n (ord (1%nat :: p) r) q) as (m & -> & Hm).
  - apply Hq.
  - intros x Hx. apply ord_in in Hx; auto. apply Hr in Hx. apply (reach_i8 n) in Hx; auto. apply Hx.
  - exists m. split; auto. eapply least_ext; [|apply Hm]. intros x. cbn. rewrite ord_in, Hr by auto.
    split; auto. intros [->|]; auto. apply rt_refl.
Qed.

Lemma reach_class_eq n ops x y : i8_quad n x -> reach ops x y ->
  forall z, reach ops x z <-> reach ops y z.
Proof.
  intros Hx H z. split; intros H'.
  - eapply rt_trans; [|apply H']. eapply reach_sym; eauto.
  - eapply rt_trans; eauto.
Qed.

Lemma least_reach_iff n ops x y m m' : i8_quad n x -> i8_quad n y ->
  least (reach ops x) m -> least (reach ops y) m' -> (m = m' <-> reach ops x y).
Proof.
  intros Hx Hy Hm Hm'. split.
  - intros ->. eapply rt_trans; [apply Hm|]. eapply reach_sym; eauto. apply Hm'.
  - intros H. apply (least_unique (reach ops y)); auto. eapply least_ext; [|apply Hm].
    apply (reach_class_eq n); auto.
Qed.
