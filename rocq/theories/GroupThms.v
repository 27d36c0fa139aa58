(* The number of symmetries. *)
From Coq Require Import List ZArith Lia Arith Bool Permutation Relations.
From Verif Require Import Base BaseFacts Sums Quat ModelSequence ModelWilliamson SeqFacts
  ModelEquivalence SpecEquiv OpFacts EquivFacts TypeFacts OrderFacts SearchFacts FastFacts EquivThms SpecOrbit OrbitFacts GroupSize GroupMaps Spec.
Import ListNotations.
Notation length := List.length.
Open Scope nat_scope.

Definition the_type (t : SequenceType) : Prop := t = QuaternionType \/ t = WilliamsonType \/ t = Williamson.
Definition R (t : SequenceType) (n : nat) : list nat :=
  match t with Williamson => if Nat.even n then [0; n / 2] else [0] | _ => seq 0 n end.
Definition K (n : nat) : list nat := filter (fun k => Nat.gcd n k =? 1) (seq 1 n).
Definition A (n : nat) : list bool := if Nat.even n then [false; true] else [false].
Definition params := (mm * bool * nat * nat)%type.
Definition plist (t : SequenceType) (n : nat) : list params := list_prod (list_prod (list_prod (M t (Nat.even n)) (A n)) (R t n)) (K n).
Definition Q (n : nat) (p : params) : QuadSeq := let '(m, a, r, k) := p in nf n m a (Z.of_nat r) (Z.of_nat k).
Lemma in_plist t n m a r k : In (m, a, r, k) (plist t n) <-> In m (M t (Nat.even n)) /\ In a (A n) /\ In r (R t n) /\ In k (K n).
Proof. unfold plist. rewrite !in_prod_iff. tauto. Qed.

Lemma M_W ev : M Williamson ev = M WilliamsonType ev.
Proof. reflexivity. Qed.
Lemma plist_length t n : the_type t -> 1 <= n -> length (plist t n) = symmetries t n.
Proof.
  intros Ht Hn. unfold plist, params. rewrite !List.prod_length. change (length (K n)) with (totient n). unfold A, symmetries.
  destruct Ht as [->|[->| ->]]; cbn [R]; rewrite ?M_W; destruct (Nat.even n); rewrite ?M_QT_odd, ?M_QT_even, ?M_WT_odd, ?M_WT_even, ?seq_length; cbn [length];
    rewrite ?Nat.mul_1_r, <- ?Nat.mul_assoc; try reflexivity.
  all: rewrite !Nat.mul_assoc; reflexivity.
Qed.

Lemma K_iff n k : In k (K n) <-> 1 <= k <= n /\ Nat.gcd n k = 1.
Proof. unfold K. rewrite filter_In, in_seq, Nat.eqb_eq. intuition lia. Qed.
Lemma K_odd n k : In k (K n) -> Nat.even n = true -> Z.odd (Z.of_nat k) = true.
Proof.
  intros Hk E. apply K_iff in Hk as [_ G]. destruct (Z.odd (Z.of_nat k)) eqn:O; auto. exfalso.
  assert (Nat.divide 2 (Nat.gcd n k)) as (c & D).
  { apply Nat.gcd_greatest; [apply Nat.even_spec in E as (c & ->); exists c; lia|].
    rewrite <- Z.negb_even, negb_false_iff in O. apply Z.even_spec in O as (c & O). exists (Z.to_nat c). lia. }
  lia.
Qed.
Lemma K_mul n k j : 1 <= n -> In k (K n) -> In j (K n) -> exists x, In x (K n) /\ ((Z.of_nat k * Z.of_nat j - Z.of_nat x) mod Z.of_nat n = 0)%Z.
Proof.
  intros Hn Hk Hj. destruct (Nat.eq_dec n 1) as [->|N1].
  - exists 1. split; [apply K_iff; split; [lia|reflexivity]|]. apply Z.mod_1_r.
  - apply K_iff in Hk as [Hk Gk], Hj as [Hj Gj].
    assert (G : Nat.gcd n (k * j) = 1).
    { set (d := Nat.gcd n (k * j)). assert (Dn : Nat.divide d n) by apply Nat.gcd_divide_l. assert (Dk : Nat.divide d (k * j)) by apply Nat.gcd_divide_r.
      assert (Nat.gcd d k = 1) as E.
      { apply Nat.divide_1_r. rewrite <- Gk. apply Nat.gcd_greatest; [eapply Nat.divide_trans; [apply Nat.gcd_divide_l|exact Dn]|apply Nat.gcd_divide_r]. }
      apply Nat.divide_1_r. rewrite <- Gj. apply Nat.gcd_greatest; auto. now apply (Nat.gauss d k j). }
    exists ((k * j) mod n). split.
    + apply K_iff. pose proof (Nat.mod_upper_bound (k * j) n ltac:(lia)). assert (Nat.gcd n ((k * j) mod n) = 1) as E by (rewrite Nat.gcd_comm, Nat.gcd_mod by lia; exact G).
      split; auto. split; [|lia]. destruct ((k * j) mod n); [rewrite Nat.gcd_0_r in E; lia|lia].
    + rewrite Nat2Z.inj_mod, Nat2Z.inj_mul by lia. rewrite Zminus_mod, Z.mod_mod, Z.sub_diag by lia. apply Z.mod_0_l. lia.
Qed.

Lemma in_M t ev m : In m (M t ev) <-> okm t ev m = true /\ hb m TW = false.
Proof. unfold M. rewrite filter_In, in_L, negb_true_iff. tauto. Qed.
Lemma okm_hsum m : okm QuaternionType true m = true -> hsum m = false.
Proof. unfold okm. rewrite !andb_true_iff, !negb_true_iff. tauto. Qed.
Lemma okm_mid t ev : the_type t -> okm t ev mid = true.
Proof. intros [->|[->| ->]]; destruct ev; reflexivity. Qed.
Lemma okm_WT t ev m : t = WilliamsonType \/ t = Williamson -> okm t ev m = okm WilliamsonType ev m.
Proof. intros [->| ->]; reflexivity. Qed.
Local Opaque L M plist okm.
Section Size.
  Variables (n : nat) (t : SequenceType).
  Hypothesis Hn : 1 <= n <= 31.
  Hypothesis Ht : the_type t.
  Notation ev := (Nat.even n).
  Notation N := (Z.of_nat n).

  Definition Rok (r : Z) : Prop := exists x, In x (R t n) /\ (r mod N = Z.of_nat x)%Z.
  Lemma R_lt x : In x (R t n) -> x < n.
  Proof.
    unfold R. destruct Ht as [->|[->| ->]]; rewrite ?in_seq; try lia. destruct ev eqn:E; cbn [In]; [|lia].
    intros [<-|[<-|[]]]; [lia|]. apply Nat.div_lt; lia.
  Qed.
  Lemma Rok_nat x : In x (R t n) -> Rok (Z.of_nat x).
  Proof. intros H. exists x. split; auto. apply Z.mod_small. pose proof (R_lt x H). lia. Qed.
  Lemma Rok_any r : t <> Williamson -> Rok r.
  Proof.
    intros H. pose proof (Z.mod_pos_bound r N ltac:(lia)). exists (Z.to_nat (r mod N)). split; [|lia].
    destruct Ht as [->|[->| ->]]; try congruence; apply in_seq; lia.
  Qed.
  Lemma Rok_half r : ev = true -> Rok r -> Rok (r + Z.of_nat (n / 2)).
  Proof.
    intros E (x & Hx & Er). destruct Ht as [T|[T|T]]; try (apply Rok_any; rewrite T; discriminate). unfold Rok. rewrite T in *. cbn [R] in *. rewrite E in *.
    pose proof (double_half n Hn E) as D. rewrite Z.add_mod, Er by lia. rewrite (Z.mod_small (Z.of_nat (n / 2))) by lia. destruct Hx as [<-|[<-|[]]].
    - exists (n / 2). split; [cbn; auto|]. apply Z.mod_small. lia.
    - exists 0. split; [cbn; auto|]. replace (Z.of_nat (n / 2) + Z.of_nat (n / 2))%Z with (1 * N)%Z by lia. apply Z.mod_mul. lia.
  Qed.
  Lemma A_ok a : In a (A n) <-> (a = true -> ev = true).
  Proof. unfold A. destruct ev, a; cbn; intuition (try discriminate; congruence). Qed.

  Lemma close m a r k : okm t ev m = true -> In a (A n) -> Rok r -> In k (K n) -> exists p, In p (plist t n) /\ nf n m a r (Z.of_nat k) = Q n p.
  Proof.
    intros Hm Ha Hr Hk.
    assert (D : forall m r, okm t ev m = true -> hb m TW = false -> Rok r -> exists p, In p (plist t n) /\ nf n m a r (Z.of_nat k) = Q n p).
    { clear m r Hm Hr. intros m r Hm Hh (x & Hx & Ex). exists (m, a, x, k). split; [|cbn [Q]; now rewrite <- Ex, nf_mod_r].
      apply in_plist. split; auto. apply in_M. auto. }
    destruct (hb m TW) eqn:Hh; [|now apply D]. destruct ev eqn:E; [|rewrite (odd_no_h t m TW Hm) in Hh; discriminate].
    rewrite <- (mtog_mtog m), nf_tog by auto. apply D; [|rewrite mtog_hb, Hh; reflexivity|now apply Rok_half].
    destruct Ht as [->|[->| ->]]; [eapply closed_under_ok; [apply cl_QT_even| |auto]|eapply closed_under_ok; [apply cl_WT_even| |auto]|
      rewrite okm_W in *; eapply closed_under_ok; [apply cl_WT_even| |auto]]; rewrite !in_app_iff; cbn; auto 10.
  Qed.

  Lemma okm_closed f m : okm t ev m = true ->
    In f (match t with
          | QuaternionType => negswaps ++ negalls ++ (if ev then duals ++ [mtog] else [])
          | _ => negs ++ swaps ++ negalls ++ (if ev then halves ++ [mtog] else [])
          end) -> okm t ev (f m) = true.
  Proof.
    intros Hm Hf. destruct ev; destruct Ht as [->|[->| ->]]; rewrite ?okm_W in *; rewrite ?app_nil_r in Hf.
    - now apply (closed_under_ok _ _ _ f m cl_QT_even).
    - now apply (closed_under_ok _ _ _ f m cl_WT_even).
    - now apply (closed_under_ok _ _ _ f m cl_WT_even).
    - now apply (closed_under_ok _ _ _ f m cl_QT_odd).
    - now apply (closed_under_ok _ _ _ f m cl_WT_odd).
    - now apply (closed_under_ok _ _ _ f m cl_WT_odd).
  Qed.
  Lemma in_bools b : In b bools.
  Proof. destruct b; cbn; auto. Qed.

  Lemma step_closed p o w : In p (plist t n) -> In o (type_ops t) -> In w (variants o n) -> exists p', In p' (plist t n) /\ wact w (Q n p) = Q n p'.
  Proof.
    destruct p as [[[m a] r] k]. intros Hp Ho Hw. destruct (proj1 (in_plist t n m a r k) Hp) as (Hm & Ha & Hr & Hk). clear Hp. destruct (proj1 (in_M t ev m) Hm) as [Hm' _]. clear Hm. rename Hm' into Hm.
    pose proof (proj1 (A_ok a) Ha) as Ha'. apply Rok_nat in Hr. cbn [Q].
    assert (SH : forall j, o = UniformShift \/ o = DualHalfShift -> exists p', In p' (plist t n) /\ gact (All (Rot j)) (nf n m a (Z.of_nat r) (Z.of_nat k)) = Q n p').
    { intros j Hj. rewrite nf_rot by auto. apply close; auto.
      - apply (okm_closed (mnegall (a && Z.odd (Z.of_nat j)))); auto. pose proof (in_map mnegall bools _ (in_bools (a && Z.odd (Z.of_nat j)))) as H. fold negalls in H.
        destruct Ht as [->|[->| ->]]; rewrite !in_app_iff; auto.
      - apply Rok_any. intros ->. cbn in Ho. destruct Hj as [->| ->]; intuition discriminate. }
    assert (NEG : forall u, In (mneg u) negs) by (intros u; apply in_map; destruct u; cbn; tauto).
    assert (SINGLE : ev = true -> forall u, t <> QuaternionType -> exists p', In p' (plist t n) /\ gact (At u (Rot (n / 2))) (nf n m a (Z.of_nat r) (Z.of_nat k)) = Q n p').
    { intros E u T. rewrite nf_half by (auto; now apply (K_odd n)). apply close; auto. apply (okm_closed (mhalf _ u)); auto. rewrite E.
      assert (In (mhalf (a && Z.odd (Z.of_nat (n / 2))) u) halves) as H.
      { apply in_map_iff. exists (a && Z.odd (Z.of_nat (n / 2)), u). split; auto. apply in_prod; [apply in_bools|destruct u; cbn; tauto]. }
      destruct Ht as [->|[->| ->]]; [congruence| |]; rewrite !in_app_iff; auto. }
    assert (SWAP : t <> QuaternionType -> forall x y, In (x, y) all_pairs -> exists p', In p' (plist t n) /\ gact (Ex x y) (nf n m a (Z.of_nat r) (Z.of_nat k)) = Q n p').
    { intros T x y H. rewrite nf_ex by auto. apply close; auto. apply (okm_closed (mex x y)); auto.
      apply (in_map (fun '(s, t) => mex s t)) in H. fold swaps in H. destruct Ht as [->|[->| ->]]; [congruence| |]; rewrite !in_app_iff; auto. }
    assert (NEGS : t <> QuaternionType -> forall u, exists p', In p' (plist t n) /\ gact (At u Neg) (nf n m a (Z.of_nat r) (Z.of_nat k)) = Q n p').
    { intros T u. rewrite nf_neg by auto. apply close; auto. apply (okm_closed (mneg u)); auto. specialize (NEG u).
      destruct Ht as [->|[->| ->]]; [congruence| |]; rewrite !in_app_iff; auto. }
    destruct o; cbn [variants] in Hw; try (exfalso; destruct Ht as [->|[->| ->]]; cbn in Ho; intuition discriminate).
    - (* negate-swap *)
      assert (t = QuaternionType) as T by (destruct Ht as [T|[->| ->]]; auto; cbn in Ho; intuition discriminate).
      apply in_map_iff in Hw as ([[x y] u] & <- & H). cbn [wact fold_left]. rewrite nf_neg, nf_ex by auto. apply close; auto.
      apply (okm_closed (fun m => mex x y (mneg u m))); auto. rewrite T. apply in_app_iff. left.
      apply (in_map (fun '((s, t), u) => fun m => mex s t (mneg u m)) _ _ H).
    - (* reorder *)
      apply in_map_iff in Hw as ([x y] & <- & H). cbn [wact fold_left]. apply SWAP; auto. intros ->. cbn in Ho. intuition discriminate.
    - (* uniform shift *)
      apply in_map_iff in Hw as (j & <- & _). cbn [wact fold_left]. auto.
    - (* dual half shift *)
      assert (t = QuaternionType) as T by (destruct Ht as [T|[->| ->]]; auto; cbn in Ho; intuition discriminate).
      destruct ev eqn:E; [|destruct Hw]. destruct Hw as [<-|Hw]; [cbn [wact fold_left]; auto|]. apply in_map_iff in Hw as ([x y] & <- & H). cbn [wact fold_left].
      rewrite !nf_half by (auto; now apply (K_odd n)). assert (Hm2 : okm t ev m = true) by (rewrite E; exact Hm). apply close; auto.
      apply (okm_closed (fun m => mhalf _ y (mhalf _ x m))); auto. rewrite T, E. cbv iota. rewrite !in_app_iff. right. right. left.
      apply in_map_iff. exists (a && Z.odd (Z.of_nat (n / 2)), (x, y)). split; auto. apply in_prod; [apply in_bools|exact H].
    - (* single half shift *)
      destruct ev eqn:E; [|destruct Hw]. apply in_map_iff in Hw as (u & <- & _). cbn [wact fold_left]. apply SINGLE; auto. intros ->. cbn in Ho. intuition discriminate.
    - (* negate *)
      apply in_map_iff in Hw as (u & <- & _). cbn [wact fold_left]. apply NEGS. intros ->. cbn in Ho. intuition discriminate.
    - (* alternated negation *)
      destruct ev eqn:E; [|destruct Hw]. destruct Hw as [<-|[]]. cbn [wact fold_left]. rewrite nf_alt by auto. apply close; auto; [now rewrite E|]. apply A_ok. auto.
    - (* automorphism *)
      fold (K n) in Hw. apply in_map_iff in Hw as (j & <- & Hj). cbn [wact fold_left]. rewrite nf_dil by (auto; now apply (K_odd n)).
      destruct (K_mul n k j) as (x & Hx & Ex); auto; [lia|]. rewrite (nf_mod_k n Hn _ _ _ _ _ Ex). apply close; auto.
  Qed.

  Notation s0 := (symbolic_quad n).
  Lemma reach_params y : reach (type_ops t) s0 y -> exists p, In p (plist t n) /\ y = Q n p.
  Proof.
    intros H. apply (reach_word n) in H as (w & Hw & ->); [|apply symbolic_size]. induction Hw as [|w o v Hw (p & Hp & E) Ho Hv].
    - cbn [wact fold_left]. rewrite nf_symbolic by auto. change 1%Z with (Z.of_nat 1). apply close.
      + now apply okm_mid.
      + apply A_ok. discriminate.
      + apply (Rok_nat 0). unfold R. destruct Ht as [->|[->| ->]]; try (apply in_seq; lia). destruct ev; cbn; auto.
      + apply K_iff. split; [lia|apply Nat.gcd_1_r].
    - rewrite wact_app, E. destruct (step_closed p o v Hp Ho Hv) as (p' & Hp' & E'). eauto.
  Qed.

  Lemma nf_size m a r k : q_size (nf n m a r k) = n.
  Proof. reflexivity. Qed.
  Lemma reach_step o w x y : In o (type_ops t) -> In w (variants o n) -> q_size x = n -> wact w x = y -> reach (type_ops t) x y.
  Proof. intros Ho Hw Hs <-. apply rt_step. exists o. split; auto. right. exists w. rewrite Hs. auto. Qed.
  Lemma reach_made m : okm t false m = true -> reach (type_ops t) s0 (nf n m false 0 1).
  Proof.
    intros Hm. rewrite nf_symbolic by auto.
    assert (F : forall b, false = true -> b = true) by discriminate.
    destruct Ht as [T|T].
    - rewrite T in Hm. apply (reached_ok _ _ _ _ reached_QT) in Hm. induction Hm as [|f m Hf Hm IH]; [apply rt_refl|]. eapply rt_trans; [exact IH|].
      unfold negswaps in Hf. apply in_map_iff in Hf as ([[x y] u] & <- & H). apply (reach_step NegateSwap [At u Neg; Ex x y]); [rewrite T; cbn; tauto| |reflexivity|].
      + apply (in_map (fun '((s, t), u) => [At u Neg; Ex s t]) _ _ H).
      + cbn [wact fold_left]. now rewrite nf_neg, nf_ex by (auto; discriminate).
    - rewrite okm_WT in Hm by auto. rename Hm into Hm'.
      assert (In Negate (type_ops t) /\ In Reorder (type_ops t)) as [O1 O2] by (destruct T as [T|T]; rewrite T; cbn; tauto).
      apply (reached_ok _ _ _ _ reached_WT) in Hm'. induction Hm' as [|f m Hf Hm IH]; [apply rt_refl|]. eapply rt_trans; [exact IH|].
      apply in_app_iff in Hf as [Hf|Hf].
      + unfold negs in Hf. apply in_map_iff in Hf as (u & <- & H). apply (reach_step Negate [At u Neg]); auto; [apply (in_map (fun t => [At t Neg]) _ _ H)|].
        cbn [wact fold_left]. now rewrite nf_neg by (auto; discriminate).
      + unfold swaps in Hf. apply in_map_iff in Hf as ([x y] & <- & H). apply (reach_step Reorder [Ex x y]); auto; [apply (in_map (fun '(s, t) => [Ex s t]) _ _ H)|].
        cbn [wact fold_left]. now rewrite nf_ex by (auto; discriminate).
  Qed.
  Lemma reach_m m : okm t ev m = true -> reach (type_ops t) s0 (nf n m false 0 1).
  Proof.
    destruct ev eqn:E; [|apply reach_made]. intros Hm.
    destruct Ht as [T|T].
    - assert (C : okm t false (clear m) = true) by (rewrite T in *; apply clear_ok; auto).
      assert (hsum m = false) as Hs by (rewrite T in Hm; now apply okm_hsum).
      destruct (rebuild_dual m Hs) as [Em I]. rewrite Em. clear Em. apply reach_made in C. revert I. generalize (hpairs m). intros l.
      induction l as [|[x y] l IH]; intros I; cbn [fold_right]; auto. eapply rt_trans; [apply IH; intros z Hz; apply I; now right|].
      apply (reach_step DualHalfShift [At x (Rot (n / 2)); At y (Rot (n / 2))]); [rewrite T; cbn; tauto| |reflexivity|].
      + cbn [variants]. rewrite E. right. apply (in_map (fun '(s, t) => [At s (Rot (n / 2)); At t (Rot (n / 2))]) all_pairs (x, y)). apply I. now left.
      + cbn [wact fold_left]. unfold dual. now rewrite !nf_half by auto.
    - rewrite okm_WT in Hm by auto. rename Hm into Hm'.
      assert (In SingleHalfShift (type_ops t)) as O1 by (destruct T as [T|T]; rewrite T; cbn; tauto).
      assert (C : okm t false (clear m) = true) by (rewrite okm_WT by auto; apply clear_ok; auto). apply reach_made in C.
      assert (X : forall b u x, reach (type_ops t) s0 (nf n x false 0 1) -> reach (type_ops t) s0 (nf n (addh m b u x) false 0 1)).
      { intros [|] u x Hx; cbn [addh]; auto. eapply rt_trans; [exact Hx|]. apply (reach_step SingleHalfShift [At u (Rot (n / 2))]); auto.
        - cbn [variants]. rewrite E. apply (in_map (fun t => [At t (Rot (n / 2))])). destruct u; cbn; tauto.
        - cbn [wact fold_left]. now rewrite nf_half by auto. }
      rewrite (rebuild_single m). now do 4 apply X.
  Qed.
  Lemma params_reach p : In p (plist t n) -> reach (type_ops t) s0 (Q n p).
  Proof.
    destruct p as [[[m a] r] k]. intros Hp. destruct (proj1 (in_plist t n m a r k) Hp) as (Hm & Ha & Hr & Hk). clear Hp. destruct (proj1 (in_M t ev m) Hm) as [Hm' _]. clear Hm. rename Hm' into Hm.
    pose proof (proj1 (A_ok a) Ha) as Ha'. cbn [Q].
    assert (S1 : reach (type_ops t) s0 (nf n m false (Z.of_nat r) 1)).
    { destruct (Nat.eq_dec r 0) as [->|N0]; [now apply reach_m|].
      assert (t = Williamson \/ t <> Williamson) as [T|T] by (destruct t; auto; right; discriminate).
      - rewrite T in Hr. cbn [R] in Hr. destruct ev eqn:E; [|destruct Hr as [<-|[]]; congruence]. destruct Hr as [<-|[<-|[]]]; [congruence|].
        replace (Z.of_nat (n / 2)) with (0 + Z.of_nat (n / 2))%Z by lia. rewrite <- nf_tog by auto. apply reach_m.
        apply okm_closed; [now rewrite E|]. rewrite T, E. cbv iota. rewrite !in_app_iff. cbn [In]. tauto.
      - assert (In UniformShift (type_ops t)) as O1 by (destruct Ht as [->|[->| ->]]; cbn; tauto || congruence).
        assert (r < n) by (now apply R_lt). eapply rt_trans; [exact (reach_m m Hm)|]. apply (reach_step UniformShift [All (Rot r)]); auto.
        + cbn [variants]. apply (in_map (fun k => [All (Rot k)])), in_seq. lia.
        + cbn [wact fold_left]. rewrite nf_rot by (auto; discriminate). cbn [andb]. rewrite mnegall_false. f_equal. lia. }
    assert (S2 : reach (type_ops t) s0 (nf n m false (Z.of_nat r) (Z.of_nat k))).
    { eapply rt_trans; [exact S1|]. apply (reach_step Automorphism [All (Dil k)]); auto.
      - destruct Ht as [->|[->| ->]]; cbn; tauto.
      - cbn [variants]. apply (in_map (fun k => [All (Dil k)])). exact Hk.
      - cbn [wact fold_left]. rewrite nf_dil by (auto; try discriminate; now apply (K_odd n)). f_equal. lia. }
    destruct a; auto. eapply rt_trans; [exact S2|]. specialize (Ha' eq_refl). apply (reach_step EvenAlternatedNegation [All Alt]); auto.
    - destruct Ht as [->|[->| ->]]; cbn; tauto.
    - cbn [variants]. rewrite Ha'. now left.
    - cbn [wact fold_left]. now rewrite nf_alt by auto.
  Qed.

  (* different parameters give different symmetries *)
  Lemma sg_inj b v b' v' : (0 < v)%Z -> (0 < v')%Z -> sg b v = sg b' v' -> b = b' /\ v = v'.
  Proof. unfold sg. destruct b, b'; intros; split; auto; lia. Qed.
  Lemma value_inj s j s' j' : value n s j = value n s' j' -> s = s' /\ (j mod N = j' mod N)%Z.
  Proof.
    unfold value. intros E. pose proof (Z.mod_pos_bound j N ltac:(lia)). pose proof (Z.mod_pos_bound j' N ltac:(lia)).
    assert (tag_no s = tag_no s') as Es by nia. split; [|rewrite Es in E; lia]. destruct s, s'; try discriminate; reflexivity.
  Qed.
  Lemma mm_ext m m' : (forall u, mget m u = mget m' u) -> m = m'.
  Proof. intros H. pose proof (H TW). pose proof (H TX). pose proof (H TY). pose proof (H TZ). destruct m as [[[? ?] ?] ?], m' as [[[? ?] ?] ?]. cbn in *. congruence. Qed.
  Lemma K_lt k : 2 <= n -> In k (K n) -> k < n.
  Proof. intros H2 Hk. apply K_iff in Hk as [Hk G]. destruct (Nat.eq_dec k n) as [->|]; [rewrite Nat.gcd_diag in G|]; lia. Qed.
  Lemma Q_inj p p' : In p (plist t n) -> In p' (plist t n) -> Q n p = Q n p' -> p = p'.
  Proof.
    destruct p as [[[m a] r] k], p' as [[[m' a'] r'] k']. intros Hp Hp' E.
    destruct (proj1 (in_plist t n m a r k) Hp) as (Hm & Ha & Hr & Hk). destruct (proj1 (in_plist t n m' a' r' k') Hp') as (Hm' & Ha' & Hr' & Hk'). clear Hp Hp'.
    destruct (proj1 (in_M t ev m) Hm) as [Om Hw]. destruct (proj1 (in_M t ev m') Hm') as [Om' Hw']. clear Hm Hm'. cbn [Q] in E.
    assert (X : forall u i, i < n -> nfi n m a (Z.of_nat r) (Z.of_nat k) u (Z.of_nat i) = nfi n m' a' (Z.of_nat r') (Z.of_nat k') u (Z.of_nat i)).
    { intros u i Hi. assert (S : slot (nf n m a (Z.of_nat r) (Z.of_nat k)) u = slot (nf n m' a' (Z.of_nat r') (Z.of_nat k')) u) by now rewrite E.
      rewrite !nf_slot in S. apply (f_equal (fun l => nth i l 0%Z)) in S. rewrite !nth_map_seq in S by auto. exact S. }
    clear E. apply R_lt in Hr, Hr'.
    assert (Y : forall u i, i < n -> fst (fst (mget m u)) = fst (fst (mget m' u)) /\
      xorb (eb m u) (a && Z.odd (Z.of_nat i)) = xorb (eb m' u) (a' && Z.odd (Z.of_nat i)) /\
      ((Z.of_nat k * Z.of_nat i + Z.of_nat r + half n (hb m u)) mod N = (Z.of_nat k' * Z.of_nat i + Z.of_nat r' + half n (hb m' u)) mod N)%Z).
    { intros u i Hi. specialize (X u i Hi). unfold nfi, eb, hb in *. destruct (mget m u) as [[s e] h], (mget m' u) as [[s' e'] h'].
      apply sg_inj in X as [B V]; [|pose proof (value_bounds n Hn s (Z.of_nat k * Z.of_nat i + Z.of_nat r + half n h)); lia|pose proof (value_bounds n Hn s' (Z.of_nat k' * Z.of_nat i + Z.of_nat r' + half n h')); lia].
      apply value_inj in V as [-> V]. auto. }
    clear X. assert (r = r') as <-.
    { destruct (Y TW 0 ltac:(lia)) as (_ & _ & V). rewrite Hw, Hw' in V. cbn [half] in V. rewrite !Z.mul_0_r, !Z.add_0_l, !Z.add_0_r, !Z.mod_small in V by lia. lia. }
    assert (m = m') as <-.
    { apply mm_ext. intros u. destruct (Y u 0 ltac:(lia)) as (S & B & V). cbn [Z.of_nat Z.odd] in B. rewrite !andb_false_r, !xorb_false_r in B.
      assert (hb m u = hb m' u) as Hh.
      { destruct ev eqn:Ev; [|now rewrite (odd_no_h t m u Om), (odd_no_h t m' u Om')]. pose proof (double_half n Hn Ev) as D.
        rewrite !Z.mul_0_r, !Z.add_0_l in V. assert (Z.of_nat r < N)%Z as L1 by lia.
        assert (F : (half n (hb m u) mod N = half n (hb m' u) mod N)%Z).
        { replace (half n (hb m u)) with (Z.of_nat r + half n (hb m u) - Z.of_nat r)%Z by ring. replace (half n (hb m' u)) with (Z.of_nat r + half n (hb m' u) - Z.of_nat r)%Z by ring.
          rewrite Zminus_mod, V, <- Zminus_mod. reflexivity. }
        destruct (hb m u), (hb m' u); auto; cbn [half] in F; rewrite !Z.mod_small in F by lia; lia. }
      unfold eb, hb in *. destruct (mget m u) as [[? ?] ?], (mget m' u) as [[? ?] ?]. cbn [fst snd] in *. congruence. }
    destruct (Nat.eq_dec n 1) as [N1|N1].
    - assert (a = false /\ a' = false) as [-> ->]. { pose proof (proj1 (A_ok a) Ha) as B. pose proof (proj1 (A_ok a') Ha') as B'. rewrite N1 in B, B'. destruct a, a'; split; auto; first [discriminate (B eq_refl)|discriminate (B' eq_refl)]. }
      apply K_iff in Hk as [Hk _], Hk' as [Hk' _]. repeat f_equal. lia.
    - destruct (Y TW 1 ltac:(lia)) as (_ & B & V). change (Z.odd (Z.of_nat 1)) with true in B. rewrite !andb_true_r in B. rewrite Hw in V. cbn [half] in V.
      assert (a = a') as <- by (destruct (eb m TW), a, a'; try reflexivity; discriminate B).
      assert (Hlt := K_lt k ltac:(lia) Hk). assert (Hlt' := K_lt k' ltac:(lia) Hk').
      assert (F : (Z.of_nat k mod N = Z.of_nat k' mod N)%Z).
      { replace (Z.of_nat k) with (Z.of_nat k * Z.of_nat 1 + Z.of_nat r + 0 - Z.of_nat r)%Z by lia. replace (Z.of_nat k') with (Z.of_nat k' * Z.of_nat 1 + Z.of_nat r + 0 - Z.of_nat r)%Z by lia.
        rewrite Zminus_mod, V, <- Zminus_mod. reflexivity. }
      rewrite !Z.mod_small in F by lia. repeat f_equal. lia.
  Qed.
  Lemma plist_nodup : NoDup (plist t n).
  Proof.
    Transparent plist. unfold plist. repeat apply nodup_prod.
    - apply M_nodup.
    - unfold A. destruct ev; repeat constructor; cbn; intuition discriminate.
    - unfold R. destruct Ht as [->|[->| ->]]; try apply seq_NoDup. destruct ev eqn:E; [|repeat constructor; cbn; tauto].
      pose proof (double_half n Hn E). constructor; [|repeat constructor; cbn; tauto]. intros [H'|[]]. lia.
    - apply NoDup_filter, seq_NoDup.
  Qed.
  Theorem group_size ord : ord_ok ord -> forall fuel p, class_fuel n <= fuel -> exists G,
    generate_symmetry_group fuel ord p n (equivalences t) = Some G /\ length G = symmetries t n.
  Proof.
    intros Ho fuel p Hf. destruct (symmetry_group_spec n ord p (type_ops t) fuel Ho) as (G & EG & NG & HG); auto; [apply small_ok; lia|].
    exists G. split; [replace (equivalences t) with (map impl (type_ops t)) by (destruct t; reflexivity); exact EG|].
    rewrite <- (plist_length t n Ht) by lia. rewrite <- (map_length (Q n)). apply Permutation_length, NoDup_Permutation; auto.
    - apply NoDup_map_inj; [apply Q_inj|apply plist_nodup].
    - intros y. rewrite HG, in_map_iff. split.
      + intros H. apply reach_params in H as (x & Hx & ->). eauto.
      + intros (x & <- & Hx). now apply params_reach.
  Qed.
End Size.

Theorem symmetry_count t n ord : ord_ok ord -> 1 <= n <= 31 -> exists fuel0, forall fuel p, fuel0 <= fuel ->
  exists G, generate_symmetry_group fuel ord p n (equivalences t) = Some G /\ NoDup G /\ length G = symmetries t n.
Proof.
  intros Ho Hn. exists (class_fuel n). intros fuel p Hf.
  destruct (symmetry_group_spec n ord p (type_ops t) fuel Ho) as (G & EG & NG & HG); auto; [apply small_ok; lia|].
  replace (map impl (type_ops t)) with (equivalences t) in EG by (destruct t; reflexivity).
  exists G. split; auto. split; auto.
  assert (the_type t \/ type_ops t = [] /\ symmetries t n = 1) as [Ht|[E ->]] by (unfold the_type; destruct t; auto).
  - destruct (group_size n t Hn Ht ord Ho fuel p Hf) as (G' & EG' & L'). congruence.
  - change 1 with (length [symbolic_quad n]). apply Permutation_length, NoDup_Permutation; auto; [repeat constructor; cbn; tauto|].
    intros y. rewrite HG, E. cbn [In]. split.
    + intros H. left. apply clos_rt_rt1n in H. inversion H as [|? ? (o & [] & _)]; auto.
    + intros [<-|[]]. apply rt_refl.
Qed.

(* a class has a number of members dividing the number of symmetries *)
Theorem class_size_divides t n ord q : ord_ok ord -> 1 <= n <= 31 -> i8_quad n q -> exists fuel0, forall fuel p, fuel0 <= fuel ->
  exists c, generate_equivalence_class fuel ord p q (equivalences t) = Some c /\ NoDup c /\ 1 <= length c /\ Nat.divide (length c) (symmetries t n).
Proof.
  intros Ho Hn Hq. destruct (orbit_stabilizer n ord ord ord (type_ops t) q Ho Ho Ho ltac:(lia) Hq) as (f1 & H1).
  destruct (symmetry_count t n ord Ho Hn) as (f2 & H2). exists (f1 + f2 + class_fuel n). intros fuel p Hf.
  destruct (H1 fuel p p p ltac:(lia)) as (G & c & stab & EG & Ec & _ & _ & Ls & E).
  destruct (H2 fuel p ltac:(lia)) as (G' & EG' & _ & L').
  replace (map impl (type_ops t)) with (equivalences t) in * by (destruct t; reflexivity).
  assert (G' = G) as -> by congruence. exists c. split; auto.
  destruct (class_spec n ord p (type_ops t) q fuel Ho) as (c' & Ec' & Nc & Hc); auto; [apply small_ok; lia|lia|].
  replace (map impl (type_ops t)) with (equivalences t) in * by (destruct t; reflexivity). assert (c' = c) as -> by congruence. split; auto. split.
  - destruct c; cbn; [|lia]. exfalso. apply (proj2 (Hc q)). apply rt_refl.
  - exists (length stab). lia.
Qed.
