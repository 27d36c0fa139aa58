(* Orbits: inverses of the operations, words, termination and exactness of class generation. *)
From Coq Require Import List ZArith Lia Arith Bool Permutation Relations Znumtheory.
From Verif Require Import Base BaseFacts Sums Quat ModelSequence ModelWilliamson ModelEquivalence
  Spec SpecEquiv SeqFacts OpFacts.
Import ListNotations.
Open Scope nat_scope.

(* ---- algebra of the sequence transformations ---- *)

Lemma neg8_invol x : i8 x -> neg8 (neg8 x) = x.
Proof.
  unfold i8, neg8. intros H. destruct (Z.eq_dec x (-128)) as [->|E]; [reflexivity|].
  rewrite (wrap8_id (- x)), wrap8_id; lia.
Qed.

Lemma neg8_i8 x : i8 (neg8 x).
Proof. apply wrap8_range. Qed.

Lemma sneg_i8 b x : i8 x -> i8 (sneg b x).
Proof. destruct b; cbn; auto. intros. apply neg8_i8. Qed.

Lemma sneg_sneg b c x : i8 x -> sneg b (sneg c x) = sneg (xorb b c) x.
Proof. destruct b, c; cbn; auto. apply neg8_invol. Qed.

Lemma entry_i8 l i : Forall i8 l -> i8 (entry l i).
Proof.
  intros H. unfold entry. destruct (Nat.lt_ge_cases (pos (length l) i) (length l)).
  - rewrite Forall_forall in H. apply H, nth_In; auto.
  - rewrite nth_overflow by auto. unfold i8; lia.
Qed.

Lemma lact_i8 f l : Forall i8 l -> Forall i8 (lact f l).
Proof.
  intros H. apply Forall_forall. intros x Hx. apply in_map_iff in Hx as (i & <- & _).
  apply sneg_i8, entry_i8, H.
Qed.

Lemma entry_lact f l j : length l <> 0 ->
  entry (lact f l) j =
  sneg (lneg f (j mod Z.of_nat (length l))) (entry l (lidx f (length l) (j mod Z.of_nat (length l)))).
Proof.
  intros H. unfold entry at 1. rewrite lact_length, lact_nth by (now apply pos_lt).
  now rewrite pos_mod.
Qed.

Lemma lact_nil f : lact f [] = [].
Proof. reflexivity. Qed.

Lemma len0 {A} (l : list A) : {l = []} + {length l <> 0}.
Proof. destruct l; [now left|right; cbn; lia]. Qed.

(* composing two transformations *)
Lemma lact_lact f g l : Forall i8 l -> length l <> 0 -> lact f (lact g l) =
  map (fun i => let j := (lidx f (length l) (Z.of_nat i) mod Z.of_nat (length l))%Z in
                sneg (xorb (lneg f (Z.of_nat i)) (lneg g j)) (entry l (lidx g (length l) j)))
      (seq 0 (length l)).
Proof.
  intros H8 H. unfold lact at 1. rewrite lact_length. apply map_ext. intros i.
  rewrite entry_lact by auto. cbv zeta. now rewrite sneg_sneg by (apply entry_i8; auto).
Qed.

Lemma lact_id_from l (F : nat -> Z) :
  (forall i, i < length l -> F i = nth i l 0%Z) -> map F (seq 0 (length l)) = l.
Proof.
  intros H. transitivity (map (fun i => nth i l 0%Z) (seq 0 (length l))); [|apply map_nth_seq].
  apply map_ext_in. intros i Hi. apply H. apply in_seq in Hi. lia.
Qed.

Lemma mod_small_nat n i : i < n -> (Z.of_nat i mod Z.of_nat n)%Z = Z.of_nat i.
Proof. intros. apply Z.mod_small. lia. Qed.

Lemma lact_neg_neg l : Forall i8 l -> lact Neg (lact Neg l) = l.
Proof.
  intros H. destruct (len0 l) as [->|Hn]; auto. rewrite lact_lact by auto. apply lact_id_from.
  intros i Hi. cbn [lidx lneg xorb sneg]. rewrite mod_small_nat by auto. now apply entry_nat.
Qed.

Lemma lact_alt_alt l : Forall i8 l -> lact Alt (lact Alt l) = l.
Proof.
  intros H. destruct (len0 l) as [->|Hn]; auto. rewrite lact_lact by auto. apply lact_id_from.
  intros i Hi. cbn [lidx lneg]. rewrite mod_small_nat by auto. rewrite xorb_nilpotent. now apply entry_nat.
Qed.

Lemma lact_rev_rev l : Forall i8 l -> lact Rev (lact Rev l) = l.
Proof.
  intros H. destruct (len0 l) as [->|Hn]; auto. rewrite lact_lact by auto. apply lact_id_from.
  intros i Hi. cbn [lidx lneg xorb sneg].
  rewrite Z.mod_small by lia.
  replace (Z.of_nat (length l) - 1 - (Z.of_nat (length l) - 1 - Z.of_nat i))%Z with (Z.of_nat i) by lia.
  now apply entry_nat.
Qed.

Lemma lact_rot_rot l j k : Forall i8 l -> lact (Rot j) (lact (Rot k) l) = lact (Rot (j + k)) l.
Proof.
  intros H. destruct (len0 l) as [->|Hn]; auto. rewrite lact_lact by auto. unfold lact.
  apply map_ext. intros i. cbn [lidx lneg xorb sneg]. apply entry_periodic.
  rewrite Zplus_mod_idemp_l. f_equal. lia.
Qed.

Lemma lact_rot_0 l k : k mod length l = 0 -> lact (Rot k) l = l.
Proof.
  intros Hk. destruct (len0 l) as [->|Hn]; auto. apply lact_id_from.
  intros i Hi. cbn [lidx lneg sneg]. rewrite <- entry_nat by auto. apply entry_periodic.
  rewrite <- Nat2Z.inj_add, <- !Nat2Z.inj_mod. f_equal.
  rewrite <- Nat.add_mod_idemp_r, Hk, Nat.add_0_r by auto. reflexivity.
Qed.

Lemma lact_dil_dil l j k : Forall i8 l -> lact (Dil j) (lact (Dil k) l) = lact (Dil (j * k)) l.
Proof.
  intros H. destruct (len0 l) as [->|Hn]; auto. rewrite lact_lact by auto. unfold lact.
  apply map_ext. intros i. cbn [lidx lneg xorb sneg]. apply entry_periodic.
  rewrite Z.mul_mod_idemp_l by lia. f_equal. lia.
Qed.

Lemma lact_dil_1 l k : k mod length l = 1 mod length l -> lact (Dil k) l = l.
Proof.
  intros Hk. destruct (len0 l) as [->|Hn]; auto. apply lact_id_from.
  intros i Hi. cbn [lidx lneg sneg]. rewrite <- entry_nat by auto. apply entry_periodic.
  rewrite <- Nat2Z.inj_mul, <- !Nat2Z.inj_mod. f_equal.
  rewrite <- Nat.mul_mod_idemp_r, Hk, Nat.mul_mod_idemp_r, Nat.mul_1_r by auto. reflexivity.
Qed.

Lemma inverse_mod n k : 1 <= n -> Nat.gcd n k = 1 ->
  exists j, 1 <= j <= n /\ Nat.gcd n j = 1 /\ (j * k) mod n = 1 mod n.
Proof.
  intros Hn Hg. destruct (Nat.eq_dec n 1) as [->|Hn1].
  { exists 1. repeat split; auto; now rewrite !Nat.mod_1_r. }
  assert (Znumtheory.rel_prime (Z.of_nat k) (Z.of_nat n)) as Hr.
  { apply rel_prime_sym, Zgcd_1_rel_prime.
    assert (Z.gcd (Z.of_nat n) (Z.of_nat k) = Z.of_nat (Nat.gcd n k)) as ->; [|now rewrite Hg].
    apply Z.gcd_unique; try lia.
    - destruct (Nat.gcd_divide_l n k) as [x Hx]. exists (Z.of_nat x). lia.
    - destruct (Nat.gcd_divide_r n k) as [x Hx]. exists (Z.of_nat x). lia.
    - rewrite Hg. intros d Hd1 Hd2.
      assert (Nat.divide (Z.abs_nat d) (Nat.gcd n k)) as [x Hx].
      { apply Nat.gcd_greatest.
        - destruct Hd1 as [x Hx]. exists (Z.abs_nat x). apply Nat2Z.inj.
          rewrite Nat2Z.inj_mul, !Zabs2Nat.id_abs, <- Z.abs_mul, <- Hx. lia.
        - destruct Hd2 as [x Hx]. exists (Z.abs_nat x). apply Nat2Z.inj.
          rewrite Nat2Z.inj_mul, !Zabs2Nat.id_abs, <- Z.abs_mul, <- Hx. lia. }
      rewrite Hg in Hx. apply Z.divide_abs_l. exists (Z.of_nat x).
      rewrite <- Zabs2Nat.id_abs. lia. }
  destruct (rel_prime_bezout _ _ Hr) as [u v Huv].
  set (j := Z.to_nat (u mod Z.of_nat n)).
  assert (Z.of_nat j = u mod Z.of_nat n)%Z as Hj by (unfold j; rewrite Z2Nat.id; auto; apply Z.mod_pos_bound; lia).
  assert ((j * k) mod n = 1) as Hjk.
  { apply Nat2Z.inj. rewrite Nat2Z.inj_mod, Nat2Z.inj_mul, Hj, Z.mul_mod_idemp_l by lia.
    replace (u * Z.of_nat k)%Z with (1 + (- v) * Z.of_nat n)%Z by lia.
    rewrite Z.mod_add by lia. apply Z.mod_small. lia. }
  exists j. repeat split.
  - destruct j; [|lia]. rewrite Nat.mul_0_l, Nat.mod_0_l in Hjk; lia.
  - pose proof (Z.mod_pos_bound u (Z.of_nat n)). lia.
  - apply Nat.divide_1_r. pose proof (Nat.gcd_divide_l n j) as [a Ha].
    pose proof (Nat.gcd_divide_r n j) as [b Hb]. set (g := Nat.gcd n j) in *.
    pose proof (Nat.div_mod (j * k) n). rewrite Hjk in H.
    exists (b * k - a * ((j * k) / n)). rewrite Nat.mul_sub_distr_r. nia.
  - rewrite Hjk. symmetry. apply Nat.mod_small. lia.
Qed.

(* ---- quadruples ---- *)

Lemma i8_slots n q : i8_quad n q <-> wf n q /\ forall t, Forall i8 (slot q t).
Proof.
  unfold i8_quad. split.
  - intros (H & Ha & Hb & Hc & Hd). split; auto. intros []; auto.
  - intros [H Hq]. split; auto. repeat split; [apply (Hq TW)|apply (Hq TX)|apply (Hq TY)|apply (Hq TZ)].
Qed.

Lemma gact_i8 n g q : i8_quad n q -> i8_quad n (gact g q).
Proof.
  rewrite !i8_slots. intros [H Hq]. split; [now apply gact_wf|]. intros t. rewrite gact_slot.
  destruct g; try destruct (tag_eq t t0); auto using lact_i8.
Qed.

Lemma wact_i8 n w q : i8_quad n q -> i8_quad n (wact w q).
Proof. revert q; induction w; cbn; intros; auto. apply IHw. now apply gact_i8. Qed.

Lemma wact_size w q : q_size (wact w q) = q_size q.
Proof. revert q; induction w; cbn; intros; auto. now rewrite IHw. Qed.

Lemma gact_invol g q n : i8_quad n q ->
  match g with
  | All (Rot k) | At _ (Rot k) => (2 * k) mod n = 0
  | All (Dil _) | At _ (Dil _) => False
  | _ => True
  end -> gact g (gact g q) = q.
Proof.
  intros Hq Hg. apply i8_slots in Hq as [Hw Hq]. apply wf_slots in Hw as [Hs Hw].
  apply quad_ext; auto. intros t. rewrite !gact_slot.
  assert (forall f, match f with Rot k => (2 * k) mod n = 0 | Dil _ => False | _ => True end ->
          lact f (lact f (slot q t)) = slot q t) as Hf.
  { intros [k|k| | |]; intros Hf; try tauto.
    - rewrite lact_rot_rot by auto. apply lact_rot_0. rewrite Hw. now replace (k + k) with (2 * k) by lia.
    - now apply lact_alt_alt. - now apply lact_rev_rev. - now apply lact_neg_neg. }
  destruct g as [f|u f|u v].
  - apply Hf; destruct f; auto.
  - destruct (tag_eq t u); [apply Hf; destruct f; auto|auto].
  - rewrite ?gact_slot. f_equal. destruct t, u, v; reflexivity.
Qed.

Lemma gact_comm_at q n t u f g : i8_quad n q -> t <> u ->
  gact (At t f) (gact (At u g) q) = gact (At u g) (gact (At t f) q).
Proof.
  intros _ H. apply quad_ext; auto. intros v. rewrite !gact_slot.
  destruct (tag_eq v t) eqn:E1, (tag_eq v u) eqn:E2; auto.
  apply tag_eq_eq in E1, E2. congruence.
Qed.

Lemma gact_ex_at q s t u f : gact (At u f) (gact (Ex s t) q) = gact (Ex s t) (gact (At (exchange s t u) f) q).
Proof.
  apply quad_ext; auto. intros v. rewrite !gact_slot. destruct s, t, u, v; reflexivity.
Qed.

Lemma exchange_invol s t u : exchange s t (exchange s t u) = u.
Proof. destruct s, t, u; reflexivity. Qed.

Lemma gact_comm_all_at q n t f g : i8_quad n q ->
  (forall l, Forall i8 l -> length l = n -> lact f (lact g l) = lact g (lact f l)) ->
  gact (All f) (gact (At t g) q) = gact (At t g) (gact (All f) q).
Proof.
  intros Hq H. apply i8_slots in Hq as [Hw Hq]. apply wf_slots in Hw as [_ Hw].
  apply quad_ext; auto. intros v. rewrite !gact_slot. destruct (tag_eq v t); auto.
Qed.

Lemma gact_comm_all_ex q f s t : gact (All f) (gact (Ex s t) q) = gact (Ex s t) (gact (All f) q).
Proof. apply quad_ext; auto. intros v. now rewrite !gact_slot. Qed.

Lemma half_twice n : Nat.even n = true -> (2 * (n / 2)) mod n = 0.
Proof.
  intros H. apply Nat.even_spec in H as [k ->]. rewrite (Nat.mul_comm 2 k), Nat.div_mul by lia.
  rewrite (Nat.mul_comm 2 k). destruct k; [reflexivity|]. apply Nat.mod_same. lia.
Qed.

(* every operation can be undone by itself *)
Lemma variant_sym n o x y : i8_quad n x -> variant o x y -> variant o y x.
Proof.
  intros Hx [->|(w & Hw & ->)]; [now left|]. right.
  pose proof (proj1 (proj1 Hx)) as Hs. rewrite wact_size, Hs in *.
  assert (Nat.even n = true -> forall t, gact (At t (Rot (n / 2))) (gact (At t (Rot (n / 2))) x) = x) as Hh.
  { intros E t. apply (gact_invol (At t (Rot (n / 2))) x n); auto. now apply half_twice. }
  destruct o; cbn [variants] in *.
  - apply in_map_iff in Hw as ([[s t] u] & <- & H). apply in_prod_iff in H as [H _].
    exists [At (exchange s t u) Neg; Ex s t]. split.
    + apply in_map_iff. exists ((s, t), exchange s t u). split; auto. apply in_prod; auto.
      destruct s, t, u; cbn; tauto.
    + cbn [wact fold_left]. rewrite gact_ex_at, exchange_invol.
      rewrite (gact_invol (Ex s t) _ n) by (auto using gact_i8). now rewrite (gact_invol (At u Neg) _ n).
  - apply in_map_iff in Hw as ([s t] & <- & H). exists [Ex s t]. split; [now apply (in_map (fun '(s, t) => [Ex s t]) all_pairs (s,t))|].
    cbn. symmetry. now apply (gact_invol (Ex s t) _ n).
  - apply in_map_iff in Hw as ([[s t] [s' t']] & <- & H). apply in_prod_iff in H as [H H'].
    exists [Ex s' t'; Ex s t]. split.
    + apply in_map_iff. exists ((s', t'), (s, t)). split; auto. now apply in_prod.
    + cbn [wact fold_left]. rewrite (gact_invol (Ex s' t') _ n) by auto using gact_i8.
      now rewrite (gact_invol (Ex s t) _ n).
  - destruct (Nat.even n) eqn:E; [|destruct Hw]. apply in_map_iff in Hw as (t & <- & H).
    exists [At t (Rot (n / 2))]. split; [apply in_map_iff; eauto|]. cbn [wact fold_left]. now rewrite Hh.
  - apply in_map_iff in Hw as (k & <- & H). apply in_seq in H. exists [All (Rot (n - k))]. split.
    + apply in_map_iff. exists (n - k). split; auto. apply in_seq. lia.
    + cbn [wact fold_left]. apply i8_slots in Hx as [Hw Hx]. apply wf_slots in Hw as [_ Hw].
      apply quad_ext; auto. intros t. rewrite !gact_slot, lact_rot_rot by auto. symmetry. apply lact_rot_0.
      rewrite Hw. replace (n - k + k) with n by lia. apply Nat.mod_same. lia.
  - destruct (Nat.even n) eqn:E; [|destruct Hw]. destruct Hw as [<-|Hw].
    + exists [All (Rot (n / 2))]. split; [now left|]. cbn [wact fold_left].
      symmetry. apply (gact_invol (All (Rot (n / 2))) x n); auto. now apply half_twice.
    + pose proof Hw as Hw'. apply in_map_iff in Hw as ([s t] & <- & H).
      exists [At s (Rot (n / 2)); At t (Rot (n / 2))]. split; [now right|]. cbn [wact fold_left].
      rewrite (gact_comm_at _ n s t) by (auto using gact_i8; cbn in H; repeat (destruct H as [H|H]; [inversion H; discriminate|]); destruct H).
      rewrite (gact_invol (At t (Rot (n / 2))) _ n); auto using gact_i8; [|now apply half_twice].
      now rewrite Hh.
  - destruct (Nat.even n) eqn:E; [|destruct Hw]. apply in_map_iff in Hw as (t & <- & H).
    exists [At t (Rot (n / 2))]. split; [apply in_map_iff; eauto|]. cbn [wact fold_left]. now rewrite Hh.
  - destruct Hw as [<-|[]]. exists [All Rev]. split; [now left|]. cbn [wact fold_left]. symmetry.
    now apply (gact_invol (All Rev) x n).
  - apply in_map_iff in Hw as (t & <- & H). exists [At t Neg]. split; [apply in_map_iff; eauto|].
    cbn [wact fold_left]. symmetry. now apply (gact_invol (At t Neg) x n).
  - pose proof Hw as Hw'. apply in_map_iff in Hw as ([s t] & <- & H). exists [At s Neg; At t Neg]. split; auto.
    cbn [wact fold_left].
    rewrite (gact_comm_at _ n s t) by (auto using gact_i8; cbn in H; repeat (destruct H as [H|H]; [inversion H; discriminate|]); destruct H).
    rewrite (gact_invol (At t Neg) _ n) by auto using gact_i8. now rewrite (gact_invol (At s Neg) x n).
  - destruct Hw as [<-|[]]. exists [All Alt]. split; [now left|]. cbn [wact fold_left]. symmetry.
    now apply (gact_invol (All Alt) x n).
  - destruct (Nat.even n) eqn:E; [|destruct Hw].
    destruct Hw as [<-|[]]. exists [All Alt]. split; [now left|]. cbn [wact fold_left]. symmetry.
    now apply (gact_invol (All Alt) x n).
  - apply in_map_iff in Hw as (k & <- & H). apply filter_In in H as [H G]. apply in_seq in H. apply Nat.eqb_eq in G.
    destruct (inverse_mod n k) as (j & Hj & Gj & Hjk); [lia|auto|].
    exists [All (Dil j)]. split.
    + apply in_map_iff. exists j. split; auto. apply filter_In. split; [apply in_seq; lia|now apply Nat.eqb_eq].
    + cbn [wact fold_left]. apply i8_slots in Hx as [Hw Hx]. apply wf_slots in Hw as [_ Hw].
      apply quad_ext; auto. intros t. rewrite !gact_slot, lact_dil_dil by auto. symmetry. apply lact_dil_1.
      now rewrite Hw.
  - exists w. split; auto. destruct Hw as [<-|[<-|[<-|[]]]]; destruct x; reflexivity.
Qed.

(* ---- orbits ---- *)

Lemma variant_i8 n o x y : i8_quad n x -> variant o x y -> i8_quad n y.
Proof. intros H [->|(w & _ & ->)]; auto using wact_i8. Qed.

Lemma reach_i8 n ops x y : i8_quad n x -> reach ops x y -> i8_quad n y.
Proof.
  intros Hx H. induction H as [x y (o & _ & H)|x|x y z _ IH1 _ IH2]; eauto using variant_i8.
Qed.

Lemma reach_sym n ops x y : i8_quad n x -> reach ops x y -> reach ops y x.
Proof.
  intros Hx H. induction H as [x y (o & Ho & H)|x|x y z H1 IH1 H2 IH2].
  - apply rt_step. exists o. split; auto. eapply variant_sym; eauto.
  - apply rt_refl.
  - eapply rt_trans; [apply IH2|apply IH1; auto]. eapply reach_i8; eauto.
Qed.

(* words of an operation list *)
Inductive opword (ops : list Op) (n : nat) : word -> Prop :=
  | ow_nil : opword ops n []
  | ow_app w o v : opword ops n w -> In o ops -> In v (variants o n) -> opword ops n (w ++ v).

Lemma reach_word n ops x y : q_size x = n ->
  (reach ops x y <-> exists w, opword ops n w /\ y = wact w x).
Proof.
  intros Hx. split.
  - intros H. apply clos_rt_rtn1 in H. induction H as [|y z (o & Ho & H) _ (w & Hw & ->)].
    + exists []. split; [constructor|reflexivity].
    + destruct H as [->|(v & Hv & ->)]; eauto. rewrite wact_size, Hx in Hv.
      exists (w ++ v). split; [econstructor; eauto|]. now rewrite wact_app.
  - intros (w & Hw & ->). induction Hw as [|w o v Hw IH Ho Hv]; [apply rt_refl|].
    eapply rt_trans; [apply IH|]. apply rt_step. exists o. split; auto. right. exists v.
    rewrite wact_size, Hx, wact_app. auto.
Qed.

(* ---- a finite universe of quadruples ---- *)

Fixpoint lists {A} (D : list A) (n : nat) : list (list A) :=
  match n with
  | 0 => [[]]
  | S k => flat_map (fun l => map (fun x => x :: l) D) (lists D k)
  end.

Lemma lists_in {A} (D : list A) n l : length l = n -> Forall (fun x => In x D) l -> In l (lists D n).
Proof.
  revert l; induction n; intros [|x l] Hl H; cbn in *; try discriminate; auto.
  apply in_flat_map. inversion H; subst. exists l. split; [apply IHn; auto|]. now apply (in_map (fun x => x :: l)).
Qed.

Definition i8_list : list Z := map (fun i => Z.of_nat i - 128)%Z (seq 0 256).
Lemma i8_list_in x : i8 x -> In x i8_list.
Proof.
  unfold i8, i8_list. intros H. apply in_map_iff. exists (Z.to_nat (x + 128)). split; [lia|].
  apply in_seq. lia.
Qed.

Definition universe (n : nat) : list QuadSeq :=
  let L := lists i8_list n in
  map (fun '((a, b), (c, d)) => mkQuad n a b c d) (list_prod (list_prod L L) (list_prod L L)).

Lemma universe_in n q : i8_quad n q -> In q (universe n).
Proof.
  intros ((H0 & Ha & Hb & Hc & Hd) & Ia & Ib & Ic & Id).
  unfold universe. apply in_map_iff. exists ((q_a q, q_b q), (q_c q, q_d q)). split.
  - destruct q; cbn in *. now subst.
  - assert (forall l, length l = n -> Forall i8 l -> In l (lists i8_list n)) as H.
    { intros l Hl H. apply lists_in; auto. eapply Forall_impl; [|apply H]. apply i8_list_in. }
    repeat apply in_prod; apply H; auto.
Qed.

(* enough rounds for any class of quadruples of length n *)
Definition class_fuel (n : nat) : nat := S (S (length (universe n))).

Lemma class_bound n l : NoDup l -> (forall y, In y l -> i8_quad n y) -> length l <= length (universe n).
Proof. intros H Hy. apply NoDup_incl_length; auto. intros y H'. now apply universe_in, Hy. Qed.

(* ---- class generation ---- *)

Definition ord_ok (ord : Order) : Prop := forall p l, Permutation (ord p l) l.

Lemma ord_in ord p l x : ord_ok ord -> (In x (ord p l) <-> In x l).
Proof. intros H. split; apply Permutation_in; [apply H|symmetry; apply H]. Qed.

Lemma foldi_union {B} (f : nat -> list QuadSeq -> B -> option (list QuadSeq)) (R : B -> QuadSeq -> Prop) l :
  (forall i acc x, In x l -> NoDup acc ->
     exists acc', f i acc x = Some acc' /\ NoDup acc' /\ forall y, In y acc' <-> In y acc \/ R x y) ->
  forall i acc, NoDup acc ->
    exists acc', foldi_from i f l acc = Some acc' /\ NoDup acc' /\
                 forall y, In y acc' <-> In y acc \/ exists x, In x l /\ R x y.
Proof.
  induction l as [|x l IH]; intros H i acc Hn; cbn.
  - exists acc. split; auto. split; auto. intros y. split; auto. intros [|(x & [] & _)]; auto.
  - destruct (H i acc x (or_introl eq_refl) Hn) as (a1 & -> & N1 & E1). cbn.
    destruct (IH (fun i acc x Hx => H i acc x (or_intror Hx)) (S i) a1 N1) as (a2 & -> & N2 & E2).
    exists a2. split; auto. split; auto. intros y. rewrite E2, E1. split.
    + intros [[|]|(z & Hz & Rz)]; eauto.
    + intros [|(z & [<-|Hz] & Rz)]; eauto.
Qed.

Lemma fold_m_new class l : forall new, NoDup new ->
  exists new', fold_m (fun new e => Some (if mem e class then new else hinsert e new)) l new = Some new' /\
    NoDup new' /\ forall y, In y new' <-> In y new \/ (In y l /\ ~ In y class).
Proof.
  induction l as [|x l IH]; intros new Hn; cbn.
  - exists new. split; auto. split; auto. tauto.
  - destruct (mem x class) eqn:E.
    + destruct (IH new Hn) as (r & -> & N & Er). exists r. split; auto. split; auto. intros y.
      rewrite Er. apply mem_in in E. split; [tauto|]. intros [|[[->|] ]]; tauto.
    + destruct (IH (hinsert x new) (hinsert_nodup _ _ Hn)) as (r & -> & N & Er).
      exists r. split; auto. split; auto. intros y. rewrite Er, hinsert_in. apply mem_not_in in E.
      split; [|intuition]. intros [[->|]|]; tauto.
Qed.

Definition next_of (ops : list Op) (class : list QuadSeq) (y : QuadSeq) : Prop :=
  exists s o, In s class /\ In o ops /\ variant o s y.

Lemma class_step_spec n ord p ops k class :
  ord_ok ord -> (forall o, In o ops -> op_ok n o) -> (forall s, In s class -> wf n s) -> NoDup class ->
  (class_step ord p (map impl ops) (k, class) = Some (inr class) /\
     (forall y, next_of ops class y -> In y class)) \/
  (exists class', class_step ord p (map impl ops) (k, class) = Some (inl (S k, class')) /\
     NoDup class' /\ length class < length class' /\
     forall y, In y class' <-> In y class \/ next_of ops class y).
Proof.
  intros Ho Hok Hw Hn. unfold class_step, foldi.
  destruct (foldi_union
    (fun i new s => foldi_from 0 (fun j new (op : Equivalence) =>
        let* es := op s in
        fold_m (fun new e => Some (if mem e class then new else hinsert e new))
               (ord (j :: i :: 1 :: k :: p) es) new) (map impl ops) new)
    (fun s y => (exists o, In o ops /\ variant o s y) /\ ~ In y class)
    (ord (0 :: k :: p) class)) with (i := 0) (acc := @nil QuadSeq) as (new & E & Nn & Hnew).
  - intros i acc s Hs Nacc. apply ord_in in Hs; auto.
    destruct (foldi_union (fun j new (op : Equivalence) =>
        let* es := op s in
        fold_m (fun new e => Some (if mem e class then new else hinsert e new))
               (ord (j :: i :: 1 :: k :: p) es) new)
      (fun op y => exists o, In o ops /\ op = impl o /\ variant o s y /\ ~ In y class) (map impl ops))
      with (i := 0) (acc := acc) as (r & Er & Nr & Hr); auto.
    + intros j acc' op Hop Nacc'. apply in_map_iff in Hop as (o & <- & Ho').
      destruct (impl_computes n o s (Hw s Hs) (Hok o Ho')) as (es & Ees & _ & Hes).
      rewrite Ees. cbn [bind].
      destruct (fold_m_new class (ord (j :: i :: 1 :: k :: p) es) acc' Nacc') as (r & -> & Nr & Hr).
      exists r. split; auto. split; auto. intros y. rewrite Hr, ord_in, Hes by auto. split.
      * intros [|[]]; auto. right. exists o. auto.
      * intros [|(o' & Ho'' & Eo & Hv & Hy)]; auto. right. split; auto.
        assert (impl o s = impl o' s) as Ei by congruence.
        destruct (impl_computes n o' s (Hw s Hs) (Hok o' Ho'')) as (es' & Ees' & _ & Hes').
        apply Hes. assert (es' = es) as -> by congruence. now apply Hes'.
    + exists r. split; auto. split; auto. intros y. rewrite Hr. split.
      * intros [|(op & _ & o & H1 & _ & H2 & H3)]; eauto.
      * intros [|((o & H1 & H2) & H3)]; auto. right. exists (impl o). split; [now apply in_map|eauto].
  - constructor.
  - rewrite E. cbn [bind]. destruct new as [|x new]; cbn [length Nat.eqb].
    + left. split; auto. intros y (s & o & Hs & Ho' & Hv).
      destruct (in_dec quad_eq_dec y class) as [|Hy]; auto. exfalso.
      apply (proj2 (Hnew y)). right. exists s. split; [now apply ord_in|]. eauto.
    + right. eexists. split; [reflexivity|]. split; [now apply insert_all_nodup|].
      assert (forall y, In y (insert_all (ord (2 :: k :: p) (x :: new)) class) <-> In y class \/ next_of ops class y) as Hin.
      { intros y. rewrite insert_all_in, ord_in, Hnew by auto. split.
        - intros [[[]|(s & Hs & (o & H1 & H2) & H3)]|]; auto. right. apply ord_in in Hs; auto. exists s, o; auto.
        - intros [|(s & o & Hs & H1 & H2)]; auto.
          destruct (in_dec quad_eq_dec y class) as [|Hy]; auto. left. right. exists s.
          split; [now apply ord_in|]. eauto. }
      split; auto.
      assert (In x (x :: new)) as Hx by now left. apply Hnew in Hx as [[]|(s & Hs & (o & H1 & H2) & H3)].
      apply ord_in in Hs; auto.
      apply Nat.lt_le_trans with (length (x :: class)); [cbn; lia|].
      apply NoDup_incl_length; [constructor; auto|].
      intros y [<-|Hy]; apply Hin; auto. right. exists s, o; auto.
Qed.

Lemma class_loop n ord p ops q :
  ord_ok ord -> (forall o, In o ops -> op_ok n o) -> i8_quad n q ->
  forall fuel k class, NoDup class -> In q class -> (forall y, In y class -> reach ops q y) ->
  length (universe n) - length class < fuel ->
  exists r, loop fuel (class_step ord p (map impl ops)) (k, class) = Some (Some r) /\
            NoDup r /\ forall y, In y r <-> reach ops q y.
Proof.
  intros Ho Hok Hq. induction fuel; intros k class Hn Hin Hr Hf; [lia|].
  assert (forall y, In y class -> i8_quad n y) as H8 by (intros y Hy; eapply reach_i8; eauto).
  pose proof (class_bound n class Hn H8) as Hb.
  destruct (class_step_spec n ord p ops k class Ho Hok (fun s Hs => proj1 (H8 s Hs)) Hn)
    as [[E Hc]|(class' & E & Hn' & Hl & Hc)].
  - exists class. cbn [loop]. rewrite E. split; auto. split; auto. intros y. split; auto.
    intros H. apply clos_rt_rtn1 in H. induction H as [|y z (o & Ho' & Hv) _ IH]; auto.
    apply Hc. exists y, o. auto.
  - cbn [loop]. rewrite E.
    assert (forall y, In y class' -> reach ops q y) as Hr'.
    { intros y Hy. apply Hc in Hy as [|(s & o & Hs & Ho' & Hv)]; auto.
      eapply rt_trans; [apply Hr, Hs|]. apply rt_step. eauto. }
    apply IHfuel; auto.
    + apply Hc. auto.
    + pose proof (class_bound n class' Hn' (fun y Hy => reach_i8 n ops q y Hq (Hr' y Hy))). lia.
Qed.

Lemma class_spec n ord p ops q fuel :
  ord_ok ord -> (forall o, In o ops -> op_ok n o) -> i8_quad n q -> class_fuel n <= fuel ->
  exists r, generate_equivalence_class fuel ord p q (map impl ops) = Some r /\
            NoDup r /\ forall y, In y r <-> reach ops q y.
Proof.
  intros Ho Hok Hq Hf. unfold generate_equivalence_class, run.
  destruct (class_loop n ord p ops q Ho Hok Hq fuel 0 [q]) as (r & -> & Hr); eauto.
  - apply nodup_1.
  - now left.
  - intros y [<-|[]]. apply rt_refl.
  - unfold class_fuel in Hf. lia.
Qed.

Lemma equivalences_impl t : equivalences t = map impl (type_ops t).
Proof. destruct t; reflexivity. Qed.

Lemma small_ok n (ops : list Op) : n <= 100 -> forall o, In o ops -> op_ok n o.
Proof. intros H o _ _. exact H. Qed.
