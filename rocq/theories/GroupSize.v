(* Normal forms of the symmetries. *)
From Coq Require Import List ZArith Lia Arith Bool Permutation Relations.
From Verif Require Import Base BaseFacts Sums Quat ModelSequence ModelWilliamson SeqFacts
  ModelEquivalence SpecEquiv OpFacts EquivFacts TypeFacts OrderFacts FastFacts EquivThms SpecOrbit Spec.
Import ListNotations.
Notation length := List.length.
Open Scope Z_scope.

(* where a slot comes from: the source, negated or not, shifted by half the length or not *)
Definition smap := (Tag * bool * bool)%type.
Definition mm := (smap * smap * smap * smap)%type.
Definition mget (m : mm) (t : Tag) : smap := let '(w, x, y, z) := m in match t with TW => w | TX => x | TY => y | TZ => z end.
Definition mk (f : Tag -> smap) : mm := (f TW, f TX, f TY, f TZ).
Lemma mget_mk f t : mget (mk f) t = f t.
Proof. destruct t; reflexivity. Qed.

Definition sg (b : bool) (v : Z) : Z := if b then - v else v.
Definition value (n : nat) (s : Tag) (j : Z) : Z := Z.of_nat (tag_no s * n) + j mod Z.of_nat n + 1.
Definition half (n : nat) (h : bool) : Z := if h then Z.of_nat (n / 2) else 0.
Definition nfi (n : nat) (m : mm) (a : bool) (r k : Z) (t : Tag) (i : Z) : Z :=
  let '(s, e, h) := mget m t in sg (xorb e (a && Z.odd i)) (value n s (k * i + r + half n h)).
Definition nf (n : nat) (m : mm) (a : bool) (r k : Z) : QuadSeq :=
  of_slots n (fun t => map (fun i => nfi n m a r k t (Z.of_nat i)) (seq 0 n)).

Definition mneg (u : Tag) (m : mm) : mm := mk (fun t => let '(s, e, h) := mget m t in if tag_eq t u then (s, negb e, h) else (s, e, h)).
Definition mnegall (b : bool) (m : mm) : mm := mk (fun t => let '(s, e, h) := mget m t in (s, xorb e b, h)).
Definition mex (x y : Tag) (m : mm) : mm := mk (fun t => mget m (exchange x y t)).
Definition mhalf (b : bool) (u : Tag) (m : mm) : mm := mk (fun t => let '(s, e, h) := mget m t in if tag_eq t u then (s, xorb e b, negb h) else (s, e, h)).
Definition mtog (m : mm) : mm := mk (fun t => let '(s, e, h) := mget m t in (s, e, negb h)).
Definition mid : mm := mk (fun t => (t, false, false)).

Section NF.
  Variable n : nat.
  Hypothesis Hn : (1 <= n <= 31)%nat.
  Notation N := (Z.of_nat n).

  Lemma value_bounds s j : 1 <= value n s j <= 4 * N.
  Proof. unfold value. pose proof (Z.mod_pos_bound j N ltac:(lia)). pose proof (tag_no_lt s). nia. Qed.
  Lemma neg8_sg b s j : neg8 (sg b (value n s j)) = sg (negb b) (value n s j).
  Proof. pose proof (value_bounds s j). unfold neg8, sg. destruct b; cbn [negb]; rewrite wrap8_id; lia. Qed.
  Lemma value_mod s j j' : (j - j') mod N = 0 -> value n s j = value n s j'.
  Proof. intros H. apply Z.mod_divide in H as (c & E); [|lia]. unfold value. replace j with (j' + c * N) by lia. now rewrite Z.mod_add by lia. Qed.
  Lemma odd_mod j : Nat.even n = true -> Z.odd (j mod N) = Z.odd j.
  Proof.
    intros E. rewrite (Z.div_mod j N) at 2 by lia. rewrite Z.odd_add, Z.odd_mul. rewrite <- Nat.negb_odd, negb_true_iff in E.
    assert (Z.odd N = false) as ->. { rewrite <- Nat.negb_even in E. apply negb_false_iff, Nat.even_spec in E as (c & E). rewrite E, Nat2Z.inj_mul, Z.odd_mul. reflexivity. }
    now destruct (Z.odd (j mod N)).
  Qed.
  Lemma nfi_mod m a r k t i : (a = true -> Nat.even n = true) -> nfi n m a r k t (i mod N) = nfi n m a r k t i.
  Proof.
    intros Ha. unfold nfi. destruct (mget m t) as [[s e] h].
    rewrite (value_mod s (k * (i mod N) + r + half n h) (k * i + r + half n h)).
    - destruct a; [|reflexivity]. now rewrite odd_mod by auto.
    - replace (k * (i mod N) + r + half n h - (k * i + r + half n h)) with (k * (i mod N - i)) by ring.
      rewrite Z.mul_mod, Zminus_mod, Z.mod_mod, Z.sub_diag, Z.mod_0_l, Z.mul_0_r, Z.mod_0_l by lia. reflexivity.
  Qed.
  Lemma nf_ext m a r k m' a' r' k' : (forall t i, nfi n m a r k t i = nfi n m' a' r' k' t i) -> nf n m a r k = nf n m' a' r' k'.
  Proof. intros H. unfold nf, of_slots. f_equal; apply map_ext; intros; apply H. Qed.
  Lemma lact_per f (F : Z -> Z) : (forall i, F (i mod N) = F i) ->
    lact f (map (fun i => F (Z.of_nat i)) (seq 0 n)) = map (fun i => sneg (lneg f (Z.of_nat i)) (F (lidx f n (Z.of_nat i)))) (seq 0 n).
  Proof.
    intros H. unfold lact. rewrite map_length, seq_length. apply map_ext. intros i. f_equal.
    unfold entry. rewrite map_length, seq_length. set (j := lidx f n (Z.of_nat i)). unfold pos.
    pose proof (Z.mod_pos_bound j N ltac:(lia)). rewrite nth_map_seq by lia. rewrite Z2Nat.id by lia. apply H.
  Qed.
  Lemma nf_slot m a r k t : slot (nf n m a r k) t = map (fun i => nfi n m a r k t (Z.of_nat i)) (seq 0 n).
  Proof. apply slot_of_slots. Qed.
  Lemma nf_gact g m a r k m' a' r' k' : (a = true -> Nat.even n = true) ->
    (forall t i, match g with
      | All f => sneg (lneg f i) (nfi n m a r k t (lidx f n i))
      | At u f => if tag_eq t u then sneg (lneg f i) (nfi n m a r k t (lidx f n i)) else nfi n m a r k t i
      | Ex x y => nfi n m a r k (exchange x y t) i
      end = nfi n m' a' r' k' t i) ->
    gact g (nf n m a r k) = nf n m' a' r' k'.
  Proof.
    intros Ha H. apply quad_ext; [reflexivity|]. intros t. rewrite gact_slot, !nf_slot. destruct g as [f|u f|x y].
    - rewrite lact_per by (intros; now apply nfi_mod). apply map_ext. intros i. apply H.
    - specialize (H t). destruct (tag_eq t u); [rewrite lact_per by (intros; now apply nfi_mod)|]; apply map_ext; intros i; apply H.
    - rewrite nf_slot. apply map_ext. intros i. apply (H t).
  Qed.

  Notation okA a := (a = true -> Nat.even n = true).
  Ltac slot_case t := unfold nfi; rewrite ?mget_mk; destruct (mget _ t) as [[s e] h].
  Lemma nf_neg u m a r k : okA a -> gact (At u Neg) (nf n m a r k) = nf n (mneg u m) a r k.
  Proof.
    intros Ha. apply nf_gact; auto. intros t i. unfold mneg, nfi. rewrite mget_mk. destruct (mget m t) as [[s e] h]. destruct (tag_eq t u); auto.
    cbn [lneg lidx sneg]. rewrite neg8_sg. now rewrite <- negb_xorb_l.
  Qed.
  Lemma nf_ex x y m a r k : okA a -> gact (Ex x y) (nf n m a r k) = nf n (mex x y m) a r k.
  Proof. intros Ha. apply nf_gact; auto. intros t i. unfold mex, nfi. now rewrite mget_mk. Qed.
  Lemma nf_rot j m a r k : okA a -> gact (All (Rot j)) (nf n m a r k) = nf n (mnegall (a && Z.odd (Z.of_nat j)) m) a (r + k * Z.of_nat j) k.
  Proof.
    intros Ha. apply nf_gact; auto. intros t i. unfold mnegall, nfi. rewrite mget_mk. destruct (mget m t) as [[s e] h]. cbn [lneg lidx sneg].
    f_equal; [|f_equal; ring]. rewrite Z.odd_add. destruct e, a, (Z.odd i), (Z.odd (Z.of_nat j)); reflexivity.
  Qed.
  Lemma nf_alt m a r k : Nat.even n = true -> gact (All Alt) (nf n m a r k) = nf n m (negb a) r k.
  Proof.
    intros Ha. apply nf_gact; auto. intros t i. unfold nfi. destruct (mget m t) as [[s e] h]. cbn [lneg lidx]. unfold sneg. rewrite neg8_sg.
    destruct (Z.odd i), e, a; reflexivity.
  Qed.
  Lemma nf_dil j m a r k : okA a -> (Nat.even n = true -> Z.odd (Z.of_nat j) = true) -> gact (All (Dil j)) (nf n m a r k) = nf n m a r (k * Z.of_nat j).
  Proof.
    intros Ha Hj. apply nf_gact; auto. intros t i. unfold nfi. destruct (mget m t) as [[s e] h]. cbn [lneg lidx sneg].
    f_equal; [|f_equal; ring]. rewrite Z.odd_mul. destruct a; [|reflexivity]. now rewrite (Hj (Ha eq_refl)), andb_true_r.
  Qed.
  Lemma double_half : Nat.even n = true -> 2 * Z.of_nat (n / 2) = N.
  Proof. intros E. apply Nat.even_spec in E as (c & E). rewrite E, Nat.mul_comm, Nat.div_mul by lia. lia. Qed.
  Lemma half_odd k : Nat.even n = true -> Z.odd k = true -> (k * Z.of_nat (n / 2) - Z.of_nat (n / 2)) mod N = 0.
  Proof.
    intros E O. apply Z.odd_spec in O as (c & ->). replace ((2 * c + 1) * Z.of_nat (n / 2) - Z.of_nat (n / 2)) with (c * (2 * Z.of_nat (n / 2))) by ring.
    rewrite double_half by auto. apply Z.mod_mul. lia.
  Qed.
  Lemma half_negb h : Nat.even n = true -> (half n (negb h) - (half n h + Z.of_nat (n / 2))) mod N = 0.
  Proof.
    intros E. pose proof (double_half E). destruct h; cbn [half negb].
    - replace (0 - (Z.of_nat (n / 2) + Z.of_nat (n / 2))) with (-1 * N) by lia. apply Z.mod_mul. lia.
    - replace (Z.of_nat (n / 2) - (0 + Z.of_nat (n / 2))) with 0 by lia. apply Z.mod_0_l. lia.
  Qed.
  Lemma mod_sum x y : x mod N = 0 -> y mod N = 0 -> (x + y) mod N = 0.
  Proof. intros A B. rewrite Z.add_mod, A, B by lia. apply Z.mod_0_l. lia. Qed.
  Lemma nf_half u m a r k : Nat.even n = true -> Z.odd k = true ->
    gact (At u (Rot (n / 2))) (nf n m a r k) = nf n (mhalf (a && Z.odd (Z.of_nat (n / 2))) u m) a r k.
  Proof.
    intros E O. apply nf_gact; auto. intros t i. unfold mhalf, nfi. rewrite mget_mk. destruct (mget m t) as [[s e] h]. destruct (tag_eq t u); auto.
    cbn [lneg lidx sneg]. f_equal.
    - rewrite Z.odd_add. destruct e, a, (Z.odd i), (Z.odd (Z.of_nat (n / 2))); reflexivity.
    - symmetry. apply value_mod; auto.
      pose proof (half_odd k E O) as A. pose proof (half_negb h E) as B. apply Z.mod_opp_l_z in A; [|lia].
      replace (k * i + r + half n (negb h) - (k * (i + Z.of_nat (n / 2)) + r + half n h))
        with (- (k * Z.of_nat (n / 2) - Z.of_nat (n / 2)) + (half n (negb h) - (half n h + Z.of_nat (n / 2)))) by ring. now apply mod_sum.
  Qed.
  Lemma nf_tog m a r k : Nat.even n = true -> nf n (mtog m) a r k = nf n m a (r + Z.of_nat (n / 2)) k.
  Proof.
    intros E. apply nf_ext. intros t i. unfold mtog, nfi. rewrite mget_mk. destruct (mget m t) as [[s e] h]. f_equal. apply value_mod; auto.
    pose proof (half_negb h E) as B. match goal with |- ?x mod _ = 0 => replace x with (half n (negb h) - (half n h + Z.of_nat (n / 2))) by ring end. exact B.
  Qed.
  Lemma nf_mod_r m a r k : nf n m a (r mod N) k = nf n m a r k.
  Proof.
    apply nf_ext. intros t i. unfold nfi. destruct (mget m t) as [[s e] h]. f_equal. apply value_mod; auto.
    match goal with |- ?x mod _ = 0 => replace x with (r mod N - r) by ring end. rewrite Zminus_mod, Z.mod_mod, Z.sub_diag by lia. apply Z.mod_0_l. lia.
  Qed.
  Lemma nf_mod_k m a r k k' : (k - k') mod N = 0 -> nf n m a r k = nf n m a r k'.
  Proof.
    intros E. apply nf_ext. intros t i. unfold nfi. destruct (mget m t) as [[s e] h]. f_equal. apply value_mod; auto.
    match goal with |- ?x mod _ = 0 => replace x with ((k - k') * i) by ring end. rewrite Z.mul_mod, E by lia. apply Z.mod_0_l. lia.
  Qed.
  Lemma nf_symbolic : symbolic_quad n = nf n mid false 0 1.
  Proof.
    apply quad_ext; [apply symbolic_wf|]. intros t. rewrite symbolic_slot, nf_slot. apply map_ext_in. intros i Hi. apply in_seq in Hi.
    unfold nfi, mid. rewrite mget_mk. cbn [xorb andb sg half]. unfold value. rewrite Z.mul_1_l, !Z.add_0_r, Z.mod_small by lia.
    pose proof (tag_no_lt t). rewrite wrap8_id by nia. lia.
  Qed.
End NF.
