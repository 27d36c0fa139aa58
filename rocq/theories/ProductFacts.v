(* Products of perfect sequences. *)
From Coq Require Import List ZArith QArith Qcanon Lia Arith Bool.
From Verif Require Import Base BaseFacts Sums Quat QuatFacts ModelSequence Spec SeqFacts
  ModelMatrices SpecMatrix MatFacts QhmFacts TypeFacts ModelMum.
Import ListNotations.
Open Scope nat_scope.
Notation length := List.length.

(* ---- sums over a product of ranges ---- *)
Lemma lex_eq M a b a' b' : b < M -> b' < M -> (a * M + b = a' * M + b' <-> a = a' /\ b = b').
Proof. intros H1 H2. split; [|intros [-> ->]; auto]. intros E. assert (a = a') by nia. subst. lia. Qed.
Section GSum2.
  Context {A : Type} (zero : A) (add : A -> A -> A).
  Context (add_comm : forall x y, add x y = add y x)
          (add_assoc : forall x y z, add x (add y z) = add (add x y) z)
          (add_0_l : forall x, add zero x = x).
  Lemma gsum_pairs p q (F : nat -> nat -> A) : gsum zero add (p * q) (fun m => F (m / q) (m mod q)) =
    gsum zero add p (fun a => gsum zero add q (F a)).
  Proof.
    destruct (Nat.eq_dec q 0) as [->|Hq].
    - rewrite Nat.mul_0_r. symmetry. apply (gsum_zero zero add add_comm add_assoc add_0_l). reflexivity.
    - induction p as [|p IH]; [reflexivity|].
      rewrite (gsum_S zero add add_comm add_assoc add_0_l). rewrite <- IH.
      replace (S p * q) with (p * q + q) by lia. rewrite (gsum_split zero add add_comm add_assoc add_0_l). f_equal.
      apply gsum_ext. intros j Hj. f_equal.
      + rewrite Nat.div_add_l by auto. rewrite Nat.div_small by auto. lia.
      + rewrite Nat.add_comm, Nat.mod_add by auto. now apply Nat.mod_small.
  Qed.
  Lemma gsum_crt p q (F : nat -> nat -> A) : Nat.gcd p q = 1 ->
    gsum zero add (p * q) (fun k => F (k mod p) (k mod q)) = gsum zero add p (fun a => gsum zero add q (F a)).
  Proof.
    intros G. rewrite <- gsum_pairs.
    destruct (Nat.eq_dec p 0) as [->|Hp]; [reflexivity|]. destruct (Nat.eq_dec q 0) as [->|Hq]; [now rewrite Nat.mul_0_r|].
    rewrite <- (gsum_reindex zero add add_comm add_assoc (p * q) (fun m => F (m / q) (m mod q)) (fun k => (k mod p) * q + k mod q)).
    - apply gsum_ext. intros k Hk. pose proof (Nat.mod_upper_bound k q Hq). f_equal.
      + rewrite Nat.div_add_l by auto. rewrite Nat.div_small by auto. lia.
      + rewrite Nat.add_comm, Nat.mod_add by auto. now rewrite Nat.mod_mod.
    - intros k Hk. pose proof (Nat.mod_upper_bound k q Hq). pose proof (Nat.mod_upper_bound k p Hp). nia.
    - intros i j Hi Hj E. apply lex_eq in E as [E1 E2]; try now apply Nat.mod_upper_bound.
      assert (forall a b m, m <> 0 -> a mod m = b mod m -> a <= b -> Nat.divide m (b - a)) as D.
      { intros a b m Hm E Hle. exists (b / m - a / m). rewrite (Nat.div_mod a m Hm) at 1. rewrite (Nat.div_mod b m Hm) at 1.
        rewrite E. pose proof (Nat.div_le_mono a b m Hm Hle). nia. }
      assert (forall a b, a <= b -> b < p * q -> a mod p = b mod p -> a mod q = b mod q -> a = b) as K.
      { intros a b Hle Hb Ep Eq. pose proof (D a b p Hp Ep Hle) as Dp. pose proof (D a b q Hq Eq Hle) as [c Hc].
        rewrite Hc in Dp. rewrite Nat.mul_comm in Dp. apply Nat.gauss in Dp; auto. destruct Dp as [d Hd]. subst c.
        destruct d; [lia|]. nia. }
      destruct (Nat.le_gt_cases i j); [|symmetry]; apply K; auto; lia.
  Qed.
End GSum2.
Definition qsum_crt p q F := gsum_crt Q0 qadd qadd_comm qadd_assoc qadd_0_l p q F.

(* ---- the loops ---- *)
Lemma vset_map_seq {A} n (f : nat -> A) i x : i < n -> vset (map f (seq 0 n)) i x = Some (map (fun k => if k =? i then x else f k) (seq 0 n)).
Proof.
  intros Hi. destruct (vset_some (map f (seq 0 n)) i x) as [r E]; [now rewrite map_length, seq_length|]. rewrite E. f_equal.
  apply list_ext with (d := x).
  - rewrite (vset_length _ _ _ _ E), !map_length. reflexivity.
  - intros k Hk. rewrite (vset_length _ _ _ _ E), map_length, seq_length in Hk. rewrite (vset_nth _ _ _ _ x k E).
    rewrite !nth_map_seq by auto. reflexivity.
Qed.
Definition prod_at (v1 v2 : list quat) (k : nat) : quat := qmul (nth (k mod length v1) v1 Q0) (nth (k mod length v2) v2 Q0).
Lemma sequence_product_spec a b : length (qs_values a) = qs_size a -> length (qs_values b) = qs_size b ->
  sequence_product a b = Some (mkQS (qs_size a * qs_size b) (map (prod_at (qs_values a) (qs_values b)) (seq 0 (qs_size a * qs_size b))) None).
Proof.
  intros La Lb. unfold sequence_product. cbv zeta. rewrite <- La, <- Lb. set (v1 := qs_values a). set (v2 := qs_values b).
  set (p := length v1). set (q := length v2). set (n := p * q).
  set (st := fun m => mkQS n (map (fun k => if k <? m then prod_at v1 v2 k else Q1) (seq 0 n)) None).
  apply for_m_states with (st := fun i => st (i * q)).
  - unfold QS_new, st. f_equal. apply list_ext with (d := Q1).
    + now rewrite repeat_length, map_length, seq_length.
    + intros i Hi. rewrite repeat_length in Hi. now rewrite nth_repeat, nth_map_seq.
  - unfold st. f_equal. apply map_ext_in. intros k Hk. apply in_seq in Hk. fold n. destruct (Nat.ltb_spec k n); auto. lia.
  - intros i Hi. apply for_m_states with (st := fun j => st (i * q + j)).
    + now rewrite Nat.add_0_r.
    + f_equal. lia.
    + intros j Hj. assert (i * q + j < n) as Hn by (unfold n; nia).
      rewrite (vget_nth v1 _ Q0), (vget_nth v2 _ Q0) by (apply Nat.mod_upper_bound; fold p q; lia). cbn [bind].
      unfold QS_set_value, st. cbn [qs_values qs_symmetry qs_size]. rewrite vset_map_seq by auto. cbn [bind qs_values qs_symmetry qs_size]. do 2 f_equal.
      apply map_ext_in. intros k Hk. apply in_seq in Hk.
      destruct (Nat.eqb_spec k (i * q + j)) as [Ek|Ek], (Nat.ltb_spec k (i * q + j)), (Nat.ltb_spec k (i * q + (j + 1))); try lia; auto.
      rewrite Ek. reflexivity.
Qed.

(* ---- autocorrelation of the product ---- *)
Lemma prod_entry v1 v2 n k : n = length v1 * length v2 -> length v1 <> 0 -> length v2 <> 0 ->
  qentry (map (prod_at v1 v2) (seq 0 n)) k = qmul (qentry v1 k) (qentry v2 k).
Proof.
  intros Hn H1 H2. unfold qentry. rewrite map_length, seq_length.
  assert (n <> 0) as Hn0 by nia. rewrite nth_map_seq by now apply pos_lt. unfold prod_at.
  assert (forall m c, m <> 0 -> n = m * c -> pos n k mod m = pos m k) as K.
  { intros m c Hm E. apply Nat2Z.inj. rewrite Nat2Z.inj_mod, !pos_mod by auto.
    symmetry. apply Znumtheory.Zmod_div_mod; [lia|lia|]. exists (Z.of_nat c). nia. }
  rewrite (K (length v1) (length v2)), (K (length v2) (length v1)) by (auto; lia). reflexivity.
Qed.
Lemma prod_paf v1 v2 t : length v1 <> 0 -> length v2 <> 0 -> Nat.gcd (length v1) (length v2) = 1 ->
  qpaf (map (prod_at v1 v2) (seq 0 (length v1 * length v2))) t =
  qsum (length v1) (fun a => qmul (qmul (qentry v1 (Z.of_nat a)) (qpaf v2 t)) (qconj (qentry v1 (Z.of_nat a + t)))).
Proof.
  intros H1 H2 G. unfold qpaf at 1. rewrite map_length, seq_length.
  set (p := length v1) in *. set (q := length v2) in *.
  set (F := fun a b => qmul (qmul (qentry v1 (Z.of_nat a)) (qmul (qentry v2 (Z.of_nat b)) (qconj (qentry v2 (Z.of_nat b + t)))))
     (qconj (qentry v1 (Z.of_nat a + t)))).
  transitivity (qsum (p * q) (fun k => F (k mod p) (k mod q))).
  - apply qsum_ext. intros k Hk. rewrite !prod_entry by auto. unfold F.
    assert (forall v m c, length v = m -> m <> 0 -> qentry v (Z.of_nat (k mod m) + c) = qentry v (Z.of_nat k + c)) as E.
    { intros v m c L Hm. apply qentry_periodic. rewrite L, Nat2Z.inj_mod. now rewrite Zplus_mod_idemp_l. }
    pose proof (E v1 p 0%Z eq_refl H1) as E1. pose proof (E v2 q 0%Z eq_refl H2) as E2. rewrite !Z.add_0_r in E1, E2.
    rewrite (E v1 p t), (E v2 q t), E1, E2 by auto.
    rewrite qconj_mul. now rewrite !qmul_assoc.
  - unfold qsum at 1. change (gsum Q0 qadd (p * q) (fun k => F (k mod p) (k mod q)) = qsum p (fun a => qmul (qmul (qentry v1 (Z.of_nat a)) (qpaf v2 t)) (qconj (qentry v1 (Z.of_nat a + t))))).
    rewrite qsum_crt by auto. apply qsum_ext. intros a Ha. unfold F.
    change (qsum q (fun b => qmul (qmul (qentry v1 (Z.of_nat a)) (qmul (qentry v2 (Z.of_nat b)) (qconj (qentry v2 (Z.of_nat b + t)))))
      (qconj (qentry v1 (Z.of_nat a + t)))) = qmul (qmul (qentry v1 (Z.of_nat a)) (qpaf v2 t)) (qconj (qentry v1 (Z.of_nat a + t)))).
    rewrite qsum_mul_r, qsum_mul_l. reflexivity.
Qed.
(* the autocorrelation at shift 0 is real *)
Lemma qpaf_0_real v : exists c, qpaf v 0 = qscale c Q1.
Proof.
  unfold qpaf. generalize (length v). intros n. induction n as [|n [c IH]]; [exists 0%Qc; now vm_compute|].
  rewrite qsum_S, IH, Z.add_0_r, qmul_conj. exists (c + qnorm2 (qentry v (Z.of_nat n)))%Qc.
  unfold qadd, qscale, Q1. cbn. f_equal; ring.
Qed.
Lemma perfect_mod v t : perfect v -> length v <> 0 -> (t mod Z.of_nat (length v) <> 0)%Z -> qpaf v t = Q0.
Proof.
  intros P H Ht. rewrite <- qpaf_mod by auto. apply P. pose proof (Z.mod_pos_bound t (Z.of_nat (length v))). lia.
Qed.
Lemma prod_perfect v1 v2 : perfect v1 -> perfect v2 -> length v1 <> 0 -> length v2 <> 0 -> Nat.gcd (length v1) (length v2) = 1 ->
  perfect (map (prod_at v1 v2) (seq 0 (length v1 * length v2))).
Proof.
  intros P1 P2 H1 H2 G t Ht. rewrite map_length, seq_length in Ht. rewrite prod_paf by auto.
  destruct (Z.eq_dec (t mod Z.of_nat (length v2)) 0) as [E|E].
  - rewrite <- (qpaf_mod v2) by auto. rewrite E. destruct (qpaf_0_real v2) as [c ->].
    rewrite (qsum_ext _ _ (fun a => qscale c (qmul (qentry v1 (Z.of_nat a)) (qconj (qentry v1 (Z.of_nat a + t)))))).
    2:{ intros a Ha. rewrite <- qscale_mul_r, qmul_1_r, <- qscale_mul_l. reflexivity. }
    rewrite <- qsum_scale. change (qscale c (qpaf v1 t) = Q0). rewrite (perfect_mod v1); auto using qscale_0_r.
    intros E1. apply Z.mod_divide in E; [|lia]. apply Z.mod_divide in E1; [|lia].
    destruct E as [c2 E]. rewrite E in E1.
    rewrite Z.mul_comm in E1. apply Z.gauss in E1.
    + destruct E1 as [d ->]. assert (0 < d)%Z by nia. nia.
    + apply gcd_ZZ. now rewrite Nat.gcd_comm.
  - rewrite (perfect_mod v2) by auto. apply qsum_zero. intros a Ha. now rewrite qmul_0_r, qmul_0_l.
Qed.

Lemma product_perfect a b : length (qs_values a) = qs_size a -> length (qs_values b) = qs_size b ->
  1 <= qs_size a -> 1 <= qs_size b -> Nat.gcd (qs_size a) (qs_size b) = 1 ->
  QS_is_perfect a = Some true -> QS_is_perfect b = Some true ->
  exists r, sequence_product a b = Some r /\ qs_size r = qs_size a * qs_size b /\
    length (qs_values r) = qs_size r /\ perfect (qs_values r) /\ QS_is_perfect r = Some true.
Proof.
  intros La Lb Ha Hb G Pa Pb. eexists. split; [now apply sequence_product_spec|]. cbn [qs_size qs_values].
  rewrite map_length, seq_length. split; auto. split; auto.
  assert (forall x, length (qs_values x) = qs_size x -> QS_is_perfect x = Some true <-> perfect (qs_values x)) as K.
  { intros x L. destruct (is_perfect_spec x L) as (c & E & Hc). rewrite E. rewrite <- Hc. split; [now intros [= ->]|intros ->; auto]. }
  assert (perfect (map (prod_at (qs_values a) (qs_values b)) (seq 0 (qs_size a * qs_size b)))) as P.
  { rewrite <- La, <- Lb. apply prod_perfect; try lia; try (now apply K). now rewrite La, Lb. }
  split; auto. apply K; auto. cbn. now rewrite map_length, seq_length.
Qed.

(* the autocorrelation of a non-empty sequence of units at shift 0 does not vanish *)
Lemma qpaf_0_nonzero v : v <> [] -> (forall p, In p v -> qnorm2 p = 1%Qc) -> qpaf v 0 <> Q0.
Proof.
  intros Hv H E. rewrite qpaf_0 in E by auto. apply (f_equal q_s) in E. cbn in E.
  destruct v as [|x v]; [congruence|]. replace (qc_of_nat (length (x :: v)) * 1)%Qc with (qc_of_nat (length (x :: v))) in E by ring.
  unfold qc_of_nat in E. assert (inject_Z (Z.of_nat (length (x :: v))) == 0)%Q as Q.
  { rewrite <- this_Q2Qc. now rewrite E. }
  unfold Qeq, inject_Z in Q. cbn [Qnum Qden length] in Q. lia.
Qed.
Lemma product_not_perfect a b : length (qs_values a) = qs_size a -> length (qs_values b) = qs_size b ->
  1 <= qs_size a -> 1 <= qs_size b -> Nat.gcd (qs_size a) (qs_size b) <> 1 ->
  Forall (fun p => qnorm2 p = 1%Qc) (qs_values a) -> Forall (fun p => qnorm2 p = 1%Qc) (qs_values b) ->
  exists r, sequence_product a b = Some r /\ QS_is_perfect r = Some false.
Proof.
  intros La Lb Ha Hb G Ua Ub. eexists. split; [now apply sequence_product_spec|].
  match goal with |- QS_is_perfect ?r = _ => destruct (is_perfect_spec r) as (c & E & Hc) end; [cbn; now rewrite map_length, seq_length|].
  rewrite E. destruct c; auto. exfalso. pose proof (proj1 Hc eq_refl) as P. clear E Hc. cbn [qs_values] in P.
  set (p := qs_size a) in *. set (q := qs_size b) in *. set (v := map _ _) in P.
  pose proof (Nat.gcd_divide_l p q) as [x Hx]. pose proof (Nat.gcd_divide_r p q) as [y Hy]. set (g := Nat.gcd p q) in *.
  assert (2 <= g) by (destruct g as [|[|]]; lia).
  assert (1 <= x) by nia. assert (1 <= y) by nia.
  set (t := x * y * g). assert (0 < t < p * q) by (unfold t; rewrite Hx, Hy; nia).
  assert (length v = p * q) as Lv by (unfold v; now rewrite map_length, seq_length).
  assert (qpaf v (Z.of_nat t) = Q0) as E0 by (apply P; rewrite Lv; lia).
  apply (qpaf_0_nonzero v).
  - intros K. rewrite K in Lv. cbn in Lv. nia.
  - intros u Hu. unfold v in Hu. apply in_map_iff in Hu as (k & <- & Hk). unfold prod_at. rewrite qnorm2_mul.
    rewrite (proj1 (Forall_forall _ _) Ua), (proj1 (Forall_forall _ _) Ub); [reflexivity| |]; apply nth_In, Nat.mod_upper_bound; lia.
  - rewrite <- E0. unfold qpaf. rewrite Lv. apply qsum_ext. intros i Hi. f_equal. f_equal.
    unfold v. rewrite !prod_entry by lia.
    f_equal; apply qentry_periodic.
    + rewrite La. fold p. replace (Z.of_nat i + Z.of_nat t)%Z with (Z.of_nat i + 0 + Z.of_nat y * Z.of_nat p)%Z by (unfold t; nia).
      rewrite Z.mod_add by lia. reflexivity.
    + rewrite Lb. fold q. replace (Z.of_nat i + Z.of_nat t)%Z with (Z.of_nat i + 0 + Z.of_nat x * Z.of_nat q)%Z by (unfold t; nia).
      rewrite Z.mod_add by lia. reflexivity.
Qed.
