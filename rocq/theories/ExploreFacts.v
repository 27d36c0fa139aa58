(* Facts about the exploratory searches: letters fixed in advance, and symmetries that exclude each other. *)
From Coq Require Import List ZArith Lia Arith Bool Permutation QArith Qcanon.
From Verif Require Import Base BaseFacts Sums Quat QuatFacts ModelSequence ModelWilliamson Convert QhmFacts ModelEquivalence ModelFind SpecFind SearchFacts FindFacts FindThms SpecExplore Spec.
Import ListNotations.
Notation length := List.length.
Open Scope nat_scope.

(* ---- units in front ---- *)

Lemma qentry_map g v i : qentry (map (qmul g) v) i = qmul g (qentry v i).
Proof. unfold qentry. rewrite map_length. rewrite <- (qmul_0_r g) at 1. apply map_nth. Qed.
Lemma perfect_unit g v : perfect v -> perfect (map (qmul g) v).
Proof.
  intros H t Ht. rewrite map_length in Ht. unfold qpaf. rewrite map_length.
  rewrite (qsum_ext _ _ (fun i => qmul g (qmul (qmul (qentry v (Z.of_nat i)) (qconj (qentry v (Z.of_nat i + t)))) (qconj g)))).
  2:{ intros i _. rewrite !qentry_map, qconj_mul. now rewrite !qmul_assoc. }
  rewrite qsum_mul_l, qsum_mul_r. fold (qpaf v t). rewrite (H t Ht), qmul_0_l. apply qmul_0_r.
Qed.
Lemma unit_back g v : qnorm2 g = 1%Qc -> map (qmul (qconj g)) (map (qmul g) v) = v.
Proof.
  intros N. rewrite map_map. rewrite <- (map_id v) at 2. apply map_ext. intros x. now rewrite qmul_assoc, qconj_mul_self, N, qscale_1, qmul_1_l.
Qed.
Lemma unit_forth g v : qnorm2 g = 1%Qc -> map (qmul g) (map (qmul (qconj g)) v) = v.
Proof.
  intros N. rewrite map_map. rewrite <- (map_id v) at 2. apply map_ext. intros x. now rewrite qmul_assoc, qmul_conj, N, qscale_1, qmul_1_l.
Qed.

(* the letters a search with the first letter 1 needs: units whose multiples stay inside the alphabet *)
Lemma units_count (G al : list quat) n (l L : list (list quat)) : 1 <= n -> NoDup G -> In Q1 G -> (forall g, In g G -> In (qconj g) G /\ qnorm2 g = 1%Qc) -> (forall g x, In g G -> In x al -> In (qmul g x) al) ->
  NoDup l -> (forall v, In v l <-> length v = n /\ incl v al /\ In (hd Q1 v) G /\ perfect v) ->
  NoDup L -> (forall v, In v L <-> length v = n /\ incl v al /\ hd Q1 v = Q1 /\ perfect v) ->
  length l = length G * length L.
Proof.
  intros Hn NG G1 Gu Ga Nl Hl NL HL.
  assert (P : Permutation l (flat_map (fun g => map (map (qmul g)) L) G)).
  { apply NoDup_Permutation; auto.
    - assert (X : forall G', incl G' G -> NoDup G' -> NoDup (flat_map (fun g => map (map (qmul g)) L) G')).
      { induction G' as [|g G' IH]; intros I N; [constructor|]. cbn. inversion N as [|? ? N1 N2]; subst. apply NoDup_app; [|apply IH; auto; intros z Hz; apply I; now right|].
        - apply FinFun.Injective_map_NoDup; auto. intros a b E. destruct (Gu g ltac:(apply I; now left)) as [_ Ng].
          rewrite <- (unit_back g a Ng), <- (unit_back g b Ng). now rewrite E.
        - intros v Hv Hv'. apply in_map_iff in Hv as (a & <- & Ia). apply in_flat_map in Hv' as (g' & Ig' & Hv'). apply in_map_iff in Hv' as (b & E & Ib).
          apply HL in Ia as (La & _ & Ha & _). apply HL in Ib as (Lb & _ & Hb & _).
          destruct a as [|a0 a]; [cbn in La; lia|]. destruct b as [|b0 b]; [cbn in Lb; lia|]. cbn in Ha, Hb. subst a0 b0. apply (f_equal (hd Q1)) in E. cbn [map hd] in E.
          rewrite !qmul_1_r in E. subst g'. contradiction. }
      apply X; auto. apply incl_refl.
    - intros v. rewrite in_flat_map. split.
      + intros I. apply Hl in I as (Lv & Iv & Hv & Pv). destruct v as [|x v]; [cbn in Lv; lia|]. cbn in Hv. destruct (Gu x Hv) as [Cx Nx].
        exists x. split; auto. apply in_map_iff. exists (map (qmul (qconj x)) (x :: v)). split; [now apply unit_forth|].
        apply HL. split; [now rewrite map_length|]. split; [|split; [|now apply perfect_unit]].
        * intros z Hz. apply in_map_iff in Hz as (z' & <- & Hz'). apply Ga; auto.
        * cbn [map hd]. now rewrite qconj_mul_self, Nx, qscale_1.
      + intros (g & Ig & I). apply in_map_iff in I as (a & <- & Ia). apply HL in Ia as (La & Ial & Ha & Pa). apply Hl.
        split; [now rewrite map_length|]. split; [|split; [|now apply perfect_unit]].
        * intros z Hz. apply in_map_iff in Hz as (z' & <- & Hz'). apply Ga; auto.
        * destruct a as [|a0 a]; [cbn in La; lia|]. cbn [map hd] in Ha |- *. now rewrite Ha, qmul_1_r. }
  rewrite (Permutation_length P). clear. induction G as [|g G IH]; cbn; auto. rewrite app_length, map_length, IH. lia.
Qed.

(* ---- the eight units of the alphabet ---- *)
Definition inb (l : list quat) (x : quat) : bool := existsb (quat_eqb x) l.
Lemma inb_iff l x : inb l x = true <-> In x l.
Proof.
  unfold inb. split; intros H; [now apply in_dec_b|]. apply existsb_exists. exists x. split; auto. now apply quat_eqb_eq.
Qed.
Lemma check2 (P : quat -> quat -> bool) l m : forallb (fun x => forallb (P x) m) l = true -> forall x y, In x l -> In y m -> P x y = true.
Proof. intros H x y Hx Hy. rewrite forallb_forall in H. specialize (H x Hx). cbn beta in H. rewrite forallb_forall in H. now apply H. Qed.
Lemma Q8_nodup : NoDup Q8.
Proof. apply nodupb_ok. vm_compute. reflexivity. Qed.
Lemma Q8_unit g : In g Q8 -> In (qconj g) Q8 /\ qnorm2 g = 1%Qc.
Proof.
  intros H. split.
  - apply inb_iff. assert (X : forallb (fun g => inb Q8 (qconj g)) Q8 = true) by (vm_compute; reflexivity). rewrite forallb_forall in X. now apply X.
  - apply Q24_norm. apply inb_iff. assert (X : forallb (inb Q24) Q8 = true) by (vm_compute; reflexivity). rewrite forallb_forall in X. now apply X.
Qed.
Lemma Q8_plus g x : In g Q8 -> In x QPLUS -> In (qmul g x) QPLUS.
Proof. intros H I. apply inb_iff. apply (check2 (fun g x => inb QPLUS (qmul g x)) Q8 QPLUS); [vm_compute; reflexivity|exact H|exact I]. Qed.
(* a quotient of two letters outside Q8 lies in Q8 *)
Lemma plus_quotient x y : In x QPLUS -> In y QPLUS -> In x Q8 \/ In y Q8 \/ In (qmul (qconj x) y) Q8.
Proof.
  intros Hx Hy. assert (X : inb Q8 x || inb Q8 y || inb Q8 (qmul (qconj x) y) = true).
  { apply (check2 (fun x y => inb Q8 x || inb Q8 y || inb Q8 (qmul (qconj x) y)) QPLUS QPLUS); [vm_compute; reflexivity|exact Hx|exact Hy]. }
  apply orb_prop in X as [X|X]; [apply orb_prop in X as [X|X]|]; apply inb_iff in X; auto.
Qed.
Lemma Q8_incl x : In x Q8 -> In x QPLUS.
Proof. intros H. apply inb_iff. assert (X : forallb (inb QPLUS) Q8 = true) by (vm_compute; reflexivity). rewrite forallb_forall in X. now apply X. Qed.
Lemma plus_24 x : In x QPLUS -> In x Q24.
Proof. intros H. apply inb_iff. assert (X : forallb (inb Q24) QPLUS = true) by (vm_compute; reflexivity). rewrite forallb_forall in X. now apply X. Qed.

(* rotations *)
Definition rot (k : nat) (v : list quat) : list quat := map (fun i => qentry v (Z.of_nat i + Z.of_nat k)) (seq 0 (length v)).
Lemma rot_length k v : length (rot k v) = length v.
Proof. unfold rot. now rewrite map_length, seq_length. Qed.
Lemma rot_nth k v i : i < length v -> nth i (rot k v) Q0 = qentry v (Z.of_nat i + Z.of_nat k).
Proof. intros H. unfold rot. rewrite nth_indep with (d' := (fun i => qentry v (Z.of_nat i + Z.of_nat k)) 0) by now rewrite map_length, seq_length. rewrite (map_nth (fun i => qentry v (Z.of_nat i + Z.of_nat k))). now rewrite seq_nth. Qed.
Lemma rot_entry k v i : v <> [] -> qentry (rot k v) i = qentry v (i + Z.of_nat k).
Proof.
  intros Hv. assert (N : length v <> 0) by (destruct v; cbn; congruence).
  transitivity (qentry (rot k v) (i mod Z.of_nat (length v))%Z).
  { unfold qentry, pos. rewrite !rot_length. now rewrite Z.mod_mod by lia. }
  pose proof (Z.mod_pos_bound i (Z.of_nat (length v)) ltac:(lia)) as B.
  rewrite <- (Z2Nat.id (i mod _)) by lia. rewrite qentry_nat by (rewrite rot_length; lia). rewrite rot_nth by lia. rewrite Z2Nat.id by lia.
  unfold qentry, pos. now rewrite Zplus_mod_idemp_l.
Qed.
Lemma perfect_rot k v : perfect v -> perfect (rot k v).
Proof.
  intros H t Ht. rewrite rot_length in Ht. assert (Hv : v <> []) by (intros ->; cbn in Ht; lia).
  unfold qpaf. rewrite rot_length. rewrite <- (H t Ht). unfold qpaf.
  rewrite <- (qsum_shift (length v) (fun i => qmul (qentry v i) (qconj (qentry v (i + t)))) (Z.of_nat k)) by apply qpaf_term.
  apply qsum_ext. intros i _. rewrite !rot_entry by auto. do 3 f_equal. lia.
Qed.
Lemma rot_incl k v al : v <> [] -> incl v al -> incl (rot k v) al.
Proof.
  intros Hv I z Hz. apply in_map_iff in Hz as (i & <- & _). apply I. unfold qentry. apply nth_In. unfold pos.
  assert (N : length v <> 0) by (destruct v; cbn; congruence). pose proof (Z.mod_pos_bound (Z.of_nat i + Z.of_nat k) (Z.of_nat (length v)) ltac:(lia)). lia.
Qed.
Lemma rot_hd k v : k < length v -> hd Q1 (rot k v) = nth k v Q0.
Proof.
  intros H. assert (length (rot k v) = length v) as Lr by apply rot_length. pose proof (rot_nth k v 0 ltac:(lia)) as R.
  destruct (rot k v) as [|x r]; [cbn in Lr; lia|]. cbn in R |- *. rewrite R. now rewrite qentry_nat.
Qed.

Lemma first_letter v : v <> [] -> incl v QPLUS -> perfect v ->
  exists k g w, k < length v /\ In g Q24 /\ length w = length v /\ (forall i, qentry w i = qmul g (qentry v (i + Z.of_nat k))) /\ incl w QPLUS /\ hd Q1 w = Q1 /\ perfect w.
Proof.
  intros Hv I P.
  assert (X : exists k, k < length v /\ (In (nth k v Q0) Q8 \/ forall x, In x v -> ~ In x Q8)).
  { destruct (existsb (inb Q8) v) eqn:E.
    - apply existsb_exists in E as (x & Ix & E). apply inb_iff in E. apply In_nth with (d := Q0) in Ix as (k & Hk & <-). eauto.
    - exists 0. split; [destruct v; cbn; [congruence|lia]|]. right. intros x Ix H. apply inb_iff in H.
      assert (existsb (inb Q8) v = true) by (apply existsb_exists; eauto). congruence. }
  destruct X as (k & Hk & X). set (x := nth k v Q0) in *. assert (Ix : In x QPLUS) by (apply I, nth_In, Hk).
  pose proof (Q24_norm x (plus_24 x Ix)) as Nx.
  exists k, (qconj x), (map (qmul (qconj x)) (rot k v)).
  split; auto. split; [now apply Q24_conj, plus_24|]. split; [now rewrite map_length, rot_length|].
  split; [intros i; now rewrite qentry_map, rot_entry|]. split; [|split; [|now apply perfect_unit, perfect_rot]].
  - intros z Hz. apply in_map_iff in Hz as (y & <- & Hy).
    assert (Iy : In y QPLUS) by now apply (rot_incl k v QPLUS Hv I).
    destruct X as [X|X].
    + apply Q8_plus; auto. now apply Q8_unit.
    + destruct (plus_quotient x y Ix Iy) as [H|[H|H]].
      * exfalso. apply (X x); auto. now apply nth_In.
      * exfalso. apply (X y); auto. now apply (rot_incl k v v Hv (incl_refl v)).
      * now apply Q8_incl.
  - pose proof (rot_hd k v Hk) as R. pose proof (rot_length k v) as Lr. destruct (rot k v) as [|y r]; [destruct v; cbn in *; [lia|discriminate]|].
    cbn [map hd] in R |- *. fold x in R. rewrite R. now rewrite qconj_mul_self, Nx, qscale_1.
Qed.

(* ---- the autocorrelation at half the length ---- *)

Definition sg (k : nat) : Z := if Nat.even k then 1%Z else (-1)%Z.
Lemma sign_scale k q : SpecFind.sign k q = qscale (injQ (sg k)) q.
Proof.
  unfold SpecFind.sign, sg. destruct (Nat.even k).
  - replace (injQ 1) with 1%Qc by (apply Qc_is_canon; reflexivity). now rewrite qscale_1.
  - rewrite qneg_scale. reflexivity.
Qed.
Lemma qsum_app m k f : qsum (m + k) f = qadd (qsum m f) (qsum k (fun i => f (m + i))).
Proof.
  induction k as [|k IH]; [now rewrite Nat.add_0_r, qadd_0_r|]. rewrite Nat.add_succ_r, !qsum_S, IH. now rewrite qadd_assoc.
Qed.
Lemma qscale_plus a b p : qscale (a + b)%Qc p = qadd (qscale a p) (qscale b p).
Proof. destruct p. unfold qscale, qadd. cbn [Quat.q_s Quat.q_x Quat.q_y Quat.q_z]. f_equal; ring. Qed.
Lemma qscale_zero p : qscale 0%Qc p = Q0.
Proof. destruct p. unfold qscale, Q0. cbn [Quat.q_s Quat.q_x Quat.q_y Quat.q_z]. f_equal; ring. Qed.
Lemma qscale_one_zero a : qscale a Q1 = Q0 -> a = 0%Qc.
Proof. intros H. apply (f_equal Quat.q_s) in H. unfold qscale, Q1, Q0 in H. cbn [Quat.q_s] in H. rewrite <- H. ring. Qed.
Lemma qsum_const m (s : nat -> Z) : qsum m (fun i => qscale (injQ (s i)) Q1) = qscale (injQ (sumZ m s)) Q1.
Proof.
  induction m as [|m IH]; [change (sumZ 0 s) with 0%Z; now rewrite injQ_0, qscale_zero|]. now rewrite qsum_S, IH, sumZ_S, injQ_add, qscale_plus.
Qed.
Lemma half_corr v m (s : nat -> Z) : 1 <= m -> length v = 2 * m -> (forall x, In x v -> qnorm2 x = 1%Qc) -> perfect v ->
  (forall i, i < m -> nth (m + i) v Q0 = qscale (injQ (s i)) (nth i v Q0)) -> sumZ m s = 0%Z.
Proof.
  intros Hm Lv N P S.
  assert (E : qpaf v (Z.of_nat m) = qscale (injQ (sumZ m s + sumZ m s)) Q1).
  { unfold qpaf. rewrite Lv. replace (2 * m) with (m + m) by lia. rewrite qsum_app, injQ_add.
    assert (T : forall i, i < m -> qmul (nth i v Q0) (qconj (nth (m + i) v Q0)) = qscale (injQ (s i)) Q1 /\ qmul (nth (m + i) v Q0) (qconj (nth i v Q0)) = qscale (injQ (s i)) Q1).
    { intros i Hi. rewrite (S i Hi), qscale_conj, <- qscale_mul_r, <- qscale_mul_l, qmul_conj, N by (apply nth_In; lia). now rewrite qscale_1. }
    rewrite (qsum_ext m _ (fun i => qscale (injQ (s i)) Q1)).
    2:{ intros i Hi. rewrite qentry_nat by lia. replace (Z.of_nat i + Z.of_nat m)%Z with (Z.of_nat (m + i)) by lia. rewrite qentry_nat by lia. exact (proj1 (T i Hi)). }
    rewrite (qsum_ext m (fun i => qmul (qentry v (Z.of_nat (m + i))) _) (fun i => qscale (injQ (s i)) Q1)).
    2:{ intros i Hi. rewrite qentry_nat by lia. replace (qentry v (Z.of_nat (m + i) + Z.of_nat m)) with (nth i v Q0); [exact (proj2 (T i Hi))|].
        unfold qentry, pos. rewrite Lv. replace (Z.of_nat (m + i) + Z.of_nat m)%Z with (Z.of_nat i + 1 * Z.of_nat (2 * m))%Z by lia.
        rewrite Z.mod_add, Z.mod_small, Nat2Z.id by lia. reflexivity. }
    rewrite qsum_const. now rewrite qscale_plus. }
  rewrite (P (Z.of_nat m) ltac:(lia)) in E. symmetry in E. apply qscale_one_zero in E. rewrite <- injQ_0 in E. apply injQ_inj in E. lia.
Qed.
Lemma sum_alt m : sumZ m sg = if Nat.even m then 0%Z else 1%Z.
Proof.
  induction m as [|m IH]; [reflexivity|]. rewrite sumZ_S, IH. unfold sg. rewrite Nat.even_succ, <- Nat.negb_even. destruct (Nat.even m); reflexivity.
Qed.
Lemma sum_alt2 k : sumZ (4 * k) (fun i => sg (i / 2)) = 0%Z /\ sumZ (S (4 * k)) (fun i => sg (i / 2)) = 1%Z /\
  sumZ (S (S (4 * k))) (fun i => sg (i / 2)) = 2%Z /\ sumZ (S (S (S (4 * k)))) (fun i => sg (i / 2)) = 1%Z.
Proof.
  assert (D : forall k, sg (4 * k / 2) = 1%Z /\ sg (S (4 * k) / 2) = 1%Z /\ sg (S (S (4 * k)) / 2) = (-1)%Z /\ sg (S (S (S (4 * k))) / 2) = (-1)%Z).
  { clear k. intros k. rewrite <- (Nat.div_unique (4 * k) 2 (2 * k) 0), <- (Nat.div_unique (S (4 * k)) 2 (2 * k) 1),
      <- (Nat.div_unique (S (S (4 * k))) 2 (S (2 * k)) 0), <- (Nat.div_unique (S (S (S (4 * k)))) 2 (S (2 * k)) 1) by lia.
    unfold sg. rewrite !Nat.even_succ, <- !Nat.negb_even, !Nat.even_mul. cbn. auto. }
  rewrite !sumZ_S. destruct (D k) as (-> & -> & -> & _).
  assert (Z : sumZ (4 * k) (fun i => sg (i / 2)) = 0%Z); [|rewrite Z; auto].
  induction k as [|k IH]; [reflexivity|]. replace (4 * S k) with (S (S (S (S (4 * k))))) by lia. rewrite !sumZ_S, IH.
  destruct (D k) as (-> & -> & -> & ->). reflexivity.
Qed.
Lemma sum_alt2_zero m : sumZ m (fun i => sg (i / 2)) = 0%Z -> m mod 4 = 0.
Proof.
  intros H. pose proof (Nat.div_mod m 4 ltac:(lia)) as E. pose proof (Nat.mod_upper_bound m 4 ltac:(lia)) as B. set (k := m / 4) in *. set (r := m mod 4) in *.
  destruct (sum_alt2 k) as (_ & S1 & S2 & S3).
  destruct r as [|[|[|[|r]]]]; auto; try lia; exfalso.
  - replace m with (S (4 * k)) in H by lia. rewrite S1 in H. discriminate.
  - replace m with (S (S (4 * k))) in H by lia. rewrite S2 in H. discriminate.
  - replace m with (S (S (S (4 * k)))) in H by lia. rewrite S3 in H. discriminate.
Qed.

Lemma sum_IV m : sumZ (S m) (fun i => if i =? 0 then 1%Z else (-1)%Z) = (1 - Z.of_nat m)%Z.
Proof. induction m as [|m IH]; [reflexivity|]. rewrite sumZ_S, IH. cbn [Nat.eqb]. lia. Qed.
Lemma injQ_1 : injQ 1 = 1%Qc.
Proof. apply Qc_is_canon. reflexivity. Qed.
Lemma sym_lengths s n al v : 1 <= n -> Nat.even n = true -> incl al Q24 -> listed_sym s n al v -> possible s n.
Proof.
  intros Hn Ev Ial (Lv & Iv & (H0 & Hm) & Hs & P).
  destruct s; [exact I| | |]; specialize (Hm Ev); apply Nat.even_spec in Ev as (m & ->).
  all: assert (E2 : 2 * m / 2 = m) by (rewrite Nat.mul_comm; apply Nat.div_mul; lia); rewrite E2 in Hm.
  all: assert (Hm1 : 1 <= m) by lia.
  all: assert (Eh : (2 * m + 1) / 2 = m) by (symmetry; apply (Nat.div_unique _ 2 m 1); lia); rewrite Eh in Hs.
  all: assert (N : forall x, In x v -> qnorm2 x = 1%Qc) by (intros x Hx; apply Q24_norm, Ial, Iv, Hx).
  all: assert (E0 : nth 0 v Q0 = Q1) by (destruct v; [cbn in Lv; lia|exact H0]).
  all: assert (Em : nth m v Q0 = Q1) by (rewrite <- Hm; apply nth_indep; lia).
  all: unfold symmetric_at in Hs; rewrite E2 in Hs.
  - assert (X : sumZ m sg = 0%Z).
    { apply (half_corr v m); auto. intros [|i] Hi; [rewrite Nat.add_0_r, E0, Em; symmetry; transitivity (qscale (injQ 1) Q1); [reflexivity|]; now rewrite injQ_1, qscale_1|]. rewrite Hs by lia. apply sign_scale. }
    rewrite sum_alt in X. destruct (Nat.even m) eqn:Em2; [|discriminate]. apply Nat.even_spec in Em2 as (k & ->). cbn [possible].
    replace (2 * (2 * k)) with (k * 4) by lia. apply Nat.mod_mul. lia.
  - assert (X : sumZ m (fun i => sg (i / 2)) = 0%Z).
    { apply (half_corr v m); auto. intros [|i] Hi; [rewrite Nat.add_0_r, E0, Em; symmetry; transitivity (qscale (injQ 1) Q1); [reflexivity|]; now rewrite injQ_1, qscale_1|]. rewrite Hs by lia. apply sign_scale. }
    apply sum_alt2_zero in X. cbn [possible]. apply Nat.mod_divide in X as (k & ->); [|lia]. replace (2 * (k * 4)) with (k * 8) by lia. apply Nat.mod_mul. lia.
  - assert (X : sumZ m (fun i => if i =? 0 then 1%Z else (-1)%Z) = 0%Z).
    { apply (half_corr v m); auto. intros [|i] Hi; [rewrite Nat.add_0_r, E0, Em; cbn [Nat.eqb]; now rewrite injQ_1, qscale_1|]. rewrite Hs by lia.
      rewrite qneg_scale. cbn [Nat.eqb]. f_equal. }
    destruct m as [|m]; [lia|]. rewrite sum_IV in X. cbn [possible]. lia.
Qed.
(* sequences with the symmetry IV everywhere *)
Lemma no_IV n v : 1 <= n -> length v = 2 * n -> incl v Q24 -> (forall i, i < n -> symmetric_at SymIV (2 * n) v i) -> ~ perfect v.
Proof.
  intros Hn Lv Iv Hs P.
  assert (X : sumZ n (fun _ => (-1)%Z) = 0%Z).
  { apply (half_corr v n); auto; [intros x Hx; now apply Q24_norm, Iv|]. intros i Hi. specialize (Hs i Hi). unfold symmetric_at in Hs.
    replace (2 * n / 2) with n in Hs by (rewrite Nat.mul_comm; symmetry; apply Nat.div_mul; lia). rewrite Hs, qneg_scale. f_equal. }
  assert (Y : forall m, sumZ m (fun _ => (-1)%Z) = (- Z.of_nat m)%Z) by (induction m as [|m IH]; [reflexivity|rewrite sumZ_S, IH; lia]).
  rewrite Y in X. lia.
Qed.
