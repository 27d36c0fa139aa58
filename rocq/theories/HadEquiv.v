(* Equivalent quadruples give Hadamard-equivalent matrices. *)
From Coq Require Import List ZArith Lia Arith Bool Relations Znumtheory.
From Verif Require Import Base BaseFacts Sums ModelSequence ModelWilliamson Spec SeqFacts SpecEquiv OpFacts EquivFacts TypeFacts ModelMatrices SpecMatrix
  MatFacts HmFacts ModelGraph SpecGraph GraphFacts GraphThms.
Import ListNotations.
Open Scope nat_scope.
Notation length := List.length.

(* ---- Hadamard equivalence of functions ---- *)
Definition fequiv (N : nat) (a b : nat -> nat -> Z) : Prop :=
  exists (r c : nat -> nat) (s t : nat -> Z), permutes N r /\ permutes N c /\ (forall i, i < N -> sign (s i) /\ sign (t i)) /\
    forall i j, i < N -> j < N -> b i j = (s i * t j * a (r i) (c j))%Z.
Lemma fequiv_tab N a b : fequiv N a b -> hadamard_equivalent N (tab N a) (tab N b).
Proof.
  intros (r & c & s & t & Hr & Hc & S & E). exists r, c, s, t. split; auto. split; auto. split; auto.
  intros i j Hi Hj. rewrite !cell_tab; auto; [apply Hr|apply Hc]; auto.
Qed.
Lemma sign_mul x y : sign x -> sign y -> sign (x * y)%Z.
Proof. intros [-> | ->] [-> | ->]; unfold sign; auto. Qed.
Lemma sign_1 : sign 1. Proof. now left. Qed.
Lemma fequiv_refl N a : fequiv N a a.
Proof.
  exists (fun i => i), (fun i => i), (fun _ => 1%Z), (fun _ => 1%Z). split; [split; auto|]. split; [split; auto|].
  split; [intros; split; apply sign_1|]. intros. lia.
Qed.
Lemma permutes_comp N f g : permutes N f -> permutes N g -> permutes N (fun i => f (g i)).
Proof. intros [F1 F2] [G1 G2]. split; auto. Qed.
Lemma fequiv_trans N a b c : fequiv N a b -> fequiv N b c -> fequiv N a c.
Proof.
  intros (r & k & s & t & Hr & Hk & S & E) (r' & k' & s' & t' & Hr' & Hk' & S' & E').
  exists (fun i => r (r' i)), (fun i => k (k' i)), (fun i => s' i * s (r' i))%Z, (fun j => t' j * t (k' j))%Z.
  split; [now apply permutes_comp|]. split; [now apply permutes_comp|].
  pose proof (proj1 Hr'). pose proof (proj1 Hk').
  split; [intros i Hi; split; apply sign_mul; [apply S'|apply S|apply S'|apply S]; auto|].
  intros i j Hi Hj. rewrite E', E by auto. ring.
Qed.
Definition tr (a : nat -> nat -> Z) : nat -> nat -> Z := fun i j => a j i.
Lemma fequiv_tr N a b : fequiv N a b -> fequiv N (tr a) (tr b).
Proof.
  intros (r & c & s & t & Hr & Hc & S & E). exists c, r, t, s. split; auto. split; auto. split.
  - intros i Hi. split; apply S; auto.
  - intros i j Hi Hj. unfold tr. rewrite E by auto. ring.
Qed.

(* ---- blocks ---- *)
Lemma block_perm n rp (rho : nat -> nat -> nat) : 1 <= n -> permutes 4 rp -> (forall b, b < 4 -> permutes n (rho b)) ->
  permutes (4 * n) (fun i => rp (i / n) * n + rho (i / n) (i mod n)).
Proof.
  intros Hn [R1 R2] Hrho.
  assert (B : forall i, i < 4 * n -> i / n < 4 /\ i mod n < n /\ i = (i / n) * n + i mod n).
  { intros i Hi. destruct (block_split n i Hn Hi) as (b & k & E & Hb & Hk & -> & ->). auto. }
  split.
  - intros i Hi. destruct (B i Hi) as (B1 & B2 & _). specialize (R1 _ B1). pose proof (proj1 (Hrho _ B1) _ B2).
    assert (S (rp (i / n)) * n <= 4 * n) by (apply Nat.mul_le_mono_r; lia). lia.
  - intros i j Hi Hj E. destruct (B i Hi) as (B1 & B2 & Ei), (B j Hj) as (C1 & C2 & Ej).
    destruct (block_uniq n _ _ _ _ (proj1 (Hrho _ B1) _ B2) (proj1 (Hrho _ C1) _ C2) E) as [E1 E2].
    apply R2 in E1; auto. rewrite <- E1 in E2. apply (proj2 (Hrho _ B1)) in E2; auto. rewrite Ei, Ej. congruence.
Qed.
Lemma block_fequiv n (a b : nat -> nat -> Z) rp cp (rho kap : nat -> nat -> nat) (s t : nat -> nat -> Z) : 1 <= n ->
  permutes 4 rp -> permutes 4 cp -> (forall k, k < 4 -> permutes n (rho k)) -> (forall k, k < 4 -> permutes n (kap k)) ->
  (forall k i, k < 4 -> i < n -> sign (s k i) /\ sign (t k i)) ->
  (forall bi bj i j, bi < 4 -> bj < 4 -> i < n -> j < n ->
     b (bi * n + i) (bj * n + j) = (s bi i * t bj j * a (rp bi * n + rho bi i)%nat (cp bj * n + kap bj j)%nat)%Z) ->
  fequiv (4 * n) a b.
Proof.
  intros Hn Hr Hc Hrho Hkap S E.
  exists (fun i => rp (i / n) * n + rho (i / n) (i mod n)), (fun i => cp (i / n) * n + kap (i / n) (i mod n)),
    (fun i => s (i / n) (i mod n)), (fun i => t (i / n) (i mod n)).
  split; [now apply block_perm|]. split; [now apply block_perm|]. split.
  - intros i Hi. destruct (block_split n i Hn Hi) as (x & k & -> & Hb & Hk & -> & ->). apply S; auto.
  - intros i j Hi Hj. destruct (block_split n i Hn Hi) as (x & k & Ei & Hb & Hk & -> & ->). destruct (block_split n j Hn Hj) as (y & l & Ej & Hy & Hl & -> & ->).
    rewrite Ei, Ej. now apply E.
Qed.

(* i -> i*k + x modulo n *)
Definition affine (n : nat) (k x : Z) (i : nat) : nat := pos n (Z.of_nat i * k + x).
Lemma affine_perm n k x : 1 <= n -> Z.gcd k (Z.of_nat n) = 1%Z -> permutes n (affine n k x).
Proof.
  intros Hn Hg. split; [intros; apply pos_lt; lia|]. intros i j Hi Hj E. unfold affine in E. apply (f_equal Z.of_nat) in E.
  rewrite !pos_mod in E by lia.
  assert (D : (((Z.of_nat i - Z.of_nat j) * k) mod Z.of_nat n = 0)%Z).
  { replace ((Z.of_nat i - Z.of_nat j) * k)%Z with ((Z.of_nat i * k + x) - (Z.of_nat j * k + x))%Z by ring.
    rewrite Zminus_mod, E, Z.sub_diag. reflexivity. }
  destruct (Z.eq_dec ((Z.of_nat i - Z.of_nat j) mod Z.of_nat n) 0) as [E0|E0].
  - apply Z.mod_divide in E0; [|lia]. destruct E0 as [c E0].
    destruct (Z.eq_dec c 0) as [->|]; [lia|]. assert (Z.of_nat n * 1 <= Z.of_nat n * Z.abs c)%Z by (apply Z.mul_le_mono_nonneg_l; lia).
    assert (Z.abs (Z.of_nat i - Z.of_nat j) = Z.abs c * Z.of_nat n)%Z by (rewrite E0, Z.abs_mul; f_equal; lia). lia.
  - exfalso. apply (coprime_mul_mod (Z.of_nat n) k (Z.of_nat i - Z.of_nat j)); auto. lia.
Qed.
Lemma entry_affine l n k x y i j : length l = n -> 1 <= n ->
  entry l (Z.of_nat (affine n k y j) - Z.of_nat (affine n k x i)) = entry l ((Z.of_nat j - Z.of_nat i) * k + y - x).
Proof.
  intros L Hn. apply entry_periodic. rewrite L. unfold affine. rewrite !pos_mod by lia.
  rewrite <- Zminus_mod. f_equal. ring.
Qed.

(* the tag of a block *)
Definition btag (bi bj : nat) : Tag :=
  match bi, bj with
  | 0, 0 | 1, 1 | 2, 2 | 3, 3 => TW
  | 0, 1 | 1, 0 | 2, 3 | 3, 2 => TX
  | 0, 2 | 2, 0 | 1, 3 | 3, 1 => TY
  | _, _ => TZ
  end.
Lemma bseq_tag q bi bj : bseq q bi bj = slot q (btag bi bj).
Proof. destruct bi as [|[|[|[|]]]], bj as [|[|[|[|]]]]; reflexivity. Qed.
Lemma btag_sym bi bj : bi < 4 -> bj < 4 -> btag bi bj = btag bj bi.
Proof. intros. destruct bi as [|[|[|[|]]]], bj as [|[|[|[|]]]]; try lia; reflexivity. Qed.
Lemma slot_length n q t : wf n q -> length (slot q t) = n.
Proof. intros (_ & A & B & C & D). destruct t; auto. Qed.

Lemma quad_fequiv n q q' rp cp (rs cs : nat -> Z) k (x y : nat -> Z) (e : bool) : wf n q -> 1 <= n -> Z.gcd k (Z.of_nat n) = 1%Z ->
  permutes 4 rp -> permutes 4 cp -> (forall b, b < 4 -> sign (rs b) /\ sign (cs b)) ->
  (forall bi bj z, bi < 4 -> bj < 4 ->
     (bsign bi bj * entry (slot q' (btag bi bj)) z =
      rs bi * cs bj * (if e then par z else 1) * (bsign (rp bi) (cp bj) * entry (slot q (btag (rp bi) (cp bj))) (z * k + y bj - x bi)))%Z) ->
  fequiv (4 * n) (bmat n q) (bmat n q').
Proof.
  intros Hw Hn Hg Hr Hc Hs E.
  apply (block_fequiv n _ _ rp cp (fun b => affine n k (x b)) (fun b => affine n k (y b))
    (fun b i => rs b * (if e then par (Z.of_nat i) else 1))%Z (fun b i => cs b * (if e then par (Z.of_nat i) else 1))%Z); auto.
  - intros; now apply affine_perm.
  - intros; now apply affine_perm.
  - intros b i Hb Hi. destruct (Hs b Hb). pose proof (par_pm (Z.of_nat i)). split; apply sign_mul; auto; destruct e; auto using sign_1.
  - intros bi bj i j Hbi Hbj Hi Hj. rewrite !bmat_block; auto; try (apply affine_perm; auto).
    rewrite !bseq_tag. unfold circ. rewrite E by auto. rewrite (entry_affine _ n) by (auto; now apply slot_length).
    destruct e; [|ring]. unfold Z.sub at 1. rewrite par_add, par_opp. ring.
Qed.
Lemma quad_fequiv_tr n q q' rp cp (rs cs : nat -> Z) : wf n q -> 1 <= n ->
  permutes 4 rp -> permutes 4 cp -> (forall b, b < 4 -> sign (rs b) /\ sign (cs b)) ->
  (forall bi bj z, bi < 4 -> bj < 4 ->
     (bsign bi bj * entry (slot q' (btag bi bj)) z = rs bi * cs bj * (bsign (cp bj) (rp bi) * entry (slot q (btag (rp bi) (cp bj))) z))%Z) ->
  fequiv (4 * n) (tr (bmat n q)) (bmat n q').
Proof.
  intros Hw Hn Hr Hc Hs E.
  assert (G : Z.gcd (-1) (Z.of_nat n) = 1%Z) by (change (-1)%Z with (- (1))%Z; rewrite Z.gcd_opp_l; apply Z.gcd_1_l).
  apply (block_fequiv n _ _ rp cp (fun b => affine n (-1) 0) (fun b => affine n (-1) 0) (fun b i => rs b) (fun b i => cs b)); auto.
  - intros; now apply affine_perm.
  - intros; now apply affine_perm.
  - intros bi bj i j Hbi Hbj Hi Hj. unfold tr. rewrite !bmat_block; auto; try (apply affine_perm; auto).
    rewrite !bseq_tag. unfold circ. rewrite E by auto. rewrite (entry_affine _ n) by (auto; now apply slot_length).
    rewrite (btag_sym (cp bj)); [|apply Hc; auto|apply Hr; auto]. do 3 f_equal. lia.
Qed.

(* ---- signed rearrangements of the four sequences ---- *)
Definition wit : Type := list nat * list nat * list Z * list Z.
Definition at4 (l : list nat) (i : nat) : nat := nth i l 0.
Definition sat4 (l : list Z) (i : nat) : Z := nth i l 1%Z.
Definition perm4_b (l : list nat) : bool :=
  forallb (fun i => (at4 l i <? 4) && forallb (fun j => (i =? j) || negb (at4 l i =? at4 l j)) (seq 0 4)) (seq 0 4).
Definition wit_ok (transposed : bool) (pi : Tag -> Tag) (sg : Tag -> Z) (w : wit) : bool :=
  let '(rp, cp, rs, cs) := w in
  perm4_b rp && perm4_b cp &&
  forallb (fun i => ((sat4 rs i =? 1) || (sat4 rs i =? -1))%Z && ((sat4 cs i =? 1) || (sat4 cs i =? -1))%Z) (seq 0 4) &&
  forallb (fun i => forallb (fun j =>
    tag_eq (pi (btag i j)) (btag (at4 rp i) (at4 cp j)) &&
    (bsign i j * sg (btag i j) =? sat4 rs i * sat4 cs j * (if transposed then bsign (at4 cp j) (at4 rp i) else bsign (at4 rp i) (at4 cp j)))%Z)
    (seq 0 4)) (seq 0 4).
Lemma perm4_ok l : perm4_b l = true -> permutes 4 (at4 l).
Proof.
  unfold perm4_b. rewrite forallb_forall. intros H. split.
  - intros i Hi. specialize (H i ltac:(apply in_seq; lia)). apply andb_true_iff in H as [H _]. now apply Nat.ltb_lt.
  - intros i j Hi Hj E. specialize (H i ltac:(apply in_seq; lia)). apply andb_true_iff in H as [_ H]. rewrite forallb_forall in H.
    specialize (H j ltac:(apply in_seq; lia)). rewrite E, Nat.eqb_refl in H. apply orb_true_iff in H as [H|H]; [now apply Nat.eqb_eq|discriminate].
Qed.
Lemma tag_eq_eq s t : tag_eq s t = true -> s = t.
Proof. destruct s, t; cbn; congruence. Qed.
Lemma wit_fequiv n q q' pi sg w : wf n q -> 1 <= n -> (forall t z, entry (slot q' t) z = (sg t * entry (slot q (pi t)) z)%Z) ->
  (wit_ok false pi sg w = true -> fequiv (4 * n) (bmat n q) (bmat n q')) /\
  (wit_ok true pi sg w = true -> fequiv (4 * n) (tr (bmat n q)) (bmat n q')).
Proof.
  intros Hw Hn E. destruct w as [[[rp cp] rs] cs]. unfold wit_ok.
  assert (P : forall tr, perm4_b rp && perm4_b cp &&
     forallb (fun i => ((sat4 rs i =? 1) || (sat4 rs i =? -1))%Z && ((sat4 cs i =? 1) || (sat4 cs i =? -1))%Z) (seq 0 4) &&
     forallb (fun i => forallb (fun j => tag_eq (pi (btag i j)) (btag (at4 rp i) (at4 cp j)) &&
       (bsign i j * sg (btag i j) =? sat4 rs i * sat4 cs j * (if tr : bool then bsign (at4 cp j) (at4 rp i) else bsign (at4 rp i) (at4 cp j)))%Z) (seq 0 4)) (seq 0 4) = true ->
     permutes 4 (at4 rp) /\ permutes 4 (at4 cp) /\ (forall b, b < 4 -> sign (sat4 rs b) /\ sign (sat4 cs b)) /\
     forall bi bj, bi < 4 -> bj < 4 -> pi (btag bi bj) = btag (at4 rp bi) (at4 cp bj) /\
       (bsign bi bj * sg (btag bi bj) = sat4 rs bi * sat4 cs bj * (if tr then bsign (at4 cp bj) (at4 rp bi) else bsign (at4 rp bi) (at4 cp bj)))%Z).
  { intros tr0 H. rewrite !andb_true_iff in H. destruct H as [[[H1 H2] H3] H4]. split; [now apply perm4_ok|]. split; [now apply perm4_ok|]. split.
    - intros b Hb. rewrite forallb_forall in H3. specialize (H3 b ltac:(apply in_seq; lia)).
      rewrite andb_true_iff, !orb_true_iff, !Z.eqb_eq in H3. exact H3.
    - intros bi bj Hbi Hbj. rewrite forallb_forall in H4. specialize (H4 bi ltac:(apply in_seq; lia)). rewrite forallb_forall in H4.
      specialize (H4 bj ltac:(apply in_seq; lia)). rewrite andb_true_iff, Z.eqb_eq in H4. destruct H4. split; auto using tag_eq_eq. }
  split; intros H; [apply (P false) in H as (H1 & H2 & H3 & H4)|apply (P true) in H as (H1 & H2 & H3 & H4)].
  - apply (quad_fequiv n q q' (at4 rp) (at4 cp) (sat4 rs) (sat4 cs) 1 (fun _ => 0%Z) (fun _ => 0%Z) false); auto; [apply Z.gcd_1_l|].
    intros bi bj z Hbi Hbj. destruct (H4 bi bj Hbi Hbj) as [A B]. rewrite E, <- A. replace (z * 1 + 0 - 0)%Z with z by lia.
    rewrite Z.mul_assoc, B. ring.
  - apply (quad_fequiv_tr n q q' (at4 rp) (at4 cp) (sat4 rs) (sat4 cs)); auto.
    intros bi bj z Hbi Hbj. destruct (H4 bi bj Hbi Hbj) as [A B]. rewrite E, <- A. rewrite Z.mul_assoc, B. ring.
Qed.

(* ---- the generators ---- *)
Lemma lact_len f l : length (lact f l) = length l.
Proof. unfold lact. now rewrite map_length, seq_length. Qed.
Lemma permutes_id n : permutes n (fun i => i). Proof. split; auto. Qed.

Lemma all_rot_fequiv n q k : wf n q -> 1 <= n -> fequiv (4 * n) (bmat n q) (bmat n (gact (All (Rot k)) q)).
Proof.
  intros Hw Hn. apply (quad_fequiv n q _ (fun b => b) (fun b => b) (fun _ => 1%Z) (fun _ => 1%Z) 1 (fun _ => 0%Z) (fun _ => Z.of_nat k) false);
    auto using permutes_id, Z.gcd_1_l; [intros; split; apply sign_1|].
  intros bi bj z _ _. rewrite gact_slot, entry_rot. replace (z * 1 + Z.of_nat k - 0)%Z with (z + Z.of_nat k)%Z by lia. ring.
Qed.
Lemma all_dil_fequiv n q k : wf n q -> 1 <= n -> Nat.gcd n k = 1 -> fequiv (4 * n) (bmat n q) (bmat n (gact (All (Dil k)) q)).
Proof.
  intros Hw Hn Hg. apply (quad_fequiv n q _ (fun b => b) (fun b => b) (fun _ => 1%Z) (fun _ => 1%Z) (Z.of_nat k) (fun _ => 0%Z) (fun _ => 0%Z) false);
    auto using permutes_id, gcd_ZZ; [intros; split; apply sign_1|].
  intros bi bj z _ _. rewrite gact_slot, entry_dil. replace (z * Z.of_nat k + 0 - 0)%Z with (z * Z.of_nat k)%Z by lia. ring.
Qed.
Lemma all_alt_fequiv n q : pm_quad n q -> 1 <= n -> Nat.even n = true -> fequiv (4 * n) (bmat n q) (bmat n (gact (All Alt) q)).
Proof.
  intros Hp Hn He. apply pm_slots in Hp as [Hw Hp].
  apply (quad_fequiv n q _ (fun b => b) (fun b => b) (fun _ => 1%Z) (fun _ => 1%Z) 1 (fun _ => 0%Z) (fun _ => 0%Z) true);
    auto using permutes_id, Z.gcd_1_l; [intros; split; apply sign_1|].
  intros bi bj z _ _. rewrite gact_slot, entry_alt; [|apply Hp|now rewrite (slot_length n)].
  replace (z * 1 + 0 - 0)%Z with z by lia. ring.
Qed.

(* half shifts: which block rows and block columns are shifted by n/2 *)
Definition half_ok (s t : Tag) (x y : list nat) : bool :=
  forallb (fun i => forallb (fun j =>
    Nat.even ((if tag_eq (btag i j) s then 1 else 0) + (if tag_eq (btag i j) t then 1 else 0) + at4 x i + at4 y j)) (seq 0 4)) (seq 0 4).
Lemma half_wits_ok s t : In (s, t) all_pairs -> exists x y, half_ok s t x y = true.
Proof.
  cbn [all_pairs In]. intros H. repeat destruct H as [H|H]; try (injection H as <- <-);
    [exists [0; 0; 1; 1], [1; 1; 0; 0]|exists [0; 1; 0; 1], [1; 0; 1; 0]|exists [0; 1; 1; 0], [1; 0; 0; 1]
    |exists [0; 1; 1; 0], [0; 1; 1; 0]|exists [0; 1; 0; 1], [0; 1; 0; 1]|exists [0; 0; 1; 1], [0; 0; 1; 1]|destruct H]; vm_compute; reflexivity.
Qed.
Lemma half_fequiv n q s t : wf n q -> 1 <= n -> Nat.even n = true -> In (s, t) all_pairs ->
  fequiv (4 * n) (bmat n q) (bmat n (wact [At s (Rot (n / 2)); At t (Rot (n / 2))] q)).
Proof.
  intros Hw Hn He Hst. destruct (half_wits_ok s t Hst) as (x & y & H).
  apply Nat.even_spec in He as [h Hh]. assert (Eh : n / 2 = h) by (rewrite Hh, Nat.mul_comm; apply Nat.div_mul; lia). rewrite Eh.
  apply (quad_fequiv n q _ (fun b => b) (fun b => b) (fun _ => 1%Z) (fun _ => 1%Z) 1
    (fun b => - (Z.of_nat (at4 x b) * Z.of_nat h))%Z (fun b => Z.of_nat (at4 y b) * Z.of_nat h)%Z false);
    auto using permutes_id, Z.gcd_1_l; [intros; split; apply sign_1|].
  intros bi bj z Hbi Hbj. unfold half_ok in H. rewrite forallb_forall in H. specialize (H bi ltac:(apply in_seq; lia)).
  rewrite forallb_forall in H. specialize (H bj ltac:(apply in_seq; lia)). apply Nat.even_spec in H as [m Hm].
  set (u := btag bi bj) in *.
  assert (E : entry (slot (wact [At s (Rot h); At t (Rot h)] q) u) z =
    entry (slot q u) (z + Z.of_nat ((if tag_eq u s then 1 else 0) + (if tag_eq u t then 1 else 0)) * Z.of_nat h)).
  { cbn [wact fold_left]. rewrite !gact_slot. destruct (tag_eq u t), (tag_eq u s); rewrite ?entry_rot; f_equal; lia. }
  rewrite E. rewrite (entry_periodic (slot q u) _ (z * 1 + Z.of_nat (at4 y bj) * Z.of_nat h - - (Z.of_nat (at4 x bi) * Z.of_nat h))%Z); [ring|].
  rewrite (slot_length n) by auto.
  set (a := (if tag_eq u s then 1 else 0) + (if tag_eq u t then 1 else 0)) in *.
  replace (z + Z.of_nat a * Z.of_nat h)%Z with
    (z * 1 + Z.of_nat (at4 y bj) * Z.of_nat h - - (Z.of_nat (at4 x bi) * Z.of_nat h) + (Z.of_nat m - Z.of_nat (at4 x bi) - Z.of_nat (at4 y bj)) * Z.of_nat n)%Z.
  - apply Z_mod_plus_full.
  - replace (Z.of_nat n) with (2 * Z.of_nat h)%Z by lia. replace (Z.of_nat a) with (2 * Z.of_nat m - Z.of_nat (at4 x bi) - Z.of_nat (at4 y bj))%Z by lia. ring.
Qed.

(* negate one sequence, then exchange two *)
Definition P1 : list nat := [0; 1; 3; 2].
Definition P2 : list nat := [0; 3; 2; 1].
Definition P3 : list nat := [0; 2; 1; 3].
Definition C0 : list nat := [0; 1; 2; 3].
Definition C1 : list nat := [1; 0; 2; 3].
Definition C2 : list nat := [2; 1; 0; 3].
Definition C3 : list nat := [3; 1; 2; 0].
Definition ns_wit (s t u : Tag) : wit :=
  match s, t, u with
  | TW, TX, TW => (P1, C1, [1; 1; -1; 1], [1; -1; 1; 1])
  | TW, TX, TX => (P1, C1, [1; 1; 1; -1], [-1; 1; 1; 1])
  | TW, TX, TY => (P1, C1, [1; -1; 1; 1], [1; 1; -1; 1])
  | TW, TX, TZ => (P1, C1, [1; -1; -1; -1], [1; 1; 1; -1])
  | TW, TY, TW => (P2, C2, [1; 1; 1; -1], [1; 1; -1; 1])
  | TW, TY, TX => (P2, C2, [1; -1; -1; -1], [1; -1; 1; 1])
  | TW, TY, TY => (P2, C2, [1; -1; 1; 1], [-1; 1; 1; 1])
  | TW, TY, TZ => (P2, C2, [1; 1; -1; 1], [1; 1; 1; -1])
  | TW, TZ, TW => (P3, C3, [1; -1; 1; 1], [1; 1; 1; -1])
  | TW, TZ, TX => (P3, C3, [1; 1; 1; -1], [1; -1; 1; 1])
  | TW, TZ, TY => (P3, C3, [1; -1; -1; -1], [1; 1; -1; 1])
  | TW, TZ, TZ => (P3, C3, [1; 1; -1; 1], [-1; 1; 1; 1])
  | TX, TY, TW => (P3, P3, [1; -1; -1; -1], [-1; 1; 1; 1])
  | TX, TY, TX => (P3, P3, [1; 1; -1; 1], [1; 1; -1; 1])
  | TX, TY, TY => (P3, P3, [1; -1; 1; 1], [1; -1; 1; 1])
  | TX, TY, TZ => (P3, P3, [1; 1; 1; -1], [1; 1; 1; -1])
  | TX, TZ, TW => (P2, P2, [1; -1; -1; -1], [-1; 1; 1; 1])
  | TX, TZ, TX => (P2, P2, [1; 1; 1; -1], [1; 1; 1; -1])
  | TX, TZ, TY => (P2, P2, [1; 1; -1; 1], [1; 1; -1; 1])
  | TX, TZ, TZ => (P2, P2, [1; -1; 1; 1], [1; -1; 1; 1])
  | TY, TZ, TW => (P1, P1, [1; -1; -1; -1], [-1; 1; 1; 1])
  | TY, TZ, TX => (P1, P1, [1; -1; 1; 1], [1; -1; 1; 1])
  | TY, TZ, TY => (P1, P1, [1; 1; 1; -1], [1; 1; 1; -1])
  | _, _, _ => (P1, P1, [1; 1; -1; 1], [1; 1; -1; 1])
  end%Z.
Definition ns_sign (s t u v : Tag) : Z := if tag_eq (exchange s t v) u then -1 else 1.
Lemma ns_wits : forallb (fun '((s, t), u) => wit_ok false (exchange s t) (ns_sign s t u) (ns_wit s t u)) (list_prod all_pairs all_tags) = true.
Proof. vm_compute. reflexivity. Qed.
Lemma ns_fequiv n q s t u : pm_quad n q -> 1 <= n -> In (s, t) all_pairs -> fequiv (4 * n) (bmat n q) (bmat n (wact [At u Neg; Ex s t] q)).
Proof.
  intros Hp Hn Hst. pose proof ns_wits as W. rewrite forallb_forall in W.
  assert (In u all_tags) by (destruct u; cbn; tauto).
  specialize (W ((s, t), u) ltac:(apply in_prod; auto)). cbv beta iota in W. apply pm_slots in Hp as [Hw Hp].
  refine (proj1 (wit_fequiv n q _ _ _ _ Hw Hn _) W). intros v z. cbn [wact fold_left]. rewrite !gact_slot. unfold ns_sign.
  destruct (tag_eq (exchange s t v) u); [rewrite entry_neg by apply Hp|]; lia.
Qed.

Lemma reach_pm ops n q q' : reach ops q q' -> pm_quad n q -> pm_quad n q'.
Proof. induction 1 as [x y (o & _ & [->|(w & _ & ->)])| |]; auto. intros. now apply wact_pm. Qed.

Lemma qt_reach_fequiv n q q' : 1 <= n -> reach (type_ops QuaternionType) q q' -> pm_quad n q -> fequiv (4 * n) (bmat n q) (bmat n q').
Proof.
  intros Hn. induction 1 as [x y (o & Ho & [->|(w & Hw & ->)])| |x y z H1 IH1 H2 IH2]; intros Hp.
  - apply fequiv_refl.
  - assert (Es : q_size x = n) by apply Hp. rewrite Es in Hw. pose proof (proj1 Hp) as Wf.
    cbn [type_ops In] in Ho. destruct Ho as [<-|[<-|[<-|[<-|[<-|[]]]]]]; cbn [variants] in Hw.
    + apply in_map_iff in Hw as (k & <- & _). now apply all_rot_fequiv.
    + destruct (Nat.even n) eqn:He; [|destruct Hw]. destruct Hw as [<-|[]]. now apply all_alt_fequiv.
    + apply in_map_iff in Hw as (k & <- & Hk). apply filter_In in Hk as [_ Hk]. apply Nat.eqb_eq in Hk. now apply all_dil_fequiv.
    + apply in_map_iff in Hw as ([[s t] u] & <- & Hk). apply in_prod_iff in Hk as [Hk _]. now apply ns_fequiv.
    + destruct (Nat.even n) eqn:He; [|destruct Hw]. destruct Hw as [<-|Hw]; [now apply all_rot_fequiv|].
      apply in_map_iff in Hw as ([s t] & <- & Hk). now apply half_fequiv.
  - apply fequiv_refl.
  - apply fequiv_trans with (bmat n y); auto. apply IH2. now apply (reach_pm _ n _ _ H1).
Qed.

Lemma qt_reach_hadamard n q q' : 1 <= n -> pm_quad n q -> reach (type_ops QuaternionType) q q' ->
  exists h h', HM_from_williamson q QuaternionType = Some h /\ HM_from_williamson q' QuaternionType = Some h' /\
    hm_size h = 4 * n /\ hm_size h' = 4 * n /\ hadamard_equivalent (4 * n) (hm_matrix h) (hm_matrix h').
Proof.
  intros Hn Hp H. exists (mkHM (4 * n) (tab (4 * n) (bmat n q))), (mkHM (4 * n) (tab (4 * n) (bmat n q'))).
  pose proof (reach_pm _ n _ _ H Hp). rewrite !(from_williamson_spec n) by auto. do 4 (split; [reflexivity|]).
  apply fequiv_tab. now apply qt_reach_fequiv.
Qed.

(* ---- single negations and single exchanges give the transposed matrix ---- *)
Definition neg_wit (u : Tag) : wit :=
  match u with
  | TW => (C0, C0, [1; -1; -1; -1], [-1; 1; 1; 1])
  | TX => (C0, C0, [1; -1; 1; 1], [1; -1; 1; 1])
  | TY => (C0, C0, [1; 1; -1; 1], [1; 1; -1; 1])
  | TZ => (C0, C0, [1; 1; 1; -1], [1; 1; 1; -1])
  end%Z.
Definition ex_wit (s t : Tag) : wit :=
  match s, t with
  | TW, TX => (P1, C1, [1; -1; 1; -1], [])
  | TW, TY => (P2, C2, [1; -1; -1; 1], [])
  | TW, TZ => (P3, C3, [1; 1; -1; -1], [])
  | TX, TY => (P3, P3, [], [])
  | TX, TZ => (P2, P2, [], [])
  | _, _ => (P1, P1, [], [])
  end%Z.
Lemma neg_wits : forallb (fun u => wit_ok true (fun v => v) (fun v => if tag_eq v u then -1 else 1)%Z (neg_wit u)) all_tags = true.
Proof. vm_compute. reflexivity. Qed.
Lemma ex_wits : forallb (fun '(s, t) => wit_ok true (exchange s t) (fun _ => 1%Z) (ex_wit s t)) all_pairs = true.
Proof. vm_compute. reflexivity. Qed.
Lemma neg_fequiv n q u : pm_quad n q -> 1 <= n -> fequiv (4 * n) (tr (bmat n q)) (bmat n (gact (At u Neg) q)).
Proof.
  intros Hp Hn. pose proof neg_wits as W. rewrite forallb_forall in W.
  specialize (W u ltac:(destruct u; cbn; tauto)). apply pm_slots in Hp as [Hw Hp].
  refine (proj2 (wit_fequiv n q _ _ _ _ Hw Hn _) W). intros v z. rewrite !gact_slot.
  destruct (tag_eq v u); [rewrite entry_neg by apply Hp|]; lia.
Qed.
Lemma ex_fequiv n q s t : wf n q -> 1 <= n -> In (s, t) all_pairs -> fequiv (4 * n) (tr (bmat n q)) (bmat n (gact (Ex s t) q)).
Proof.
  intros Hw Hn Hst. pose proof ex_wits as W. rewrite forallb_forall in W. specialize (W (s, t) Hst).
  refine (proj2 (wit_fequiv n q _ _ _ _ Hw Hn _) W). intros v z. rewrite !gact_slot. lia.
Qed.
Definition upto_tr (N : nat) (a b : nat -> nat -> Z) : Prop := fequiv N a b \/ fequiv N (tr a) b.
Lemma upto_trans N a b c : upto_tr N a b -> upto_tr N b c -> upto_tr N a c.
Proof.
  intros [H|H] [K|K].
  - left. eapply fequiv_trans; eauto.
  - right. eapply fequiv_trans; [apply fequiv_tr; eauto|auto].
  - right. eapply fequiv_trans; eauto.
  - left. apply fequiv_tr in H. eapply fequiv_trans; [exact H|exact K].
Qed.
Definition whole_ops : list Op := [Negate; UniformShift; Reorder; EvenAlternatedNegation; Automorphism].
Lemma wt_reach_upto n q q' : 1 <= n -> reach whole_ops q q' -> pm_quad n q -> upto_tr (4 * n) (bmat n q) (bmat n q').
Proof.
  intros Hn. induction 1 as [x y (o & Ho & [->|(w & Hw & ->)])| |x y z H1 IH1 H2 IH2]; intros Hp.
  - left. apply fequiv_refl.
  - assert (Es : q_size x = n) by apply Hp. rewrite Es in Hw. pose proof (proj1 Hp) as Wf.
    cbn [whole_ops In] in Ho. destruct Ho as [<-|[<-|[<-|[<-|[<-|[]]]]]]; cbn [variants] in Hw.
    + apply in_map_iff in Hw as (k & <- & _). right. now apply neg_fequiv.
    + apply in_map_iff in Hw as (k & <- & _). left. now apply all_rot_fequiv.
    + apply in_map_iff in Hw as ([s t] & <- & Hk). right. now apply ex_fequiv.
    + destruct (Nat.even n) eqn:He; [|destruct Hw]. destruct Hw as [<-|[]]. left. now apply all_alt_fequiv.
    + apply in_map_iff in Hw as (k & <- & Hk). apply filter_In in Hk as [_ Hk]. apply Nat.eqb_eq in Hk. left. now apply all_dil_fequiv.
  - left. apply fequiv_refl.
  - apply upto_trans with (bmat n y); auto. apply IH2. now apply (reach_pm _ n _ _ H1).
Qed.
Lemma upto_tab N a b : upto_tr N a b -> hadamard_equivalent N (tab N a) (tab N b) \/ exists m, transposed N (tab N a) m /\ hadamard_equivalent N m (tab N b).
Proof.
  intros [H|H]; [left; now apply fequiv_tab|right]. exists (tab N (tr a)). split; [|now apply fequiv_tab].
  split; [apply tab_square|]. intros i j Hi Hj. now rewrite !cell_tab.
Qed.
Lemma whole_reach_hadamard n q q' : 1 <= n -> pm_quad n q -> reach whole_ops q q' ->
  exists h h', HM_from_williamson q QuaternionType = Some h /\ HM_from_williamson q' QuaternionType = Some h' /\
    hm_size h = 4 * n /\ hm_size h' = 4 * n /\
    (hadamard_equivalent (4 * n) (hm_matrix h) (hm_matrix h') \/
     exists m, transposed (4 * n) (hm_matrix h) m /\ hadamard_equivalent (4 * n) m (hm_matrix h')).
Proof.
  intros Hn Hp H. exists (mkHM (4 * n) (tab (4 * n) (bmat n q))), (mkHM (4 * n) (tab (4 * n) (bmat n q'))).
  pose proof (reach_pm _ n _ _ H Hp). rewrite !(from_williamson_spec n) by auto. do 4 (split; [reflexivity|]).
  apply upto_tab. now apply wt_reach_upto.
Qed.
(* at odd lengths no half shift exists, so these are all operations of the Williamson type *)
Lemma odd_wt_reach n q q' : Nat.even n = false -> reach (type_ops WilliamsonType) q q' -> wf n q -> reach whole_ops q q' /\ wf n q'.
Proof.
  intros He. induction 1 as [x y (o & Ho & H)| |x y z H1 IH1 H2 IH2]; intros Hw.
  - assert (Wy : wf n y). { destruct H as [->|(w & _ & ->)]; auto. now apply wact_wf. }
    split; auto. destruct H as [->|(w & H & ->)]; [apply rt_refl|]. apply rt_step. exists o. split; [|right; eauto].
    cbn [type_ops In] in Ho. destruct Ho as [<-|[<-|[<-|[<-|[<-|[<-|[]]]]]]]; cbn [whole_ops In]; try tauto.
    cbn [variants] in H. rewrite (proj1 Hw), He in H. destruct H.
  - split; auto. apply rt_refl.
  - destruct (IH1 Hw) as [A B], (IH2 B) as [C D]. split; auto. eapply rt_trans; eauto.
Qed.
Lemma odd_wt_reach_hadamard n q q' : Nat.even n = false -> pm_quad n q -> reach (type_ops WilliamsonType) q q' ->
  exists h h', HM_from_williamson q QuaternionType = Some h /\ HM_from_williamson q' QuaternionType = Some h' /\
    hm_size h = 4 * n /\ hm_size h' = 4 * n /\
    (hadamard_equivalent (4 * n) (hm_matrix h) (hm_matrix h') \/
     exists m, transposed (4 * n) (hm_matrix h) m /\ hadamard_equivalent (4 * n) m (hm_matrix h')).
Proof.
  intros He Hp H. apply whole_reach_hadamard; auto; [destruct n; [discriminate|lia]|]. now apply (odd_wt_reach n); [| |apply Hp].
Qed.
