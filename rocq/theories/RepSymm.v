(* The least element of a Williamson-type class is never symmetric when the length is at least 3. *)
From Coq Require Import List ZArith Lia Arith Bool Relations.
From Verif Require Import Base BaseFacts Sums ModelSequence SeqFacts ModelWilliamson ModelEquivalence SpecEquiv OpFacts EquivFacts TypeFacts OrderFacts EquivThms Spec.
Import ListNotations.
Open Scope Z_scope.
Notation length := List.length.

(* period 2: constant or alternating *)
Definition p2 (s : list Z) : Prop := forall i, entry s (i + 2) = entry s i.
Lemma p2_even s m : p2 s -> forall i, entry s (i + 2 * m) = entry s i.
Proof.
  intros H. assert (P : forall k i, 0 <= k -> entry s (i + 2 * k) = entry s i).
  { intros k i Hk. revert i. pattern k. apply natlike_ind; auto; [intros i; f_equal; lia|].
    intros x Hx IH i. replace (i + 2 * Z.succ x) with (i + 2 * x + 2) by lia. now rewrite H, IH. }
  intros i. destruct (Z.le_gt_cases 0 m); [now apply P|].
  rewrite <- (P (- m) (i + 2 * m)) by lia. f_equal. lia.
Qed.
Lemma p2_shift s k : pm1 s -> s <> [] -> p2 s -> (forall i, entry s (i + k) = entry s i) \/ (forall i, entry s (i + k) = - entry s i).
Proof.
  intros Hp Hne H. destruct (Z.Even_or_Odd k) as [[m ->]|[m ->]]; [left; intros; now apply p2_even|].
  assert (E : forall i, entry s (i + (2 * m + 1)) = entry s (i + 1)).
  { intros i. replace (i + (2 * m + 1)) with (i + 1 + 2 * m) by lia. now apply p2_even. }
  assert (A : (forall i, entry s (i + 1) = entry s i) \/ (forall i, entry s (i + 1) = - entry s i)); [|destruct A as [A|A]; [left|right]; intros i; now rewrite E, A].
  assert (B : entry s 1 = entry s 0 \/ entry s 1 = - entry s 0) by (destruct (entry_pm1 s 0 Hp Hne), (entry_pm1 s 1 Hp Hne); lia).
  assert (C : forall i, (entry s i = entry s 0 /\ entry s (i + 1) = entry s 1) \/ (entry s i = entry s 1 /\ entry s (i + 1) = entry s 0)).
  { intros i. destruct (Z.Even_or_Odd i) as [[j ->]|[j ->]]; [left|right]; split.
    - apply (p2_even s j H 0).
    - replace (2 * j + 1) with (1 + 2 * j) by lia. now apply p2_even.
    - replace (2 * j + 1) with (1 + 2 * j) by lia. now apply p2_even.
    - replace (2 * j + 1 + 1) with (0 + 2 * (j + 1)) by lia. now apply p2_even. }
  destruct B as [B|B]; [left|right]; intros i; destruct (C i) as [[C1 C2]|[C1 C2]]; rewrite C1, C2; lia.
Qed.

Lemma entry_ext s t : length s = length t -> (forall i, entry s i = entry t i) -> s = t.
Proof.
  intros L H. apply (nth_ext _ _ 0 0 L). intros i Hi. specialize (H (Z.of_nat i)). rewrite !entry_nat in H by congruence. exact H.
Qed.
Lemma entry_neg s i : pm1 s -> s <> [] -> entry (lact Neg s) i = - entry s i.
Proof.
  intros Hp Hne. rewrite entry_lact by (destruct s; [congruence|discriminate]). cbn [lneg lidx sneg].
  rewrite entry_mod. destruct (entry_pm1 s i Hp Hne) as [->| ->]; reflexivity.
Qed.
Definition signed_by (b : bool) (s : list Z) : list Z := if b then lact Neg s else s.
Lemma signed_length b s : length (signed_by b s) = length s.
Proof. destruct b; [apply lact_length|reflexivity]. Qed.
Lemma p2_restore s k : pm1 s -> s <> [] -> p2 s -> exists b, signed_by b (lact (Rot k) s) = s.
Proof.
  intros Hp Hne H. assert (Hp' : pm1 (lact (Rot k) s)).
  { unfold pm1, lact. apply Forall_forall. intros x Hx. apply in_map_iff in Hx as (i & <- & _). cbn. now apply entry_pm1. }
  assert (Hne' : lact (Rot k) s <> []) by (intros E; apply (f_equal (@length _)) in E; rewrite lact_length in E; destruct s; [congruence|discriminate]).
  destruct (p2_shift s (Z.of_nat k) Hp Hne H) as [E|E]; [exists false|exists true]; cbn [signed_by].
  - apply entry_ext; [apply lact_length|]. intros i. rewrite entry_rot. apply E.
  - apply entry_ext; [now rewrite !lact_length|]. intros i. rewrite entry_neg, entry_rot, E by auto. lia.
Qed.

(* not of period 2 and symmetric: some rotation, up to sign, comes before *)
Lemma lex_at : forall p l m, length l = length m -> (p < length l)%nat -> (forall i, (i < p)%nat -> nth i l 0 = nth i m 0) -> nth p l 0 < nth p m 0 -> lex l m.
Proof.
  induction p as [|p IH]; intros [|x l] [|y m] L Hp A B; cbn in *; try lia.
  - now apply lex_here.
  - assert (x = y) as -> by (apply (A 0%nat); lia). apply lex_later. apply IH; [lia|lia| |auto]. intros i Hi. apply (A (S i)). lia.
Qed.
Lemma nth_entry l i : (i < length l)%nat -> nth i l 0 = entry l (Z.of_nat i).
Proof. intros. symmetry. now apply entry_nat. Qed.
Lemma entry_signed b s k i : pm1 s -> s <> [] -> entry (signed_by b (lact (Rot k) s)) i = (if b then - entry s (i + Z.of_nat k) else entry s (i + Z.of_nat k)).
Proof.
  intros Hp Hne. assert (Hp' : pm1 (lact (Rot k) s)).
  { unfold pm1, lact. apply Forall_forall. intros x Hx. apply in_map_iff in Hx as (j & <- & _). cbn. now apply entry_pm1. }
  assert (Hne' : lact (Rot k) s <> []) by (intros E; apply (f_equal (@length _)) in E; rewrite lact_length in E; destruct s; [congruence|discriminate]).
  destruct b; cbn [signed_by]; [rewrite entry_neg by auto|]; now rewrite entry_rot.
Qed.
Lemma bounded_search (P : nat -> Prop) n : (forall i, P i \/ ~ P i) -> (forall i, (i < n)%nat -> P i) \/ exists i, (i < n)%nat /\ ~ P i /\ forall j, (j < i)%nat -> P j.
Proof.
  intros D. induction n as [|n IH]; [left; intros; lia|]. destruct IH as [IH|(i & ? & ? & ?)]; [|right; exists i; repeat split; auto].
  destruct (D n) as [H|H]; [left; intros i Hi; destruct (Nat.eq_dec i n); [now subst|apply IH; lia]|right; exists n; repeat split; auto].
Qed.
Lemma not_least s : (3 <= length s)%nat -> pm1 s -> symmetric s -> ~ p2 s -> exists k b, lex (signed_by b (lact (Rot k) s)) s.
Proof.
  intros Hn Hp Hs H. assert (Hne : s <> []) by (intros ->; cbn in Hn; lia). set (n := length s) in *.
  assert (PM : forall i, entry s i = 1 \/ entry s i = -1) by (intros; now apply entry_pm1).
  assert (Per : forall i, entry s (i mod Z.of_nat n) = entry s i) by (intros; apply entry_mod).
  (* two equal neighbours *)
  assert (exists j : nat, entry s (Z.of_nat j) = entry s (Z.of_nat j + 1)) as (j & Ej).
  { destruct (bounded_search (fun i => entry s (Z.of_nat i) <> entry s (Z.of_nat i + 1)) n) as [A|(i & _ & A & _)].
    - intros i. destruct (Z.eq_dec (entry s (Z.of_nat i)) (entry s (Z.of_nat i + 1))); tauto.
    - exfalso. apply H. intros i.
      assert (A' : forall i, entry s i <> entry s (i + 1)).
      { intros z. rewrite <- (Per z), <- (Per (z + 1)). specialize (A (Z.to_nat (z mod Z.of_nat n))).
        assert (0 <= z mod Z.of_nat n < Z.of_nat n) by (apply Z.mod_pos_bound; lia). rewrite Z2Nat.id in A by lia.
        assert (E : entry s (z mod Z.of_nat n + 1) = entry s ((z + 1) mod Z.of_nat n)).
        { rewrite <- (Per (z mod Z.of_nat n + 1)). f_equal. rewrite Zplus_mod_idemp_l. reflexivity. }
        rewrite <- E. apply A. lia. }
      pose proof (A' i) as B1. pose proof (A' (i + 1)) as B2. replace (i + 1 + 1) with (i + 2) in B2 by lia.
      destruct (PM i), (PM (i + 1)), (PM (i + 2)); lia.
    - exists i. destruct (Z.eq_dec (entry s (Z.of_nat i)) (entry s (Z.of_nat i + 1))); tauto. }
  assert (At : forall b k i, (i < n)%nat -> nth i (signed_by b (lact (Rot k) s)) 0 = (if b then - entry s (Z.of_nat i + Z.of_nat k) else entry s (Z.of_nat i + Z.of_nat k))).
  { intros b k i Hi. rewrite nth_entry by (rewrite signed_length, lact_length; exact Hi). now apply entry_signed. }
  assert (Len : forall b k, length (signed_by b (lact (Rot k) s)) = length s) by (intros; now rewrite signed_length, lact_length).
  set (b := (entry s (Z.of_nat j) =? 1)).
  assert (S0 : nth 0 (signed_by b (lact (Rot j) s)) 0 = -1).
  { rewrite At by lia. change (Z.of_nat 0 + Z.of_nat j) with (Z.of_nat j). unfold b. destruct (PM (Z.of_nat j)) as [->| ->]; reflexivity. }
  assert (S1 : nth 1 (signed_by b (lact (Rot j) s)) 0 = -1).
  { rewrite At by lia. replace (Z.of_nat 1 + Z.of_nat j) with (Z.of_nat j + 1) by lia. rewrite <- Ej. unfold b. destruct (PM (Z.of_nat j)) as [->| ->]; reflexivity. }
  destruct (PM 0) as [E0|E0].
  { exists j, b. apply (lex_at 0); [apply Len|rewrite Len; fold n; lia|intros; lia|]. rewrite S0, nth_entry by (fold n; lia). change (Z.of_nat 0) with 0. lia. }
  destruct (PM 1) as [E1|E1].
  { exists j, b. apply (lex_at 1); [apply Len|rewrite Len; fold n; lia| |].
    - intros i Hi. replace i with 0%nat by lia. rewrite S0, nth_entry by (fold n; lia). change (Z.of_nat 0) with 0. lia.
    - rewrite S1, nth_entry by (fold n; lia). change (Z.of_nat 1) with 1. lia. }
  (* the run of -1 at the start goes on to the left *)
  destruct (bounded_search (fun i => entry s (Z.of_nat i) = -1) n) as [A|(k & Hk & A & B)].
  - intros i. destruct (PM (Z.of_nat i)) as [->| ->]; auto. right. lia.
  - exfalso. apply H. intros i. rewrite <- (Per i), <- (Per (i + 2)).
    assert (G : forall z, entry s (z mod Z.of_nat n) = -1).
    { intros z. assert (0 <= z mod Z.of_nat n < Z.of_nat n) by (apply Z.mod_pos_bound; lia).
      rewrite <- (Z2Nat.id (z mod Z.of_nat n)) by lia. apply A. lia. }
    now rewrite !G.
  - exists (n - 1)%nat, false. apply (lex_at k); [apply Len|rewrite Len; exact Hk| |].
    + intros i Hi. rewrite At, nth_entry by (fold n; lia). rewrite (B i Hi).
      assert (E : entry s (Z.of_nat i + Z.of_nat (n - 1)) = entry s (Z.of_nat i - 1)).
      { rewrite <- (Per (Z.of_nat i + Z.of_nat (n - 1))), <- (Per (Z.of_nat i - 1)). f_equal.
        replace (Z.of_nat i + Z.of_nat (n - 1)) with (Z.of_nat i - 1 + 1 * Z.of_nat n) by lia. now rewrite Z_mod_plus_full. }
      rewrite E. destruct i as [|i]; [change (Z.of_nat 0 - 1) with (- (1)); now rewrite Hs|].
      replace (Z.of_nat (S i) - 1) with (Z.of_nat i) by lia. apply B. lia.
    + rewrite At, nth_entry by (fold n; lia).
      assert (E : entry s (Z.of_nat k + Z.of_nat (n - 1)) = entry s (Z.of_nat k - 1)).
      { rewrite <- (Per (Z.of_nat k + Z.of_nat (n - 1))), <- (Per (Z.of_nat k - 1)). f_equal.
        replace (Z.of_nat k + Z.of_nat (n - 1)) with (Z.of_nat k - 1 + 1 * Z.of_nat n) by lia. now rewrite Z_mod_plus_full. }
      rewrite E. destruct k as [|k]; [change (Z.of_nat 0) with 0 in A; lia|].
      replace (Z.of_nat (S k) - 1) with (Z.of_nat k) by lia. rewrite B by lia. destruct (PM (Z.of_nat (S k))); lia.
Qed.

(* ---- quadruples ---- *)
Lemma neg_if_reach u b q : reach (type_ops WilliamsonType) q (if (b : bool) then gact (At u Neg) q else q).
Proof.
  destruct b; [|apply rt_refl]. apply rt_step. exists Negate. split; [now left|]. right. exists [At u Neg]. split; [|reflexivity].
  cbn [variants]. apply in_map_iff. exists u. split; auto. destruct u; cbn; auto.
Qed.
Definition signed_quad (b : Tag -> bool) (q : QuadSeq) : QuadSeq := of_slots (q_size q) (fun u => signed_by (b u) (slot q u)).
Lemma signed_reach b q : reach (type_ops WilliamsonType) q (signed_quad b q).
Proof.
  eapply rt_trans; [apply (neg_if_reach TW (b TW))|]. eapply rt_trans; [apply (neg_if_reach TX (b TX))|].
  eapply rt_trans; [apply (neg_if_reach TY (b TY))|]. eapply rt_trans; [apply (neg_if_reach TZ (b TZ))|].
  apply eq_ind with (P := fun z => reach (type_ops WilliamsonType) z (signed_quad b q)) (x := signed_quad b q); [apply rt_refl|].
  unfold signed_quad, signed_by, of_slots. destruct q; destruct (b TW), (b TX), (b TY), (b TZ); reflexivity.
Qed.
Lemma rot_reach n q k : pm_quad n q -> reach (type_ops WilliamsonType) q (gact (All (Rot k)) q).
Proof.
  intros (W & Pa & Pb & Pc & Pd). destruct (Nat.eq_dec n 0) as [->|Hn].
  { destruct W as (S & A & B & C & D). destruct q as [sz a b c d]; cbn in *. destruct a, b, c, d; try discriminate. subst. apply rt_refl. }
  assert (E : gact (All (Rot k)) q = gact (All (Rot (k mod n))) q).
  { unfold gact. destruct W as (S & A & B & C & D).
    assert (G : forall s, length s = n -> lact (Rot k) s = lact (Rot (k mod n)) s).
    { intros s L. apply entry_ext; [now rewrite !lact_length|]. intros i. rewrite !entry_rot. apply entry_periodic. rewrite L.
      rewrite Nat2Z.inj_mod. now rewrite Zplus_mod_idemp_r. }
    unfold of_slots. cbn [slot]. now rewrite !G. }
  rewrite E. destruct (Nat.eq_dec (k mod n) 0) as [Z0|Z0].
  - apply eq_ind with (P := fun z => reach (type_ops WilliamsonType) q z) (x := q); [apply rt_refl|].
    destruct W as (S & A & B & C & D). unfold gact, of_slots. cbn [slot]. rewrite !lact_rot_0 by (rewrite Z0; apply Nat.mod_0_l; lia). now destruct q.
  - apply rt_step. exists UniformShift. split; [right; now left|]. right. exists [All (Rot (k mod n))]. split; [|reflexivity].
    cbn [variants]. apply in_map_iff. exists (k mod n)%nat. split; auto. apply in_seq. destruct W as (-> & _). pose proof (Nat.mod_upper_bound k n Hn). lia.
Qed.

Lemma paf_p2 s n : length s = n -> pm1 s -> (1 <= n)%nat -> p2 s -> paf s 2 = Z.of_nat n.
Proof.
  intros L Hp Hn H. unfold paf. rewrite L.
  rewrite (sumZ_ext n _ (fun _ => 1)); [|intros i Hi; rewrite H; destruct (entry_pm1 s (Z.of_nat i) Hp) as [->| ->]; auto; intros ->; cbn in L; lia].
  clear. induction n as [|n IH]; [reflexivity|]. rewrite sumZ_S, IH. lia.
Qed.
Lemma p2_dec s : p2 s \/ ~ p2 s.
Proof.
  set (n := length s). destruct (Nat.eq_dec n 0) as [E|Hn].
  { left. intros i. destruct s; [|discriminate]. now rewrite !entry_nil. }
  destruct (bounded_search (fun i => entry s (Z.of_nat i + 2) = entry s (Z.of_nat i)) n) as [A|(i & _ & A & _)].
  - intros i. destruct (Z.eq_dec (entry s (Z.of_nat i + 2)) (entry s (Z.of_nat i))); tauto.
  - left. intros i. assert (0 <= i mod Z.of_nat n < Z.of_nat n) by (apply Z.mod_pos_bound; lia).
    specialize (A (Z.to_nat (i mod Z.of_nat n)) ltac:(lia)). rewrite Z2Nat.id in A by lia.
    transitivity (entry s (i mod Z.of_nat n + 2)); [|rewrite A; apply entry_mod].
    apply entry_periodic. fold n. now rewrite Zplus_mod_idemp_l.
  - right. intros H. apply A, H.
Qed.

Lemma lex_prefix x l m : lex l m -> lex (x ++ l) (x ++ m).
Proof. intros H. induction x; cbn; auto. now apply lex_later. Qed.
Lemma lex_suffix l m x y : lex l m -> lex (l ++ x) (m ++ y).
Proof. intros H. induction H; cbn; [now apply lex_here|now apply lex_later]. Qed.

(* an element of a class of which all members come after it is not symmetric *)
Theorem least_not_symmetric n q : (3 <= n)%nat -> pm_quad n q -> complementary q ->
  (forall y, reach (type_ops WilliamsonType) q y -> quad_le q y) -> ~ is_W q.
Proof.
  intros Hn Pq Cq Min (_ & Sa & Sb & Sc & Sd).
  assert (Hlt : forall y, reach (type_ops WilliamsonType) q y -> ~ quad_lt y q).
  { intros y R H. destruct (Min y R) as [->|H']; [exact (lex_irrefl _ H)|exact (lex_asym _ _ H H')]. }
  pose proof Pq as ((S & La & Lb & Lc & Ld) & Pa & Pb & Pc & Pd).
  assert (NE : forall s : list Z, length s = n -> s <> []) by (intros s L ->; cbn in L; lia).
  assert (Go : forall k b, reach (type_ops WilliamsonType) q (signed_quad b (gact (All (Rot k)) q))).
  { intros k b. eapply rt_trans; [now apply (rot_reach n)|apply signed_reach]. }
  assert (Fl : forall k b, flat (signed_quad b (gact (All (Rot k)) q)) =
    signed_by (b TW) (lact (Rot k) (q_a q)) ++ signed_by (b TX) (lact (Rot k) (q_b q)) ++ signed_by (b TY) (lact (Rot k) (q_c q)) ++ signed_by (b TZ) (lact (Rot k) (q_d q))) by reflexivity.
  destruct (p2_dec (q_a q)) as [Ha|Ha].
  2:{ destruct (not_least (q_a q)) as (k & b & H); auto; [lia|]. apply (Hlt _ (Go k (fun _ => b))). unfold quad_lt. rewrite Fl. now apply lex_suffix. }
  destruct (p2_dec (q_b q)) as [Hb|Hb].
  2:{ destruct (not_least (q_b q)) as (k & b & H); auto; [lia|]. destruct (p2_restore (q_a q) k Pa (NE _ La) Ha) as (b1 & E1).
      apply (Hlt _ (Go k (fun u => match u with TW => b1 | _ => b end))). unfold quad_lt. rewrite Fl, E1. apply lex_prefix. now apply lex_suffix. }
  destruct (p2_dec (q_c q)) as [Hc|Hc].
  2:{ destruct (not_least (q_c q)) as (k & b & H); auto; [lia|]. destruct (p2_restore (q_a q) k Pa (NE _ La) Ha) as (b1 & E1).
      destruct (p2_restore (q_b q) k Pb (NE _ Lb) Hb) as (b2 & E2).
      apply (Hlt _ (Go k (fun u => match u with TW => b1 | TX => b2 | _ => b end))). unfold quad_lt. rewrite Fl, E1, E2. do 2 apply lex_prefix. now apply lex_suffix. }
  destruct (p2_dec (q_d q)) as [Hd|Hd].
  2:{ destruct (not_least (q_d q)) as (k & b & H); auto; [lia|]. destruct (p2_restore (q_a q) k Pa (NE _ La) Ha) as (b1 & E1).
      destruct (p2_restore (q_b q) k Pb (NE _ Lb) Hb) as (b2 & E2). destruct (p2_restore (q_c q) k Pc (NE _ Lc) Hc) as (b3 & E3).
      apply (Hlt _ (Go k (fun u => match u with TW => b1 | TX => b2 | TY => b3 | _ => b end))). unfold quad_lt. rewrite Fl, E1, E2, E3. do 3 apply lex_prefix. exact H. }
  specialize (Cq 2 ltac:(lia)). rewrite !(paf_p2 _ n) in Cq by (auto; lia). lia.
Qed.
