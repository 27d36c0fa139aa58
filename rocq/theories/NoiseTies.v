(* Exact arithmetic as an instance, and an arithmetic that loses every tie. *)
From Coq Require Import Ascii String List ZArith Lia Arith Bool Reals Lra Permutation Relations.
From Verif Require Import Base BaseFacts Sums ModelSequence ModelWilliamson ModelEquivalence SpecEquiv OpFacts EquivFacts TypeFacts
  OrderFacts FastFacts EquivThms CanonFacts NsFacts ReduceFacts WsFacts ModelFourier ModelMatching
  ModelRowsum SeqFacts FourierFacts SpecFourier MatchFacts SpecRowsum RowsumFacts QtWt GraphFacts Convert ModelWrite TextFacts
  JoinFacts WriteFacts DirFacts FolderFacts SearchThms SpecSearch ModelNoise SpecNoise NoiseFacts NoiseKeys NoiseSearch NoiseThms Spec.
Import ListNotations.
Notation length := List.length.
Open Scope R_scope.

Theorem exact_write_pairs fuel n t m p f : write_pairs_f exact_arith fuel n t m p f = write_pairs fuel n t m p f.
Proof. reflexivity. Qed.

Lemma exact_spectrum s : (1 <= length s)%nat -> a_dft exact_arith s = map (fun k => (dft_re s (Z.of_nat k), dft_im s (Z.of_nat k))) (seq 0 (length s / 2 + 1)).
Proof.
  intros H. pose proof (dft_sequence_spec s H) as E. unfold dft_sequence in E. rewrite Nat.eqb_refl, (proj2 (Nat.leb_le _ _) H) in E.
  cbn [andb guard] in E. injection E as E. cbn [a_dft exact_arith]. exact E.
Qed.

Lemma close_refl e x : 0 <= e -> close e x x.
Proof. intros. unfold close. replace (x - x) with 0 by ring. now rewrite Rabs_R0. Qed.

(* exact arithmetic, except for the sums *)
Definition with_add (add : R -> R -> R) : Arith :=
  mkArith (a_dft exact_arith) (a_idft exact_arith) add (a_sub exact_arith) (a_mul exact_arith) (a_tiny exact_arith).
Lemma accurate_add n e add : (1 <= n)%nat -> 0 <= e -> (forall x y, close e (add x y) (x + y)) -> accurate n e (with_add add).
Proof.
  intros Hn He Ha. unfold accurate, with_add. cbn [a_dft a_idft a_add a_sub a_mul a_tiny]. split; [|split; [|split; [|split]]].
  - intros s L P. rewrite exact_spectrum by lia. rewrite map_length, seq_length, L. split; auto. intros k Hk.
    rewrite nth_map_seq by lia. cbn [fst snd]. rewrite fourier_cos, fourier_sin. split; now apply close_refl.
  - intros X L _. cbn [a_idft exact_arith]. split.
    + rewrite map_length. unfold c2r. now rewrite map_length, seq_length.
    + intros t Ht. rewrite (nth_indep _ _ ((fun x => x / INR n) 0)).
      2:{ rewrite map_length. unfold c2r. now rewrite map_length, seq_length. }
      rewrite (map_nth (fun x => x / INR n)). now apply close_refl.
  - intros x y _ _. cbn [a_sub exact_arith]. split; [apply Ha|now apply close_refl].
  - intros x y _ _. now apply close_refl.
  - now apply close_refl.
Qed.
Theorem accurate_exact n e : (1 <= n)%nat -> 0 <= e -> accurate n e exact_arith.
Proof. intros Hn He. apply (accurate_add n e Rplus); auto. intros. now apply close_refl. Qed.
Lemma accurate_weak n e e' A : e <= e' -> accurate n e A -> accurate n e' A.
Proof.
  intros H (A1 & A2 & A3 & A4 & A5).
  split; [|split; [|split; [|split]]].
  - intros s L P. destruct (A1 s L P) as [B C]. split; auto. intros k Hk. destruct (C k Hk). split; eapply close_weak; eauto.
  - intros X L B. destruct (A2 X L B) as [D C]. split; auto. intros k Hk. eapply close_weak; eauto.
  - intros x y Bx By. destruct (A3 x y Bx By). split; eapply close_weak; eauto.
  - intros x y Bx By. eapply close_weak; eauto.
  - eapply close_weak; eauto.
Qed.

(* a sum that should be 4n comes out larger *)
Definition up_add (n : nat) (e : R) (x y : R) : R := if Req_EM_T (x + y) (4 * INR n) then x + y + e else x + y.

Lemma up_close n e x y : 0 <= e -> close e (up_add n e x y) (x + y).
Proof.
  intros He. unfold up_add. destruct (Req_EM_T _ _); [|now apply close_refl]. unfold close. replace (x + y + e - (x + y)) with e by ring.
  rewrite Rabs_right; lra.
Qed.
Lemma up_pw n e s k : (1 <= n)%nat -> 0 < e -> good n s -> (k <= n / 2)%nat ->
  pw (with_add (up_add n e)) s k = if Req_EM_T (psd s k) (4 * INR n) then psd s k + e else psd s k.
Proof.
  intros Hn He [L P] Hk. unfold pw, norm_sqr_f, fre, fim, with_add. cbn [a_dft a_add a_mul fst snd]. rewrite exact_spectrum by lia.
  rewrite L, nth_map_seq by lia. cbn [fst snd]. unfold up_add. cbn [a_mul exact_arith].
  replace (dft_re s (Z.of_nat k) * dft_re s (Z.of_nat k) + dft_im s (Z.of_nat k) * dft_im s (Z.of_nat k)) with (psd s k).
  2:{ rewrite <- psd_norm. unfold norm_sqr, dft_at. cbn [fst snd]. reflexivity. }
  reflexivity.
Qed.
Lemma up_lost n e s1 s2 : (1 <= n)%nat -> 0 < e -> good n s1 -> good n s2 -> pair_tie n s1 s2 ->
  within_f n (with_add (up_add n e)) s1 s2 = false.
Proof.
  intros Hn He G1 G2 (k & Hk & E). destruct (within_f n _ s1 s2) eqn:W; auto. exfalso.
  pose proof (proj1 (within_f_iff n _ Hn s1 s2) W k Hk) as H. cbn [a_add with_add] in H.
  rewrite !up_pw in H by (auto; lia). unfold up_add in H.
  destruct (Req_EM_T (psd s1 k) (4 * INR n)), (Req_EM_T (psd s2 k) (4 * INR n));
    match type of H with (if ?c then _ else _) <= _ => destruct c; lra end.
Qed.

Lemma tie_pair n p q : tie n p q <-> exists a b, is_pair p (a, b) /\ pair_tie n (sequence q a) (sequence q b).
Proof. split; [intros (a & b & k & Hp & H)|intros (a & b & Hp & k & H)]; [exists a, b; split; auto; exists k|exists a, b, k]; auto. Qed.

Theorem ties_lost n e : (1 <= n)%nat -> (Z.of_nat n < 2 ^ 62)%Z -> 0 < e -> exists A, accurate n e A /\
  forall t m p ls, three_types t -> any_listing ls ->
  exists fuel0, forall fuel, (fuel0 <= fuel)%nat -> exists f c r,
    write_pairs_f A fuel n t m p [] = Some (f, c) /\ match_pairs ls t (sortpairs f) = Some r /\
    (forall q, In q r <-> pm_quad n q /\ is_type t q /\ normal_rowsums t (totals q) /\ ~ tie n p q).
Proof.
  intros Hn Hn2 He. destruct (threshold n Hn) as (e0 & He0 & Hs & St). pose proof (small_e n e0 Hn (Rlt_le _ _ He0) Hs) as He'.
  set (d := Rmin e e0). assert (Hd : 0 < d) by now apply Rmin_glb_lt.
  assert (HA : accurate n d (with_add (up_add n d))).
  { apply accurate_add; auto; [lra|]. intros. apply up_close. lra. }
  exists (with_add (up_add n d)). split; [apply (accurate_weak n d); auto; apply Rmin_l|].
  intros t m p ls Ht Hls. set (A := with_add (up_add n d)) in *.
  assert (HA0 : accurate n e0 A) by (apply (accurate_weak n d); auto; apply Rmin_r).
  destruct (search_f n A Hn e0 He' HA0 m (all_keys n e0 A m Hn He' HA0 Hs St) t p ls Hn2 Ht Hls) as (f0 & H).
  exists f0. intros fuel Hf. destruct (H fuel Hf) as (f & c & r & Ew & Em & Hr). exists f, c, r. split; auto. split; auto.
  intros q. rewrite Hr. split; intros (Pq & Tq & Nq & Aq); (split; [exact Pq|split; [exact Tq|split; [exact Nq|]]]).
  - intros T. apply tie_pair in T as (a & b & Hp & T). apply (proj1 (accepted_pairs n A p q)) with (a := a) (b := b) in Aq; auto.
    pose proof (up_lost n d _ _ Hn Hd (good_seq n q a Pq) (good_seq n q b Pq) T) as U. fold A in U. congruence.
  - apply (accepted_iff n e0 A p q Hn He' HA0 St Pq); auto. now apply (type_WT n q t).
Qed.

(* ---- length 2 ---- *)

Lemma pair_total s : length s = 2%nat -> pm1 s -> total s = 0%Z -> psd s 1 = 4.
Proof.
  intros L P T. destruct s as [|x [|y [|z s]]]; try discriminate L. inversion P as [|? ? Px P']; subst. inversion P' as [|? ? Py _]; subst.
  assert (E : y = (- x)%Z) by (unfold total in T; cbn in T; lia). subst y. unfold psd, fourier_sum.
  cbn [length seq map fold_right nth Nat.mul Nat.add]. change (INR 0) with 0. change (INR 1) with 1. change (INR 2) with 2.
  replace (2 * PI * 0 / 2) with 0 by field. replace (2 * PI * 1 / 2) with PI by field.
  rewrite cos_0, sin_0, cos_PI, sin_PI. rewrite opp_IZR. destruct Px as [->| ->]; ring.
Qed.

Lemma length_two_ties t q : pm_quad 2 q -> is_type t q -> normal_rowsums t (totals q) -> tie 2 (Some WX) q.
Proof.
  intros Pq Tq Nq. assert (C : complementary q) by exact (proj1 (type_WT 2 q t Pq ltac:(lia) Tq)).
  pose proof (complementary_rowsums 2 q Pq ltac:(lia) C) as F. 
  assert (T0 : totals q = (0, 0, 2, 2)%Z \/ exists c d, totals q = (0, 0, c, d)%Z).
  { right. destruct (totals q) as [[[a b] c] d] eqn:E. unfold feasible in F. destruct F as [F _]. destruct Nq as (H1 & H2 & H3).
    change (4 * Z.of_nat 2)%Z with 8%Z in F.
    assert (Pa : forall tg, exists k, total (sequence q tg) = (2 * k)%Z).
    { intros tg. pose proof (good_seq 2 q tg Pq) as [L P]. destruct (sequence q tg) as [|x [|y [|z s]]]; try discriminate L.
      inversion P as [|? ? Px P']; subst. inversion P' as [|? ? Py _]; subst. destruct Px as [->| ->], Py as [->| ->]; [exists 1%Z|exists 0%Z|exists 0%Z|exists (-1)%Z]; reflexivity. }
    unfold totals in E. injection E as Ea Eb Ec Ed. destruct (Pa TW) as (ka & Ka), (Pa TX) as (kb & Kb), (Pa TY) as (kc & Kc), (Pa TZ) as (kd & Kd).
    cbn [sequence] in Ka, Kb, Kc, Kd. rewrite Ka in Ea. rewrite Kb in Eb. rewrite Kc in Ec. rewrite Kd in Ed. subst a b c d.
    assert (ka = 0 /\ kb = 0)%Z as [-> ->].
    { assert (kb <= kc /\ kc <= Z.abs kd)%Z by lia. assert (Z.abs kd * Z.abs kd = kd * kd)%Z by (rewrite <- Z.abs_mul; apply Z.abs_eq; nia).
      assert (kb = 0)%Z; [|lia]. destruct (Z.eq_dec kb 0); auto. exfalso. assert (1 <= kb)%Z by lia. nia. }
    exists (2 * kc)%Z, (2 * kd)%Z. reflexivity. }
  assert (T : total (sequence q TW) = 0%Z /\ total (sequence q TX) = 0%Z).
  { unfold totals in T0. cbn [sequence]. destruct T0 as [E|(c & d & E)]; injection E as Ea Eb _ _; auto. }
  exists TW, TX, 1%nat. split; [left; reflexivity|]. split; [cbn; lia|].
  destruct (good_seq 2 q TW Pq), (good_seq 2 q TX Pq). rewrite !pair_total by tauto. change (INR 2) with 2. lra.
Qed.

Theorem length_two_lost e : 0 < e -> exists A, accurate 2 e A /\ forall t m ls, three_types t -> any_listing ls ->
  (exists q, pm_quad 2 q /\ is_type t q /\ normal_rowsums t (totals q)) /\
  exists fuel0, forall fuel, (fuel0 <= fuel)%nat -> exists f c,
    write_pairs_f A fuel 2 t m (Some WX) [] = Some (f, c) /\ match_pairs ls t (sortpairs f) = Some [] /\
    forall ord path, join_pairs fuel ord path ls t (sortpairs f) = None.
Proof.
  intros He. destruct (ties_lost 2 e ltac:(lia) ltac:(lia) He) as (A & HA & H). exists A. split; auto. intros t m ls Ht Hls. split.
  - exists (mkQuad 2 [1; -1] [1; -1] [1; 1] [1; 1])%Z. assert (P : pm_quad 2 (mkQuad 2 [1; -1] [1; -1] [1; 1] [1; 1])%Z).
    { unfold pm_quad, wf, pm1. cbn. repeat split; repeat (constructor; auto). }
    split; [exact P|]. split; [|cbn; repeat split; try lia].
    apply (verify_type 2); auto. destruct Ht as [->|[->| ->]]; vm_compute; reflexivity.
  - destruct (H t m (Some WX) ls Ht Hls) as (f0 & HF). exists f0. intros fuel Hf. destruct (HF fuel Hf) as (f & c & r & Ew & Em & Hr).
    exists f, c. assert (r = []) as ->.
    { destruct r as [|q r]; auto. exfalso. destruct (proj1 (Hr q) ltac:(now left)) as (Pq & Tq & Nq & NT). apply NT. now apply (length_two_ties t). }
    split; auto. split; auto. intros. rewrite join_pairs_eq by auto. rewrite Em. reflexivity.
Qed.
