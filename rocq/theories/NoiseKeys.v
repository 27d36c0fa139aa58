(* The keys computed with rounding errors. *)
From Coq Require Import Ascii String List ZArith Lia Arith Bool Reals Lra.
From Verif Require Import Base BaseFacts Sums ModelSequence ModelWilliamson ModelEquivalence ModelFourier ModelMatching ModelRowsum ModelWrite
  SeqFacts FourierFacts SpecFourier MatchFacts PsdKeys PsdSame TextFacts WriteFacts KernelFacts ModelNoise SpecNoise NoiseFacts Spec.
Import ListNotations.
Notation length := List.length.
Open Scope R_scope.

(* ---- the exact values are no half-integers ---- *)

Lemma fside_not_fraction n side s1 s2 k a b : (1 <= n)%nat -> length s1 = n -> length s2 = n -> Z.even b = true -> Z.even a = false ->
  IZR b * fside side s1 s2 k <> IZR a.
Proof.
  intros Hn H1 H2 Hb Ha. rewrite (fside_ctr n) by auto. apply ctr_not_fraction; auto.
  - now apply gside_periodic.
  - intros u. now apply gside_even_fun.
Qed.
Lemma xdiff_not_fraction n b0 s1 s2 k a b : (1 <= n)%nat -> length s1 = n -> length s2 = n -> Z.even b = true -> Z.even a = false ->
  IZR b * xdiff b0 s1 s2 k <> IZR a.
Proof.
  intros Hn H1 H2 Hb Ha E. rewrite (xdiff_str n) in E by auto. apply (str_not_fraction n (cdiff b0 s1 s2) k Hn (cdiff_periodic n b0 s1 s2 Hn H1 H2) (- a)%Z b); auto.
  - intros u. apply cdiff_odd. congruence.
  - now rewrite Z.even_opp.
  - rewrite opp_IZR. lra.
Qed.

(* ---- stability ---- *)

Lemma round_stable x : (forall z, Z.even z = false -> 2 * x <> IZR z) ->
  exists d, 0 < d /\ forall y, close d y x -> roundR y = roundR x.
Proof.
  intros H. pose proof (roundR_bounds x) as [L U]. set (z := roundR x) in *.
  assert (L' : IZR z - / 2 < x).
  { destruct L as [L|L]; auto. exfalso. apply (H (2 * z - 1)%Z); [now rewrite Z.even_sub, Z.even_mul|]. rewrite minus_IZR, mult_IZR. lra. }
  assert (U' : x < IZR z + / 2).
  { destruct U as [U|U]; auto. exfalso. apply (H (2 * z + 1)%Z); [now rewrite Z.even_add, Z.even_mul|]. rewrite plus_IZR, mult_IZR. lra. }
  set (m := Rmin (x - (IZR z - / 2)) (IZR z + / 2 - x)). assert (M : 0 < m) by (unfold m; apply Rmin_glb_lt; lra).
  pose proof (Rmin_l (x - (IZR z - / 2)) (IZR z + / 2 - x)) as M1. pose proof (Rmin_r (x - (IZR z - / 2)) (IZR z + / 2 - x)) as M2. fold m in M1, M2.
  exists (m / 2). split; [lra|]. intros y Hy. apply (round_close (/ 2 - m / 2)); [lra|]. unfold close in *.
  assert (- (m / 2) <= y - x <= m / 2) by (revert Hy; unfold Rabs; destruct (Rcase_abs _); lra). apply Rabs_le. lra.
Qed.
Lemma gt_stable x c : x <> c -> exists d, 0 < d /\ forall y c', close d y x -> close d c' c -> gtR y c' = gtR x c.
Proof.
  intros H. assert (0 < Rabs (x - c)) by (apply Rabs_pos_lt; lra). exists (Rabs (x - c) / 3). split; [lra|]. intros y c' Hy Hc. unfold close in *.
  revert H0 Hy Hc. unfold Rabs. intros. destruct (gtR x c) eqn:E; [apply gtR_true in E; apply gtR_true|apply gtR_false in E; apply gtR_false];
    destruct (Rcase_abs (x - c)), (Rcase_abs (y - x)), (Rcase_abs (c' - c)); lra.
Qed.

(* finitely many conditions hold within a common distance *)
Lemma finite_delta {X} (P : R -> X -> Prop) (l : list X) :
  (forall x d d', P d x -> d' <= d -> P d' x) -> (forall x, In x l -> exists d, 0 < d /\ P d x) -> exists d, 0 < d /\ forall x, In x l -> P d x.
Proof.
  intros Mono. induction l as [|x l IH]; intros H.
  - exists 1. split; [lra|]. intros x [].
  - destruct IH as (d & Hd & Pd); [intros; apply H; now right|]. destruct (H x ltac:(now left)) as (d' & Hd' & Pd').
    exists (Rmin d d'). split; [now apply Rmin_glb_lt|]. intros y [<-|Hy].
    + apply (Mono _ d'); auto. apply Rmin_r.
    + apply (Mono _ d); auto. apply Rmin_l.
Qed.
Fixpoint cube (n : nat) : list (list Z) :=
  match n with O => [[]] | S m => map (cons 1%Z) (cube m) ++ map (cons (-1)%Z) (cube m) end.
Lemma in_cube n s : length s = n -> pm1 s -> In s (cube n).
Proof.
  revert s. induction n as [|n IH]; intros s L P.
  - destruct s; [now left|discriminate].
  - destruct s as [|x s]; [discriminate|]. inversion P as [|? ? Hx Ps]; subst. injection L as L. cbn [cube]. apply in_app_iff.
    destruct Hx as [-> | ->]; [left|right]; apply in_map; now apply IH.
Qed.

(* the conditions for one pair at one frequency *)
Definition stable (n : nat) (d : R) (x : (list Z * list Z) * nat) : Prop :=
  let '((s1, s2), k) := x in length s1 = n -> length s2 = n ->
  (forall side y, close d y (fside side s1 s2 k) -> roundR y = roundR (fside side s1 s2 k)) /\
  (forall b y, close d y (xdiff b s1 s2 (Z.of_nat k)) -> roundR y = roundR (xdiff b s1 s2 (Z.of_nat k))) /\
  (forall b y c, close d y (Rabs (xdiff b s1 s2 (Z.of_nat k))) -> close d c (1 / 10000) -> gtR y c = gtR (Rabs (xdiff b s1 s2 (Z.of_nat k))) (1 / 10000)) /\
  (psd s1 k + psd s2 k <> 4 * INR n -> forall y, close d y (psd s1 k + psd s2 k) -> gtR y (4 * INR n) = gtR (psd s1 k + psd s2 k) (4 * INR n)).

Lemma both_sides (P : R -> EquationSide -> Prop) : (forall x d d', P d x -> d' <= d -> P d' x) -> (forall s, exists d, 0 < d /\ P d s) ->
  exists d, 0 < d /\ forall s, P d s.
Proof.
  intros M H. destruct (finite_delta P [LEFT; RIGHT] M) as (d & Hd & Pd); [auto|]. exists d. split; auto. intros []; apply Pd; cbn; auto.
Qed.
Lemma both_bools (P : R -> bool -> Prop) : (forall x d d', P d x -> d' <= d -> P d' x) -> (forall s, exists d, 0 < d /\ P d s) ->
  exists d, 0 < d /\ forall s, P d s.
Proof.
  intros M H. destruct (finite_delta P [true; false] M) as (d & Hd & Pd); [auto|]. exists d. split; auto. intros []; apply Pd; cbn; auto.
Qed.

Lemma all_stable n : (1 <= n)%nat -> exists d, 0 < d /\ forall s1 s2 k, length s1 = n -> length s2 = n -> pm1 s1 -> pm1 s2 -> (k <= n / 2)%nat -> stable n d ((s1, s2), k).
Proof.
  intros Hn. destruct (finite_delta (stable n) (list_prod (list_prod (cube n) (cube n)) (seq 0 (n / 2 + 1)))) as (d & Hd & Pd).
  - intros [[s1 s2] k] d d' H Hd H1 H2. destruct (H H1 H2) as (A & B & C & D).
    split; [|split; [|split]]; intros; [apply A|apply B|apply C|apply D]; auto; eapply close_weak; eauto.
  - intros [[s1 s2] k] _. unfold stable.
    destruct (Nat.eq_dec (length s1) n) as [L1|]; [|exists 1; split; [lra|intros; congruence]].
    destruct (Nat.eq_dec (length s2) n) as [L2|]; [|exists 1; split; [lra|intros; congruence]].
    destruct (both_sides (fun d side => forall y, close d y (fside side s1 s2 k) -> roundR y = roundR (fside side s1 s2 k))) as (d1 & P1 & H1).
    { intros side d d' H Hd y Hy. apply H. eapply close_weak; eauto. }
    { intros side. apply round_stable. intros z Hz. now apply (fside_not_fraction n side s1 s2 k z 2). }
    destruct (both_bools (fun d b => forall y, close d y (xdiff b s1 s2 (Z.of_nat k)) -> roundR y = roundR (xdiff b s1 s2 (Z.of_nat k)))) as (d2 & P2 & H2).
    { intros side d d' H Hd y Hy. apply H. eapply close_weak; eauto. }
    { intros b. apply round_stable. intros z Hz. now apply (xdiff_not_fraction n b s1 s2 (Z.of_nat k) z 2). }
    destruct (both_bools (fun d b => forall y c, close d y (Rabs (xdiff b s1 s2 (Z.of_nat k))) -> close d c (1 / 10000) ->
      gtR y c = gtR (Rabs (xdiff b s1 s2 (Z.of_nat k))) (1 / 10000))) as (d3 & P3 & H3).
    { intros side d d' H Hd y c Hy Hc. apply H; eapply close_weak; eauto. }
    { intros b. apply gt_stable. intros E. unfold Rabs in E. destruct (Rcase_abs _).
      - apply (xdiff_not_fraction n b s1 s2 (Z.of_nat k) (-1) 10000 Hn L1 L2); auto. rewrite <- (Ropp_involutive (xdiff _ _ _ _)), E. lra.
      - apply (xdiff_not_fraction n b s1 s2 (Z.of_nat k) 1 10000 Hn L1 L2); auto. rewrite E. lra. }
    assert (exists d4, 0 < d4 /\ (psd s1 k + psd s2 k <> 4 * INR n -> forall y, close d4 y (psd s1 k + psd s2 k) -> gtR y (4 * INR n) = gtR (psd s1 k + psd s2 k) (4 * INR n))) as (d4 & P4 & H4).
    { destruct (Req_dec (psd s1 k + psd s2 k) (4 * INR n)) as [E|N]; [exists 1; split; [lra|intros; congruence]|].
      destruct (gt_stable _ _ N) as (d4 & P4 & H4). exists d4. split; auto. intros _ y Hy. apply H4; auto. unfold close. replace (4 * INR n - 4 * INR n) with 0 by ring. rewrite Rabs_R0. lra. }
    exists (Rmin (Rmin d1 d2) (Rmin d3 d4)). split; [repeat apply Rmin_glb_lt; auto|]. intros _ _.
    assert (M : forall a b c d : R, Rmin (Rmin a b) (Rmin c d) <= a /\ Rmin (Rmin a b) (Rmin c d) <= b /\ Rmin (Rmin a b) (Rmin c d) <= c /\ Rmin (Rmin a b) (Rmin c d) <= d).
    { intros a b c d. pose proof (Rmin_l (Rmin a b) (Rmin c d)). pose proof (Rmin_r (Rmin a b) (Rmin c d)).
      pose proof (Rmin_l a b). pose proof (Rmin_r a b). pose proof (Rmin_l c d). pose proof (Rmin_r c d). lra. }
    destruct (M d1 d2 d3 d4) as (M1 & M2 & M3 & M4).
    split; [|split; [|split]]; intros; [apply H1|apply H2|apply H3|apply H4]; auto; eapply close_weak; eauto.
  - exists d. split; auto. intros s1 s2 k L1 L2 P1 P2 Hk. apply Pd. apply in_prod; [|apply in_seq; lia]. apply in_prod; now apply in_cube.
Qed.

(* ---- the computed keys ---- *)

Section Keys.
Context (n : nat) (e : R) (A : Arith).
Context (Hn : (1 <= n)%nat) (He : 0 <= e <= 1) (HA : accurate n e A).

Lemma psd_pair_f_spec side s1 s2 : compute_psd_pair_f A (power_f n A s1) (power_f n A s2) n side = map (psd_f n A side s1 s2) (range_incl 1 (n / 2)).
Proof.
  unfold compute_psd_pair_f, power_f, range_incl. replace (S (n / 2) - 1)%nat with (n / 2)%nat by lia.
  rewrite Nat.add_1_r, <- cons_seq. cbn [map skipn]. rewrite combine_map. destruct side; rewrite map_map; reflexivity.
Qed.
Lemma cross_psd_pair_f_spec tags b s1 s2 : tag_sign tags = Some b ->
  exists l, compute_cross_psd_pair_f A (spectrum_f n A s1) (spectrum_f n A s2) tags n = Some l /\
  map snd l = map (im_f A b s1 s2) (range_incl 1 (n / 2)).
Proof.
  intros Hb. unfold compute_cross_psd_pair_f. rewrite Hb. cbn [bind].
  assert (M : forall s s', compute_cross_psd_f A (spectrum_f n A s) (spectrum_f n A s') = map (cx A s s') (seq 0 (n / 2 + 1))).
  { intros. unfold compute_cross_psd_f, spectrum_f. now rewrite combine_map, map_map. }
  rewrite !M. eexists. split.
  - apply (traverse_map _ (fun k => if b then cr_sub_f A (cx A s1 s2 k) (cx A s2 s1 k) else cr_sub_f A (cx A s2 s1 k) (cx A s1 s2 k))).
    intros o Ho. apply in_range_incl in Ho. rewrite !vget_map_seq by lia. reflexivity.
  - rewrite map_map. apply map_ext. intros k. unfold im_f. destruct b; reflexivity.
Qed.

Lemma correlation_key tags t side i s1 j s2 : good n s1 -> good n s2 -> 100 * INR n * e <= 1 ->
  pair_key_f A n tags t n side CORRELATION (pair_f n A i s1 j s2) = pair_key n tags t n side CORRELATION (pair_of i s1 j s2).
Proof.
  intros G1 G2 Hs. unfold pair_key_f, pair_key, pair_f, pair_of. cbn [seq_enum1 seq_enum2 dft1 norm1 dft2 norm2 snd].
  rewrite (proj1 G1), (proj1 G2). rewrite (auto_pair_f n e A Hn He HA Hs) by auto. rewrite (cross_f n e A Hn He HA Hs) by auto. reflexivity.
Qed.

Lemma psd_key tags t side i s1 j s2 : good n s1 -> good n s2 ->
  (forall k, (k <= n / 2)%nat -> stable n (20 * INR n * e) ((s1, s2), k)) ->
  pair_key_f A n tags t n side PSD (pair_f n A i s1 j s2) = pair_key n tags t n side PSD (pair_of i s1 j s2).
Proof.
  intros G1 G2 Hst. pose proof G1 as [L1 P1]. pose proof G2 as [L2 P2]. pose proof (N1 n Hn).
  unfold pair_key_f, pair_key, pair_f, pair_of. cbn [seq_enum1 seq_enum2 dft1 norm1 dft2 norm2 snd].
  rewrite L1, psd_pair_f_spec, psd_pair_spec by auto.
  assert (E1 : map (fun a => field (roundR a)) (map (psd_f n A side s1 s2) (range_incl 1 (n / 2))) =
    map (fun a => field (roundR a)) (map (fun k => match side with LEFT => psd s1 k + psd s2 k | RIGHT => 4 * INR n - (psd s1 k + psd s2 k) end) (range_incl 1 (n / 2)))).
  { rewrite !map_map. apply map_ext_in. intros k Hk. apply in_range_incl in Hk. f_equal.
    destruct (Hst k ltac:(lia) L1 L2) as (S1 & _). pose proof (psd_f_close n e A Hn He HA side s1 s2 k G1 G2 ltac:(lia)) as C.
    unfold fside in S1. rewrite L1 in S1. specialize (S1 side). now apply S1. }
  rewrite E1. destruct (tag_sign tags) as [b|] eqn:Eb.
  2:{ unfold compute_cross_psd_pair_f, compute_cross_psd_pair. rewrite Eb. reflexivity. }
  destruct (cross_psd_pair_f_spec tags b s1 s2 Eb) as (l & El & Hl). destruct (cross_psd_pair_spec tags b s1 s2 n L1 L2 Eb) as (l' & El' & Hl').
  rewrite El, El'. cbn [bind].
  assert (E2 : map (fun c => field (op_side side (roundR (snd c)))) l = map (fun c => field (op_side side (roundR (snd c)))) l').
  { rewrite <- (map_map snd (fun c => field (op_side side (roundR c)))), Hl. rewrite <- (map_map snd (fun c => field (op_side side (roundR c)))), Hl'.
    rewrite !map_map. apply map_ext_in. intros k Hk. apply in_range_incl in Hk. do 2 f_equal.
    destruct (Hst k ltac:(lia) L1 L2) as (_ & S2 & _). apply S2. now apply (im_f_close n e A Hn He HA). }
  assert (E3 : existsb (fun v => gtR (Rabs (snd v)) (a_tiny A)) l = existsb (fun v => gtR (Rabs (snd v)) (1 / 10000)) l').
  { rewrite <- (existsb_map snd (fun v => gtR (Rabs v) (a_tiny A))), Hl. rewrite <- (existsb_map snd (fun v => gtR (Rabs v) (1 / 10000))), Hl'.
    rewrite !existsb_map. apply existsb_ext_in. intros k Hk. apply in_range_incl in Hk.
    destruct (Hst k ltac:(lia) L1 L2) as (_ & _ & S3 & _). apply S3.
    - unfold close. eapply Rle_trans; [apply Rabs_triang_inv2|]. now apply (im_f_close n e A Hn He HA).
    - destruct HA as (_ & _ & _ & _ & T). eapply close_weak; [exact T|nra]. }
  rewrite E2, E3. reflexivity.
Qed.

Lemma within_f_iff s1 s2 : within_f n A s1 s2 = true <-> forall k, (1 <= k <= n / 2)%nat -> a_add A (pw A s1 k) (pw A s2 k) <= 4 * INR n.
Proof.
  unfold within_f. rewrite forallb_forall. split; intros H k Hk.
  - apply gtR_false. apply negb_true_iff. apply H. apply in_seq. lia.
  - apply in_seq in Hk. apply negb_true_iff, gtR_false. apply H. lia.
Qed.
Lemma within_below s1 s2 : good n s1 -> good n s2 ->
  (forall k, (1 <= k <= n / 2)%nat -> psd s1 k + psd s2 k <= 4 * INR n - 20 * INR n * e) -> within_f n A s1 s2 = true.
Proof.
  intros G1 G2 H. apply within_f_iff. intros k Hk. pose proof (N1 n Hn). pose proof (sum_close n e A Hn He HA s1 s2 k G1 G2 ltac:(lia)) as C.
  unfold close in C. specialize (H k Hk). revert C. unfold Rabs. destruct (Rcase_abs _); nra.
Qed.
Lemma within_above s1 s2 : good n s1 -> good n s2 -> within_f n A s1 s2 = true ->
  forall k, (1 <= k <= n / 2)%nat -> psd s1 k + psd s2 k <= 4 * INR n + 20 * INR n * e.
Proof.
  intros G1 G2 H k Hk. pose proof (proj1 (within_f_iff s1 s2) H k Hk). pose proof (N1 n Hn). pose proof (sum_close n e A Hn He HA s1 s2 k G1 G2 ltac:(lia)) as C.
  unfold close in C. revert C. unfold Rabs. destruct (Rcase_abs _); nra.
Qed.
Lemma within_stable s1 s2 : good n s1 -> good n s2 -> (forall k, (k <= n / 2)%nat -> stable n (20 * INR n * e) ((s1, s2), k)) ->
  (within_f n A s1 s2 = true -> within (4 * INR n) s1 s2 = true) /\
  ((forall k, (1 <= k <= n / 2)%nat -> psd s1 k + psd s2 k <> 4 * INR n) -> within (4 * INR n) s1 s2 = true -> within_f n A s1 s2 = true).
Proof.
  intros G1 G2 Hst. pose proof G1 as [L1 P1]. pose proof G2 as [L2 P2]. pose proof (N1 n Hn).
  assert (Ag : forall k, (1 <= k <= n / 2)%nat -> psd s1 k + psd s2 k <> 4 * INR n ->
    gtR (a_add A (pw A s1 k) (pw A s2 k)) (4 * INR n) = gtR (psd s1 k + psd s2 k) (4 * INR n)).
  { intros k Hk N. destruct (Hst k ltac:(lia) L1 L2) as (_ & _ & _ & S4). apply S4; auto.
    eapply close_weak; [apply (sum_close n e A Hn He HA); auto; lia|nra]. }
  rewrite within_iff, within_f_iff, L1. split.
  - intros H0 k Hk. destruct (Req_dec (psd s1 k + psd s2 k) (4 * INR n)) as [E|N]; [lra|].
    apply gtR_false. rewrite <- Ag by auto. apply gtR_false. now apply H0.
  - intros NT H0 k Hk. apply gtR_false. rewrite Ag by auto. apply gtR_false. now apply H0.
Qed.
End Keys.
