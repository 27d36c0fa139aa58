(* Odd lengths from 33 to 63: the search, and examples whose representative is not a solution. *)
From Coq Require Import Ascii String List ZArith Lia Arith Bool Relations.
From Verif Require Import Base BaseFacts Sums ModelSequence ModelWilliamson ModelEquivalence SpecEquiv
  SeqFacts Convert OpFacts EquivFacts EquivThms TypeFacts FastFacts OrderFacts CanonFacts NsFacts ReduceFacts WsFacts Len32Facts Len32Thms Len32Example Len48Facts
  ModelFourier ModelMatching ModelRowsum SpecRowsum RowsumFacts ModelWrite WriteFacts FolderFacts SearchThms ExtendFacts DriverFacts SpecSearch Spec.
Import ListNotations.
Notation length := List.length.
Open Scope nat_scope.

Definition odd_48 (n : nat) : Prop := 33 <= n <= 63 /\ Nat.odd n = true.

(* ---- the class of a quadruple consists of solutions or holds none ---- *)

Lemma type_good t n w : opword (type_ops t) n w -> Forall (good n) w.
Proof.
  intros H. induction H as [|w o v Hw IH Ho Hv]; [constructor|]. apply Forall_app. split; auto.
  apply (good_op n o); auto. intros E. now destruct (type_no_alt t o Ho).
Qed.

Lemma class_complementary n t x y : pm_quad n x -> 1 <= n -> reach (type_ops t) x y -> (complementary x <-> complementary y).
Proof.
  intros Hx Hn R.
  assert (forall x y, pm_quad n x -> reach (type_ops t) x y -> complementary x -> complementary y) as H.
  { clear x y Hx R. intros x y Hx R Hc. apply (reach_word n) in R as (w & Hw & ->); [|apply Hx].
    apply (word_preserves complementary (good n) n); auto; [|now apply (type_good t)].
    intros g q Hq Hg. now apply (good_complementary n). }
  split; [now apply H|]. apply H; [eapply reach_pm; eauto|]. apply (reach_sym n); auto using pm_i8.
Qed.

(* ---- the sum of the squares of the four row sums ---- *)

Definition energy (q : QuadSeq) : Z :=
  (total (q_a q) * total (q_a q) + total (q_b q) * total (q_b q) + total (q_c q) * total (q_c q) + total (q_d q) * total (q_d q))%Z.

Lemma total_lact n f l : length l = n -> pm1 l -> 1 <= n -> Nat.odd n = true -> good_lop n f ->
  (total (lact f l) = total l \/ total (lact f l) = - total l)%Z.
Proof.
  intros Hl Hp Hn Hodd Hg. rewrite !total_sum, lact_length.
  assert (Nat.even n = false) as He by (rewrite <- Nat.negb_odd, Hodd; reflexivity).
  assert (length l <> 0) as L0 by lia.
  assert (periodic (length l) (entry l)) as Hper by (intros i j E; now apply entry_periodic).
  assert ((forall i, lneg f i = false) -> sumZ (length l) (fun i => entry (lact f l) (Z.of_nat i)) =
    sumZ (length l) (fun i => entry l (lidx f (length l) (Z.of_nat i)))) as E.
  { intros Hf. apply sumZ_ext. intros i Hi. rewrite entry_nat by (now rewrite lact_length). rewrite lact_nth by auto. now rewrite Hf. }
  destruct f; cbn [good_lop] in Hg; [left|left|rewrite He in Hg; discriminate|left|right].
  - rewrite E by reflexivity. cbn [lidx]. apply (sumZ_shift (length l) (entry l)); auto.
  - rewrite E by reflexivity. cbn [lidx]. apply (sumZ_mulk (length l) (entry l)); auto. rewrite Hl. now apply gcd_ZZ.
  - rewrite E by reflexivity. cbn [lidx]. rewrite <- (sumZ_neg (length l) (entry l)) by auto.
    rewrite <- (sumZ_shift (length l) (fun z => entry l (- z)) (1 - Z.of_nat (length l))).
    + apply sumZ_ext. intros i Hi. f_equal. lia.
    + intros i j Eij. apply entry_periodic.
      destruct (Z.eq_dec (i mod Z.of_nat (length l)) 0) as [E0|E0].
      * rewrite !Z.mod_opp_l_z by (lia || congruence). reflexivity.
      * rewrite !Z.mod_opp_l_nz by (lia || congruence). congruence.
  - transitivity (sumZ (length l) (fun i => entry l (Z.of_nat i) * -1))%Z; [|rewrite sumZ_mul_r; lia].
    apply sumZ_ext. intros i Hi. rewrite entry_nat by (now rewrite lact_length). rewrite lact_nth by auto. cbn [lneg lidx sneg].
    rewrite neg8_pm; [lia|]. rewrite entry_nat by auto. apply pm1_nth; auto.
Qed.

Lemma energy_gact n g q : pm_quad n q -> 1 <= n -> Nat.odd n = true -> good n g -> energy (gact g q) = energy q.
Proof.
  intros Hq Hn Hodd Hg. apply pm_slots in Hq as [Hw Hp]. apply wf_slots in Hw as [_ Hl].
  assert (forall f t, good_lop n f -> (total (lact f (slot q t)) * total (lact f (slot q t)) = total (slot q t) * total (slot q t))%Z) as H.
  { intros f t Hf. destruct (total_lact n f (slot q t)) as [->| ->]; auto; lia. }
  assert (forall x, energy x = (total (slot x TW) * total (slot x TW) + total (slot x TX) * total (slot x TX)
    + total (slot x TY) * total (slot x TY) + total (slot x TZ) * total (slot x TZ))%Z) as En by reflexivity.
  rewrite !En, !gact_slot. destruct g as [f|t f|s t].
  - now rewrite !H by exact Hg.
  - assert (good_lop n f) as Hf by (destruct f; cbn in *; tauto).
    destruct t; cbn [tag_eq]; now rewrite H.
  - destruct s, t; cbn [exchange tag_eq]; lia.
Qed.

Lemma energy_reach n t x y : pm_quad n x -> 1 <= n -> Nat.odd n = true -> reach (type_ops t) x y -> energy y = energy x.
Proof.
  intros Hx Hn Hodd R. apply (reach_word n) in R as (w & Hw & ->); [|apply Hx].
  apply (word_preserves (fun y => energy y = energy x) (good n) n); auto; [|now apply (type_good t)].
  intros g q Hq Hg E. rewrite <- E. now apply (energy_gact n).
Qed.

Lemma energy_complementary n q : pm_quad n q -> 1 <= n -> complementary q -> energy q = (4 * Z.of_nat n)%Z.
Proof. intros Hq Hn Hc. pose proof (complementary_rowsums n q Hq Hn Hc) as H. unfold totals, feasible in H. unfold energy. lia. Qed.

(* ---- equiv ---- *)

Theorem equiv_48 n t x y ord : odd_48 n -> supported t -> pm_quad n x -> pm_quad n y -> verify x t = Some true -> verify y t = Some true -> ord_ok ord ->
  exists fuel0, forall fuel path, fuel0 <= fuel -> exists b c d, equiv fuel ord path x y t = Some b /\
    least (reach (slot_ops t) x) c /\ least (reach (slot_ops t) y) d /\
    (b = true <-> reach (type_ops (rep_type t)) (fold_quad n c) (fold_quad n d)).
Proof.
  intros [Hn Hodd] Ht Px Py Vx Vy Ho. exists (class_fuel n). intros fuel path Hf. rewrite equiv_unfold by auto.
  destruct (canon_of_spec n t x Ht Px) as (c & -> & Lc); [lia|].
  destruct (canon_of_spec n t y Ht Py) as (d & -> & Ld); [lia|]. cbn [bind].
  assert (pm_quad n c) as Pc by (eapply reach_pm; [apply Px|apply Lc]).
  assert (pm_quad n d) as Pd by (eapply reach_pm; [apply Py|apply Ld]).
  destruct (reduce_48 n ord path [c; d] t fuel Ho Ht Hn Hodd) as (r & -> & Nr & Hr); [discriminate|auto|exact Hf|].
  cbn [bind]. eexists _, c, d. split; [reflexivity|]. split; [exact Lc|]. split; [exact Ld|].
  pose proof (fold_pm n c Pc Hn) as Fc. pose proof (fold_pm n d Pd Hn) as Fd.
  destruct (canonical_is_least n ord (rep_type t) (fold_quad n c) Ho (pm_i8 n _ Fc)) as (u & Hu & _); [lia|].
  destruct (canonical_is_least n ord (rep_type t) (fold_quad n d) Ho (pm_i8 n _ Fd)) as (v & Hv & _); [lia|].
  assert (forall z, In z r <-> z = u \/ z = v) as Hz.
  { intros z. rewrite Hr. split.
    - intros (q & [<-|[<-|[]]] & Hq); [left|right]; eapply least_unique; eauto.
    - intros [->| ->]; [exists c|exists d]; cbn; auto. }
  assert ((length r =? 1) = true <-> u = v) as ->.
  { rewrite Nat.eqb_eq. split.
    - intros E. destruct r as [|a [|b r]]; cbn in E; try lia.
      assert (In u [a]) as [<-|[]] by (apply Hz; auto). assert (In v [a]) as [<-|[]] by (apply Hz; auto). reflexivity.
    - intros <-. assert (In u r) as Hur by (apply Hz; auto). destruct r as [|a [|b r]]; [destruct Hur|reflexivity|].
      exfalso. inversion Nr as [|? ? Na _]; subst. apply Na. left.
      destruct (proj1 (Hz a)) as [->| ->]; [left; auto| |]; (destruct (proj1 (Hz b)) as [E|E]; [right; left; auto| |]; congruence). }
  split.
  - intros <-. eapply rt_trans; [apply Hu|]. apply (reach_sym n); [now apply pm_i8|apply Hv].
  - intros R. apply (least_unique _ _ _ Hu). destruct Hv as [V1 V2]. split; [eapply rt_trans; eauto|].
    intros z Rz. apply V2. eapply rt_trans; [apply (reach_sym n); [apply pm_i8, Fc|exact R]|exact Rz].
Qed.

(* ---- the search ---- *)

Theorem search_48 n t m p ls ord : odd_48 n -> supported t -> any_listing ls -> ord_ok ord ->
  (exists x, pm_quad n x /\ is_type t x /\ normal_rowsums t (totals x)) ->
  exists fuel0, forall fuel path, fuel0 <= fuel -> exists f c r,
    write_pairs fuel n t m p [] = Some (f, c) /\ join_pairs fuel ord path ls t (sortpairs f) = Some r /\ NoDup r /\
    forall z, In z r <-> exists x y, pm_quad n x /\ is_type t x /\ normal_rowsums t (totals x) /\ canon_of t x = Some y /\
      least (reach (type_ops (rep_type t)) (fold_quad n y)) z.
Proof.
  intros [Hn Hodd] Ht Hls Ho (x0 & P0 & T0 & N0).
  assert (searchable t) as Hs by (unfold searchable; destruct Ht as [->|[->| ->]]; tauto).
  assert (1 <= n) as Hn1 by lia. assert (Z.of_nat n < 2 ^ 62)%Z as Hn2 by (apply Z.le_lt_trans with 63%Z; lia).
  destruct (search_spec n t m p ls Hn1 Hn2 Hs Hls) as (f0 & H).
  exists (max f0 (class_fuel n)). intros fuel path Hf.
  assert (f0 <= fuel /\ class_fuel n <= fuel) as [Hf0 Hf1] by (clear -Hf; revert Hf; generalize (class_fuel n); lia).
  destruct (H fuel Hf0) as (f & c & r & Ew & Em & Snd & Cmp).
  assert (canonical t = canon_of t) as Ec by (destruct Ht as [->|[->| ->]]; reflexivity).
  destruct (traverse_total (canon_of t) r) as (l & El & Hl).
  { intros q Hq. destruct (canon_of_spec n t q Ht) as (y & E & _); eauto. now apply Snd. }
  assert (forall y, In y (unique l) <-> exists x, In x r /\ canon_of t x = Some y) as Hu.
  { intros y. rewrite <- Hl. apply unique_spec. }
  destruct (reduce_48 n ord path (unique l) t fuel Ho Ht Hn Hodd) as (r' & Er & Nr & Hr); auto.
  { destruct (canon_of_spec n t x0 Ht P0 Hn1) as (y0 & E0 & _). intros E.
    assert (In y0 (unique l)) as I by (apply Hu; eauto). rewrite E in I. exact I. }
  { apply Forall_forall. intros y Hy. apply Hu in Hy as (x & Hx & E).
    destruct (canon_of_spec n t x Ht) as (y' & E' & R & _); [now apply Snd|exact Hn1|]. rewrite E in E'. injection E' as <-.
    eapply reach_pm; [apply (Snd x Hx)|exact R]. }
  exists f, c, r'. split; auto. split; [|split; auto].
  - rewrite join_pairs_eq by auto. rewrite Em. cbn [bind]. rewrite Ec, El. exact Er.
  - intros z. rewrite Hr. split.
    + intros (y & Hy & L). apply Hu in Hy as (x & Hx & E). exists x, y. destruct (Snd x Hx) as (A & B & C). auto.
    + intros (x & y & A & B & C & E & L). exists y. split; auto. apply Hu. eauto.
Qed.

(* ---- only the first 128 entries matter ---- *)

Lemma fold_agree n x y : pm_quad n x -> pm_quad n y -> 33 <= n <= 63 -> firstn 128 (flat x) = firstn 128 (flat y) -> fold_quad n x = fold_quad n y.
Proof.
  intros Px Py Hn E. apply (flat_ext n); auto using fold_wf. intros i Hi. rewrite !Len48Facts.fold_flat by auto.
  assert (forall j, j < 128 -> nth j (flat x) 0%Z = nth j (flat y) 0%Z) as H.
  { intros j Hj. rewrite <- (firstn_skipn 128 (flat x)), <- (firstn_skipn 128 (flat y)).
    assert (length (flat x) = 4 * n /\ length (flat y) = 4 * n) as [Lx Ly] by (split; apply flat_length; [apply Px|apply Py]).
    rewrite !app_nth1 by (rewrite firstn_length; lia). now rewrite E. }
  unfold fold_entry. pose proof (back_lt n Hn). destruct (Nat.ltb_spec i 127); [apply H; lia|].
  f_equal. apply H. destruct (i =? 127); lia.
Qed.
