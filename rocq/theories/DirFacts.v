(* The search in one row sum directory. *)
From Coq Require Import Ascii String List ZArith Lia Arith Bool Reals Lra Permutation.
From Verif Require Import Base BaseFacts Sums ModelSequence ModelWilliamson ModelEquivalence ModelFourier ModelMatching
  ModelRowsum SeqFacts FourierFacts SpecFourier MatchFacts SpecRowsum RowsumFacts QtWt GraphFacts Convert ModelWrite TextFacts
  JoinFacts WriteFacts PsdKeys Spec.
Import ListNotations.
Notation length := List.length.
Open Scope nat_scope.

(* ---- keys of valid quadruples are not in proper prefix relation with other keys ---- *)

Lemma unrelated_sym x y : unrelated x y -> unrelated y x.
Proof. intros [->|[A B]]; [now left|right; auto]. Qed.

Lemma unrelated_join fs gs : length fs = length gs ->
  (forall h x y, fs = h ++ [x] -> gs = h ++ [y] -> x <> y ->
     ~ prefix (isize_to_string x) (isize_to_string y) /\ ~ prefix (isize_to_string y) (isize_to_string x)) ->
  unrelated (join fs) (join gs).
Proof.
  intros Hl H. destruct (list_eq_dec Z.eq_dec fs gs) as [->|N]; [now left|]. right. split; intros [r E].
  - destruct (join_prefix fs gs r Hl E) as [|(h & x & y & -> & -> & Nx & Ex)]; auto.
    destruct (H h x y) as [A _]; auto. apply A. now exists r.
  - destruct (join_prefix gs fs r (eq_sym Hl) E) as [|(h & x & y & -> & -> & Nx & Ex)]; auto.
    destruct (H h y x) as [_ A]; auto. apply A. now exists r.
Qed.

Lemma zero_prefix y : y <> 0%Z -> ~ prefix (isize_to_string 0) (isize_to_string y) /\ ~ prefix (isize_to_string y) (isize_to_string 0).
Proof.
  intros N. split; intros [r E]; rewrite isize_zero in E.
  - now apply isize_head_zero in E.
  - pose proof (isize_nonempty y). destruct (isize_to_string y) as [|c s] eqn:Ey; [congruence|].
    cbn in E. injection E as <- E. now apply isize_head_zero in Ey.
Qed.

Lemma unrelated_zero h gs : length (h ++ [0%Z]) = length gs -> unrelated (join (h ++ [0%Z])) (join gs).
Proof.
  intros Hl. apply unrelated_join; auto. intros h' x y E E' N. apply app_inj_tail in E as [_ <-].
  apply zero_prefix. congruence.
Qed.

Lemma auto_fields_length m side s1 s2 : length (auto_fields m side s1 s2) = length s1 / 2.
Proof. unfold auto_fields, range_incl. rewrite map_length, seq_length. lia. Qed.
Lemma cross_fields_length m side b s1 s2 : length (cross_fields m side b s1 s2) = length s1 / 2.
Proof. unfold cross_fields, range_incl. rewrite map_length, seq_length. lia. Qed.
Lemma key_fields_length t m side b s1 s2 side' b' s1' s2' : length s1 = length s1' ->
  length (key_fields t m side b s1 s2) = length (key_fields t m side' b' s1' s2').
Proof.
  intros E. unfold key_fields. rewrite !app_length, !auto_fields_length, E.
  destruct t; auto. now rewrite !cross_fields_length, E.
Qed.

Lemma repeat_zero_snoc k : map (fun _ : nat => 0%Z) (range_incl 1 (S k)) = map (fun _ => 0%Z) (range_incl 1 k) ++ [0%Z].
Proof.
  unfold range_incl. replace (S (S k) - 1) with (S k) by lia. replace (S k - 1) with k by lia.
  rewrite seq_S, map_app. reflexivity.
Qed.

Lemma clear_QT m side b s1 s2 side' b' s1' s2' : length s1 = length s2 -> 1 <= length s1 -> length s1 = length s1' ->
  amicable s1 s2 ->
  unrelated (join (key_fields QuaternionType m side b s1 s2)) (join (key_fields QuaternionType m side' b' s1' s2')).
Proof.
  intros E Hn E' A. pose proof (key_fields_length QuaternionType m side b s1 s2 side' b' s1' s2' E') as L.
  destruct (length s1 / 2) as [|k] eqn:K.
  - left. f_equal. assert (Z0 : forall sd c u v, length u = length s1 -> key_fields QuaternionType m sd c u v = []).
    { intros sd c u v Hu. apply length_zero_iff_nil. unfold key_fields.
      rewrite app_length, auto_fields_length, cross_fields_length, Hu, K. reflexivity. }
    rewrite !Z0; auto.
  - unfold key_fields at 1. unfold key_fields at 1 in L. rewrite cross_fields_amicable, K in * by auto.
    rewrite repeat_zero_snoc in *. rewrite app_assoc in *. apply unrelated_zero. exact L.
Qed.

(* correlation keys: the last value is determined by the others and the row sums *)
Definition gval (side : EquationSide) (s1 s2 : list Z) (k : nat) : Z :=
  op_side side (paf s1 (Z.of_nat k) + paf s2 (Z.of_nat k))%Z.

Lemma gval_sum n side s1 s2 : length s1 = n -> length s2 = n -> pm1 s1 -> pm1 s2 -> 1 <= n ->
  sumZ (n - 1) (fun k => gval side s1 s2 (S k)) = op_side side (total s1 * total s1 + total s2 * total s2 - 2 * Z.of_nat n).
Proof.
  intros H1 H2 P1 P2 Hn. rewrite !total_sq, H1, H2. destruct n as [|n]; [lia|].
  replace (S n - 1) with n by lia.
  assert (E : forall s, length s = S n -> pm1 s -> sumZ (S n) (fun t => paf s (Z.of_nat t)) = (Z.of_nat (S n) + sumZ n (fun k => paf s (Z.of_nat (S k))))%Z).
  { intros s Hs Ps. change (S n) with (1 + n) at 1. rewrite sumZ_split. cbn [Nat.add].
    change (sumZ 1 (fun t => paf s (Z.of_nat t))) with (paf s 0 + 0)%Z. rewrite paf_0 by auto. rewrite Hs. lia. }
  rewrite !E by auto. unfold gval. destruct side; cbn [op_side].
  - rewrite sumZ_add. lia.
  - rewrite sumZ_opp, sumZ_add. lia.
Qed.

Lemma gval_sym n side s1 s2 k : length s1 = n -> length s2 = n -> 1 <= k < n -> gval side s1 s2 (n - k) = gval side s1 s2 k.
Proof.
  intros H1 H2 Hk. unfold gval. f_equal.
  assert (E : forall s, length s = n -> paf s (Z.of_nat (n - k)) = paf s (Z.of_nat k)).
  { intros s Hs. rewrite <- (paf_opp s (Z.of_nat k)). rewrite <- (paf_mod s (- Z.of_nat k)), <- paf_mod. f_equal. rewrite Hs.
    rewrite Nat2Z.inj_sub by lia. replace (Z.of_nat n - Z.of_nat k)%Z with (- Z.of_nat k + 1 * Z.of_nat n)%Z by lia.
    apply Z.mod_add. lia. }
  now rewrite !E.
Qed.

Lemma gval_last n side s1 s2 side' s1' s2' : 2 <= n ->
  length s1 = n -> length s2 = n -> pm1 s1 -> pm1 s2 -> length s1' = n -> length s2' = n -> pm1 s1' -> pm1 s2' ->
  op_side side (total s1 * total s1 + total s2 * total s2 - 2 * Z.of_nat n)%Z =
  op_side side' (total s1' * total s1' + total s2' * total s2' - 2 * Z.of_nat n)%Z ->
  (forall k, 1 <= k < n / 2 -> gval side s1 s2 k = gval side' s1' s2' k) ->
  gval side s1 s2 (n / 2) = gval side' s1' s2' (n / 2).
Proof.
  intros Hn H1 H2 P1 P2 H1' H2' P1' P2' T H.
  rewrite <- (gval_sum n side s1 s2), <- (gval_sum n side' s1' s2') in T by (auto; lia).
  set (m := n / 2) in *. assert (Hm : 1 <= m /\ 2 * m <= n <= 2 * m + 1).
  { unfold m. pose proof (Nat.div_mod n 2 ltac:(lia)). pose proof (Nat.mod_upper_bound n 2 ltac:(lia)). lia. }
  set (x := (gval side s1 s2 m - gval side' s1' s2' m)%Z).
  assert (E : (sumZ (n - 1) (fun k => gval side s1 s2 (S k) - gval side' s1' s2' (S k)) = 0)%Z) by (rewrite sumZ_sub; lia).
  assert (D : forall k, k < n - 1 -> (gval side s1 s2 (S k) - gval side' s1' s2' (S k))%Z =
     ((if (k =? m - 1)%nat then x else 0%Z) + (if ((k =? n - m - 1) && negb (n - m =? m))%nat then x else 0%Z))%Z).
  { intros k Hk. destruct (Nat.eqb_spec k (m - 1)) as [->|N1].
    - replace (S (m - 1)) with m by lia. fold x. destruct (Nat.eqb_spec (m - 1) (n - m - 1)); cbn [andb]; [|lia].
      replace (n - m =? m) with true by (symmetry; apply Nat.eqb_eq; lia). cbn. lia.
    - destruct (Nat.eqb_spec k (n - m - 1)) as [->|N2]; cbn [andb].
      + replace (n - m =? m) with false by (symmetry; apply Nat.eqb_neq; lia). cbn [negb].
        replace (S (n - m - 1)) with (n - m) by lia. rewrite !gval_sym by (auto; lia). fold x. lia.
      + destruct (Nat.le_gt_cases m (S k)).
        * rewrite <- (gval_sym n side s1 s2 (S k)), <- (gval_sym n side' s1' s2' (S k)) by (auto; lia).
          rewrite H by lia. lia.
        * rewrite H by lia. lia. }
  rewrite (sumZ_ext _ _ _ D) in E. rewrite sumZ_add, sumZ_delta in E by lia.
  destruct (Nat.eqb_spec (n - m) m) as [Em|Em].
  - rewrite sumZ_zero in E; [unfold x in E; lia|]. intros i Hi. rewrite andb_false_r. reflexivity.
  - rewrite (sumZ_ext _ _ (fun k => if k =? n - m - 1 then x else 0%Z)) in E.
    + rewrite sumZ_delta in E by lia. unfold x in E. lia.
    + intros i Hi. cbn [negb]. rewrite andb_true_r. reflexivity.
Qed.

Lemma auto_fields_snoc m side s1 s2 : 1 <= length s1 / 2 -> m = CORRELATION ->
  auto_fields m side s1 s2 = map (gval side s1 s2) (seq 1 (length s1 / 2 - 1)) ++ [gval side s1 s2 (length s1 / 2)].
Proof.
  intros H ->. unfold auto_fields, range_incl. destruct (length s1 / 2) as [|k]; [lia|].
  replace (S (S k) - 1) with (S k) by lia. replace (S k - 1) with k by lia. rewrite seq_S, map_app. reflexivity.
Qed.

Lemma nth_map_seq1 (f : nat -> Z) k n : k < n -> nth k (map f (seq 1 n)) 0%Z = f (1 + k).
Proof.
  intros H. rewrite (nth_indep _ 0%Z (f 0)) by (rewrite map_length, seq_length; lia).
  rewrite map_nth, seq_nth by lia. reflexivity.
Qed.

Lemma clear_corr t n side b s1 s2 side' b' s1' s2' : t <> QuaternionType -> 1 <= n ->
  length s1 = n -> length s2 = n -> pm1 s1 -> pm1 s2 -> length s1' = n -> length s2' = n -> pm1 s1' -> pm1 s2' ->
  op_side side (total s1 * total s1 + total s2 * total s2 - 2 * Z.of_nat n)%Z =
  op_side side' (total s1' * total s1' + total s2' * total s2' - 2 * Z.of_nat n)%Z ->
  unrelated (join (key_fields t CORRELATION side b s1 s2)) (join (key_fields t CORRELATION side' b' s1' s2')).
Proof.
  intros Ht Hn H1 H2 P1 P2 H1' H2' P1' P2' T.
  assert (F : forall sd b s1 s2, key_fields t CORRELATION sd b s1 s2 = auto_fields CORRELATION sd s1 s2).
  { intros. unfold key_fields. destruct t; try congruence; apply app_nil_r. }
  rewrite !F. apply unrelated_join; [now rewrite !auto_fields_length, H1, H1'|].
  intros h x y E E' N. exfalso. apply N.
  destruct (Nat.eq_dec (n / 2) 0) as [Z0|Nz].
  { apply (f_equal (@length _)) in E. rewrite auto_fields_length, H1, app_length, Z0 in E. cbn in E. lia. }
  rewrite auto_fields_snoc in E by (auto; rewrite H1; lia). rewrite auto_fields_snoc in E' by (auto; rewrite H1'; lia).
  apply app_inj_tail in E as [E <-]. apply app_inj_tail in E' as [E' <-]. rewrite H1, H1' in *.
  apply gval_last; auto.
  - destruct n as [|[|n]]; [lia|cbn in Nz; lia|lia].
  - intros k Hk. rewrite <- E' in E. apply (f_equal (fun l => nth (k - 1) l 0%Z)) in E.
    rewrite !nth_map_seq1 in E by lia. replace (1 + (k - 1)) with k in E by lia. exact E.
Qed.

(* spectral keys: likewise *)
Lemma auto_fields_psd side s1 s2 : 1 <= length s1 / 2 ->
  auto_fields PSD side s1 s2 = map (fun k => roundR (fside side s1 s2 k)) (seq 1 (length s1 / 2 - 1)) ++ [roundR (fside side s1 s2 (length s1 / 2))].
Proof.
  intros H. unfold auto_fields, range_incl. destruct (length s1 / 2) as [|k]; [lia|].
  replace (S (S k) - 1) with (S k) by lia. replace (S k - 1) with k by lia. rewrite seq_S, map_app. reflexivity.
Qed.
Lemma clear_psd t n side b s1 s2 side' b' s1' s2' : t <> QuaternionType -> 1 <= n ->
  length s1 = n -> length s2 = n -> pm1 s1 -> pm1 s2 -> length s1' = n -> length s2' = n -> pm1 s1' -> pm1 s2' ->
  op_side side (total s1 * total s1 + total s2 * total s2 - 2 * Z.of_nat n)%Z =
  op_side side' (total s1' * total s1' + total s2' * total s2' - 2 * Z.of_nat n)%Z ->
  unrelated (join (key_fields t PSD side b s1 s2)) (join (key_fields t PSD side' b' s1' s2')).
Proof.
  intros Ht Hn H1 H2 P1 P2 H1' H2' P1' P2' T.
  assert (F : forall sd b s1 s2, key_fields t PSD sd b s1 s2 = auto_fields PSD sd s1 s2).
  { intros. unfold key_fields. destruct t; try congruence; apply app_nil_r. }
  rewrite !F. apply unrelated_join; [now rewrite !auto_fields_length, H1, H1'|].
  intros h x y E E' N. exfalso. apply N.
  destruct (Nat.eq_dec (n / 2) 0) as [Z0|Nz].
  { apply (f_equal (@length _)) in E. rewrite auto_fields_length, H1, app_length, Z0 in E. cbn in E. lia. }
  assert (Hn2 : 2 <= n) by (destruct n as [|[|n]]; [lia|cbn in Nz; lia|lia]).
  rewrite auto_fields_psd in E by (auto; rewrite H1; lia). rewrite auto_fields_psd in E' by (auto; rewrite H1'; lia).
  apply app_inj_tail in E as [E <-]. apply app_inj_tail in E' as [E' <-]. rewrite H1, H1' in *.
  f_equal. apply (fside_same n); auto. apply same_spectra; auto.
  intros k Hk. rewrite <- E' in E. apply (f_equal (fun l => nth (k - 1) l 0%Z)) in E.
  rewrite !(nth_map_seq1 (fun k => roundR _)) in E by lia. replace (1 + (k - 1)) with k in E by lia. exact E.
Qed.
Lemma clear_keys t m n side b s1 s2 side' b' s1' s2' : t <> QuaternionType -> 1 <= n ->
  length s1 = n -> length s2 = n -> pm1 s1 -> pm1 s2 -> length s1' = n -> length s2' = n -> pm1 s1' -> pm1 s2' ->
  op_side side (total s1 * total s1 + total s2 * total s2 - 2 * Z.of_nat n)%Z =
  op_side side' (total s1' * total s1' + total s2' * total s2' - 2 * Z.of_nat n)%Z ->
  unrelated (join (key_fields t m side b s1 s2)) (join (key_fields t m side' b' s1' s2')).
Proof. intros. destruct m; [apply (clear_corr t n)|apply (clear_psd t n)]; auto. Qed.
