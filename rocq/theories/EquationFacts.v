(* The generated equations and their meaning. *)
From Coq Require Import Ascii String List ZArith Arith Bool Lia.
From Verif Require Import Base BaseFacts Sums ModelSequence ModelWilliamson ModelEquivalence ModelRowsum ModelWrite TextFacts
  ModelEquations SeqFacts SpecRowsum Spec SpecEquations EquationText.
Import ListNotations.
Notation length := List.length.
Open Scope nat_scope.

(* ---- linear equations ---- *)
Fixpoint linear_terms (k : nat) (cs : list Z) : list (Z * list nat) :=
  match cs with
  | [] => []
  | c :: r => if (c =? 0)%Z then linear_terms (S k) r else (c, [k]) :: linear_terms (S k) r
  end.
Definition all_zero (cs : list Z) : bool := forallb (fun c => c =? 0)%Z cs.

Definition from_step : text * nat * bool -> Z -> text * nat * bool :=
  fun '(result, variable_counter, all_zero_coeff) elm =>
      let '(result, all_zero_coeff) :=
        if (0 <? elm)%Z
        then ((if negb all_zero_coeff then result ++ lit "+" else result)
                ++ isize_to_string elm ++ lit " x" ++ num variable_counter ++ lit " ", false)
        else (result, all_zero_coeff) in
      let '(result, all_zero_coeff) :=
        if (elm <? 0)%Z
        then (result ++ isize_to_string elm ++ lit " x" ++ num variable_counter ++ lit " ", false)
        else (result, all_zero_coeff) in
      (result, variable_counter + 1, all_zero_coeff).

Lemma term_text c k : isize_to_string c ++ lit " x" ++ num k ++ lit " " = unwords (isize_to_string c :: map var [k]).
Proof. unfold unwords. cbn [map concat]. rewrite app_nil_r, <- !app_assoc. reflexivity. Qed.
Lemma unwords_nonempty w ws : unwords (w :: ws) <> [].
Proof. unfold unwords. cbn. now destruct w. Qed.

Lemma from_fold cs : forall result k z,
  exists txt, fold_left from_step cs (result, k, z) = (result ++ txt, k + length cs, z && all_zero cs) /\
    chunk txt (linear_terms k cs) /\ (all_zero cs = false -> txt <> []).
Proof.
  induction cs as [|c cs IH]; intros result k z.
  - exists []. cbn. rewrite app_nil_r, Nat.add_0_r, andb_true_r. repeat split; [apply chunk_nil|discriminate].
  - cbn [fold_left length linear_terms all_zero forallb].
    assert (Hs : exists t1, from_step (result, k, z) c = (result ++ t1, k + 1, z && (c =? 0)%Z) /\
                  chunk t1 (if (c =? 0)%Z then [] else [(c, [k])]) /\ ((c =? 0)%Z = false -> t1 <> [])).
    { unfold from_step. destruct (Z.ltb_spec 0 c).
      - destruct (Z.ltb_spec c 0); [lia|]. destruct (Z.eqb_spec c 0); [lia|]. rewrite andb_false_r.
        destruct z; cbn [negb].
        + rewrite term_text. eexists. split; [reflexivity|]. split; [apply chunk_int|]. intros _. apply unwords_nonempty.
        + rewrite term_text. exists (unwords (("+"%char :: isize_to_string c) :: map var [k])).
          split; [now rewrite <- app_assoc|]. split; [apply chunk_plus; lia|]. intros _. apply unwords_nonempty.
      - destruct (Z.ltb_spec c 0).
        + destruct (Z.eqb_spec c 0); [lia|]. rewrite andb_false_r, term_text.
          eexists. split; [reflexivity|]. split; [apply chunk_int|]. intros _. apply unwords_nonempty.
        + destruct (Z.eqb_spec c 0); [|lia]. rewrite andb_true_r. exists []. rewrite app_nil_r.
          split; [reflexivity|]. split; [apply chunk_nil|discriminate]. }
    destruct Hs as (t1 & E1 & C1 & N1). rewrite E1.
    destruct (IH (result ++ t1) (k + 1) (z && (c =? 0)%Z)) as (t2 & E2 & C2 & N2).
    exists (t1 ++ t2). split; [|split].
    + etransitivity; [exact E2|]. rewrite <- app_assoc, <- andb_assoc. f_equal. f_equal. lia.
    + rewrite Nat.add_1_r in C2. destruct (c =? 0)%Z.
      * now apply (chunk_app _ [] _ _ C1).
      * now apply (chunk_app _ [_] _ _ C1).
    + intros Hz. destruct (c =? 0)%Z; cbn in Hz.
      * specialize (N2 Hz). now destruct t1.
      * specialize (N1 eq_refl). now destruct t1.
Qed.

Lemma equation_from_opb cs z :
  opb (generate_equation_from cs z) (if all_zero cs then [] else [mkEquation (linear_terms 1 cs) z]).
Proof.
  destruct (from_fold cs [] 1 true) as (txt & E & C & N).
  unfold generate_equation_from. unfold text in *.
  match goal with |- context [fold_left ?f cs ?a] => change (fold_left f cs a) with (fold_left from_step cs a) end.
  unfold text in *. rewrite E. cbn [app andb].
  destruct (all_zero cs); [apply opb_nil|]. apply opb_line; auto.
Qed.

(* the value of a linear equation *)
Lemma linear_value v cs : forall k,
  (fold_right Z.add 0 (map (term_value v) (linear_terms k cs)) = sumZ (length cs) (fun i => nth i cs 0 * v (k + i)%nat))%Z.
Proof.
  induction cs as [|c cs IH]; intros k; [reflexivity|].
  cbn [length]. change (S (length cs)) with (1 + length cs). rewrite sumZ_split.
  replace (sumZ (length cs) (fun j => nth (1 + j) (c :: cs) 0 * v (k + (1 + j))%nat)%Z)
    with (sumZ (length cs) (fun i => nth i cs 0 * v (S k + i)%nat)%Z).
  2: { apply sumZ_ext. intros i _. cbn [nth Nat.add]. now rewrite Nat.add_succ_r. }
  rewrite <- IH. cbn [linear_terms].
  replace (sumZ 1 (fun i => nth i (c :: cs) 0 * v (k + i)%nat)%Z) with (c * v k)%Z.
  2: { unfold sumZ. cbn. rewrite Nat.add_0_r. lia. }
  destruct (Z.eqb_spec c 0) as [->|]; [lia|]. cbn [map fold_right]. unfold term_value at 1. cbn. lia.
Qed.
Lemma all_zero_nth cs i : all_zero cs = true -> nth i cs 0%Z = 0%Z.
Proof.
  unfold all_zero. rewrite forallb_forall. intros H. destruct (Nat.lt_ge_cases i (length cs)) as [L|L].
  - now apply Z.eqb_eq, H, nth_In.
  - now apply nth_overflow.
Qed.
Lemma equation_from_meaning v cs z : (all_zero cs = true -> z = 0%Z) ->
  (Forall (holds v) (if all_zero cs then [] else [mkEquation (linear_terms 1 cs) z])
   <-> sumZ (length cs) (fun i => nth i cs 0 * v (1 + i)%nat) = z)%Z.
Proof.
  intros Hz. destruct (all_zero cs) eqn:E.
  - rewrite Hz by reflexivity. split; [|constructor]. intros _.
    apply sumZ_zero. intros i _. rewrite all_zero_nth by exact E. lia.
  - rewrite <- (linear_value v cs 1). split.
    + intros H. apply Forall_inv in H. exact H.
    + intros H. constructor; [exact H|constructor].
Qed.

(* ---- cross-correlation equations ---- *)
Definition op_value (o : OpType) (s : list Z) (k t : Z) : Z :=
  match o with
  | LeftPlus => entry s (k - t) + entry s (k + t)
  | RightPlus => entry s (k + t) + entry s (k - t)
  | LeftMinus => entry s (k - t) - entry s (k + t)
  | RightMinus => entry s (k + t) - entry s (k - t)
  end.
Lemma wrap8_small z : (-128 <= z < 128)%Z -> wrap8 z = z.
Proof. intros H. unfold wrap8. rewrite Z.mod_small; lia. Qed.
Lemma ahead_spec s k t n : length s = n -> 1 <= n -> ahead s k t n = Some (entry s (Z.of_nat k + Z.of_nat t)).
Proof.
  intros Hl Hn. unfold ahead. rewrite <- Nat2Z.inj_add. unfold entry. rewrite pos_nat_mod by lia. rewrite Hl.
  unfold vget. apply nth_error_nth'. rewrite Hl. apply Nat.mod_upper_bound. lia.
Qed.
Lemma back_spec s k t n : length s = n -> 1 <= n -> t < n -> back s k t n = Some (entry s (Z.of_nat k - Z.of_nat t)).
Proof.
  intros Hl Hn Ht. unfold back, entry.
  rewrite (pos_eq _ _ (Z.of_nat (k + n - t))) by (lia || (rewrite Hl; replace (Z.of_nat (k + n - t)) with (Z.of_nat k - Z.of_nat t + 1 * Z.of_nat n)%Z by lia; now rewrite Z.mod_add by lia)).
  rewrite pos_nat_mod by lia. rewrite Hl.
  unfold vget. apply nth_error_nth'. rewrite Hl. apply Nat.mod_upper_bound. lia.
Qed.
Lemma pm1_ne (s : list Z) n : length s = n -> 1 <= n -> s <> [].
Proof. intros H1 H2 ->. cbn in H1. lia. Qed.
Lemma op_at_spec o s k t n : length s = n -> 1 <= n -> t < n -> pm1 s ->
  op_at o s k t n = Some (op_value o s (Z.of_nat k) (Z.of_nat t)) /\
  (op_value o s (Z.of_nat k) (Z.of_nat t) = -2 \/ op_value o s (Z.of_nat k) (Z.of_nat t) = 0 \/ op_value o s (Z.of_nat k) (Z.of_nat t) = 2)%Z.
Proof.
  intros Hl Hn Ht Hs.
  pose proof (entry_pm1 s (Z.of_nat k + Z.of_nat t)%Z Hs (pm1_ne s n Hl Hn)) as H1.
  pose proof (entry_pm1 s (Z.of_nat k - Z.of_nat t)%Z Hs (pm1_ne s n Hl Hn)) as H2.
  unfold op_at. destruct o; rewrite ?(ahead_spec s k t n), ?(back_spec s k t n) by auto; cbn [bind op_value];
  unfold add8, sub8; (split; [f_equal; apply wrap8_small; lia|lia]).
Qed.

Lemma fold_text (step : text -> nat -> option text) (E : nat -> list equation) l :
  (forall r t, In t l -> exists x, step r t = Some (r ++ x) /\ opb x (E t)) ->
  forall r, exists txt, fold_m step l r = Some (r ++ txt) /\ opb txt (concat (map E l)).
Proof.
  intros H. induction l as [|t l IH]; intros r.
  - exists []. cbn. rewrite app_nil_r. split; [reflexivity|apply opb_nil].
  - destruct (H r t (or_introl eq_refl)) as (x & E1 & O1). cbn [fold_m]. rewrite E1. cbn [bind].
    destruct IH with (r := r ++ x) as (txt & E2 & O2).
    + intros r' t' Ht'. apply H. now right.
    + exists (x ++ txt). rewrite E2, app_assoc. split; [reflexivity|]. cbn [map concat]. now apply opb_app.
Qed.

Definition cross_values (o1 o2 : OpType) (s1 s2 : list Z) (n t : nat) : list Z :=
  map (fun k => op_value o1 s1 (Z.of_nat k) (Z.of_nat t)) (seq 0 n) ++
  map (fun k => op_value o2 s2 (Z.of_nat k) (Z.of_nat t)) (seq 0 n).
Definition cross_rhs (vs : list Z) : Z := fold_left (fun r v => (r + Z.quot v 2)%Z) vs 0%Z.
Definition cross_equations (o1 o2 : OpType) (s1 s2 : list Z) (n t : nat) : list equation :=
  let vs := cross_values o1 o2 s1 s2 n t in
  if all_zero vs then [] else [mkEquation (linear_terms 1 vs) (cross_rhs vs)].

Lemma vbuild_some {A} (n : nat) (f : nat -> option A) g : (forall i, i < n -> f i = Some (g i)) ->
  vbuild n f = Some (map g (seq 0 n)).
Proof.
  intros H. unfold vbuild. assert (G : forall i, In i (seq 0 n) -> f i = Some (g i)).
  { intros i Hi. apply H. apply in_seq in Hi. lia. }
  revert G. induction (seq 0 n) as [|i l IH]; intros G; [reflexivity|].
  cbn. rewrite G by now left. cbn. rewrite IH; [reflexivity|]. intros j Hj. apply G. now right.
Qed.

Lemma cross_opb o1 o2 s1 s2 n : length s1 = n -> length s2 = n -> 1 <= n -> pm1 s1 -> pm1 s2 ->
  exists txt, equations_crosscorrelation s1 o1 s2 o2 Plus = Some txt /\
    opb txt (concat (map (cross_equations o1 o2 s1 s2 n) (seq 0 n))).
Proof.
  intros L1 L2 Hn P1 P2. unfold equations_crosscorrelation. rewrite L1, range_0.
  destruct (fold_text (fun result t =>
    let* values1 := vbuild n (fun k => op_at o1 s1 k t n) in
    let* values2 := vbuild n (fun k => let* v := op_at o2 s2 k t n in Some v) in
    let values := values1 ++ values2 in
    let rightside_value := fold_left (fun r v => (r + Z.quot v 2)%Z) values 0%Z in
    Some (result ++ generate_equation_from values rightside_value))
    (cross_equations o1 o2 s1 s2 n) (seq 0 n)) with (r := @nil ascii) as (txt & E & O).
  - intros r t Ht. apply in_seq in Ht.
    rewrite (vbuild_some n _ (fun k => op_value o1 s1 (Z.of_nat k) (Z.of_nat t))).
    2: { intros k Hk. now apply op_at_spec. }
    rewrite (vbuild_some n _ (fun k => op_value o2 s2 (Z.of_nat k) (Z.of_nat t))).
    2: { intros k Hk. destruct (op_at_spec o2 s2 k t n) as [-> _]; auto; lia. }
    cbn [bind]. eexists. split; [reflexivity|]. apply equation_from_opb.
  - exists txt. split; [exact E|exact O].
Qed.

Definition even_small (c : Z) : Prop := (c = -2 \/ c = 0 \/ c = 2)%Z.
Lemma cross_rhs_double vs : Forall even_small vs -> (2 * cross_rhs vs = fold_right Z.add 0 vs)%Z.
Proof.
  intros H. unfold cross_rhs.
  assert (G : forall a, (2 * fold_left (fun r v => r + Z.quot v 2) vs a = 2 * a + fold_right Z.add 0 vs)%Z).
  { induction H as [|c vs Hc H IH]; intros a; cbn [fold_left fold_right]; [lia|]. rewrite IH.
    assert (2 * Z.quot c 2 = c)%Z by (destruct Hc as [-> | [-> | ->]]; reflexivity). lia. }
  rewrite G. lia.
Qed.
Lemma sumZ_nth (l : list Z) : fold_right Z.add 0%Z l = sumZ (length l) (fun i => nth i l 0%Z).
Proof.
  unfold sumZ. f_equal. induction l as [|c l IH]; [reflexivity|].
  cbn [length seq map nth]. f_equal. rewrite <- seq_shift, map_map. exact IH.
Qed.
Lemma cross_values_length o1 o2 s1 s2 n t : length (cross_values o1 o2 s1 s2 n t) = n + n.
Proof. unfold cross_values. now rewrite app_length, !map_length, !seq_length. Qed.
Lemma nth_map_seq0 (f : nat -> Z) n i : i < n -> nth i (map f (seq 0 n)) 0%Z = f i.
Proof.
  intros H. rewrite nth_indep with (d' := f 0) by (now rewrite map_length, seq_length).
  rewrite map_nth, seq_nth by auto. reflexivity.
Qed.

Lemma cross_meaning o1 o2 s1 s2 n t v y z : length s1 = n -> length s2 = n -> 1 <= n -> t < n -> pm1 s1 -> pm1 s2 ->
  encodes n y z v ->
  (Forall (holds v) (cross_equations o1 o2 s1 s2 n t) <->
   sumZ n (fun k => op_value o1 s1 (Z.of_nat k) (Z.of_nat t) * nth k y 0)
   + sumZ n (fun k => op_value o2 s2 (Z.of_nat k) (Z.of_nat t) * nth k z 0) = 0)%Z.
Proof.
  intros L1 L2 Hn Ht P1 P2 Hv. unfold cross_equations. set (vs := cross_values o1 o2 s1 s2 n t).
  assert (Hsm : Forall even_small vs).
  { apply Forall_app. split; apply Forall_map, Forall_forall; intros k Hk; now apply op_at_spec with (n := n). }
  pose proof (cross_rhs_double vs Hsm) as Hd.
  rewrite equation_from_meaning.
  2: { intros Hz. enough (fold_right Z.add 0%Z vs = 0%Z) by lia. rewrite sumZ_nth. apply sumZ_zero.
       intros i _. now apply all_zero_nth. }
  assert (Hsum : forall g : nat -> Z, (sumZ (length vs) (fun i => nth i vs 0 * g i)
     = sumZ n (fun k => op_value o1 s1 (Z.of_nat k) (Z.of_nat t) * g k)
     + sumZ n (fun k => op_value o2 s2 (Z.of_nat k) (Z.of_nat t) * g (n + k)%nat))%Z).
  { intros g. unfold vs. rewrite cross_values_length, sumZ_split. unfold cross_values. f_equal; apply sumZ_ext; intros i Hi.
    - rewrite app_nth1 by (now rewrite map_length, seq_length). now rewrite nth_map_seq0.
    - rewrite app_nth2 by (rewrite map_length, seq_length; lia). rewrite map_length, seq_length.
      replace (n + i - n) with i by lia. now rewrite nth_map_seq0. }
  rewrite (Hsum (fun i => v (1 + i)%nat)).
  rewrite sumZ_nth in Hd. pose proof (Hsum (fun _ => 1%Z)) as H1.
  rewrite (sumZ_ext (length vs) _ (fun i => nth i vs 0%Z)) in H1 by (intros; lia). rewrite H1 in Hd. clear H1.
  set (A := sumZ n (fun k => op_value o1 s1 (Z.of_nat k) (Z.of_nat t) * 1)%Z) in *.
  set (B := sumZ n (fun k => op_value o2 s2 (Z.of_nat k) (Z.of_nat t) * 1)%Z) in *.
  assert (HA : (2 * sumZ n (fun k => op_value o1 s1 (Z.of_nat k) (Z.of_nat t) * v (1 + k)%nat)
    = sumZ n (fun k => op_value o1 s1 (Z.of_nat k) (Z.of_nat t) * nth k y 0) + A)%Z).
  { unfold A. rewrite <- sumZ_mul_l, <- sumZ_add. apply sumZ_ext. intros i Hi. destruct (Hv i Hi) as [E _]. rewrite <- E. ring. }
  assert (HB : (2 * sumZ n (fun k => op_value o2 s2 (Z.of_nat k) (Z.of_nat t) * v (1 + (n + k))%nat)
    = sumZ n (fun k => op_value o2 s2 (Z.of_nat k) (Z.of_nat t) * nth k z 0) + B)%Z).
  { unfold B. rewrite <- sumZ_mul_l, <- sumZ_add. apply sumZ_ext. intros i Hi. destruct (Hv i Hi) as [_ E]. rewrite <- E. 
    replace (1 + (n + i)) with (1 + n + i) by lia. ring. }
  lia.
Qed.

(* the sums are brackets *)
Lemma op_sum o s y n t : length s = n -> length y = n -> 1 <= n ->
  o = LeftMinus \/ o = RightMinus ->
  sumZ n (fun k => op_value o s (Z.of_nat k) (Z.of_nat t) * nth k y 0)%Z
  = match o with LeftMinus => bracket y s (Z.of_nat t) | _ => bracket s y (Z.of_nat t) end.
Proof.
  intros Ls Ly Hn Ho.
  assert (E1 : sumZ n (fun k => entry s (Z.of_nat k - Z.of_nat t) * nth k y 0)%Z = ccf y s (Z.of_nat t)).
  { unfold ccf. rewrite Ly. apply sumZ_ext. intros i Hi. rewrite entry_nat by lia. lia. }
  assert (E2 : sumZ n (fun k => entry s (Z.of_nat k + Z.of_nat t) * nth k y 0)%Z = ccf s y (Z.of_nat t)).
  { rewrite <- ccf_opp by lia. unfold ccf. rewrite Ly. apply sumZ_ext. intros i Hi. rewrite entry_nat by lia.
    replace (Z.of_nat i - - Z.of_nat t)%Z with (Z.of_nat i + Z.of_nat t)%Z by lia. lia. }
  unfold bracket. rewrite <- E1, <- E2, <- !sumZ_sub.
  destruct Ho as [-> | ->]; apply sumZ_ext; intros i Hi; cbn [op_value]; ring.
Qed.

(* ---- row sums ---- *)
Lemma vset_app_l {A} (l r : list A) i x l' : vset l i x = Some l' -> vset (l ++ r) i x = Some (l' ++ r).
Proof.
  revert i l'. induction l as [|a l IH]; intros i l' H; [destruct i; discriminate|].
  destruct i; cbn in *; [now injection H as <-|].
  destruct (vset l i x) eqn:E; [|discriminate]. cbn in H. injection H as <-. now rewrite (IH _ _ E).
Qed.
Lemma rowsum_coeffs n k : k <= n ->
  fold_m (fun '(coeff1, coeff2) i =>
      let* coeff1 := vset coeff1 i 2%Z in
      let* coeff2 := vset coeff2 (2 * n - 1 - i) 2%Z in
      Some (coeff1, coeff2)) (seq 0 k) (repeat 0%Z (2 * n), repeat 0%Z (2 * n))
  = Some (repeat 2%Z k ++ repeat 0%Z (2 * n - k), repeat 0%Z (2 * n - k) ++ repeat 2%Z k).
Proof.
  induction k as [|k IH]; intros Hk.
  - cbn [seq fold_m repeat app]. now rewrite Nat.sub_0_r, app_nil_r.
  - rewrite seq_S, fold_m_app, IH by lia. cbn [bind fold_m Nat.add].
    assert (V : forall (l : list Z) x y r, vset (l ++ x :: r) (length l) y = Some (l ++ y :: r)).
    { induction l as [|a l IHl]; intros; [reflexivity|]. cbn. now rewrite IHl. }
    replace (2 * n - k) with (S (2 * n - S k)) by lia.
    pose proof (V (repeat 2%Z k) 0%Z 2%Z (repeat 0%Z (2 * n - S k))) as V1. rewrite repeat_length in V1.
    cbn [repeat]. rewrite V1. cbn [bind].
    pose proof (V (repeat 0%Z (2 * n - S k)) 0%Z 2%Z (repeat 2%Z k)) as V2. rewrite repeat_length in V2.
    replace (0%Z :: repeat 0%Z (2 * n - S k)) with (repeat 0%Z (2 * n - S k) ++ [0%Z]) by (symmetry; apply repeat_cons).
    rewrite <- app_assoc. cbn [app].
    replace (2 * n - 1 - k) with (2 * n - S k) by lia. rewrite V2. cbn [bind]. f_equal. f_equal.
    change (2%Z :: repeat 0%Z (2 * n - S k)) with ([2%Z] ++ repeat 0%Z (2 * n - S k)).
    now rewrite app_assoc, <- repeat_cons.
Qed.
Lemma rowsum_opb n r1 r2 : 1 <= n ->
  exists txt, equations_rowsum n r1 r2 = Some txt /\
    opb txt [mkEquation (linear_terms 1 (repeat 2%Z n ++ repeat 0%Z n)) (r1 + Z.of_nat n);
             mkEquation (linear_terms 1 (repeat 0%Z n ++ repeat 2%Z n)) (r2 + Z.of_nat n)].
Proof.
  intros Hn. unfold equations_rowsum. rewrite range_0, rowsum_coeffs by lia. cbn [bind].
  replace (2 * n - n) with n by lia.
  eexists. split; [reflexivity|].
  pose proof (equation_from_opb (repeat 2%Z n ++ repeat 0%Z n) (r1 + Z.of_nat n)) as O1.
  pose proof (equation_from_opb (repeat 0%Z n ++ repeat 2%Z n) (r2 + Z.of_nat n)) as O2.
  replace (all_zero (repeat 2%Z n ++ repeat 0%Z n)) with false in O1.
  2: { destruct n; [lia|reflexivity]. }
  replace (all_zero (repeat 0%Z n ++ repeat 2%Z n)) with false in O2.
  2: { symmetry. unfold all_zero. rewrite forallb_app. destruct n; [lia|]. cbn. apply andb_false_r. }
  exact (opb_app _ _ _ _ O1 O2).
Qed.
Lemma rowsum_meaning n v y z r1 r2 : length y = n -> length z = n -> encodes n y z v ->
  (holds v (mkEquation (linear_terms 1 (repeat 2%Z n ++ repeat 0%Z n)) (r1 + Z.of_nat n)) <-> total y = r1) /\
  (holds v (mkEquation (linear_terms 1 (repeat 0%Z n ++ repeat 2%Z n)) (r2 + Z.of_nat n)) <-> total z = r2).
Proof.
  intros Ly Lz Hv. unfold holds, total. cbn [eq_terms eq_rhs]. rewrite !linear_value, !app_length, !repeat_length, !sumZ_split.
  assert (R : forall i c, i < n -> nth i (repeat c n) 0%Z = c).
  { intros i c Hi. rewrite nth_indep with (d' := c) by now rewrite repeat_length. apply nth_repeat. }
  assert (A : forall a b i, i < n -> nth i (repeat a n ++ repeat b n) 0%Z = a).
  { intros a b i Hi. rewrite app_nth1 by now rewrite repeat_length. now apply R. }
  assert (B : forall a b i, i < n -> nth (n + i) (repeat a n ++ repeat b n) 0%Z = b).
  { intros a b i Hi. rewrite app_nth2 by (rewrite repeat_length; lia). rewrite repeat_length.
    replace (n + i - n) with i by lia. now apply R. }
  rewrite !sumZ_nth, Ly, Lz.
  split.
  - match goal with |- context [(sumZ n ?a + sumZ n ?b)%Z] => rewrite (sumZ_ext n a (fun i => nth i y 0 + 1)%Z) end.
    2: { intros i Hi. rewrite A by auto. destruct (Hv i Hi). lia. }
    match goal with |- context [(sumZ n ?a + sumZ n ?b)%Z] => rewrite (sumZ_zero n b) end.
    2: { intros i Hi. rewrite B by auto. lia. }
    rewrite sumZ_add, sumZ_const. lia.
  - match goal with |- context [(sumZ n ?a + sumZ n ?b)%Z] =>
      rewrite (sumZ_zero n a), (sumZ_ext n b (fun i => nth i z 0 + 1)%Z) end.
    3: { intros i Hi. rewrite A by auto. lia. }
    2: { intros i Hi. rewrite B by auto. destruct (Hv i Hi) as [_ E]. replace (1 + (n + i)) with (1 + n + i) by lia. lia. }
    rewrite sumZ_add, sumZ_const. lia.
Qed.
