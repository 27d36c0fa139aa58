(* Proofs about rowsum.rs. *)
From Coq Require Import List ZArith Lia Arith Bool Permutation Relations Ascii Znumtheory.
From Verif Require Import Base BaseFacts Sums Quat ModelSequence ModelWilliamson Spec SeqFacts
  ModelEquivalence SpecEquiv OpFacts EquivFacts TypeFacts OrderFacts FastFacts EquivThms ModelRowsum SpecRowsum SearchFacts.
Import ListNotations.
Open Scope Z_scope.
Notation length := List.length.

Lemma fold_left_total l : forall a, fold_left Z.add l a = a + total l.
Proof. induction l as [|x l IH]; intros a; cbn; [lia|]. rewrite IH. unfold total. lia. Qed.
Lemma rowsum_total l : rowsum l = total l.
Proof. unfold rowsum. now rewrite fold_left_total. Qed.

(* ---- C23 ---- *)
Lemma total_sum l : total l = sumZ (length l) (fun i => entry l (Z.of_nat i)).
Proof.
  assert (forall m, total m = sumZ (length m) (fun i => nth i m 0)) as H.
  { induction m as [|x m IH]; auto. cbn [length]. change (S (length m)) with (1 + length m)%nat. rewrite sumZ_split.
    cbn [total fold_right]. fold (total m). rewrite IH. rewrite (sumZ_S 0). cbn. unfold sumZ, gsum. cbn. lia. }
  rewrite H. apply sumZ_ext. intros i Hi. now rewrite entry_nat.
Qed.
Lemma total_sq l : total l * total l = sumZ (length l) (fun t => paf l (Z.of_nat t)).
Proof.
  unfold paf. rewrite sumZ_swap. rewrite total_sum at 1. rewrite <- sumZ_mul_r. apply sumZ_ext. intros i Hi.
  rewrite sumZ_mul_l. f_equal. rewrite total_sum.
  rewrite <- (sumZ_shift (length l) (entry l) (Z.of_nat i)).
  - apply sumZ_ext. intros j _. f_equal. lia.
  - apply entry_periodic.
Qed.
Lemma total_parity l : pm1 l -> total l mod 2 = Z.of_nat (length l) mod 2.
Proof.
  induction l as [|x l IH]; intros H; auto. inversion H; subst. cbn [total fold_right length]. fold (total l).
  rewrite Nat2Z.inj_succ. unfold Z.succ. rewrite Z.add_mod, (Z.add_mod (Z.of_nat _)), IH by (auto; lia).
  destruct H2 as [-> | ->]; rewrite Z.add_comm; reflexivity.
Qed.
Lemma complementary_rowsums n q : pm_quad n q -> (1 <= n)%nat -> complementary q -> feasible n (totals q).
Proof.
  intros ((Hs & Ha & Hb & Hc & Hd) & Pa & Pb & Pc & Pd) Hn H. unfold feasible, totals.
  split; [|repeat split; rewrite total_parity by auto; congruence].
  rewrite !total_sq, Ha, Hb, Hc, Hd, <- !sumZ_add. destruct n as [|n]; [lia|].
  rewrite sumZ_split with (n := 1%nat) (m := n). rewrite (sumZ_zero n).
  - cbn [sumZ seq map fold_right Z.of_nat]. rewrite !paf_0, Ha, Hb, Hc, Hd by auto. lia.
  - intros i Hi. apply H. rewrite Hs. lia.
Qed.
Lemma verify_complementary n q t : pm_quad n q -> (1 <= n)%nat -> verify q t = Some true -> complementary q.
Proof.
  intros Hq Hn Hv. destruct (verify_spec n q t Hq Hn) as (b & E & H). rewrite E in Hv. injection Hv as ->.
  assert (is_type t q) as Ht by now apply H. destruct t; try contradiction; apply Ht.
Qed.
Lemma verify_rowsums n q t : pm_quad n q -> (1 <= n)%nat -> verify q t = Some true ->
  let r := fun tag => rowsum (sequence q tag) in
  r TW * r TW + r TX * r TX + r TY * r TY + r TZ * r TZ = 4 * Z.of_nat n /\
  forall tag, (r tag) mod 2 = Z.of_nat n mod 2.
Proof.
  intros Hq Hn Hv. cbv zeta. pose proof (complementary_rowsums n q Hq Hn (verify_complementary n q t Hq Hn Hv)) as (H & Ha & Hb & Hc & Hd).
  unfold sequence. rewrite !rowsum_total. split; auto. intros []; rewrite rowsum_total; auto.
Qed.

(* ---- C24 ---- *)
Definition sol (p : Z) (s : Quad) : Prop :=
  let '(a, b, c, d) := s in 0 <= a <= b /\ b <= c <= d /\ a * a + b * b + c * c + d * d = p.
Definition lt4 (s s' : Quad) : Prop :=
  let '(a, b, c, d) := s in let '(a', b', c', d') := s' in
  a < a' \/ a = a' /\ (b < b' \/ b = b' /\ (c < c' \/ c = c' /\ d < d')).
Definition sinv (p : Z) (s : Quad) : Prop :=
  let '(a, b, c, d) := s in 0 <= a <= b /\ b <= c <= d /\ d <= p + 1.
Definition rank (p : Z) (s : Quad) : Z :=
  let '(a, b, c, d) := s in ((a * (p + 2) + b) * (p + 2) + c) * (p + 2) + d.

Lemma sq_le x y : 0 <= x <= y -> x * x <= y * y. Proof. nia. Qed.
Lemma sq_self x : 0 <= x -> x <= x * x. Proof. nia. Qed.

Lemma increment_sinv p s : 0 <= p -> sinv p s -> (let '(a, _, _, _) := s in a * a <= p) -> sinv p (increment_squares s p).
Proof.
  destruct s as [[[a b] c] d]. intros Hp (H1 & H2 & H3) Ha. unfold increment_squares, square_sum.
  repeat match goal with |- context [if ?x <=? ?y then _ else _] => destruct (Z.leb_spec x y) end;
    unfold sinv; repeat split; try lia.
  - assert (d + 1 <= (d + 1) * (d + 1)) by (apply sq_self; lia).
    pose proof (Z.square_nonneg a). pose proof (Z.square_nonneg b). pose proof (Z.square_nonneg c). lia.
  - assert (c + 1 <= (c + 1) * (c + 1)) by (apply sq_self; lia).
    pose proof (Z.square_nonneg a). pose proof (Z.square_nonneg b). lia.
  - assert (b + 1 <= (b + 1) * (b + 1)) by (apply sq_self; lia).
    pose proof (Z.square_nonneg a). lia.
  - pose proof (sq_self a). lia.
Qed.

Lemma increment_rank p s : 0 <= p -> sinv p s -> rank p s < rank p (increment_squares s p).
Proof.
  destruct s as [[[a b] c] d]. intros Hp (H1 & H2 & H3). unfold increment_squares, square_sum.
  assert (exists B, B = p + 2) as (B & EB) by eauto. unfold rank. 
  repeat match goal with |- context [if ?x <=? ?y then _ else _] => destruct (Z.leb_spec x y) end; rewrite <- EB.
  - lia.
  - replace (((a * B + b) * B + (c + 1)) * B + (c + 1)) with (((a * B + b) * B + c) * B + (B + c + 1)) by ring. lia.
  - replace (((a * B + (b + 1)) * B + (b + 1)) * B + (b + 1)) with ((a * B + b) * B * B + (B * B + (b + 1) * B + b + 1)) by ring.
    replace (((a * B + b) * B + c) * B + d) with ((a * B + b) * B * B + (c * B + d)) by ring.
    assert (c * B <= (B - 1) * B) by (apply Z.mul_le_mono_nonneg_r; lia). 
    assert (0 <= (b + 1) * B) by (apply Z.mul_nonneg_nonneg; lia). lia.
  - replace ((((a + 1) * B + (a + 1)) * B + (a + 1)) * B + (a + 1))
      with (a * B * B * B + (B * B * B + (a + 1) * B * B + (a + 1) * B + a + 1)) by ring.
    replace (((a * B + b) * B + c) * B + d) with (a * B * B * B + (b * B * B + c * B + d)) by ring.
    assert (c * B <= (B - 1) * B) by (apply Z.mul_le_mono_nonneg_r; lia).
    assert (0 <= B * B) by (apply Z.mul_nonneg_nonneg; lia).
    assert (b * (B * B) <= (B - 1) * (B * B)) by (apply Z.mul_le_mono_nonneg_r; lia).
    assert (0 <= (a + 1) * B) by (apply Z.mul_nonneg_nonneg; lia).
    assert (0 <= (a + 1) * (B * B)) by (apply Z.mul_nonneg_nonneg; lia). nia.
Qed.

Lemma rank_bound p s : 0 <= p -> sinv p s -> 0 <= rank p s < (p + 2) * (p + 2) * (p + 2) * (p + 2).
Proof.
  destruct s as [[[a b] c] d]. intros Hp (H1 & H2 & H3). unfold rank. set (B := p + 2) in *.
  assert (0 <= a <= B - 1 /\ 0 <= b <= B - 1 /\ 0 <= c <= B - 1 /\ 0 <= d <= B - 1) as (A1 & A2 & A3 & A4) by lia.
  assert (0 <= a * B + b <= B * B - 1) as X by nia. 
  assert (0 <= (a * B + b) * B + c <= B * B * B - 1) as Y.
  { assert (0 <= (a * B + b) * B <= (B * B - 1) * B) by nia. lia. }
  assert (0 <= ((a * B + b) * B + c) * B <= (B * B * B - 1) * B) by nia. lia.
Qed.

Lemma increment_lt4 p s x : 0 <= p -> sinv p s -> sol p x ->
  (lt4 x (increment_squares s p) <-> lt4 x s \/ x = s).
Proof.
  destruct s as [[[a b] c] d], x as [[[w x] y] z]. intros Hp (H1 & H2 & H3) (S1 & S2 & S3).
  assert ((w, x, y, z) = (a, b, c, d) <-> w = a /\ x = b /\ y = c /\ z = d) as -> by (split; [intros E; inversion E; auto|intros (-> & -> & -> & ->); auto]).
  pose proof (sq_le (d + 1) z). pose proof (sq_le (c + 1) y). pose proof (sq_le (b + 1) x). pose proof (sq_le (a + 1) w).
  pose proof (sq_le y z). pose proof (sq_le x y). pose proof (sq_le w x).
  unfold increment_squares, square_sum.
  destruct (Z.leb_spec (a * a + b * b + c * c + (d + 1) * (d + 1)) p) as [L1|L1]; [clear - S1 S2 H1 H2; unfold lt4; lia|].
  assert (w = a -> x = b -> y = c -> z <= d) as E1 by (intros -> -> ->; destruct (Z.le_gt_cases z d); auto; lia).
  destruct (Z.leb_spec (a * a + b * b + (c + 1) * (c + 1) + (c + 1) * (c + 1)) p) as [L2|L2]; [clear - S1 S2 H1 H2 E1; unfold lt4; lia|].
  assert (w = a -> x = b -> y <= c) as E2 by (intros -> ->; destruct (Z.le_gt_cases y c); auto; lia).
  destruct (Z.leb_spec (a * a + (b + 1) * (b + 1) + (b + 1) * (b + 1) + (b + 1) * (b + 1)) p) as [L3|L3]; [clear - S1 S2 H1 H2 E1 E2; unfold lt4; lia|].
  assert (w = a -> x <= b) as E3 by (intros ->; destruct (Z.le_gt_cases x b); auto; lia).
  clear - S1 S2 H1 H2 E1 E2 E3. unfold lt4. lia.
Qed.

Definition linv (p : Z) (s : Quad) (l : list Quad) : Prop :=
  NoDup l /\ forall x, In x l <-> sol p x /\ lt4 x s.

Lemma lt4_irrefl s : ~ lt4 s s.
Proof. destruct s as [[[a b] c] d]. unfold lt4. lia. Qed.

Lemma squares_loop p : 0 <= p -> forall m s l, sinv p s -> linv p s l ->
  (p + 2) * (p + 2) * (p + 2) * (p + 2) - rank p s < Z.of_nat m ->
  exists r, loop m (squares_step p) (s, l) = Some (Some r) /\ NoDup r /\ forall x, In x r <-> sol p x.
Proof.
  intros Hp. induction m as [|m IH]; intros s l Hs (Hl1 & Hl2) Hm; [pose proof (rank_bound p s Hp Hs); lia|].
  cbn [loop]. destruct s as [[[a b] c] d] eqn:Es. rewrite <- Es in *.
  assert (squares_step p (s, l) = if a * a <=? p then
    Some (inl (increment_squares s p, if square_sum s =? p then l ++ [s] else l)) else Some (inr l)) as -> by (subst s; reflexivity).
  destruct (Z.leb_spec (a * a) p) as [Ha|Ha].
  - apply IH.
    + apply increment_sinv; auto. now rewrite Es.
    + assert (forall x, sol p x -> (In x (if square_sum s =? p then l ++ [s] else l) <-> lt4 x s \/ x = s)) as Hx.
      { intros x Sx. destruct (Z.eqb_spec (square_sum s) p) as [E|E].
        - rewrite in_app_iff. cbn. rewrite Hl2. intuition.
        - rewrite Hl2. split; [tauto|]. intros [H|H]; auto. exfalso. apply E. subst x. rewrite Es in Sx. rewrite Es. apply Sx. }
      split.
      * destruct (square_sum s =? p); auto. apply NoDup_app; auto; [repeat constructor; intros []|].
        intros x Hin [<-|[]]. apply Hl2 in Hin as [_ Hlt]. now apply lt4_irrefl in Hlt.
      * intros x. split.
        { intros Hin. assert (sol p x) as Sx.
          { destruct (Z.eqb_spec (square_sum s) p) as [E|E]; [|now apply Hl2].
            apply in_app_or in Hin as [Hin|[<-|[]]]; [now apply Hl2|]. rewrite Es in E |- *. rewrite Es in Hs. unfold sinv in Hs. unfold sol.
            unfold square_sum in E. lia. }
          split; auto. apply increment_lt4; auto. now apply Hx. }
        { intros [Sx Hlt]. apply Hx; auto. now apply increment_lt4 in Hlt. }
    + pose proof (increment_rank p s Hp Hs). lia.
  - exists l. split; auto. split; auto. intros x. rewrite Hl2. split; [tauto|]. intros Sx. split; auto.
    destruct x as [[[w x] y] z]. rewrite Es. unfold sol in Sx. left.
    destruct (Z.lt_ge_cases w a) as [|Hge]; auto. exfalso. rewrite Es in Hs. unfold sinv in Hs. pose proof (sq_le a w).
    pose proof (Z.square_nonneg x). pose proof (Z.square_nonneg y). pose proof (Z.square_nonneg z). lia.
Qed.

Definition squares_fuel (p : Z) : nat := Z.to_nat ((p + 2) * (p + 2) * (p + 2) * (p + 2) + 1).
Lemma sum_of_four_squares_fuel p fuel : 0 <= p -> (squares_fuel p <= fuel)%nat ->
  exists l, sum_of_four_squares fuel p = Some l /\ NoDup l /\ forall x, In x l <-> sol p x.
Proof.
  intros Hp Hf. unfold sum_of_four_squares, run.
  destruct (squares_loop p Hp fuel (0, 0, 0, 0) []) as (r & E & H).
  - unfold sinv. lia.
  - split; [constructor|]. intros [[[a b] c] d]. split; [intros []|]. intros [S L]. unfold sol in S. unfold lt4 in L. lia.
  - unfold squares_fuel in Hf. unfold rank. lia.
  - exists r. split; auto. unfold Quad in *. rewrite E. reflexivity.
Qed.
Lemma sum_of_four_squares_spec p : 0 <= p -> exists fuel0, forall fuel, (fuel0 <= fuel)%nat ->
  exists l, sum_of_four_squares fuel p = Some l /\ NoDup l /\
  forall a b c d, In (a, b, c, d) l <-> 0 <= a <= b /\ b <= c <= d /\ a * a + b * b + c * c + d * d = p.
Proof.
  intros Hp. exists (squares_fuel p). intros fuel Hf. destruct (sum_of_four_squares_fuel p fuel Hp Hf) as (l & E & H1 & H2).
  exists l. split; auto. split; auto. intros a b c d. apply H2.
Qed.

(* ---- C25: the list ---- *)
Definition row_items (parity : Z) (t : SequenceType) (elm : Quad) : list Quad :=
  let '(a, b, c, d) := elm in
  if (parity =? Z.rem a 2) && (parity =? Z.rem b 2) && (parity =? Z.rem c 2) && (parity =? Z.rem d 2) then
    elm :: (if negb (a =? 0) && negb (a =? b) && negb (b =? c) && negb (c =? d)
         && match t with QuaternionType => true | _ => false end
      then [(a, b, c, - d)] else [])
  else [].
Lemma fold_flat {A B} (f : list B -> A -> list B) (g : A -> list B) l :
  (forall acc x, f acc x = acc ++ g x) -> forall acc, fold_left f l acc = acc ++ flat_map g l.
Proof.
  intros H. induction l as [|x l IH]; intros acc; cbn; [now rewrite app_nil_r|]. now rewrite IH, H, <- app_assoc.
Qed.

Lemma row_items_in n t x y : sol (4 * Z.of_nat n) x -> In y (row_items (Z.of_nat n mod 2) t x) ->
  feasible n y /\ normal_rowsums t y /\ (let '(a, b, c, d) := y in x = (a, b, c, Z.abs d)).
Proof.
  destruct x as [[[a b] c] d]. intros (S1 & S2 & S3). unfold row_items.
  rewrite !Z.rem_mod_nonneg by lia.
  destruct (Z.eqb_spec (Z.of_nat n mod 2) (a mod 2)) as [Ea|]; [|intros []].
  destruct (Z.eqb_spec (Z.of_nat n mod 2) (b mod 2)) as [Eb|]; [|intros []].
  destruct (Z.eqb_spec (Z.of_nat n mod 2) (c mod 2)) as [Ec|]; [|intros []].
  destruct (Z.eqb_spec (Z.of_nat n mod 2) (d mod 2)) as [Ed|]; [|intros []]. cbn [andb].
  intros [<-|H].
  - unfold feasible, normal_rowsums. rewrite Z.abs_eq by lia. repeat split; auto; lia.
  - destruct (Z.eqb_spec a 0), (Z.eqb_spec a b), (Z.eqb_spec b c), (Z.eqb_spec c d); cbn [negb andb] in H; try contradiction.
    destruct t; try contradiction. destruct H as [<-|[]].
    unfold feasible, normal_rowsums. rewrite Z.abs_opp, Z.abs_eq by lia.
    assert ((- d) mod 2 = d mod 2) as Em.
    { destruct (Z.mod_pos_bound d 2); [lia|]. destruct (Z.mod_pos_bound (- d) 2); [lia|].
      pose proof (Z.div_mod d 2). pose proof (Z.div_mod (- d) 2). lia. }
    rewrite Em. split; [repeat split; auto; lia|]. split; [|auto]. repeat split; auto; lia.
Qed.
Lemma row_items_complete n t a b c d : feasible n (a, b, c, d) -> normal_rowsums t (a, b, c, d) ->
  sol (4 * Z.of_nat n) (a, b, c, Z.abs d) /\ In (a, b, c, d) (row_items (Z.of_nat n mod 2) t (a, b, c, Z.abs d)).
Proof.
  unfold feasible, normal_rowsums. intros (F & Fa & Fb & Fc & Fd) (N1 & N2 & N3).
  split.
  - unfold sol. rewrite <- F. assert (Z.abs d * Z.abs d = d * d) by (rewrite <- Z.abs_mul; apply Z.abs_eq, Z.square_nonneg). lia.
  - unfold row_items. rewrite !Z.rem_mod_nonneg by lia.
    assert (Z.abs d mod 2 = d mod 2) as Em.
    { destruct (Z.abs_eq_or_opp d) as [-> | ->]; auto.
      destruct (Z.mod_pos_bound d 2); [lia|]. destruct (Z.mod_pos_bound (- d) 2); [lia|].
      pose proof (Z.div_mod d 2). pose proof (Z.div_mod (- d) 2). lia. }
    rewrite Em, Fa, Fb, Fc, Fd, !Z.eqb_refl. cbn [andb].
    destruct (Z.lt_ge_cases d 0) as [Hd|Hd].
    + destruct (N3 Hd) as (-> & N4 & N5). right.
      destruct (Z.eqb_spec a 0), (Z.eqb_spec a b), (Z.eqb_spec b c), (Z.eqb_spec c (Z.abs d)); try lia. cbn [negb andb].
      left. f_equal. lia.
    + left. f_equal. lia.
Qed.

Definition rowsums_fuel (n : nat) : nat := squares_fuel (4 * Z.of_nat n).
Lemma generate_rowsums_fuel n t fuel : (rowsums_fuel n <= fuel)%nat ->
  exists l, generate_rowsums fuel n t = Some l /\ NoDup l /\
  forall r, In r l <-> feasible n r /\ normal_rowsums t r.
Proof.
  intros Hf. unfold generate_rowsums.
  destruct (sum_of_four_squares_fuel (4 * Z.of_nat n) fuel ltac:(lia) Hf) as (l & -> & N & H). cbn [bind].
  eexists. split; [reflexivity|].
  rewrite (fold_flat _ (row_items (Z.of_nat n mod 2) t)).
  2:{ intros acc [[[a b] c] d]. unfold row_items.
      destruct (_ && _ && _ && _); [|now rewrite app_nil_r].
      destruct (_ && _ && _ && _ && _); rewrite <- ?app_assoc; reflexivity. }
  cbn [app]. split.
  - apply NoDup_flat_map; auto.
    + intros [[[a b] c] d] Hx. apply H in Hx as (S1 & S2 & S3). unfold row_items.
      destruct (_ && _ && _ && _); [|constructor].
      destruct (Z.eqb_spec a 0), (Z.eqb_spec a b), (Z.eqb_spec b c), (Z.eqb_spec c d); cbn [negb andb]; try (repeat constructor; intros []; fail).
      destruct t; try (repeat constructor; intros []; fail).
      constructor; [intros [E|[]]; inversion E; lia|repeat constructor; intros []].
    + intros x y z Hx Hy Hz1 Hz2.
      destruct (row_items_in n t x z (proj1 (H x) Hx) Hz1) as (_ & _ & E1).
      destruct (row_items_in n t y z (proj1 (H y) Hy) Hz2) as (_ & _ & E2). destruct z as [[[? ?] ?] ?]. congruence.
  - intros r. rewrite in_flat_map. split.
    + intros (x & Hx & Hr). apply (row_items_in n t x r) in Hr as (F & N' & _); auto. now apply H.
    + intros [F N']. destruct r as [[[a b] c] d]. destruct (row_items_complete n t a b c d F N') as [S I].
      exists (a, b, c, Z.abs d). split; auto. now apply H.
Qed.

(* ---- C26 ---- *)
Lemma total_bounds w : pm1 w -> - Z.of_nat (length w) <= total w <= Z.of_nat (length w).
Proof.
  intros P. induction P as [|y w Hy Hw IH]; [cbn; lia|]. cbn [total fold_right length]. fold (total w). lia.
Qed.
Lemma gen_seq_spec : forall fuel pre m k, (m < fuel)%nat ->
  (0 <= k)%Z ->
  exists l, gen_seq_rec fuel (pre ++ repeat (-1) m) k (length pre) = Some l /\ NoDup l /\
  forall s, In s l <-> exists w, s = pre ++ w /\ length w = m /\ pm1 w /\ total w = 2 * k - Z.of_nat m.
Proof.
  induction fuel as [|fuel IH]; intros pre m k Hf Hk; [lia|]. cbn [gen_seq_rec].
  destruct (Z.eqb_spec k 0) as [->|Hk0].
  - exists [pre ++ repeat (-1) m]. split; auto. split; [repeat constructor; intros []|]. intros s. split.
    + intros [<-|[]]. exists (repeat (-1) m). split; auto. split; [apply repeat_length|]. split.
      * apply Forall_forall. intros x Hx. apply repeat_spec in Hx. auto.
      * clear. induction m; auto. cbn [repeat total fold_right]. fold (total (repeat (-1) m)). lia.
    + intros (w & -> & L & P & T). left. f_equal. clear - L P T. revert m L T. induction w as [|x w IH]; intros m L T; cbn in L; subst m; auto.
      cbn [repeat]. inversion P; subst. cbn [total fold_right] in T. fold (total w) in T.
      assert (- Z.of_nat (length w) <= total w) as B.
      { now apply total_bounds. }
      destruct H1 as [-> | ->]; [lia|]. f_equal. apply IH; auto. lia.
  - rewrite app_length, repeat_length. destruct (Z.ltb_spec (Z.of_nat (length pre + m)) (Z.of_nat (length pre) + k)) as [Hlt|Hge].
    + exists []. split; auto. split; [constructor|]. intros s. split; [intros []|]. intros (w & -> & L & P & T). exfalso.
      assert (total w <= Z.of_nat (length w)) as B.
      { now apply total_bounds. }
      lia.
    + destruct m as [|m]; [lia|]. cbn [repeat].
      assert ((length pre + 1)%nat = length (pre ++ [-1])) as E1 by (rewrite app_length; reflexivity).
      assert (length (pre ++ [-1]) = length (pre ++ [1])) as E1' by (rewrite !app_length; reflexivity).
      replace (pre ++ -1 :: repeat (-1) m) with ((pre ++ [-1]) ++ repeat (-1) m) by now rewrite <- app_assoc.
      rewrite E1. destruct (IH (pre ++ [-1]) m k) as (l2 & -> & N2 & H2); [lia|lia|]. cbn [bind].
      assert (vset ((pre ++ [-1]) ++ repeat (-1) m) (length pre) 1 = Some ((pre ++ [1]) ++ repeat (-1) m)) as ->.
      { clear. induction pre as [|x pre IH]; cbn; auto. cbn in IH. rewrite IH. reflexivity. }
      cbn [bind]. rewrite E1'. destruct (IH (pre ++ [1]) m (k - 1)) as (l1 & -> & N1 & H1); [lia|lia|]. cbn [bind].
      exists (l1 ++ l2). split; auto. split.
      * apply NoDup_app; auto. intros s Hs1 Hs2. apply H1 in Hs1 as (w & -> & _). apply H2 in Hs2 as (w' & E & _).
        rewrite <- !app_assoc in E. apply app_inv_head in E. discriminate.
      * intros s. rewrite in_app_iff, H1, H2. split.
        { intros [(w & -> & L & P & T)|(w & -> & L & P & T)].
          - exists (1 :: w). rewrite <- app_assoc. split; auto. split; [cbn; lia|]. split; [constructor; auto|].
            cbn [total fold_right]. fold (total w). lia.
          - exists (-1 :: w). rewrite <- app_assoc. split; auto. split; [cbn; lia|]. split; [constructor; auto|].
            cbn [total fold_right]. fold (total w). lia. }
        { intros ([|x w] & -> & L & P & T); [discriminate|]. cbn in L. inversion P; subst.
          cbn [total fold_right] in T. fold (total w) in T.
          destruct H3 as [-> | ->]; [left|right]; exists w; rewrite <- app_assoc; repeat split; auto; lia. }
Qed.

Lemma generate_sequences_spec r n : Z.abs r < 2 ^ 62 -> Z.of_nat n < 2 ^ 62 ->
  exists l, generate_sequences_with_rowsum r n = Some l /\ NoDup l /\
  forall s, In s l <-> length s = n /\ pm1 s /\ total s = r.
Proof.
  intros Hr Hn. unfold generate_sequences_with_rowsum, as_usize.
  assert (2 ^ 64 = 4 * 2 ^ 62) as E64 by reflexivity. set (M := 2 ^ 62) in *. rewrite E64.
  rewrite Z.rem_mod_nonneg by lia.
  pose proof (Z.mod_pos_bound (Z.abs r) 2 ltac:(lia)) as Ba. pose proof (Z.mod_pos_bound (Z.of_nat n) 2 ltac:(lia)) as Bn.
  pose proof (Z.div_mod (Z.abs r) 2 ltac:(lia)) as Da. pose proof (Z.div_mod (Z.of_nat n) 2 ltac:(lia)) as Dn.
  assert (1 < M) as HM by (unfold M; lia).
  rewrite (Z.mod_small (Z.abs r mod 2)) by lia.
  destruct (Z.eqb_spec (Z.abs r mod 2) (Z.of_nat n mod 2)) as [Ep|Ep]; cbn [negb].
  - assert (exists h, Z.of_nat n + r = 2 * h) as (h & Eh).
    { destruct (Z.abs_eq_or_opp r) as [E|E]; rewrite E in *.
      - exists (r / 2 + Z.of_nat n / 2 + r mod 2). lia.
      - exists (Z.of_nat n / 2 - (- r) / 2). lia. }
    rewrite Eh. replace (2 * h) with (h * 2) by lia. rewrite Z.quot_mul by lia.
    destruct (gen_seq_spec (n + 1) [] n (h mod (4 * M))) as (l & El & Nl & Hl); [lia|apply Z.mod_pos_bound; lia|].
    cbn [app length] in El. exists l. split; auto. split; auto. intros s. rewrite Hl. split.
    + intros (w & -> & L & P & T). cbn [app]. split; auto. split; auto. pose proof (total_bounds w P).
      destruct (Z.lt_ge_cases h 0) as [Hh|Hh].
      * exfalso. assert (h mod (4 * M) = h + 4 * M) as E by (symmetry; apply (Z.mod_unique _ _ (-1)); lia). lia.
      * rewrite Z.mod_small in T by lia. lia.
    + intros (L & P & T). exists s. split; auto. split; auto. split; auto. pose proof (total_bounds s P).
      rewrite Z.mod_small by lia. lia.
  - exists []. split; auto. split; [constructor|]. intros s. split; [intros []|]. intros (L & P & T). exfalso. apply Ep.
    pose proof (total_parity s P) as TP. rewrite T, L in TP. rewrite <- TP.
    destruct (Z.abs_eq_or_opp r) as [E|E]; rewrite E in *; auto.
    pose proof (Z.mod_pos_bound r 2 ltac:(lia)). pose proof (Z.div_mod r 2 ltac:(lia)). lia.
Qed.

(* ---- C25: every class has normal row sums ---- *)
Definition rs (q : QuadSeq) (t : Tag) : Z := total (slot q t).
Lemma total_neg l : pm1 l -> total (lact Neg l) = - total l.
Proof.
  intros P. assert (lact Neg l = map Z.opp l) as ->.
  { apply (nth_ext _ _ 0 0); [unfold lact; rewrite !map_length, seq_length; auto|]. intros i Hi.
    unfold lact in Hi. rewrite map_length, seq_length in Hi.
    rewrite <- entry_nat by (unfold lact; rewrite map_length, seq_length; auto). rewrite entry_neg by auto.
    rewrite entry_nat by auto. change 0 with (- 0) at 2. now rewrite map_nth. }
  clear. induction l as [|x l IH]; cbn [map total fold_right]; auto. fold (total l). fold (total (map Z.opp l)). lia.
Qed.
Lemma rs_neg n t u q : pm_quad n q -> rs (gact (At t Neg) q) u = if tag_eq u t then - rs q u else rs q u.
Proof.
  intros Hq. apply pm_slots in Hq as [_ Hq]. unfold rs. destruct u, t; cbn; auto; apply total_neg; apply (Hq TW) || apply (Hq TX) || apply (Hq TY) || apply (Hq TZ).
Qed.
Lemma rs_ex s t u q : rs (gact (Ex s t) q) u = rs q (exchange s t u).
Proof. unfold rs. destruct s, t, u; reflexivity. Qed.

Definition qget (r : Quad) (t : Tag) : Z := let '(a, b, c, d) := r in match t with TW => a | TX => b | TY => c | TZ => d end.
Definition qmk (f : Tag -> Z) : Quad := (f TW, f TX, f TY, f TZ).
Definition neg_at (u : Tag) (r : Quad) : Quad := qmk (fun v => if tag_eq v u then - qget r v else qget r v).
Definition swap_at (s t : Tag) (r : Quad) : Quad := qmk (fun v => qget r (exchange s t v)).

Section Normalise.
  Variable P : Quad -> Prop.
  Hypothesis P_ns : forall u s t r, In (s, t) all_pairs -> P r -> P (swap_at s t (neg_at u r)).

  Ltac ns u s t H := let H' := fresh "H" in
    assert (H' := P_ns u s t _ ltac:(cbn; tauto) H); cbv [swap_at neg_at qmk qget exchange tag_eq] in H'.
  Ltac comparator s t :=
    intros H; match type of H with P (?a, ?b, ?c, ?d) => idtac end;
    match goal with |- context [Z.min ?x ?y] => destruct (Z.le_ge_cases x y) end;
    [eexists _, _, _, _; split; [exact H|lia]
    |ns TW s t H; eexists _, _, _, _; split; [eassumption|lia]].

  Lemma cmp_WX a b c d : P (a, b, c, d) -> exists a' b' c' d', P (a', b', c', d') /\
    Z.abs a' = Z.min (Z.abs a) (Z.abs b) /\ Z.abs b' = Z.max (Z.abs a) (Z.abs b) /\ Z.abs c' = Z.abs c /\ Z.abs d' = Z.abs d.
  Proof. comparator TW TX. Qed.
  Lemma cmp_YZ a b c d : P (a, b, c, d) -> exists a' b' c' d', P (a', b', c', d') /\
    Z.abs c' = Z.min (Z.abs c) (Z.abs d) /\ Z.abs d' = Z.max (Z.abs c) (Z.abs d) /\ Z.abs a' = Z.abs a /\ Z.abs b' = Z.abs b.
  Proof. comparator TY TZ. Qed.
  Lemma cmp_WY a b c d : P (a, b, c, d) -> exists a' b' c' d', P (a', b', c', d') /\
    Z.abs a' = Z.min (Z.abs a) (Z.abs c) /\ Z.abs c' = Z.max (Z.abs a) (Z.abs c) /\ Z.abs b' = Z.abs b /\ Z.abs d' = Z.abs d.
  Proof. comparator TW TY. Qed.
  Lemma cmp_XZ a b c d : P (a, b, c, d) -> exists a' b' c' d', P (a', b', c', d') /\
    Z.abs b' = Z.min (Z.abs b) (Z.abs d) /\ Z.abs d' = Z.max (Z.abs b) (Z.abs d) /\ Z.abs a' = Z.abs a /\ Z.abs c' = Z.abs c.
  Proof. comparator TX TZ. Qed.
  Lemma cmp_XY a b c d : P (a, b, c, d) -> exists a' b' c' d', P (a', b', c', d') /\
    Z.abs b' = Z.min (Z.abs b) (Z.abs c) /\ Z.abs c' = Z.max (Z.abs b) (Z.abs c) /\ Z.abs a' = Z.abs a /\ Z.abs d' = Z.abs d.
  Proof. comparator TX TY. Qed.

  Lemma sort_abs r : P r -> exists a b c d, P (a, b, c, d) /\ Z.abs a <= Z.abs b <= Z.abs c /\ Z.abs c <= Z.abs d.
  Proof.
    destruct r as [[[a b] c] d]. intros H.
    apply cmp_WX in H as (a1 & b1 & c1 & d1 & H & E1 & E2 & _ & _).
    assert (Z.abs a1 <= Z.abs b1) as L1 by (rewrite E1, E2; clear; lia). clear E1 E2.
    apply cmp_YZ in H as (a2 & b2 & c2 & d2 & H & E1 & E2 & E3 & E4).
    assert (Z.abs c2 <= Z.abs d2) as L2 by (rewrite E1, E2; clear; lia). rewrite <- E3, <- E4 in L1. clear E1 E2 E3 E4.
    apply cmp_WY in H as (a3 & b3 & c3 & d3 & H & E1 & E2 & E3 & E4). rewrite <- E3 in L1. rewrite <- E4 in L2. clear E3 E4.
    revert L1 L2 E1 E2. generalize (Z.abs a2), (Z.abs c2). intros A2 C2 L1 L2 E1 E2.
    assert (Z.abs a3 <= Z.abs b3 /\ Z.abs a3 <= Z.abs c3 /\ Z.abs a3 <= Z.abs d3 /\ Z.abs c3 <= Z.max (Z.abs b3) (Z.abs d3)) as (M1 & M2 & M3 & M4).
    { revert L1 L2 E1 E2. generalize (Z.abs a3), (Z.abs b3), (Z.abs c3), (Z.abs d3). clear. intros; lia. }
    clear A2 C2 L1 L2 E1 E2.
    apply cmp_XZ in H as (a4 & b4 & c4 & d4 & H & E1 & E2 & E3 & E4). rewrite <- E2, <- E3, <- E4 in *.
    assert (Z.abs a4 <= Z.abs b4) as M5 by (revert E1 M1 M3; generalize (Z.abs a4), (Z.abs b4), (Z.abs b3), (Z.abs d3); clear; intros; lia).
    assert (Z.abs b4 <= Z.abs d4) as M6 by (rewrite E1, E2; clear; lia).
    clear M1 M3 E1 E2 E3 E4.
    apply cmp_XY in H as (a5 & b5 & c5 & d5 & H & E1 & E2 & E3 & E4). rewrite <- E3, <- E4 in *. clear E3 E4.
    exists a5, b5, c5, d5. split; auto. clear H. revert M2 M4 M5 M6 E1 E2.
    generalize (Z.abs a5), (Z.abs b5), (Z.abs c5), (Z.abs d5), (Z.abs b4), (Z.abs c4). clear. intros. lia.
  Qed.

  Lemma dn_WZ a b c d : P (a, b, c, d) -> P (- a, b, c, - d).
  Proof. intros H. ns TW TX TY H. ns TZ TX TY H0. exact H1. Qed.
  Lemma dn_XZ a b c d : P (a, b, c, d) -> P (a, - b, c, - d).
  Proof. intros H. ns TX TW TY H. ns TZ TW TY H0. exact H1. Qed.
  Lemma dn_YZ a b c d : P (a, b, c, d) -> P (a, b, - c, - d).
  Proof. intros H. ns TY TW TX H. ns TZ TW TX H0. exact H1. Qed.

  Lemma normalise_ns r : P r -> exists r', P r' /\ normal_rowsums QuaternionType r'.
  Proof.
    intros H. apply sort_abs in H as (a & b & c & d & H & L1 & L2).
    assert (exists a' d', P (a', b, c, d') /\ 0 <= a' /\ Z.abs a' = Z.abs a /\ Z.abs d' = Z.abs d) as (a1 & d1 & H1 & A1 & A2 & A3).
    { destruct (Z.le_gt_cases 0 a); [exists a, d; auto|]. exists (- a), (- d). split; [now apply dn_WZ|lia]. }
    assert (exists b' d', P (a1, b', c, d') /\ 0 <= b' /\ Z.abs b' = Z.abs b /\ Z.abs d' = Z.abs d) as (b1 & d2 & H2 & B1 & B2 & B3).
    { destruct (Z.le_gt_cases 0 b); [exists b, d1; auto|]. exists (- b), (- d1). split; [now apply dn_XZ|lia]. }
    assert (exists c' d', P (a1, b1, c', d') /\ 0 <= c' /\ Z.abs c' = Z.abs c /\ Z.abs d' = Z.abs d) as (c1 & d3 & H3 & C1 & C2 & C3).
    { destruct (Z.le_gt_cases 0 c); [exists c, d2; auto|]. exists (- c), (- d2). split; [now apply dn_YZ|lia]. }
    clear H H1 H2.
    destruct (Z.le_gt_cases 0 d3) as [Hd|Hd]; [exists (a1, b1, c1, d3); split; auto; unfold normal_rowsums; lia|].
    assert (P (a1, b1, c1, - d3) -> exists r', P r' /\ normal_rowsums QuaternionType r') as Fin.
    { intros H. exists (a1, b1, c1, - d3). split; auto. unfold normal_rowsums. lia. }
    destruct (Z.eq_dec a1 0) as [E|E1].
    { apply Fin. apply dn_WZ in H3. subst a1. exact H3. }
    destruct (Z.eq_dec a1 b1) as [E|E2].
    { apply Fin. ns TZ TW TX H3. subst b1. exact H. }
    destruct (Z.eq_dec b1 c1) as [E|E3].
    { apply Fin. ns TZ TX TY H3. subst c1. exact H. }
    destruct (Z.eq_dec c1 (- d3)) as [E|E4].
    { apply Fin. ns TZ TY TZ H3. rewrite <- E in H |- *. exact H. }
    exists (a1, b1, c1, d3). split; auto. unfold normal_rowsums. repeat split; auto; lia.
  Qed.
End Normalise.

Lemma normalise_free t (P : Quad -> Prop) r :
  (forall u r, P r -> P (neg_at u r)) -> (forall s u r, In (s, u) all_pairs -> P r -> P (swap_at s u r)) ->
  P r -> exists r', P r' /\ normal_rowsums t r'.
Proof.
  intros Hn Hs Hr. destruct (normalise_ns P) with (r := r) as ([[[a b] c] d] & H & N1 & N2 & N3); auto.
  destruct (Z.le_gt_cases 0 d).
  - exists (a, b, c, d). split; auto. unfold normal_rowsums. lia.
  - exists (a, b, c, - d). split; [exact (Hn TZ _ H)|]. unfold normal_rowsums. lia.
Qed.

Lemma totals_neg n u q : pm_quad n q -> totals (gact (At u Neg) q) = neg_at u (totals q).
Proof.
  intros Hq. pose proof (fun v => rs_neg n u v q Hq) as H. unfold rs in H.
  unfold totals, neg_at, qmk. pose proof (H TW). pose proof (H TX). pose proof (H TY). pose proof (H TZ). cbn [slot] in *.
  now rewrite H0, H1, H2, H3.
Qed.
Lemma totals_ex s t q : totals (gact (Ex s t) q) = swap_at s t (totals q).
Proof.
  pose proof (fun v => rs_ex s t v q) as H. unfold rs in H.
  unfold totals, swap_at, qmk. pose proof (H TW). pose proof (H TX). pose proof (H TY). pose proof (H TZ). cbn [slot] in *.
  rewrite H0, H1, H2, H3. f_equal; [f_equal; [f_equal|]|]; destruct s, t; reflexivity.
Qed.

Lemma normal_reach n t q : (1 <= n)%nat -> pm_quad n q -> is_type t q ->
  exists y, reach (type_ops t) q y /\ pm_quad n y /\ is_type t y /\ normal_rowsums t (totals y).
Proof.
  intros Hn Hq Ht.
  set (P := fun r => exists y, reach (type_ops t) q y /\ pm_quad n y /\ totals y = r).
  assert (P (totals q)) as HP by (exists q; split; [apply rt_refl|auto]).
  assert (forall o w r, In o (type_ops t) -> (forall m, In w (variants o m)) -> P r ->
    exists y, P (totals (wact w y)) /\ pm_quad n y /\ totals y = r) as Step.
  { intros o w r Ho Hw (y & R & Py & E). exists y. split; auto. exists (wact w y).
    assert (reach (type_ops t) q (wact w y)) as R'.
    { eapply rt_trans; [exact R|]. apply rt_step. exists o. split; auto. right. exists w. split; auto. }
    split; auto. split; auto. apply (reach_type n t q (wact w y)); auto. }
  assert (exists r', P r' /\ normal_rowsums t r') as (r' & (y & R & Py & E) & N).
  { destruct t; try contradiction.
    - apply normalise_free with (r := totals q); auto.
      + intros u r Hr. destruct (Step Negate [At u Neg] r) as (y & Hy & Py & E); auto; [cbn; tauto|destruct u; cbn; tauto|].
        cbn [wact fold_left] in Hy. rewrite (totals_neg n) in Hy by auto. now rewrite <- E.
      + intros s u r Hsu Hr. destruct (Step Reorder [Ex s u] r) as (y & Hy & Py & E); auto; [cbn; tauto| |].
        { intros m. cbn [variants]. apply in_map_iff. exists (s, u). auto. }
        cbn [wact fold_left] in Hy. rewrite totals_ex in Hy. now rewrite <- E.
    - apply normalise_free with (r := totals q); auto.
      + intros u r Hr. destruct (Step Negate [At u Neg] r) as (y & Hy & Py & E); auto; [cbn; tauto|destruct u; cbn; tauto|].
        cbn [wact fold_left] in Hy. rewrite (totals_neg n) in Hy by auto. now rewrite <- E.
      + intros s u r Hsu Hr. destruct (Step Reorder [Ex s u] r) as (y & Hy & Py & E); auto; [cbn; tauto| |].
        { intros m. cbn [variants]. apply in_map_iff. exists (s, u). auto. }
        cbn [wact fold_left] in Hy. rewrite totals_ex in Hy. now rewrite <- E.
    - apply normalise_ns with (r := totals q); auto.
      intros u s v r Hsv Hr. destruct (Step NegateSwap [At u Neg; Ex s v] r) as (y & Hy & Py & E); auto; [cbn; tauto| |].
      { intros m. cbn [variants]. apply in_map_iff. exists ((s, v), u). split; auto. apply in_prod; auto. destruct u; cbn; tauto. }
      cbn [wact fold_left] in Hy. rewrite totals_ex, (totals_neg n) in Hy by auto. now rewrite <- E. }
  exists y. subst r'. split; auto. split; auto. split; auto. apply (reach_type n t q y); auto.
Qed.

Lemma type_complementary t q : is_type t q -> complementary q.
Proof. destruct t; cbn; try tauto; intros H; apply H. Qed.

Lemma generate_rowsums_covers n t fuel q : (1 <= n)%nat -> (rowsums_fuel n <= fuel)%nat -> pm_quad n q -> is_type t q ->
  exists l y, generate_rowsums fuel n t = Some l /\ reach (type_ops t) q y /\ In (totals y) l.
Proof.
  intros Hn Hf Hq Ht. destruct (generate_rowsums_fuel n t fuel Hf) as (l & E & _ & Hl).
  destruct (normal_reach n t q Hn Hq Ht) as (y & R & Py & Ty & N). exists l, y. split; auto. split; auto.
  apply Hl. split; auto. apply complementary_rowsums; auto. eapply type_complementary; eauto.
Qed.

(* ---- C58 ---- *)
Lemma has_sorted_rowsums_spec q : has_sorted_rowsums q = true <->
  normal_rowsums QuaternionType (totals q) \/ exists a b c, totals q = (a, b, c, - c) /\ 0 < a < b /\ b < c.
Proof.
  unfold has_sorted_rowsums, totals, sequence. rewrite !rowsum_total.
  set (a := total (q_a q)). set (b := total (q_b q)). set (c := total (q_c q)). set (d := total (q_d q)).
  assert ((exists a' b' c', (a, b, c, d) = (a', b', c', - c') /\ 0 < a' < b' /\ b' < c') <-> d = - c /\ 0 < a < b /\ b < c) as ->.
  { split; [intros (a' & b' & c' & E & H); inversion E; subst; auto|]. intros [-> H]. exists a, b, c. auto. }
  destruct (quad_contains_dup (a, b, c, d) || quad_contains_zero (a, b, c, d)) eqn:E;
    unfold normal_rowsums, quad_contains_dup, quad_contains_zero in *;
    [rewrite !orb_true_iff, !Z.eqb_eq in E|rewrite !orb_false_iff, !Z.eqb_neq in E];
    rewrite !andb_true_iff, !Z.leb_le; clearbody a b c d.
  - split.
    + intros H. left. lia.
    + intros [H|H]; lia.
  - split.
    + intros H. destruct (Z.eq_dec d (- c)); [right; lia|left]. split; [lia|]. split; [lia|]. intros Hd. split; [auto|lia].
    + intros [(H1 & H2 & H3)|H]; [|lia]. lia.
Qed.

(* ---- statements used by the property file ---- *)
Lemma generate_rowsums_spec n t : exists fuel0, forall fuel, (fuel0 <= fuel)%nat ->
  exists l, generate_rowsums fuel n t = Some l /\ NoDup l /\ forall r, In r l <-> feasible n r /\ normal_rowsums t r.
Proof. exists (rowsums_fuel n). intros. now apply generate_rowsums_fuel. Qed.
Lemma generate_rowsums_cover n t : (1 <= n)%nat -> exists fuel0, forall fuel, (fuel0 <= fuel)%nat ->
  exists l, generate_rowsums fuel n t = Some l /\
  forall q, pm_quad n q -> verify q t = Some true -> exists y, reach (type_ops t) q y /\
    verify y t = Some true /\ In (rowsum (sequence y TW), rowsum (sequence y TX), rowsum (sequence y TY), rowsum (sequence y TZ)) l.
Proof.
  intros Hn. exists (rowsums_fuel n). intros fuel Hf.
  destruct (generate_rowsums_fuel n t fuel Hf) as (l & E & _ & Hl). exists l. split; auto. intros q Hq Hv.
  destruct (verify_spec n q t Hq Hn) as (b & Eb & H). rewrite Eb in Hv. injection Hv as ->.
  assert (is_type t q) as Ht by now apply H.
  destruct (normal_reach n t q Hn Hq Ht) as (y & R & Py & Ty & N). exists y. split; auto. split.
  - destruct (verify_spec n y t Py Hn) as (b' & -> & H'). destruct b'; auto. apply H' in Ty. discriminate.
  - unfold sequence. rewrite !rowsum_total. apply Hl. split; auto. apply complementary_rowsums; auto. eapply type_complementary; eauto.
Qed.
Lemma has_sorted_rowsums_listed n : (1 <= n)%nat -> exists fuel0, forall fuel, (fuel0 <= fuel)%nat ->
  exists l, generate_rowsums fuel n QuaternionType = Some l /\
  forall q, pm_quad n q -> verify q QuaternionType = Some true ->
    (has_sorted_rowsums q = true <->
      In (totals q) l \/ exists a b c, totals q = (a, b, c, - c) /\ 0 < a < b /\ b < c).
Proof.
  intros Hn. exists (rowsums_fuel n). intros fuel Hf.
  destruct (generate_rowsums_fuel n QuaternionType fuel Hf) as (l & E & _ & Hl). exists l. split; auto. intros q Hq Hv.
  rewrite has_sorted_rowsums_spec, Hl. pose proof (complementary_rowsums n q Hq Hn (verify_complementary n q _ Hq Hn Hv)). tauto.
Qed.
Lemma filter_keeps_classes n t l : (1 <= n)%nat -> Forall (fun q => pm_quad n q /\ verify q t = Some true) l ->
  (forall q y, In q l -> reach (type_ops t) q y -> In y l) ->
  incl (filter_by_rowsums l) l /\
  (forall q, In q l -> exists y, reach (type_ops t) q y /\ In y (filter_by_rowsums l)).
Proof.
  intros Hn Hl Hc. split; [intros x Hx; now apply filter_In in Hx|].
  intros q Hq. pose proof (proj1 (Forall_forall _ _) Hl q Hq) as [Pq Hv].
  destruct (verify_spec n q t Pq Hn) as (b & Eb & H). rewrite Eb in Hv. injection Hv as ->.
  assert (is_type t q) as Ht by now apply H.
  destruct (normal_reach n t q Hn Pq Ht) as (y & R & Py & Ty & N). exists y. split; auto.
  apply filter_In. split; [eauto|]. apply has_sorted_rowsums_spec. left. destruct (totals y) as [[[a b] c] d].
  unfold normal_rowsums in *. destruct N as (N1 & N2 & N3). split; auto. split; auto. intros Hd. destruct (N3 Hd). auto.
Qed.
Lemma generate_rowsums_mono f f' n t l : (f <= f')%nat -> generate_rowsums f n t = Some l -> generate_rowsums f' n t = Some l.
Proof.
  intros Hf. unfold generate_rowsums, sum_of_four_squares.
  destruct (run f _ _) as [q|] eqn:E; [|discriminate]. now rewrite (run_mono _ _ _ _ _ E Hf).
Qed.

Lemma filtered_classes n ord t l : ord_ok ord -> (1 <= n <= 100)%nat ->
  Forall (fun q => pm_quad n q /\ verify q t = Some true) l ->
  exists fuel0, forall fuel p, (fuel0 <= fuel)%nat -> exists r,
    generate_equivalent_quad_seqs fuel ord p l t = Some r /\
    (forall y, In y (filter_by_rowsums r) -> has_sorted_rowsums y = true /\ exists q, In q l /\ reach (type_ops t) q y) /\
    (forall q, In q l -> exists y, reach (type_ops t) q y /\ In y (filter_by_rowsums r)).
Proof.
  intros Ho Hn Hl. assert (Forall (i8_quad n) l) as Hi by (eapply Forall_impl; [|exact Hl]; intros q [H _]; now apply pm_i8).
  destruct (equivalent_quad_seqs_spec n ord t l Ho Hi ltac:(lia)) as (f0 & H). exists f0. intros fuel p Hf.
  destruct (H fuel p Hf) as (r & E & _ & Hr). exists r. split; auto. split.
  - intros y Hy. apply filter_In in Hy as [Hy Hs]. split; auto. now apply Hr.
  - intros q Hq. destruct (filter_keeps_classes n t r) as [_ HH]; try lia.
    + apply Forall_forall. intros y Hy. apply Hr in Hy as (x & Hx & R).
      pose proof (proj1 (Forall_forall _ _) Hl x Hx) as [Px Hv].
      destruct (verify_spec n x t Px ltac:(lia)) as (b & Eb & Hb). rewrite Eb in Hv. injection Hv as ->.
      destruct (reach_type n t x y Px ltac:(lia) R (proj1 Hb eq_refl)) as [Py Ty]. split; auto.
      destruct (verify_spec n y t Py ltac:(lia)) as (b' & -> & H'). destruct b'; auto. apply H' in Ty. discriminate.
    + intros x y Hx Rx. apply Hr. apply Hr in Hx as (z & Hz & Rz). exists z. split; auto. eapply rt_trans; eauto.
    + apply HH. apply Hr. exists q. split; auto. apply rt_refl.
Qed.
