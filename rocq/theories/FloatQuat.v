(* f32 evaluation of the correlation sums equals exact evaluation. *)
From Coq Require Import List ZArith QArith Qcanon Bool Arith Lia SpecFloat.
From Verif Require Import Base BaseFacts Quat QuatFacts ModelSequence ModelMatrices ModelFloat SpecFloats FloatFacts.
Import ListNotations.
Open Scope Z_scope.

Definition Z4 : Type := Z * Z * Z * Z.
Definition qrep (q : fquat) (u : Z4) : Prop :=
  let '(a, b, c, d) := u in rep (f_s q) a /\ rep (f_x q) b /\ rep (f_y q) c /\ rep (f_z q) d.
Definition qz (u : Z4) : quat := let '(a, b, c, d) := u in Quat (quarter a) (quarter b) (quarter c) (quarter d).
Definition zadd (u v : Z4) : Z4 := let '(a, b, c, d) := u in let '(e, f, g, h) := v in (a + e, b + f, c + g, d + h).
Definition below (k : Z) (u : Z4) : Prop := let '(a, b, c, d) := u in Z.abs a <= k /\ Z.abs b <= k /\ Z.abs c <= k /\ Z.abs d <= k.
Definition twice (u : Z4) : Z4 := let '(a, b, c, d) := u in (2 * a, 2 * b, 2 * c, 2 * d).
Definition zconj (u : Z4) : Z4 := let '(a, b, c, d) := u in (a, - b, - c, - d).
Definition zscale (s : Z) (u : Z4) : Z4 := let '(a, b, c, d) := u in (s * a, s * b, s * c, s * d).
(* halves times halves is quarters *)
Definition hmul (u v : Z4) : Z4 :=
  let '(a, b, c, d) := u in let '(s, x, y, z) := v in
  (a * s - b * x - c * y - d * z, a * x + b * s + c * z - d * y, a * y + c * s + d * x - b * z, a * z + d * s + b * y - c * x).
Definition unit_half (u : Z4) : Prop := let '(a, b, c, d) := u in a * a + b * b + c * c + d * d = 4.

Lemma quarter_add u v : quarter (u + v) = (quarter u + quarter v)%Qc.
Proof. unfold quarter, Qcplus. apply qc_eq. cbn [this Q2Qc]. rewrite !Qred_correct. unfold Qeq, Qplus. cbn [Qnum Qden]. lia. Qed.
Lemma quarter_opp u : quarter (- u) = (- quarter u)%Qc.
Proof. unfold quarter, Qcopp. apply qc_eq. cbn [this Q2Qc]. rewrite !Qred_correct. unfold Qeq, Qopp. cbn [Qnum Qden]. lia. Qed.
Lemma quarter_sub u v : quarter (u - v) = (quarter u - quarter v)%Qc.
Proof. unfold Z.sub, Qcminus. now rewrite quarter_add, quarter_opp. Qed.
Lemma quarter_mul u v : quarter (u * v) = (quarter (2 * u) * quarter (2 * v))%Qc.
Proof. unfold quarter, Qcmult. apply qc_eq. cbn [this Q2Qc]. rewrite !Qred_correct. unfold Qeq, Qmult. cbn [Qnum Qden]. lia. Qed.

Lemma qz_add u v : qz (zadd u v) = qadd (qz u) (qz v).
Proof. destruct u as [[[a b] c] d], v as [[[e f] g] h]. cbn. now rewrite !quarter_add. Qed.
Lemma qz_conj u : qz (zconj u) = qconj (qz u).
Proof. destruct u as [[[a b] c] d]. unfold zconj, qz, qconj. cbn [q_s q_x q_y q_z]. now rewrite !quarter_opp. Qed.
Lemma qz_mul u v : qz (hmul u v) = qmul (qz (twice u)) (qz (twice v)).
Proof.
  destruct u as [[[a b] c] d], v as [[[s x] y] z]. unfold hmul, twice, qz, qmul. cbn [q_s q_x q_y q_z].
  rewrite <- !quarter_mul. now rewrite ?quarter_sub, ?quarter_add, ?quarter_sub.
Qed.
Lemma qz_scale (e : bool) u : qz (zscale (if e then 1 else -1) u) = qscale (if e then 1 else - (1))%Qc (qz u).
Proof.
  destruct u as [[[a b] c] d]. unfold zscale, qz, qscale. cbn [q_s q_x q_y q_z].
  assert (G : forall a, quarter ((if e then 1 else -1) * a) = ((if e then 1 else - (1)) * quarter a)%Qc).
  { intros r. destruct e.
    - replace (1 * r) with r by lia. now rewrite Qcmult_1_l.
    - replace (-1 * r) with (- r) by lia. rewrite quarter_opp. ring. }
  now rewrite !G.
Qed.

Lemma qrep_add p q u v : qrep p u -> qrep q v -> below (2 ^ 24 - 1) (zadd u v) -> qrep (fq_add p q) (zadd u v).
Proof.
  destruct u as [[[a b] c] d], v as [[[e f] g] h]. cbn [qrep zadd below]. intros (? & ? & ? & ?) (? & ? & ? & ?) (? & ? & ? & ?).
  cbn [fq_add f_s f_x f_y f_z]. repeat split; apply rep_add; auto; lia.
Qed.
Lemma qrep_conj p u : qrep p u -> qrep (fq_conj p) (zconj u).
Proof. destruct u as [[[a b] c] d]. cbn [qrep zconj]. intros (? & ? & ? & ?). cbn. repeat split; auto using rep_neg. Qed.
Lemma twice_conj u : twice (zconj u) = zconj (twice u).
Proof. destruct u as [[[a b] c] d]. cbn [twice zconj]. now rewrite !Z.mul_opp_r. Qed.
Lemma unit_conj u : unit_half u -> unit_half (zconj u).
Proof. destruct u as [[[a b] c] d]. cbn [unit_half zconj]. lia. Qed.
Lemma unit_bound u : unit_half u -> below 2 u.
Proof. destruct u as [[[a b] c] d]. cbn [unit_half below]. intros H. assert (S : forall r, 0 <= r * r) by (intros; nia).
  pose proof (S a). pose proof (S b). pose proof (S c). pose proof (S d).
  assert (G : forall r, r * r <= 4 -> Z.abs r <= 2) by (intros; nia). repeat split; apply G; lia. Qed.
Lemma mul_halves x y a b : Z.abs a <= 2 -> Z.abs b <= 2 -> rep x (2 * a) -> rep y (2 * b) -> rep (f_mul x y) (a * b).
Proof.
  intros Ha Hb Hx Hy. replace (a * b) with (2 * a * (2 * b) / 4). 2:{ replace (2 * a * (2 * b)) with (a * b * 4) by lia. apply Z.div_mul. lia. }
  assert (C : a = -2 \/ a = -1 \/ a = 0 \/ a = 1 \/ a = 2) by lia. assert (D : b = -2 \/ b = -1 \/ b = 0 \/ b = 1 \/ b = 2) by lia.
  apply rep_mul; auto.
  - clear - C. destruct C as [->|[->|[->|[->| ->]]]]; cbn; tauto.
  - clear - D. destruct D as [->|[->|[->|[->| ->]]]]; cbn; tauto.
  - replace (2 * a * (2 * b)) with (a * b * 4) by lia. apply Z.mod_mul. lia.
Qed.
Lemma cauchy a b c d s x y z : a * a + b * b + c * c + d * d = 4 -> s * s + x * x + y * y + z * z = 4 -> Z.abs (a * s + b * x + c * y + d * z) <= 4.
Proof.
  intros H1 H2. set (p := a * s + b * x + c * y + d * z).
  assert (E : p * p + (a * x - b * s) * (a * x - b * s) + (a * y - c * s) * (a * y - c * s) + (a * z - d * s) * (a * z - d * s) +
    (b * y - c * x) * (b * y - c * x) + (b * z - d * x) * (b * z - d * x) + (c * z - d * y) * (c * z - d * y) = 16).
  { transitivity ((a * a + b * b + c * c + d * d) * (s * s + x * x + y * y + z * z)); [unfold p; ring|]. rewrite H1, H2. reflexivity. }
  clearbody p. assert (S : forall r, 0 <= r * r) by (intros; nia).
  assert (p * p <= 16).
  { pose proof (S (a * x - b * s)). pose proof (S (a * y - c * s)). pose proof (S (a * z - d * s)).
    pose proof (S (b * y - c * x)). pose proof (S (b * z - d * x)). pose proof (S (c * z - d * y)). lia. }
  clear - H. nia.
Qed.
Lemma small_product m n : Z.abs m <= 2 -> Z.abs n <= 2 -> -4 <= m * n <= 4.
Proof. intros. nia. Qed.
Lemma qrep_mul p q u v : unit_half u -> unit_half v -> qrep p (twice u) -> qrep q (twice v) -> qrep (fq_mul p q) (hmul u v) /\ below 4 (hmul u v).
Proof.
  intros Hu Hv. pose proof (unit_bound u Hu) as Bu. pose proof (unit_bound v Hv) as Bv.
  destruct u as [[[a b] c] d], v as [[[s x] y] z], p as [ps px py pz], q as [qs qx qy qz]. cbn [qrep twice below unit_half] in *.
  destruct Bu as (Ba & Bb & Bc & Bd), Bv as (Bs & Bx & By & Bz). cbn [f_s f_x f_y f_z].
  intros (Ra & Rb & Rc & Rd) (Rs & Rx & Ry & Rz). cbn [fq_mul hmul].
  pose proof small_product as M.
  split.
  - pose proof (M a s Ba Bs). pose proof (M a x Ba Bx). pose proof (M a y Ba By). pose proof (M a z Ba Bz).
    pose proof (M b s Bb Bs). pose proof (M b x Bb Bx). pose proof (M b y Bb By). pose proof (M b z Bb Bz).
    pose proof (M c s Bc Bs). pose proof (M c x Bc Bx). pose proof (M c y Bc By). pose proof (M c z Bc Bz).
    pose proof (M d s Bd Bs). pose proof (M d x Bd Bx). pose proof (M d y Bd By). pose proof (M d z Bd Bz).
    clear Hu Hv. repeat split; cbn [f_s f_x f_y f_z]; repeat first [apply rep_sub | apply rep_add | now apply mul_halves];
      clear M Ba Bb Bc Bd Bs Bx By Bz; lia.
  - repeat split.
    + replace (a * s - b * x - c * y - d * z) with (a * s + (- b) * x + (- c) * y + (- d) * z) by lia. apply cauchy; lia.
    + replace (a * x + b * s + c * z - d * y) with (a * x + b * s + c * z + (- d) * y) by lia. apply cauchy; lia.
    + replace (a * y + c * s + d * x - b * z) with (a * y + c * s + d * x + (- b) * z) by lia. apply cauchy; lia.
    + replace (a * z + d * s + b * y - c * x) with (a * z + d * s + b * y + (- c) * x) by lia. apply cauchy; lia.
Qed.

(* ---- the alphabet ---- *)

Definition zq (x : Qc) : Z := Qnum x * 2 / Zpos (Qden x).
Definition zquat (q : quat) : Z4 := (zq (q_s q), zq (q_x q), zq (q_y q), zq (q_z q)).
Definition unit_halfb (u : Z4) : bool := let '(a, b, c, d) := u in a * a + b * b + c * c + d * d =? 4.
Lemma alphabet_units : forall q, In q Q24 -> unit_half (zquat q) /\ q = qz (twice (zquat q)).
Proof.
  assert (H : forallb (fun q => unit_halfb (zquat q) && quat_eqb q (qz (twice (zquat q)))) Q24 = true) by (vm_compute; reflexivity).
  intros q Hq. rewrite forallb_forall in H. apply H, andb_true_iff in Hq as [A B]. split.
  - destruct (zquat q) as [[[a b] c] d]. now apply Z.eqb_eq in A.
  - now apply quat_eqb_eq.
Qed.
Lemma in_alphabet_rep q : in_alphabet q -> exists u, unit_half u /\ qrep q (twice u) /\ quat_value q = qz (twice u).
Proof.
  intros [(F1 & F2 & F3 & F4) H]. destruct (alphabet_units _ H) as [Hu E]. exists (zquat (quat_value q)). split; auto. split; auto.
  pose proof (unit_bound _ Hu) as B. destruct (zquat (quat_value q)) as [[[a b] c] d]. cbn [twice qz below] in *.
  unfold quat_value in E. injection E as E1 E2 E3 E4. cbn [qrep]. repeat split; apply rep_value; auto; lia.
Qed.
Lemma qrep_value q u : qrep q u -> quat_value q = qz u /\ finite_quat q.
Proof.
  destruct u as [[[a b] c] d]. cbn [qrep]. intros (A & B & C & D).
  apply value_rep in A as [A1 A2], B as [B1 B2], C as [C1 C2], D as [D1 D2].
  unfold quat_value, qz, finite_quat. rewrite A1, B1, C1, D1. auto.
Qed.

(* ---- sums ---- *)

Lemma zadd_below j k u v : below j u -> below k v -> below (j + k) (zadd u v).
Proof. destruct u as [[[a b] c] d], v as [[[e f] g] h]. cbn [below zadd]. intros (? & ? & ? & ?) (? & ? & ? & ?). repeat split; lia. Qed.
Lemma fold_exact (f : fquat -> nat -> option fquat) (g : quat -> nat -> option quat) l :
  (forall i, In i l -> exists p w, qrep p w /\ below 4 w /\
     (forall acc, f acc i = Some (fq_add acc p)) /\ (forall acc, g acc i = Some (qadd acc (qz w)))) ->
  forall acc u k, 0 <= k -> qrep acc u -> below (4 * k) u -> 4 * (k + Z.of_nat (length l)) < 2 ^ 24 ->
  exists r w, fold_m f l acc = Some r /\ fold_m g l (qz u) = Some (qz w) /\ qrep r w /\ below (4 * (k + Z.of_nat (length l))) w.
Proof.
  induction l as [|i l IH]; intros H acc u k Hk Ha Hb Hn.
  - exists acc, u. cbn [length]. rewrite Z.add_0_r. auto.
  - destruct (H i) as (p & w & Hp & Hw & Ef & Eg); [now left|]. cbn [fold_m]. rewrite Ef, Eg. cbn [bind]. rewrite <- qz_add.
    pose proof (zadd_below _ _ _ _ Hb Hw) as Hs. cbn [length] in *. rewrite Nat2Z.inj_succ in *.
    destruct (IH ltac:(intros; apply H; now right) (fq_add acc p) (zadd u w) (k + 1)) as (r & w' & E1 & E2 & E3 & E4); try lia.
    + apply qrep_add; auto. destruct (zadd u w) as [[[a b] c] d]. cbn [below] in *. lia.
    + replace (4 * (k + 1)) with (4 * k + 4) by lia. exact Hs.
    + exists r, w'. split; auto. split; auto. split; auto. replace (k + Z.succ (Z.of_nat (length l))) with (k + 1 + Z.of_nat (length l)) by lia. exact E4.
Qed.
Definition z0 : Z4 := (0, 0, 0, 0).
Lemma qz_0 : qz z0 = Q0.
Proof. apply quat_eqb_eq. vm_compute. reflexivity. Qed.
Lemma qrep_0 : qrep FQ0 z0.
Proof. assert (R : rep f_zero 0) by (exists false; reflexivity). exact (conj R (conj R (conj R R))). Qed.

Lemma vget_map {A B} (g : A -> B) l i : vget (map g l) i = option_map g (vget l i).
Proof. unfold vget. apply nth_error_map. Qed.
Lemma vget_in {A} (l : list A) i : (i < length l)%nat -> exists x, vget l i = Some x /\ In x l.
Proof.
  intros H. destruct (nth_error l i) as [x|] eqn:E; [|apply nth_error_None in E; lia]. exists x. split; auto. now apply nth_error_In in E.
Qed.
(* one term of the correlation *)
Lemma term_exact x y : in_alphabet x -> in_alphabet y -> exists w, qrep (fq_mul x (fq_conj y)) w /\ below 4 w /\
  qmul (quat_value x) (qconj (quat_value y)) = qz w.
Proof.
  intros Hx Hy. apply in_alphabet_rep in Hx as (u & Hu & Ru & ->), Hy as (v & Hv & Rv & ->).
  exists (hmul u (zconj v)). apply qrep_conj in Rv. rewrite <- twice_conj in Rv.
  destruct (qrep_mul _ _ u (zconj v) Hu (unit_conj v Hv) Ru Rv) as [A B]. split; auto. split; auto.
  now rewrite qz_mul, twice_conj, qz_conj.
Qed.
Lemma rep_sign z x e : Z.abs z <= 4 -> rep x z -> rep (f_mul x (f_power e)) ((if Nat.even e then 1 else -1) * z).
Proof.
  intros Hz Hx. assert (Hp : rep (f_power e) (if Nat.even e then 4 else -4)).
  { unfold f_power. destruct (Nat.even e); (split; [vm_compute; lia|vm_compute; reflexivity]). }
  assert (C : In z [-4; -3; -2; -1; 0; 1; 2; 3; 4]).
  { assert (z = -4 \/ z = -3 \/ z = -2 \/ z = -1 \/ z = 0 \/ z = 1 \/ z = 2 \/ z = 3 \/ z = 4) by lia. cbn. intuition auto. }
  destruct (Nat.even e).
  - replace (1 * z) with (z * 4 / 4) by (rewrite Z.div_mul; lia). apply rep_mul; auto; [cbn; tauto|apply Z.mod_mul; lia].
  - replace (-1 * z) with (z * -4 / 4). 2:{ replace (z * -4) with (- z * 4) by lia. rewrite Z.div_mul; lia. }
    apply rep_mul; auto; [cbn; tauto|]. replace (z * -4) with (- z * 4) by lia. apply Z.mod_mul. lia.
Qed.
Lemma qrep_sign w p e : below 4 w -> qrep p w -> qrep (fq_scale (f_power e) p) (zscale (if Nat.even e then 1 else -1) w) /\
  below 4 (zscale (if Nat.even e then 1 else -1) w).
Proof.
  destruct w as [[[a b] c] d]. cbn [below qrep zscale]. intros (B1 & B2 & B3 & B4) (R1 & R2 & R3 & R4). split.
  - cbn [fq_scale f_s f_x f_y f_z]. repeat split; now apply rep_sign.
  - destruct (Nat.even e); lia.
Qed.

Lemma sum_exact f g n : Z.of_nat n < 2 ^ 22 ->
  (forall i, (i < n)%nat -> exists p w, qrep p w /\ below 4 w /\
     (forall acc, f acc i = Some (fq_add acc p)) /\ (forall acc, g acc i = Some (qadd acc (qz w)))) ->
  exists r w, fold_m f (range 0 n) FQ0 = Some r /\ qrep r w /\ below (4 * Z.of_nat n) w /\ fold_m g (range 0 n) Q0 = Some (qz w).
Proof.
  intros Hn H. assert (L : Z.of_nat (length (range 0 n)) = Z.of_nat n) by (unfold range; rewrite seq_length; lia).
  destruct (fold_exact f g (range 0 n)) with (acc := FQ0) (u := z0) (k := 0) as (r & w & E1 & E2 & E3 & E4).
  - intros i Hi. apply in_range in Hi. apply H. lia.
  - lia.
  - exact qrep_0.
  - cbn. lia.
  - lia.
  - exists r, w. rewrite L, Z.add_0_l in E4. rewrite qz_0 in E2. auto.
Qed.

Lemma autocorrelation_exact l sym t : Forall in_alphabet l -> Z.of_nat (length l) < 2 ^ 22 ->
  exists r w, F_periodic_autocorrelation l t = Some r /\ qrep r w /\ below (4 * Z.of_nat (length l)) w /\
    QS_periodic_autocorrelation (mkQS (length l) (map quat_value l) sym) t = Some (qz w).
Proof.
  intros Hl Hn. rewrite Forall_forall in Hl. unfold F_periodic_autocorrelation, QS_periodic_autocorrelation. cbn [qs_size qs_values].
  apply sum_exact; auto. intros i Hi. destruct (vget_in l i) as (x & Ex & Ix); [lia|].
  destruct (vget_in l ((i + t) mod length l)) as (y & Ey & Iy); [apply Nat.mod_upper_bound; lia|].
  destruct (term_exact x y (Hl x Ix) (Hl y Iy)) as (w & A & B & C). exists (fq_mul x (fq_conj y)), w. split; auto. split; auto.
  split; intros acc.
  - rewrite Ex, Ey. reflexivity.
  - rewrite !vget_map, Ex, Ey. cbn [option_map bind]. now rewrite C.
Qed.
Lemma odd_autocorrelation_exact l sym t : Forall in_alphabet l -> Z.of_nat (length l) < 2 ^ 22 ->
  exists r w, F_odd_periodic_autocorrelation l t = Some r /\ qrep r w /\ below (4 * Z.of_nat (length l)) w /\
    QS_odd_periodic_autocorrelation (mkQS (length l) (map quat_value l) sym) t = Some (qz w).
Proof.
  intros Hl Hn. rewrite Forall_forall in Hl. unfold F_odd_periodic_autocorrelation, QS_odd_periodic_autocorrelation. cbn [qs_size qs_values].
  apply sum_exact; auto. intros i Hi. destruct (vget_in l i) as (x & Ex & Ix); [lia|].
  destruct (vget_in l ((i + t) mod length l)) as (y & Ey & Iy); [apply Nat.mod_upper_bound; lia|].
  destruct (term_exact x y (Hl x Ix) (Hl y Iy)) as (w & A & B & C).
  set (e := ((i + t) / length l)%nat). destruct (qrep_sign w _ e B A) as [A' B'].
  exists (fq_scale (f_power e) (fq_mul x (fq_conj y))), (zscale (if Nat.even e then 1 else -1) w). split; auto. split; auto.
  split; intros acc.
  - rewrite Ex, Ey. reflexivity.
  - rewrite !vget_map, Ex, Ey. cbn [option_map bind]. fold e. rewrite qz_scale, C. unfold sign_pow. now destruct (Nat.even e).
Qed.

(* ---- comparisons ---- *)

Lemma f_eqb_rep x y u v : rep x u -> rep y v -> f_eqb x y = (u =? v).
Proof.
  intros Hx Hy. apply rep_cases in Hx as [[-> [s ->]]|(s & a & Ha & -> & ->)]; apply rep_cases in Hy as [[-> [t ->]]|(t & b & Hb & -> & ->)].
  - reflexivity.
  - destruct t; reflexivity.
  - destruct s; reflexivity.
  - destruct (Z.eqb_spec (sgn s a) (sgn t b)) as [E|N].
    + assert (s = t /\ a = b) as [-> ->] by (destruct s, t; cbn in E; try discriminate E; injection E; auto).
      unfold f_eqb, SFeqb, SFcompare, fin. rewrite Z.compare_refl.
      change (Pcompare (sh (24 - dg b) b) (sh (24 - dg b) b) Eq) with (sh (24 - dg b) b ?= sh (24 - dg b) b)%positive. rewrite Pos.compare_refl.
      destruct t; reflexivity.
    + unfold f_eqb, SFeqb, SFcompare, fin. destruct s, t; try reflexivity.
      * destruct (Z.compare_spec (-2 - Z.of_nat (24 - dg a)) (-2 - Z.of_nat (24 - dg b))) as [E| |]; try reflexivity.
        change (Pcompare (sh (24 - dg a) a) (sh (24 - dg b) b) Eq) with (sh (24 - dg a) a ?= sh (24 - dg b) b)%positive.
        destruct (Pos.compare_spec (sh (24 - dg a) a) (sh (24 - dg b) b)) as [F| |]; try reflexivity. exfalso. apply N.
        cbn [sgn]. f_equal. assert (K : (24 - dg a = 24 - dg b)%nat) by lia. rewrite K in F. apply (f_equal Zpos) in F. rewrite !sh_val in F.
        pose proof (Z.pow_pos_nonneg 2 (Z.of_nat (24 - dg b)) ltac:(lia) ltac:(lia)). nia.
      * destruct (Z.compare_spec (-2 - Z.of_nat (24 - dg a)) (-2 - Z.of_nat (24 - dg b))) as [E| |]; try reflexivity.
        change (Pcompare (sh (24 - dg a) a) (sh (24 - dg b) b) Eq) with (sh (24 - dg a) a ?= sh (24 - dg b) b)%positive.
        destruct (Pos.compare_spec (sh (24 - dg a) a) (sh (24 - dg b) b)) as [F| |]; try reflexivity. exfalso. apply N.
        cbn [sgn]. f_equal. assert (K : (24 - dg a = 24 - dg b)%nat) by lia. rewrite K in F. apply (f_equal Zpos) in F. rewrite !sh_val in F.
        pose proof (Z.pow_pos_nonneg 2 (Z.of_nat (24 - dg b)) ltac:(lia) ltac:(lia)). nia.
Qed.
Lemma quarter_eqb u v : Qc_eq_bool (quarter u) (quarter v) = (u =? v).
Proof.
  destruct (Z.eqb_spec u v) as [->|N].
  - unfold Qc_eq_bool. destruct (Qc_eq_dec (quarter v) (quarter v)); congruence.
  - unfold Qc_eq_bool. destruct (Qc_eq_dec (quarter u) (quarter v)) as [E|]; auto. apply quarter_inj in E. congruence.
Qed.
Lemma fq_eqb_rep p q u v : qrep p u -> qrep q v -> fq_eqb p q = quat_eqb (qz u) (qz v).
Proof.
  destruct u as [[[a b] c] d], v as [[[e f] g] h]. cbn [qrep]. intros (? & ? & ? & ?) (? & ? & ? & ?).
  unfold fq_eqb, quat_eqb, qz. cbn [q_s q_x q_y q_z]. rewrite !quarter_eqb.
  now rewrite (f_eqb_rep _ _ a e), (f_eqb_rep _ _ b f), (f_eqb_rep _ _ c g), (f_eqb_rep _ _ d h).
Qed.

Lemma all_m_ext {A} (f g : A -> option bool) l : (forall x, In x l -> f x = g x) -> all_m f l = all_m g l.
Proof.
  induction l as [|x l IH]; intros H; auto. cbn [all_m]. rewrite (H x) by now left. rewrite IH; auto. intros; apply H; now right.
Qed.
Lemma is_perfect_exact l sym : Forall in_alphabet l -> Z.of_nat (length l) < 2 ^ 22 ->
  F_is_perfect l = QS_is_perfect (mkQS (length l) (map quat_value l) sym).
Proof.
  intros Hl Hn. unfold F_is_perfect, QS_is_perfect. cbn [qs_size]. destruct (length l =? 1)%nat; auto.
  apply all_m_ext. intros t _. destruct (autocorrelation_exact l sym t Hl Hn) as (r & w & -> & R & _ & ->). cbn [bind].
  rewrite <- qz_0. now rewrite (fq_eqb_rep r FQ0 w z0 R qrep_0).
Qed.
Lemma is_odd_perfect_exact l sym : Forall in_alphabet l -> Z.of_nat (length l) < 2 ^ 22 ->
  F_is_odd_perfect l = QS_is_odd_perfect (mkQS (length l) (map quat_value l) sym).
Proof.
  intros Hl Hn. unfold F_is_odd_perfect, QS_is_odd_perfect. cbn [qs_size]. destruct (length l =? 1)%nat; auto.
  apply all_m_ext. intros t _. destruct (odd_autocorrelation_exact l sym t Hl Hn) as (r & w & -> & R & _ & ->). cbn [bind].
  rewrite <- qz_0. now rewrite (fq_eqb_rep r FQ0 w z0 R qrep_0).
Qed.

(* ---- QHM::verify ---- *)

Definition tol_m : positive := 11863283.
Lemma f_tolerance_value : f_tolerance = S754_finite false tol_m (-35).
Proof. vm_compute. reflexivity. Qed.
Lemma tolerance_rep x z : rep x z -> f_ltb (f_abs x) f_tolerance = (z =? 0).
Proof.
  intros H. rewrite f_tolerance_value. apply rep_cases in H as [[-> [s ->]]|(s & a & Ha & -> & ->)]; [reflexivity|].
  replace (sgn s a =? 0) with false by now destruct s. unfold f_ltb, SFltb, f_abs, SFabs, fin, SFcompare.
  pose proof (dg_pos a). destruct (Z.compare_spec (-2 - Z.of_nat (24 - dg a)) (-35)) as [E|E|E]; try lia; try reflexivity.
Qed.
Lemma tolerance_quarter z : qc_ltb (qc_abs (quarter z)) f32_tolerance = (z =? 0).
Proof.
  assert (G : forall v, 0 < v -> (f32_tolerance < quarter v)%Qc).
  { intros v Hv. unfold Qclt, f32_tolerance, quarter. cbn [this Q2Qc]. rewrite !Qred_correct. unfold Qlt. cbn [Qnum Qden]. lia. }
  unfold qc_abs, qc_ltb. destruct (Z.eqb_spec z 0) as [->|N].
  - destruct (Qclt_le_dec (quarter 0) 0) as [H|H].
    + exfalso. revert H. vm_compute. discriminate.
    + destruct (Qclt_le_dec (quarter 0) f32_tolerance) as [K|K]; [reflexivity|]. exfalso. revert K. vm_compute. intros K; now apply K.
  - assert (S : (quarter z < 0)%Qc <-> z < 0).
    { unfold Qclt, quarter. cbn [this Q2Qc]. rewrite Qred_correct. unfold Qlt. cbn. lia. }
    destruct (Qclt_le_dec (quarter z) 0) as [H|H].
    + rewrite <- quarter_opp. apply S in H. destruct (Qclt_le_dec (quarter (- z)) f32_tolerance) as [K|K]; auto. exfalso.
      apply (Qcle_not_lt f32_tolerance (quarter (- z))); auto. apply Qclt_le_weak, G. lia.
    + destruct (Qclt_le_dec (quarter z) f32_tolerance) as [K|K]; auto. exfalso.
      apply (Qcle_not_lt f32_tolerance (quarter z)); auto. apply Qclt_le_weak, G. assert (~ z < 0) by (rewrite <- S; now apply Qcle_not_lt). lia.
Qed.

Lemma verify_exact n m : Forall (Forall in_alphabet) m -> length m = n -> Forall (fun r => length r = n) m -> Z.of_nat n < 2 ^ 21 ->
  F_verify n m = QHM_verify (mkQHM n (map (map quat_value) m)).
Proof.
  intros Ha Hm Hr Hn. rewrite Forall_forall in Ha, Hr. unfold F_verify, QHM_verify. cbn [qhm_size].
  apply all_m_ext. intros r1 H1. apply in_range in H1. apply all_m_ext. intros r2 H2. apply in_range in H2.
  unfold QHM_row. cbn [qhm_matrix]. rewrite !vget_map.
  destruct (vget_in m r1) as (v1 & -> & I1); [lia|]. destruct (vget_in m r2) as (v2 & -> & I2); [lia|]. cbn [option_map bind].
  unfold F_inner, qhm_inner, for_m.
  pose proof (Hr v1 I1) as L1. pose proof (Hr v2 I2) as L2. pose proof (Ha v1 I1) as A1. pose proof (Ha v2 I2) as A2. rewrite Forall_forall in A1, A2.
  match goal with |- context [fold_m ?f (range 0 n) FQ0] => match goal with |- context [fold_m ?g (range 0 n) Q0] =>
    destruct (sum_exact f g n) as (r & w & -> & R & B & ->) end end.
  - lia.
  - intros i Hi. destruct (vget_in v1 i) as (x & Ex & Ix); [lia|]. destruct (vget_in v2 i) as (y & Ey & Iy); [lia|].
    destruct (term_exact x y (A1 x Ix) (A2 y Iy)) as (w & P & Q & C). exists (fq_mul x (fq_conj y)), w. split; auto. split; auto.
    split; intros acc.
    + rewrite Ex, Ey. reflexivity.
    + rewrite !vget_map, Ex, Ey. cbn [option_map bind]. now rewrite C.
  - cbn [bind]. f_equal. destruct w as [[[a b] c] d]. cbn [qrep below] in R, B. destruct R as (Ra & Rb & Rc & Rd), B as (Ba & Bb & Bc & Bd).
    cbn [qz q_s q_x q_y q_z]. rewrite (tolerance_rep _ b Rb), (tolerance_rep _ c Rc), (tolerance_rep _ d Rd), !tolerance_quarter.
    f_equal. destruct (r1 =? r2)%nat.
    + assert (Rn : rep (f_of_Z (Z.of_nat n)) (4 * Z.of_nat n)) by (apply rep_int; lia).
      rewrite (tolerance_rep _ (a - 4 * Z.of_nat n)) by (apply rep_sub; auto; lia).
      replace (qc_of_nat n) with (quarter (4 * Z.of_nat n)). { now rewrite <- quarter_sub, tolerance_quarter. }
      unfold quarter, qc_of_nat. apply qc_eq. unfold Qeq, inject_Z. cbn [Qnum Qden]. lia.
    + now apply tolerance_rep.
Qed.

(* ---- the alphabet table ---- *)

Lemma FQ24_finite q : In q FQ24 -> finite_quat q.
Proof.
  assert (H : forallb (fun q => forallb (fun x => valid_binary 24 128 x && match x with S754_zero _ | S754_finite _ _ _ => true | _ => false end)
    [f_s q; f_x q; f_y q; f_z q]) FQ24 = true) by (vm_compute; reflexivity).
  rewrite forallb_forall in H. intros I. specialize (H q I). cbn [forallb] in H. rewrite !andb_true_iff in H.
  destruct H as ((A1 & A2) & (B1 & B2) & (C1 & C2) & (D1 & D2) & _).
  repeat split; auto; match goal with |- match ?x with _ => _ end => destruct x; auto; discriminate end.
Qed.
Lemma FQ24_values : map quat_value FQ24 = Q24.
Proof.
  assert (H : forallb (fun p => quat_eqb (fst p) (snd p)) (combine (map quat_value FQ24) Q24) = true) by (vm_compute; reflexivity).
  assert (L : length (map quat_value FQ24) = length Q24) by reflexivity.
  revert H L. generalize (map quat_value FQ24) Q24. induction l as [|a l IH]; intros [|b l0]; cbn [length combine forallb]; intros H L; try discriminate; auto.
  apply andb_true_iff in H as [H1 H2]. apply quat_eqb_eq in H1. cbn in H1. subst. f_equal. apply IH; auto.
Qed.
Lemma FQ24_alphabet q : In q FQ24 -> in_alphabet q.
Proof. intros I. split; [now apply FQ24_finite|]. rewrite <- FQ24_values. now apply in_map. Qed.

Lemma autocorrelation_value l sym t : Forall in_alphabet l -> Z.of_nat (length l) < 2 ^ 22 ->
  exists r, F_periodic_autocorrelation l t = Some r /\ finite_quat r /\
    QS_periodic_autocorrelation (mkQS (length l) (map quat_value l) sym) t = Some (quat_value r).
Proof.
  intros H1 H2. destruct (autocorrelation_exact l sym t H1 H2) as (r & w & A & B & _ & C). exists r.
  destruct (qrep_value r w B) as [-> F]. auto.
Qed.
Lemma odd_autocorrelation_value l sym t : Forall in_alphabet l -> Z.of_nat (length l) < 2 ^ 22 ->
  exists r, F_odd_periodic_autocorrelation l t = Some r /\ finite_quat r /\
    QS_odd_periodic_autocorrelation (mkQS (length l) (map quat_value l) sym) t = Some (quat_value r).
Proof.
  intros H1 H2. destruct (odd_autocorrelation_exact l sym t H1 H2) as (r & w & A & B & _ & C). exists r.
  destruct (qrep_value r w B) as [-> F]. auto.
Qed.
