(* The whole system of equations. *)
From Coq Require Import Ascii String List ZArith Arith Bool Lia.
From Verif Require Import Base BaseFacts Sums ModelSequence ModelWilliamson ModelEquivalence ModelRowsum ModelWrite TextFacts
  ModelEquations SeqFacts GroupRing SpecRowsum Spec SpecEquations EquationText EquationFacts QuadraticFacts.
Import ListNotations.
Notation length := List.length.
Open Scope nat_scope.

Lemma comment_opb t1 t2 : opb (additional_comment t1 t2) [].
Proof.
  intros rest. unfold read_opb. set (L := lit "* x1 ... xn is " ++ tag_to_string t1 ++ lit ", xn+1 ... x2n is " ++ tag_to_string t2).
  replace (additional_comment t1 t2 ++ rest) with ([] ++ line_break :: (L ++ line_break :: rest)).
  2: { unfold additional_comment, L. rewrite <- !app_assoc. reflexivity. }
  rewrite !pieces_sep; [|unfold L; destruct t1, t2; repeat constructor; discriminate|constructor].
  cbn [filter skipped negb]. unfold L. cbn [lit app list_ascii_of_string skipped negb filter].
  change (Ascii.eqb "*"%char "*"%char) with true. cbn [negb].
  destruct (traverse _ _); reflexivity.
Qed.

Definition br (o : OpType) (s y : list Z) (t : Z) : Z :=
  match o with LeftMinus => bracket y s t | _ => bracket s y t end.
Lemma bracket_mod x y t : length x = length y -> bracket x y (t mod Z.of_nat (length x)) = bracket x y t.
Proof.
  intros H. unfold bracket. rewrite ccf_mod by exact H. rewrite H at 1. rewrite ccf_mod by auto. reflexivity.
Qed.
Lemma br_mod o s y n t : length s = n -> length y = n -> br o s y (t mod Z.of_nat n) = br o s y t.
Proof.
  intros H1 H2.
  assert (E1 : bracket s y (t mod Z.of_nat n) = bracket s y t) by (rewrite <- H1; apply bracket_mod; congruence).
  assert (E2 : bracket y s (t mod Z.of_nat n) = bracket y s t) by (rewrite <- H2; apply bracket_mod; congruence).
  unfold br. destruct o; auto.
Qed.

Lemma Forall_concat_map {A B} (P : B -> Prop) (f : A -> list B) l :
  Forall P (concat (map f l)) <-> forall x, In x l -> Forall P (f x).
Proof.
  induction l as [|a l IH]; cbn [map concat].
  - split; [intros _ x []|constructor].
  - rewrite Forall_app, IH. split.
    + intros [H1 H2] x [->|Hx]; auto.
    + intros H. split; [apply H; now left|intros x Hx; apply H; now right].
Qed.

Lemma cross_family o1 o2 s1 s2 n v y z : length s1 = n -> length s2 = n -> length y = n -> length z = n ->
  1 <= n -> pm1 s1 -> pm1 s2 -> o1 = LeftMinus \/ o1 = RightMinus -> o2 = LeftMinus \/ o2 = RightMinus ->
  encodes n y z v ->
  (Forall (holds v) (concat (map (cross_equations o1 o2 s1 s2 n) (seq 0 n))) <->
   forall t, (br o1 s1 y t + br o2 s2 z t = 0)%Z).
Proof.
  intros L1 L2 Ly Lz Hn P1 P2 H1 H2 Hv. rewrite Forall_concat_map. split.
  - intros H t. rewrite <- (br_mod o1 s1 y n t), <- (br_mod o2 s2 z n t) by auto.
    assert (Hr : (0 <= t mod Z.of_nat n < Z.of_nat n)%Z) by (apply Z.mod_pos_bound; lia).
    specialize (H (Z.to_nat (t mod Z.of_nat n))). rewrite (cross_meaning o1 o2 s1 s2 n _ v y z) in H by (auto; lia).
    rewrite !op_sum in H by auto. rewrite Z2Nat.id in H by lia. apply H. apply in_seq. lia.
  - intros H t Ht. apply in_seq in Ht. rewrite (cross_meaning o1 o2 s1 s2 n _ v y z) by (auto; lia).
    rewrite !op_sum by auto. apply H.
Qed.

(* one arm *)

Lemma arm_read n u1 u2 sa oa sb ob sc oc sd od s1 s2 p1 p2 r1 r2 :
  1 <= n -> length sa = n -> length sb = n -> length sc = n -> length sd = n -> length s1 = n -> length s2 = n ->
  pm1 sa -> pm1 sb -> pm1 sc -> pm1 sd -> pm1 s1 -> pm1 s2 ->
  p1 = LeftMinus \/ p1 = RightMinus ->
  exists txt auto, arm n u1 u2 (equations_crosscorrelation sa oa sb ob Plus) (equations_crosscorrelation sc oc sd od Plus)
      (equations_nonlinear_crosscorrelation s1 s2 p1 p2 Plus) r1 r2 = Some txt /\
    equations_autocorrelation s1 s2 = Some auto /\
    read_opb (txt ++ auto) = Some (
      (concat (map (cross_equations oa ob sa sb n) (seq 0 n)) ++ concat (map (cross_equations oc od sc sd n) (seq 0 n))) ++
      map (fun o => mkEquation (cross_terms p2 n o) 0) (seq 1 (n - 1)) ++
      [mkEquation (linear_terms 1 (repeat 2%Z n ++ repeat 0%Z n)) (r1 + Z.of_nat n);
       mkEquation (linear_terms 1 (repeat 0%Z n ++ repeat 2%Z n)) (r2 + Z.of_nat n)] ++
      map (fun o => mkEquation (auto_terms n o) (- (paf s1 (Z.of_nat o) + paf s2 (Z.of_nat o)) - 2 * Z.of_nat n)) (seq 1 (n - 1))).
Proof.
  intros Hn La Lb Lc Ld L1 L2 Pa Pb Pc Pd P1 P2 Hp. unfold arm.
  destruct (cross_opb oa ob sa sb n) as (x1 & -> & O1); auto.
  destruct (cross_opb oc od sc sd n) as (x2 & -> & O2); auto.
  destruct (nonlinear_crosscorrelation_opb s1 s2 p1 p2 n) as (x3 & -> & O3); auto.
  destruct (rowsum_opb n r1 r2) as (x4 & -> & O4); auto.
  destruct (autocorrelation_opb s1 s2 n) as (x5 & -> & O5); auto.
  cbn [bind]. do 2 eexists. split; [reflexivity|]. split; [reflexivity|].
  apply opb_all. rewrite <- !app_assoc.
  apply (opb_app _ []); [apply comment_opb|]. repeat (apply opb_app; auto).
Qed.

Lemma R_meaning n v y z r1 r2 : length y = n -> length z = n -> encodes n y z v ->
  (Forall (holds v) [mkEquation (linear_terms 1 (repeat 2%Z n ++ repeat 0%Z n)) (r1 + Z.of_nat n);
       mkEquation (linear_terms 1 (repeat 0%Z n ++ repeat 2%Z n)) (r2 + Z.of_nat n)] <-> total y = r1 /\ total z = r2).
Proof.
  intros Ly Lz Hv. destruct (rowsum_meaning n v y z r1 r2) as [H1 H2]; auto. rewrite !Forall_cons_iff, H1, H2.
  intuition.
Qed.

Definition system (n : nat) (s1 s2 : list Z) (t1 t2 u1 u2 : Tag) (rs : Quad) (C N R A : list equation) : Prop :=
  (forall q v, pm_quad n q -> sequence q t1 = s1 -> sequence q t2 = s2 ->
     encodes n (sequence q u1) (sequence q u2) v ->
     (Forall (holds v) C <-> forall t, mixed_identities t1 t2 q t) /\
     (Forall (holds v) R <-> total (sequence q u1) = of_tag rs u1 /\ total (sequence q u2) = of_tag rs u2)) /\
  (exists p, (p = LeftMinus \/ p = RightMinus) /\ N = map (fun o => mkEquation (cross_terms p n o) 0) (seq 1 (n - 1))) /\
  A = map (fun o => mkEquation (auto_terms n o) (- (paf s1 (Z.of_nat o) + paf s2 (Z.of_nat o)) - 2 * Z.of_nat n)) (seq 1 (n - 1)) /\
  length R = 2.

Lemma system_read n s1 s2 t1 t2 u1 u2 rs : 1 <= n -> length s1 = n -> length s2 = n -> pm1 s1 -> pm1 s2 ->
  missing t1 t2 = Some (u1, u2) ->
  exists txt C N R A, generate_equations s1 t1 s2 t2 QuaternionType rs = Some txt /\
    read_opb txt = Some (C ++ N ++ R ++ A) /\ system n s1 s2 t1 t2 u1 u2 rs C N R A.
Proof.
  intros Hn L1 L2 P1 P2 Hm. destruct rs as [[[ra rb] rc] rd].
  cbn [generate_equations equations_williamson_type]. rewrite L1.
  destruct t1, t2; try discriminate Hm; injection Hm as <- <-; cbv beta iota;
  match goal with |- context [arm n ?u1 ?u2 (equations_crosscorrelation ?sa ?oa ?sb ?ob Plus) (equations_crosscorrelation ?sc ?oc ?sd ?od Plus)
      (equations_nonlinear_crosscorrelation ?s1 ?s2 ?p1 ?p2 Plus) ?r1 ?r2] =>
    destruct (arm_read n u1 u2 sa oa sb ob sc oc sd od s1 s2 p1 p2 r1 r2) as (txt & auto & -> & -> & Hr); auto
  end; cbn [bind];
  (do 5 eexists; split; [reflexivity|]; split; [exact Hr|]; split; [|split; [eexists; split; [|reflexivity]; auto|split; reflexivity]]);
  intros q v ((Hz & Ha & Hb & Hc & Hd) & Qa & Qb & Qc & Qd) Hs1 Hs2 Hv; cbn [sequence of_tag] in *; subst s1 s2;
  (split; [|now apply R_meaning]); rewrite Forall_app;
  match type of Hv with encodes _ ?y ?z _ => rewrite !(cross_family _ _ _ _ n v y z) by auto end;
  cbn [br mixed_identities]; unfold identity_WX, identity_WY, identity_WZ, bracket;
  (split; [intros [H1 H2] t; specialize (H1 t); specialize (H2 t)|intros H; split; intros t; destruct (H t)]; lia).
Qed.

Lemma map_seq_nth {A} (f : nat -> A) n o : 1 <= o < n -> nth_error (map f (seq 1 (n - 1))) (o - 1) = Some (f o).
Proof.
  intros H. rewrite nth_error_map. replace (nth_error (seq 1 (n - 1)) (o - 1)) with (Some o); [reflexivity|].
  symmetry. rewrite nth_error_nth' with (d := 0) by (rewrite seq_length; lia). rewrite seq_nth by lia. f_equal. lia.
Qed.


Lemma system_linear : forall n s1 s2 t1 t2 u1 u2 rs, 1 <= n -> length s1 = n -> length s2 = n -> pm1 s1 -> pm1 s2 ->
  missing t1 t2 = Some (u1, u2) ->
  exists txt C N R A, generate_equations s1 t1 s2 t2 QuaternionType rs = Some txt /\
    read_opb txt = Some (C ++ N ++ R ++ A) /\ length N = n - 1 /\ length R = 2 /\ length A = n - 1 /\
    forall q v, pm_quad n q -> sequence q t1 = s1 -> sequence q t2 = s2 ->
      encodes n (sequence q u1) (sequence q u2) v ->
      (Forall (holds v) C <-> forall t, mixed_identities t1 t2 q t) /\
      (Forall (holds v) R <-> total (sequence q u1) = of_tag rs u1 /\ total (sequence q u2) = of_tag rs u2).
Proof.
  intros n s1 s2 t1 t2 u1 u2 rs Hn L1 L2 P1 P2 Hm.
  destruct (system_read n s1 s2 t1 t2 u1 u2 rs Hn L1 L2 P1 P2 Hm) as (txt & C & N & R & A & E & H & S & (p & _ & HN) & HA & HR).
  exists txt, C, N, R, A. rewrite HN, HA in *. rewrite !map_length, !seq_length. auto 10.
Qed.

Lemma system_quadratic : forall n s1 s2 t1 t2 u1 u2 rs, 2 <= n -> length s1 = n -> length s2 = n -> pm1 s1 -> pm1 s2 ->
  missing t1 t2 = Some (u1, u2) ->
  exists txt C N R A, generate_equations s1 t1 s2 t2 QuaternionType rs = Some txt /\
    read_opb txt = Some (C ++ N ++ R ++ A) /\ length N = n - 1 /\ length R = 2 /\ length A = n - 1 /\
    (forall e, In e (N ++ A) -> mentions e 0) /\ (forall e, In e N -> eq_rhs e = 0%Z) /\
    (forall o, 1 <= o < n -> exists e, nth_error A (o - 1) = Some e /\
       forall v, holds v e <->
         sumZ n (fun i => let j := ((S i + o) mod n)%nat in
           (sign_of v (S i) * sign_of v j + sign_of v (S i + n)%nat * sign_of v (j + n)%nat)%Z)
         = (- (paf s1 (Z.of_nat o) + paf s2 (Z.of_nat o)))%Z) /\
    (forall o, 1 <= o < n -> exists e, nth_error N (o - 1) = Some e /\
       forall v, holds v e <->
         sumZ n (fun i => let j := ((S i + o) mod n)%nat in
           (sign_of v (S i) * sign_of v (j + n)%nat - sign_of v (S i + n)%nat * sign_of v j)%Z) = 0%Z).
Proof.
  intros n s1 s2 t1 t2 u1 u2 rs Hn L1 L2 P1 P2 Hm.
  destruct (system_read n s1 s2 t1 t2 u1 u2 rs) as (txt & C & N & R & A & E & H & S & (p & Hp & HN) & HA & HR); auto; [lia|].
  exists txt, C, N, R, A. subst N A. rewrite !map_length, !seq_length.
  split; [exact E|]. split; [exact H|]. split; [reflexivity|]. split; [exact HR|]. split; [reflexivity|].
  split; [|split; [|split]].
  - intros e He. apply in_app_iff in He as [He|He]; apply in_map_iff in He as (o & <- & Ho); apply in_seq in Ho;
    [apply cross_mentions|apply auto_mentions]; lia.
  - intros e He. apply in_map_iff in He as (o & <- & _). reflexivity.
  - intros o Ho. eexists. split; [now apply map_seq_nth|]. intros v. unfold holds. cbn [eq_terms eq_rhs].
    change (fold_right Z.add 0%Z (map (term_value v) (auto_terms n o))) with (value v (auto_terms n o)).
    rewrite auto_value.
    match goal with |- (?f - _ = _)%Z <-> ?g = _ => change g with f; generalize f end. intros z0. lia.
  - intros o Ho. eexists. split; [now apply map_seq_nth|]. intros v. unfold holds. cbn [eq_terms eq_rhs].
    change (fold_right Z.add 0%Z (map (term_value v) (cross_terms p n o))) with (value v (cross_terms p n o)).
    rewrite cross_value by exact Hp. destruct Hp as [-> | ->]; [reflexivity|].
    match goal with |- (sumZ n ?f = 0 <-> sumZ n ?g = 0)%Z => assert (sumZ n f = - sumZ n g)%Z end; [|lia].
    rewrite <- sumZ_opp. apply sumZ_ext. intros i _. cbn zeta. ring.
Qed.

(* ---- encodings ---- *)
Lemma encode_exists : forall n y z x0, length y = n -> length z = n -> pm1 y -> pm1 z -> (x0 = 0 \/ x0 = 1)%Z ->
  exists v, boolean v /\ v 0 = x0 /\ encodes n y z v.
Proof.
  intros n y z x0 Ly Lz Py Pz Hx.
  exists (fun i => if i =? 0 then x0 else if i <=? n then if (nth (i - 1) y 0 =? 1)%Z then 1%Z else 0%Z
                  else if (nth (i - 1 - n) z 0 =? 1)%Z then 1%Z else 0%Z).
  split; [|split].
  - intros i. destruct (i =? 0); [exact Hx|]. destruct (i <=? n); destruct (_ =? 1)%Z; auto.
  - reflexivity.
  - intros i Hi.
    assert (Hy : nth i y 0%Z = 1%Z \/ nth i y 0%Z = (-1)%Z) by (apply (proj1 (Forall_forall _ _) Py); apply nth_In; lia).
    assert (Hz : nth i z 0%Z = 1%Z \/ nth i z 0%Z = (-1)%Z) by (apply (proj1 (Forall_forall _ _) Pz); apply nth_In; lia).
    split.
    + replace (1 + i =? 0) with false by (symmetry; apply Nat.eqb_neq; lia).
      replace (1 + i <=? n) with true by (symmetry; apply Nat.leb_le; lia).
      replace (1 + i - 1) with i by lia. destruct Hy as [-> | ->]; reflexivity.
    + replace (1 + n + i =? 0) with false by (symmetry; apply Nat.eqb_neq; lia).
      replace (1 + n + i <=? n) with false by (symmetry; apply Nat.leb_gt; lia).
      replace (1 + n + i - 1 - n) with i by lia. destruct Hz as [-> | ->]; reflexivity.
Qed.
Lemma decode_exists : forall n v, boolean v ->
  exists y z, length y = n /\ length z = n /\ pm1 y /\ pm1 z /\ encodes n y z v.
Proof.
  intros n v Hv.
  exists (map (fun i => sign_of v (1 + i)) (seq 0 n)), (map (fun i => sign_of v (1 + n + i)) (seq 0 n)).
  rewrite !map_length, !seq_length. split; [reflexivity|]. split; [reflexivity|].
  split; [|split].
  - apply Forall_map, Forall_forall. intros i _. unfold sign_of. destruct (Hv (1 + i)) as [-> | ->]; auto.
  - apply Forall_map, Forall_forall. intros i _. unfold sign_of. destruct (Hv (1 + n + i)) as [-> | ->]; auto.
  - intros i Hi. rewrite !nth_map_seq0 by exact Hi. split; reflexivity.
Qed.

(* ---- identities ---- *)
Lemma bracket_zero x y : amicable x y -> forall t, bracket x y t = 0%Z.
Proof. intros H t. unfold bracket. rewrite H. lia. Qed.
Lemma right_identities : forall n q, pm_quad n q -> 1 <= n -> complementary q ->
  (quaternion_identities q <-> forall t, identity_WX q t /\ identity_WY q t /\ identity_WZ q t).
Proof.
  intros n q Hq Hn Hc. split.
  - intros H t. destruct (QT_WT n Hn q Hq (conj Hc H)) as (_ & Hab & Hac & Had & Hbc & Hbd & Hcd).
    unfold identity_WX, identity_WY, identity_WZ.
    assert (S : forall x y, amicable x y -> amicable y x) by (intros x y G s; now rewrite G).
    rewrite !bracket_zero by auto. auto.
  - intros H. destruct q as [m a b c d]. set (q' := mkQuad m a b d c).
    assert (Hq' : pm_quad n q').
    { destruct Hq as ((H0 & H1 & H2 & H3 & H4) & H5 & H6 & H7 & H8). cbn in *. repeat (split; auto). }
    assert (Hc' : complementary q').
    { intros t Ht. specialize (Hc t Ht). cbn in *. lia. }
    assert (HI : quaternion_identities q').
    { intros t. destruct (H t) as (H1 & H2 & H3). unfold identity_WX, identity_WY, identity_WZ, bracket in *. cbn in *. lia. }
    destruct (QT_WT n Hn q' Hq' (conj Hc' HI)) as (_ & Hab & Had & Hac & Hbd & Hbc & Hdc). cbn in *.
    assert (S : forall x y, amicable x y -> amicable y x) by (intros x y G s; now rewrite G).
    intros t. cbn [q_a q_b q_c q_d]. rewrite (Hab t), (Hac t), (Had t), (Hbc t), (Hbd t), (Hdc t). lia.
Qed.
Lemma right_mixed t1 t2 u1 u2 q : missing t1 t2 = Some (u1, u2) ->
  (forall t, identity_WX q t /\ identity_WY q t /\ identity_WZ q t) -> forall t, mixed_identities t1 t2 q t.
Proof. intros Hm H t. destruct (H t) as (H1 & H2 & H3). destruct t1, t2; try discriminate Hm; cbn; auto. Qed.

Lemma solutions_linear : forall n q t1 t2 u1 u2 rs v, 1 <= n -> pm_quad n q -> is_QT q -> missing t1 t2 = Some (u1, u2) ->
  total (sequence q u1) = of_tag rs u1 -> total (sequence q u2) = of_tag rs u2 ->
  encodes n (sequence q u1) (sequence q u2) v ->
  exists txt C N R A, generate_equations (sequence q t1) t1 (sequence q t2) t2 QuaternionType rs = Some txt /\
    read_opb txt = Some (C ++ N ++ R ++ A) /\ length N = n - 1 /\ length R = 2 /\ length A = n - 1 /\
    Forall (holds v) C /\ Forall (holds v) R.
Proof.
  intros n q t1 t2 u1 u2 rs v Hn Hq [Hc Hi] Hm R1 R2 Hv.
  assert (G : forall t, length (sequence q t) = n /\ pm1 (sequence q t)).
  { destruct Hq as ((H0 & H1 & H2 & H3 & H4) & H5 & H6 & H7 & H8). intros []; cbn; auto. }
  destruct (system_linear n (sequence q t1) (sequence q t2) t1 t2 u1 u2 rs) as (txt & C & N & R & A & E & H & LN & LR & LA & M);
    try apply G; auto.
  destruct (M q v) as [M1 M2]; auto.
  exists txt, C, N, R, A. repeat (split; [assumption|]). split; [|now apply M2].
  apply M1. apply (right_mixed _ _ _ _ _ Hm). apply (right_identities n); auto.
Qed.

Lemma generate_panics : forall s1 t1 s2 t2 ty rs, ty <> QuaternionType \/ missing t1 t2 = None ->
  generate_equations s1 t1 s2 t2 ty rs = None.
Proof.
  intros s1 t1 s2 t2 ty [[[ra rb] rc] rd] [H|H].
  - destruct ty; try reflexivity. congruence.
  - destruct ty; try reflexivity. destruct t1, t2; try discriminate H; reflexivity.
Qed.

(* ---- a quadruple that is lost ---- *)
Definition lost : QuadSeq := mkQuad 3 [-1; 1; -1]%Z [-1; 1; -1]%Z [-1; -1; -1]%Z [1; -1; 1]%Z.
Lemma lost_QT : pm_quad 3 lost /\ is_QT lost.
Proof.
  assert (P : pm_quad 3 lost) by (repeat split; repeat constructor; auto).
  split; [exact P|]. destruct (verify_spec 3 lost QuaternionType P ltac:(lia)) as (b & E & H).
  vm_compute in E. injection E as <-. now apply H.
Qed.
Lemma lost_system : forall txt es v, generate_equations (q_a lost) TW (q_b lost) TX QuaternionType (-1, -1, -3, 1)%Z = Some txt ->
  read_opb txt = Some es -> boolean v -> encodes 3 (q_d lost) (q_c lost) v -> ~ Forall (holds v) es.
Proof.
  intros txt es v H1 H2 Hb Hv HF.
  assert (E : (let* txt := generate_equations (q_a lost) TW (q_b lost) TX QuaternionType (-1, -1, -3, 1)%Z in read_opb txt)
              = Some es) by (rewrite H1; exact H2).
  clear H1 H2.
  assert (I : exists e, nth_error es 9 = Some e /\ holds v e).
  { vm_compute in E. injection E as <-. eexists. split; [reflexivity|]. apply (proj1 (Forall_forall _ _) HF). do 9 right. left. reflexivity. }
  destruct I as (e & I & He). vm_compute in E. injection E as <-. cbn [nth_error] in I. injection I as <-. clear HF.
  unfold holds, term_value in He. cbn [eq_terms eq_rhs map fold_right fst snd] in He.
  destruct (Hv 0) as [A1 A4]; [lia|]. destruct (Hv 1) as [A2 A5]; [lia|]. destruct (Hv 2) as [A3 A6]; [lia|].
  cbn [Nat.add nth q_d q_c lost] in *.
  assert (B1 : v 1 = 1%Z) by lia. assert (B2 : v 2 = 0%Z) by lia. assert (B3 : v 3 = 1%Z) by lia.
  assert (B4 : v 4 = 0%Z) by lia. assert (B5 : v 5 = 0%Z) by lia. assert (B6 : v 6 = 0%Z) by lia.
  rewrite B1, B2, B3, B4, B5, B6 in He.
  destruct (Hb 0) as [B0|B0]; rewrite B0 in He; lia.
Qed.
