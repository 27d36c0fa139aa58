(* The exploratory searches. *)
From Coq Require Import List ZArith Lia Arith Bool Permutation Relations QArith Qcanon Ascii.
From Verif Require Import Base BaseFacts Sums Quat QuatFacts ModelSequence ModelWilliamson Convert QhmFacts ModelEquivalence SpecEquiv OpFacts EquivFacts EquivThms TypeFacts OrderFacts ModelFind SpecFind SearchFacts FindFacts FindThms FindQuadFacts
  CanonFacts ModelExplore ExploreFacts SpecExplore Spec.
Import ListNotations.
Notation length := List.length.
Open Scope nat_scope.

Lemma q24_count sc n l : schedule_ok sc -> 1 <= n -> NoDup l -> (forall v, In v l <-> length v = n /\ incl v Q24 /\ perfect v) ->
  exists r, optim_find_q24 sc n None = Some r /\ length l = 24 * fst r.
Proof.
  intros Hs Hn Nl Hl. destruct (optim24_none sc n Hs) as (r & E & (L & NL & HL & C & _)). exists r. split; auto. rewrite C.
  apply (units_count Q24 Q24 n l L); auto.
  - apply Q24_ok.
  - apply Q24_ok.
  - intros g Hg. split; [now apply Q24_conj|now apply Q24_norm].
  - intros g x. apply Q24_mul.
  - intros v. rewrite Hl. split; [intros (A & B & D)|tauto]. split; auto. split; auto. split; auto. apply B. destruct v; [cbn in A; lia|now left].
Qed.
Lemma qplus_count sc n l : schedule_ok sc -> 1 <= n -> NoDup l -> (forall v, In v l <-> length v = n /\ incl v QPLUS /\ In (hd Q1 v) Q8 /\ perfect v) ->
  exists r, optim_find sc n None = Some r /\ length l = 8 * fst r.
Proof.
  intros Hs Hn Nl Hl. destruct (optim_none sc n Hs) as (r & E & (L & NL & HL & C & _)). exists r. split; auto. rewrite C.
  apply (units_count Q8 QPLUS n l L); auto using Q8_nodup, Q8_unit, Q8_plus. now left.
Qed.
Lemma F2_in {A B} (P : A -> B -> Prop) l m x : Forall2 P l m -> In x l -> exists y, In y m /\ P x y.
Proof. induction 1 as [|a b l m H F IH]; intros []; [subst; exists b; split; auto; now left|]. destruct (IH H0) as (y & ? & ?). exists y. split; auto. now right. Qed.
Lemma first_letter_listed sc n v : schedule_ok sc -> 1 <= n -> length v = n -> incl v QPLUS -> perfect v ->
  exists r, optim_find sc n None = Some r /\ exists k g w line, k < n /\ In g Q24 /\ length w = n /\ (forall i, qentry w i = qmul g (qentry v (i + Z.of_nat k))) /\
    hd Q1 w = Q1 /\ prints w line /\ In line (snd r).
Proof.
  intros Hs Hn Lv I P. destruct (optim_none sc n Hs) as (r & E & (L & NL & HL & C & F)). exists r. split; auto.
  destruct (first_letter v) as (k & g & w & Hk & Hg & Lw & Hw & Iw & H1 & Pw); auto; [intros ->; cbn in Lv; lia|].
  destruct (F2_in prints L (snd r) w F) as (line & Il & Pl). { apply HL. rewrite Lw. auto. }
  exists k, g, w, line. rewrite Lv in *. auto 8.
Qed.
Lemma found_iff sc n : schedule_ok sc -> 1 <= n -> exists r, optim_find sc n None = Some r /\ (0 < fst r <-> exists q, pm_quad n q /\ is_QT q).
Proof.
  intros Hs Hn. destruct (optim_none sc n Hs) as (r & E & (L & NL & HL & C & F)). exists r. split; auto. rewrite C. split.
  - intros H. destruct L as [|v L]; [cbn in H; lia|]. destruct (proj1 (HL v) ltac:(now left)) as (Lv & Iv & _ & Pv).
    destruct (to_qs_from_pqs (mkQS n v None) Lv Iv) as (q & E1 & P & E2). cbn in P, E2. exists q. split; auto.
    destruct (QT_perfect n q P Hn) as (s & E3 & _ & H2). apply H2. rewrite E2 in E3. injection E3 as <-. exact Pv.
  - intros (q & P & T). destruct (QT_perfect n q P Hn) as (s & E3 & Ls & H2). apply H2 in T.
    set (v := map (fun i => quad_quat (quad_at q i)) (seq 0 n)).
    assert (Es : s = mkQS n v None) by (pose proof (to_qs_spec n q P); unfold v; congruence). subst s. cbn [qs_values] in T.
    assert (Lv : length v = n) by (unfold v; now rewrite map_length, seq_length).
    destruct (first_letter v) as (k & g & w & _ & _ & Lw & _ & Iw & H1 & Pw); auto; [intros E0; rewrite E0 in Lv; cbn in Lv; lia| |].
    + intros z Hz. unfold v in Hz. apply in_map_iff in Hz as (i & <- & Hi). apply in_seq in Hi. apply quad_quat_QPLUS. apply (quad_at_pm n); auto. lia.
    + assert (Il : In w L) by (apply HL; rewrite Lw; auto). destruct L; [destruct Il|cbn; lia].
Qed.

(* ---- symmetric searches ---- *)

Lemma optim_some sc s n : schedule_ok sc -> exists r, optim_find sc n (Some s) = Some r /\ lists_exactly (listed_sym s n QPLUS) r.
Proof.
  intros Hs. destruct (optim_find_spec (Some s) n QPLUS QPLUS_ok sc Hs) as (r & E & H). exists r. split; auto.
  revert H. apply lists_ext. intros v. apply listed_some.
Qed.
Lemma optim24_some sc s n : schedule_ok sc -> exists r, optim_find_q24 sc n (Some s) = Some r /\ lists_exactly (listed_sym s n Q24) r.
Proof.
  intros Hs. destruct (optim_find_spec (Some s) n Q24 Q24_ok sc Hs) as (r & E & H). exists r. split; auto.
  revert H. apply lists_ext. intros v. apply listed_some.
Qed.

Lemma lists_none (P : list quat -> Prop) r : (forall v, ~ P v) -> lists_exactly P r -> r = (0, []).
Proof.
  intros H (L & _ & HL & C & F). destruct L as [|v L]; [|exfalso; apply (H v); apply HL; now left]. inversion F as [E|]; subst. destruct r; cbn in *. now subst.
Qed.
Lemma sym_nothing sc s n : schedule_ok sc -> 1 <= n -> Nat.even n = true -> ~ possible s n ->
  naive_find n (Some s) = Some (0, []) /\ optim_find sc n (Some s) = Some (0, []) /\ optim_find_q24 sc n (Some s) = Some (0, []).
Proof.
  intros Hs Hn Ev Hp.
  assert (X : forall al r, incl al Q24 -> lists_exactly (listed_sym s n al) r -> r = (0, [])).
  { intros al r I. apply lists_none. intros v Hv. apply Hp. eapply sym_lengths; eauto. }
  destruct (naive_some s n) as (r & -> & H). split; [f_equal; apply (X QPLUS r); [intros x; apply plus_24|exact H]|].
  split.
  - destruct (optim_some sc s n Hs) as (r' & -> & H'). f_equal. apply (X QPLUS r'); [intros x; apply plus_24|exact H'].
  - destruct (optim24_some sc s n Hs) as (r' & -> & H'). f_equal. apply (X Q24 r'); [apply incl_refl|exact H'].
Qed.

(* ---- find_pqs ---- *)

Lemma pqs_of_type sc i sym : schedule_ok sc -> exists r, find_pqs_of_type sc i sym = Some r /\
  match r with
  | None => skipped sym i
  | Some r => ~ skipped sym i /\ match sym with
      | None => lists_exactly (fun v => length v = i /\ incl v QPLUS /\ hd Q1 v = Q1 /\ perfect v) r
      | Some s => lists_exactly (listed_sym s i QPLUS) r /\ (1 <= i -> (s <> SymI -> possible s i \/ r = (0, [])))
      end
  end.
Proof.
  intros Hs. unfold find_pqs_of_type.
  assert (Od : forall k, (k mod 2 =? 1) = Nat.odd k).
  { intros k. rewrite <- Nat.bit0_mod, Nat.bit0_odd. now destruct (Nat.odd k). }
  assert (Ss : forall s, exists r, optim_find sc i (Some s) = Some r /\ lists_exactly (listed_sym s i QPLUS) r).
  { intros s. now apply optim_some. }
  assert (G : forall s, s <> SymI -> exists r, (if i mod 2 =? 1 then Some None else let* r := optim_find sc i (Some s) in Some (Some r)) = Some r /\
    match r with None => Nat.odd i = true | Some r => ~ Nat.odd i = true /\ lists_exactly (listed_sym s i QPLUS) r /\ (1 <= i -> (s <> SymI -> possible s i \/ r = (0, []))) end).
  { intros s Hsym. rewrite Od. destruct (Nat.odd i) eqn:O; [exists None; auto|]. destruct (Ss s) as (r & E & H). exists (Some r). rewrite E. split; auto. split; [discriminate|]. split; auto.
    intros Hi _. assert (Ev : Nat.even i = true) by (rewrite <- Nat.negb_odd, O; reflexivity).
    assert (D : possible s i \/ ~ possible s i) by (destruct s; cbn [possible]; auto; lia).
    destruct D as [D|D]; auto. right. destruct (sym_nothing sc s i Hs Hi Ev D) as (_ & E' & _). congruence. }
  destruct sym as [[]|]; cbn [skipped].
  - destruct (Ss SymI) as (r & E & H). exists (Some r). rewrite E. split; auto. split; auto. split; auto. intros _ X. congruence.
  - apply (G SymII). discriminate.
  - apply (G SymIII). discriminate.
  - apply (G SymIV). discriminate.
  - destruct (optim_none sc i Hs) as (r & E & H). exists (Some r). rewrite E. auto.
Qed.
Lemma pqs_all sc sym : (forall i, schedule_ok (sc i)) -> exists rs, find_pqs sc sym = Some rs /\ length rs = 17 /\ forall i, 1 <= i <= 17 ->
  match nth (i - 1) rs None with
  | None => skipped sym i
  | Some r => ~ skipped sym i /\ match sym with
      | None => lists_exactly (fun v => length v = i /\ incl v QPLUS /\ hd Q1 v = Q1 /\ perfect v) r
      | Some s => lists_exactly (listed_sym s i QPLUS) r /\ (s <> SymI -> possible s i \/ r = (0, []))
      end
  end.
Proof.
  intros Hs. assert (G : forall l, exists rs, traverse (fun i => find_pqs_of_type (sc i) i sym) l = Some rs /\ Forall2 (fun i r => find_pqs_of_type (sc i) i sym = Some r) l rs).
  { induction l as [|i l (rs & E & F)]; [exists []; split; auto|]. destruct (pqs_of_type (sc i) i sym (Hs i)) as (r & Er & _).
    exists (r :: rs). cbn [traverse]. rewrite Er. cbn [bind]. rewrite E. split; auto. }
  destruct (G (seq 1 17)) as (rs & E & F). exists rs. split; [exact E|]. assert (Lr : 17 = length rs) by (rewrite <- (seq_length 17 1); clear - F; induction F; cbn; auto). split; auto.
  intros i Hi.
  assert (X : find_pqs_of_type (sc i) i sym = Some (nth (i - 1) rs None)).
  { clear - F Hi. assert (Y : forall l rs k, Forall2 (fun i r => find_pqs_of_type (sc i) i sym = Some r) l rs -> k < length l -> find_pqs_of_type (sc (nth k l 0)) (nth k l 0) sym = Some (nth k rs None)).
    { induction l as [|a l IH]; intros rs' k F' Hk; [cbn in Hk; lia|]. inversion F'; subst. destruct k as [|k]; [assumption|]. cbn [nth]. apply IH; auto. cbn in Hk. lia. }
    specialize (Y _ _ (i - 1) F). rewrite seq_length, seq_nth in Y by lia. replace (1 + (i - 1)) with i in Y by lia. apply Y. lia. }
  destruct (pqs_of_type (sc i) i sym (Hs i)) as (r & Er & H). rewrite X in Er. injection Er as Er. rewrite Er. destruct r as [r|]; auto.
  destruct H as (A & B). split; auto. destruct sym as [s|]; auto. destruct B as (B & C). split; auto. apply C. lia.
Qed.

(* ---- find_williamson and find_williamson_type ---- *)

Lemma williamson_all : exists ws wts, find_williamson = Some ws /\ find_williamson_type = Some wts /\ length ws = 14 /\ length wts = 14 /\
  forall n, 1 <= n <= 14 -> lists_quads (fun q => pm_quad n q /\ starts_minus q /\ is_W q) (nth (n - 1) ws (0, [])) /\
    lists_quads (fun q => pm_quad n q /\ starts_minus q /\ is_WT q) (nth (n - 1) wts (0, [])).
Proof.
  assert (G : forall (f : nat -> option (nat * Lines)) (P : nat -> nat * Lines -> Prop), (forall n, 1 <= n -> exists r, f n = Some r /\ P n r) ->
    forall m a, 1 <= a -> exists rs, traverse f (seq a m) = Some rs /\ length rs = m /\ forall n, a <= n < a + m -> P n (nth (n - a) rs (0, []))).
  { intros f P H. induction m as [|m IH]; intros a Ha; [exists []; repeat split; auto; intros; lia|].
    destruct (H a Ha) as (r & Er & Hr). destruct (IH (S a)) as (rs & E & L & K); [lia|]. exists (r :: rs). cbn [seq traverse]. rewrite Er. cbn [bind]. rewrite E.
    split; auto. split; [cbn; auto|]. intros n Hn. destruct (Nat.eq_dec n a) as [->|N]; [rewrite Nat.sub_diag; exact Hr|]. replace (n - a) with (S (n - S a)) by lia. apply K. lia. }
  destruct (G find_williamson_of_size _ find_W_spec 14 1) as (ws & E & L & K); [lia|]. destruct (G find_williamson_type_of_size _ find_WT_spec 14 1) as (wts & E' & L' & K'); [lia|].
  exists ws, wts. split; [exact E|]. split; [exact E'|]. split; auto. split; auto. intros n Hn. split; [apply K|apply K']; lia.
Qed.

(* ---- find_unique_williamson_type_of_size ---- *)

Lemma unique_wts_spec n ord : ord_ok ord -> 1 <= n <= 100 -> exists fuel0, forall fuel p, fuel0 <= fuel ->
  find_unique_williamson_type_of_size fuel ord p false n = None /\ exists reps ls,
    find_unique_williamson_type_of_size fuel ord p true n = Some (unlines ls) /\ Forall2 quad_text reps ls /\ NoDup reps /\
    forall m, In m reps <-> pm_quad n m /\ is_QT m /\ least (reach (type_ops QuaternionType) m) m.
Proof.
  intros Ho Hn. destruct (unique_find_spec n ord Ho Hn) as (f0 & H). exists f0. intros fuel p Hf. destruct (H fuel p Hf) as (reps & ls & E & R).
  unfold find_unique_williamson_type_of_size. rewrite E. cbn [bind guard]. split; auto. exists reps, ls. auto.
Qed.

Definition a4 : QuadSeq := mkQuad 4 [-1; -1; -1; 1]%Z [-1; -1; -1; 1]%Z [-1; -1; -1; 1]%Z [-1; -1; -1; 1]%Z.
Definition b4 : QuadSeq := mkQuad 4 [-1; -1; -1; 1]%Z [-1; -1; -1; 1]%Z [-1; -1; -1; 1]%Z [-1; 1; -1; -1]%Z.
Definition not_below (a : QuadSeq) : option bool :=
  option_map (forallb (fun y => match will_less_than y a with Some false => true | _ => false end)) (generate_equivalence_class 10 (fun _ l => l) [] a (equivalences QuaternionType)).
Lemma a4_least : not_below a4 = Some true.
Proof. vm_cast_no_check (eq_refl (Some true)). Qed.
Lemma b4_least : not_below b4 = Some true.
Proof. vm_cast_no_check (eq_refl (Some true)). Qed.
Lemma a4_pm : pm_quad 4 a4.
Proof. unfold pm_quad, wf, pm1, a4. cbn. repeat split; repeat (constructor; auto). Qed.
Lemma b4_pm : pm_quad 4 b4.
Proof. unfold pm_quad, wf, pm1, b4. cbn. repeat split; repeat (constructor; auto). Qed.
Lemma not_below_least a : pm_quad 4 a -> not_below a = Some true -> least (reach (type_ops QuaternionType) a) a.
Proof.
  intros P H. unfold not_below in H. rewrite equivalences_impl in H.
  destruct (generate_equivalence_class 10 (fun _ l => l) [] a (map impl (type_ops QuaternionType))) as [c|] eqn:E; [|discriminate].
  destruct (class_sound 4 (fun _ l => l) (type_ops QuaternionType) a 10 [] c) as (_ & Hc); auto; [intros ? ?; reflexivity|now apply pm_i8|lia|].
  split; [apply rt_refl|]. intros y Hy. pose proof (proj2 (Hc y) Hy) as Iy. injection H as H. rewrite forallb_forall in H. specialize (H y Iy).
  assert (Py : pm_quad 4 y) by (eapply CanonFacts.reach_pm; eauto).
  apply (quad_not_lt 4 y a); [apply Py|apply P|]. intros L. apply (less_than_lex 4) in L; [|apply Py|apply P]. rewrite L in H. discriminate.
Qed.
Lemma a4_b4 : reach (type_ops WilliamsonType) a4 b4.
Proof.
  apply rt_step. exists SingleHalfShift. split; [cbn; auto 10|]. right. exists [At TZ (Rot 2)]. split; [cbn; auto 10|reflexivity].
Qed.
Lemma unique_wts_refuted ord : ord_ok ord -> exists fuel0, forall fuel p, fuel0 <= fuel -> exists ls la lb a b,
  find_unique_williamson_type_of_size fuel ord p true 4 = Some (unlines ls) /\ In la ls /\ In lb ls /\ la <> lb /\
  quad_text a la /\ quad_text b lb /\ is_WT a /\ is_WT b /\ reach (type_ops WilliamsonType) a b.
Proof.
  intros Ho. destruct (unique_wts_spec 4 ord Ho ltac:(lia)) as (f0 & H). exists f0. intros fuel p Hf. destruct (H fuel p Hf) as (_ & reps & ls & E & F & N & R).
  assert (T : forall t q, pm_quad 4 q -> verify q t = Some true -> is_type t q) by (intros t q P; apply (verify_true 4); [exact P|lia]).
  assert (Ia : In a4 reps) by (apply R; split; [exact a4_pm|]; split; [exact (T QuaternionType a4 a4_pm eq_refl)|]; apply not_below_least; [exact a4_pm|exact a4_least]).
  assert (Ib : In b4 reps) by (apply R; split; [exact b4_pm|]; split; [exact (T QuaternionType b4 b4_pm eq_refl)|]; apply not_below_least; [exact b4_pm|exact b4_least]).
  destruct (F2_in quad_text reps ls a4 F Ia) as (la & Ila & Qa). destruct (F2_in quad_text reps ls b4 F Ib) as (lb & Ilb & Qb).
  exists ls, la, lb, a4, b4. split; auto. split; auto. split; auto. split.
  - intros El. destruct Qa as (va & Ea & Sa), Qb as (vb & Eb & Sb). rewrite El in Sa.
    assert (X : (let* v := to_qs a4 in QS_to_string_raw v) = (let* v := to_qs b4 in QS_to_string_raw v)) by (rewrite Ea, Eb; cbn [bind]; congruence).
    vm_compute in X. discriminate.
  - split; auto. split; auto. split; [exact (T WilliamsonType a4 a4_pm eq_refl)|]. split; [exact (T WilliamsonType b4 b4_pm eq_refl)|exact a4_b4].
Qed.
