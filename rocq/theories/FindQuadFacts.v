(* The searches over quadruples: find_unique.rs and find_williamson.rs. *)
From Coq Require Import List ZArith Lia Arith Bool Permutation QArith Qcanon Ascii Relations.
From Verif Require Import Base BaseFacts Sums Quat ModelSequence ModelWilliamson Spec SeqFacts
  QuatFacts Convert ModelEquivalence SpecEquiv OpFacts EquivFacts TypeFacts OrderFacts FastFacts EquivThms
  ModelFind SpecFind SearchFacts FindFacts FindUniqueFacts.
Import ListNotations.
Open Scope nat_scope.
Notation length := List.length.

Notation quad := (Z * Z * Z * Z)%type.
Definition f1 (v : quad) := let '(a, _, _, _) := v in a.
Definition f2 (v : quad) := let '(_, b, _, _) := v in b.
Definition f3 (v : quad) := let '(_, _, c, _) := v in c.
Definition f4 (v : quad) := let '(_, _, _, d) := v in d.
Definition zip (v : list quad) : QuadSeq := mkQuad (length v) (map f1 v) (map f2 v) (map f3 v) (map f4 v).
Definition unzip (q : QuadSeq) : list quad := map (quad_at q) (seq 0 (q_size q)).
Definition m4 : quad := ((-1), (-1), (-1), (-1))%Z.

Lemma map_upd {A B} (f : A -> B) v : forall i x, map f (upd v i x) = upd (map f v) i (f x).
Proof. induction v; intros [|i] x; cbn; auto. now rewrite IHv. Qed.

Lemma set_zip v x i : i < length v -> set_sequence_value (zip v) x i = Some (zip (upd v i x)).
Proof.
  intros Hi. destruct x as [[[a b] c] d]. unfold set_sequence_value, zip. cbn [q_a q_b q_c q_d q_size].
  rewrite !vset_upd by now rewrite map_length. cbn [bind]. now rewrite upd_length, !map_upd.
Qed.
Lemma map_repeat {A B} (f : A -> B) x n : map f (repeat x n) = repeat (f x) n.
Proof. induction n; cbn; now f_equal. Qed.
Lemma zip_new n : Quad_new n = zip (repeat m4 n).
Proof. unfold Quad_new, zip. now rewrite repeat_length, !map_repeat. Qed.
Lemma map_seq_nth {A} (l : list A) d : map (fun i => nth i l d) (seq 0 (length l)) = l.
Proof.
  apply (nth_ext _ _ d d); rewrite map_length, seq_length; auto. intros i Hi.
  rewrite nth_indep with (d' := nth 0 l d) by (rewrite map_length, seq_length; auto).
  rewrite (map_nth (fun i => nth i l d)), seq_nth; auto.
Qed.
Lemma zip_unzip n q : wf n q -> zip (unzip q) = q.
Proof.
  intros (Hs & Ha & Hb & Hc & Hd). unfold zip, unzip. rewrite map_length, seq_length, !map_map. unfold quad_at; cbn [f1 f2 f3 f4].
  destruct q as [s a b c d]; cbn in *. subst s. f_equal.
  - rewrite <- Ha. apply map_seq_nth.
  - rewrite <- Hb. apply map_seq_nth.
  - rewrite <- Hc. apply map_seq_nth.
  - rewrite <- Hd. apply map_seq_nth.
Qed.
Lemma unzip_zip v : unzip (zip v) = v.
Proof.
  unfold unzip. cbn [zip q_size]. rewrite <- (map_seq_nth v (0, 0, 0, 0)%Z) at 3.
  apply map_ext. intros i. unfold quad_at, zip. cbn [q_a q_b q_c q_d].
  assert (forall f : quad -> Z, f (0, 0, 0, 0)%Z = 0%Z -> nth i (map f v) 0%Z = f (nth i v (0, 0, 0, 0)%Z)) as H
    by (intros f E; rewrite <- E at 1; apply map_nth).
  rewrite !H by reflexivity.
  destruct (nth i v (0, 0, 0, 0)%Z) as [[[a b] c] d]. reflexivity.
Qed.
Lemma zip_inj v w : zip v = zip w -> v = w.
Proof. intros H. now rewrite <- (unzip_zip v), H, unzip_zip. Qed.

Lemma QUADRUPLETS_pm x : In x QUADRUPLETS <-> pm4 x.
Proof.
  split.
  - unfold QUADRUPLETS. cbn [In]. intros H. unfold pm4, pm.
    repeat (destruct H as [<-|H]; [repeat split; auto|]). destruct H.
  - destruct x as [[[a b] c] d]. unfold pm4, pm. intros (Ha & Hb & Hc & Hd).
    destruct Ha as [-> | ->], Hb as [-> | ->], Hc as [-> | ->], Hd as [-> | ->]; cbn; tauto.
Qed.
Lemma QUADRUPLETS_nodup : NoDup QUADRUPLETS.
Proof. unfold QUADRUPLETS. repeat constructor; cbn; intuition congruence. Qed.

Lemma zip_pm v : incl v QUADRUPLETS <-> pm_quad (length v) (zip v).
Proof.
  unfold pm_quad, wf, zip. cbn [q_a q_b q_c q_d q_size]. rewrite !map_length. unfold pm1. rewrite !Forall_map, !Forall_forall.
  split.
  - intros H. split; auto. repeat split; intros [[[a b] c] d] Hx; apply H, QUADRUPLETS_pm in Hx; apply Hx.
  - intros (_ & H1 & H2 & H3 & H4) x Hx. apply QUADRUPLETS_pm. specialize (H1 x Hx). specialize (H2 x Hx).
    specialize (H3 x Hx). specialize (H4 x Hx). destruct x as [[[a b] c] d]. cbn in *. unfold pm4, pm. auto.
Qed.
Lemma pm_unzip n q : pm_quad n q -> length (unzip q) = n /\ incl (unzip q) QUADRUPLETS /\ zip (unzip q) = q.
Proof.
  intros Hq. pose proof Hq as [Hw _]. assert (length (unzip q) = n) as L.
  { unfold unzip. rewrite map_length, seq_length. apply Hw. }
  split; auto. rewrite (zip_unzip n q Hw). split; auto. apply zip_pm. now rewrite (zip_unzip n q Hw), L.
Qed.

(* put with partner = own position *)
Notation PUTQ := (put (fun k => k) (fun _ x => x)).
Notation FILLQ := (fill (fun k => k) (fun _ (x : quad) => x)).
Lemma put_upd (v : list quad) i x : PUTQ v i x = upd v i x.
Proof. unfold put. apply upd_upd. Qed.

Section Q.
  Context (n : nat) (P : QuadSeq -> bool).
  Notation AGREEQ := (agree m4 n n (fun k => k)).
  Definition qleaves (v : list quad) (i : nat) : list (list quad) :=
    filter (fun v => P (zip v)) (map (FILLQ v i) (words QUADRUPLETS (n - i))).
  Lemma qleaves_step v i : i < n -> qleaves v i = flat_map (fun x => qleaves (PUTQ v i x) (S i)) QUADRUPLETS.
  Proof. intros Hi. unfold qleaves. replace (n - i) with (S (n - S i)) by lia. rewrite fill_words. apply filter_flat_map. Qed.
  Lemma qleaves_leaf v i : n <= i -> qleaves v i = if P (zip v) then [v] else [].
  Proof. intros Hi. unfold qleaves. replace (n - i) with 0 by lia. reflexivity. Qed.
  Lemma part_ok lo : forall k, lo <= k < n -> k < n /\ ((k = k /\ forall x : quad, x = x) \/ n <= k).
  Proof. intros k Hk. split; [lia|]. left. auto. Qed.
  Lemma qleaves_agree v v' i : i <= n -> AGREEQ i v v' -> qleaves v i = qleaves v' i.
  Proof.
    intros Hi Ha. unfold qleaves. f_equal. apply map_ext_in. intros w Hw. apply words_in in Hw as [Hw _].
    apply (fill_agree m4 n n 0 (fun k => k) (fun _ x => x) (le_n n) (part_ok 0)); auto; lia.
  Qed.
  Lemma upd_incl (v : list quad) i x : In x QUADRUPLETS -> incl v QUADRUPLETS -> incl (PUTQ v i x) QUADRUPLETS.
  Proof. intros Hx Hv y Hy. rewrite put_upd in Hy. apply upd_in in Hy as [->|Hy]; auto. Qed.
  Lemma fillq_incl w : incl w QUADRUPLETS -> forall v i, incl v QUADRUPLETS -> incl (FILLQ v i w) QUADRUPLETS.
  Proof.
    induction w as [|x w IH]; intros Hw v i Hv; cbn; auto. apply IH; [intros y Hy; apply Hw; now right|].
    apply upd_incl; auto. apply Hw. now left.
  Qed.
  Lemma qleaves_pm v i u : length v = n -> incl v QUADRUPLETS -> In u (qleaves v i) -> pm_quad n (zip u).
  Proof.
    intros Hv Hi Hu. apply filter_In in Hu as [Hu _]. apply in_map_iff in Hu as (w & <- & Hw).
    apply words_in in Hw as [_ Hw]. rewrite <- Hv at 1. rewrite <- (fill_length (fun k => k) (fun _ x => x) w v i).
    apply zip_pm. now apply fillq_incl.
  Qed.
  (* the quadruples found from the initial one, starting at index lo *)
  Lemma qleaves_char lo : lo <= n -> let L := map zip (qleaves (repeat m4 n) lo) in
    NoDup L /\ forall q, In q L <-> pm_quad n q /\ (forall j, j < lo -> quad_at q j = m4) /\ P q = true.
  Proof.
    intros Hlo. cbv zeta. split.
    - apply NoDup_map_inj; [intros x y _ _; apply zip_inj|]. apply NoDup_filter.
      apply (leaves_nodup m4 n n lo (fun k => k) (fun _ x => x) (le_n n) (part_ok lo) (fun k k' _ _ E => E)); auto using repeat_length, QUADRUPLETS_nodup.
    - intros q. rewrite in_map_iff.
      assert (forall u : list quad, incl u QUADRUPLETS -> length u = n -> forall j, j < n -> quad_at (zip u) j = nth j u m4) as Hat.
      { intros u Hi Hu j Hj. rewrite <- (unzip_zip u) at 2. unfold unzip. cbn [zip q_size].
        rewrite nth_indep with (d' := quad_at (zip u) 0) by (rewrite map_length, seq_length; lia).
        rewrite (map_nth (quad_at (zip u))), seq_nth by lia. reflexivity. }
      split.
      + intros (u & <- & Hu). unfold qleaves in Hu. apply filter_In in Hu as [Hu HP]. 
        apply (leaves_in m4 n n lo (fun k => k) (fun _ x => x) (le_n n) (part_ok lo) (fun k k' _ _ E => E)) in Hu as (Hl & Hk & Hj); auto using repeat_length.
        assert (forall j, j < lo -> nth j u m4 = m4) as H0.
        { intros j Hj'. rewrite Hj by (intros k Hk'; lia). apply nth_repeat. }
        assert (incl u QUADRUPLETS) as Hi.
        { intros x Hx. apply (In_nth _ _ m4) in Hx as (j & Hj' & <-). destruct (le_lt_dec lo j).
          - apply Hk. lia.
          - rewrite H0 by auto. now left. }
        split; [rewrite <- Hl; now apply zip_pm|]. split; auto. intros j Hj'. rewrite Hat; auto; lia.
      + intros (Hq & Hj & HP). destruct (pm_unzip n q Hq) as (Hl & Hi & E). exists (unzip q). split; auto.
        unfold qleaves. apply filter_In. rewrite E. split; auto.
        apply (leaves_in m4 n n lo (fun k => k) (fun _ x => x) (le_n n) (part_ok lo) (fun k k' _ _ E => E)); auto using repeat_length. split; auto. split.
        * intros k Hk. split; auto. apply Hi, nth_In. lia.
        * intros j Hu. rewrite nth_repeat. destruct (lt_dec j n) as [Hjn|]; [|apply nth_overflow; lia].
          rewrite <- (Hat (unzip q)) by auto. rewrite E. apply Hj. destruct (le_lt_dec lo j); auto.
          destruct (Hu j); lia.
  Qed.
End Q.

Definition qtb (q : QuadSeq) : bool := match verify q QuaternionType with Some b => b | None => false end.
Lemma qtb_spec n q : pm_quad n q -> 1 <= n -> (qtb q = true <-> is_QT q).
Proof. intros Hq Hn. unfold qtb. destruct (verify_spec n q QuaternionType Hq Hn) as (b & -> & H). exact H. Qed.
Lemma qtb_test n q : pm_quad n q -> 1 <= n -> (let* qs := to_qs q in QS_is_perfect qs) = Some (qtb q).
Proof.
  intros Hq Hn. destruct (QT_verify_perfect n q Hq Hn) as (s & b & -> & E & Ep). cbn [bind]. unfold qtb. now rewrite Ep, E.
Qed.

Lemma unique_rec_spec n : 1 <= n -> forall fuel i v acc, length v = n -> incl v QUADRUPLETS -> n - i < fuel ->
  exists v', unique_find_recursive fuel (zip v) n i acc = Some (zip v', acc ++ map zip (qleaves n qtb v i)) /\
    length v' = n /\ incl v' QUADRUPLETS /\ (i <= n -> agree m4 n n (fun k => k) i v v').
Proof.
  intros Hn1. induction fuel as [|fuel IH]; intros i v acc Hv Hin Hf; [lia|].
  cbn [unique_find_recursive]. destruct (Nat.leb_spec n i) as [Hm|Hm].
  - assert (pm_quad n (zip v)) as Hp by (rewrite <- Hv; now apply zip_pm).
    pose proof (qtb_test n _ Hp Hn1) as Ht. destruct (to_qs (zip v)); [|discriminate]. cbn [bind] in *. rewrite Ht. cbn [bind].
    rewrite qleaves_leaf by auto. exists v. destruct (qtb (zip v)); cbn [map]; rewrite ?app_nil_r; auto using agree_refl.
  - rewrite qleaves_step by auto.
    set (A := QUADRUPLETS) in |- * at 1 2.
    assert (forall l v1 a, incl l QUADRUPLETS -> length v1 = n -> incl v1 QUADRUPLETS -> agree m4 n n (fun k => k) i v v1 ->
      exists v', fold_m (fun '(will, sequences) v =>
                  let* will' := set_sequence_value will v i in
                  unique_find_recursive fuel will' n (i + 1) sequences) l (zip v1, a)
        = Some (zip v', a ++ map zip (flat_map (fun x => qleaves n qtb (PUTQ v i x) (S i)) l)) /\
        length v' = n /\ incl v' QUADRUPLETS /\ agree m4 n n (fun k => k) i v v') as H.
    { induction l as [|x l IHl]; intros v1 a Hl Hv1 Hin1 Ha.
      - exists v1. cbn. rewrite app_nil_r. auto.
      - assert (In x QUADRUPLETS) as Hx by (apply Hl; now left).
        cbn [fold_m flat_map]. rewrite set_zip by lia. cbn [bind]. rewrite <- put_upd.
        destruct (IH (i + 1) (PUTQ v1 i x) a) as (v2 & -> & L2 & I2 & A2); try lia.
        { now rewrite put_length. }
        { now apply upd_incl. }
        cbn [bind]. rewrite (qleaves_agree n qtb (PUTQ v1 i x) (PUTQ v i x)); [|lia|].
        2:{ rewrite Nat.add_1_r. apply (put_agree m4 n n 0 _ _ (le_n n) (part_ok n 0)); [lia|].
            destruct Ha as (A1 & B & C). split; auto. split; auto. intros; symmetry; auto. }
        replace (qleaves n qtb (PUTQ v i x) (i + 1)) with (qleaves n qtb (PUTQ v i x) (S i)) by (f_equal; lia).
        destruct (IHl v2 (a ++ map zip (qleaves n qtb (PUTQ v i x) (S i)))) as (v3 & E3 & L3 & I3 & A3); auto.
        { intros y Hy. apply Hl. now right. }
        { apply (agree_trans m4 n n _ _ _ v1); auto.
          apply (agree_trans m4 n n _ _ _ (PUTQ v1 i x)); [apply (agree_put m4 n n 0 _ _ (le_n n) (part_ok n 0)); auto; lia|].
          rewrite Nat.add_1_r in A2. apply agree_S; [apply le_n|]. apply A2. lia. }
        exists v3. rewrite map_app, !app_assoc. split; [exact E3|]. auto. }
    destruct (H A v acc) as (v' & E & L & I & Ag); auto using incl_refl, agree_refl.
    exists v'. auto.
Qed.

Lemma find_aux_spec n : 1 <= n -> exists l, find_aux n = Some l /\ NoDup l /\
  forall q, In q l <-> pm_quad n q /\ is_QT q.
Proof.
  intros Hn. unfold find_aux. rewrite zip_new.
  destruct (unique_rec_spec n Hn (S n) 0 (repeat m4 n) []) as (v' & -> & _); try lia.
  { apply repeat_length. }
  { intros x Hx. apply repeat_spec in Hx as ->. now left. }
  cbn [bind app]. eexists. split; [reflexivity|]. destruct (qleaves_char n qtb 0) as [H1 H2]; [lia|]. split; auto.
  intros q. rewrite H2. split.
  - intros (Hq & _ & H). split; auto. now apply (qtb_spec n).
  - intros (Hq & H). split; auto. split; [intros; lia|]. now apply (qtb_spec n).
Qed.

Lemma quad_text_total n q : pm_quad n q -> exists v t, to_qs q = Some v /\ QS_to_string_raw v = Some t.
Proof.
  intros Hq. rewrite (to_qs_spec n q Hq). eexists.
  destruct (from_str_to_string (mkQS n (map (fun i => quad_quat (quad_at q i)) (seq 0 n)) None)) as (t & E & _); [|eauto].
  cbn [qs_values]. intros p Hp. apply in_map_iff in Hp as (i & <- & Hi). apply in_seq in Hi.
  assert (In (quad_quat (quad_at q i)) QPLUS) as H by (apply quad_quat_QPLUS, (quad_at_pm n); auto; lia).
  destruct QPLUS_ok as (_ & Hi24 & _). now apply Hi24.
Qed.

Lemma all_m_true {A} (f : A -> option bool) l : (forall x, In x l -> f x = Some true) -> all_m f l = Some true.
Proof. induction l as [|x l IH]; cbn; intros H; auto. rewrite H by auto. cbn. apply IH. auto. Qed.

Lemma print_fold n reps : (forall q, In q reps -> pm_quad n q) -> forall acc, exists ls,
  fold_m (fun s w => let* qs := to_qs w in let* t := QS_to_string_raw qs in Some (s ++ t ++ [newline])) reps acc
  = Some (acc ++ unlines ls) /\ Forall2 quad_text reps ls.
Proof.
  induction reps as [|q reps IH]; intros H acc.
  - exists []. cbn. rewrite app_nil_r. auto.
  - destruct (quad_text_total n q (H q (in_eq _ _))) as (v & t & E1 & E2). cbn [fold_m]. rewrite E1. cbn [bind]. rewrite E2. cbn [bind].
    destruct (IH (fun q' Hq' => H q' (in_cons _ _ _ Hq')) (acc ++ t ++ [newline])) as (ls & -> & HF).
    exists (t :: ls). cbn. rewrite !app_assoc. split; auto. constructor; auto. exists v. auto.
Qed.

Lemma least_self n ops x m : i8_quad n x -> least (reach ops x) m -> least (reach ops m) m.
Proof.
  intros Hx [Hm Hl]. split; [apply rt_refl|]. intros y Hy. apply Hl. eapply rt_trans; eauto.
Qed.

Lemma unique_find_spec n ord : ord_ok ord -> 1 <= n <= 100 ->
  exists fuel0, forall fuel p, fuel0 <= fuel -> exists reps ls,
    unique_find fuel ord p n = Some (unlines ls) /\ Forall2 quad_text reps ls /\ NoDup reps /\
    forall m, In m reps <-> pm_quad n m /\ is_QT m /\ least (reach (type_ops QuaternionType) m) m.
Proof.
  intros Ho Hn. exists (class_fuel n). intros fuel p Hf. unfold unique_find.
  destruct (find_aux_spec n) as (l & -> & Nl & Hl); [lia|]. cbn [bind].
  set (ops := type_ops QuaternionType).
  assert (forall q, In q l -> pm_quad n q) as Hpm by (intros q Hq; now apply Hl).
  destruct (collect_classes_spec n ops (fun i q =>
      generate_equivalence_class fuel ord (i :: 0 :: p) q (equivalences QuaternionType)) l) as (qs & cs & -> & HF & Hi & Hc & Hp).
  { intros q Hq. apply pm_i8. auto. }
  { intros i q Hq. rewrite equivalences_impl.
    destruct (class_spec n ord (i :: 0 :: p) ops q fuel Ho) as (c & E & _ & H); auto using pm_i8; [apply small_ok; lia|].
    exists c. split; auto. }
  cbn [bind].
  assert (forall q y, In q l -> reach ops q y -> pm_quad n y /\ is_QT y) as Hreach.
  { intros q y Hq R. apply Hl in Hq as [Hq HQ]. apply (reach_type n QuaternionType q y); auto; lia. }
  rewrite all_m_true.
  2:{ intros c Hcin. apply all_m_true. intros y Hy.
      assert (exists q, In q qs /\ reach ops q y) as (q & Hq & R).
      { clear - HF Hcin Hy. induction HF as [|q c' qs cs H HF IH]; [destruct Hcin|].
        destruct Hcin as [->|Hcin]; [exists q; split; [now left|now apply H]|]. destruct (IH Hcin) as (q' & ? & ?). exists q'. split; auto. now right. }
      destruct (Hreach q y) as [Hy1 Hy2]; auto. rewrite (qtb_test n) by (auto; lia). f_equal. apply (qtb_spec n); auto; lia. }
  cbn [bind guard].
  destruct (minima_spec n ord (1 :: p) ops Ho qs cs) as (ms & -> & HFm); auto.
  { intros q Hq. apply pm_i8. auto. }
  cbn [bind].
  destruct (minima_reps n ops l qs ms) as [Nms Hms]; auto.
  { intros q Hq. apply pm_i8. auto. }
  assert (forall m, In m ms <-> pm_quad n m /\ is_QT m /\ least (reach ops m) m) as Hch.
  { intros m. rewrite Hms. split.
    - intros (x & Hx & Lm). destruct (Hreach x m Hx) as [H1 H2]; [apply Lm|]. split; auto. split; auto.
      eapply least_self; eauto. apply pm_i8. auto.
    - intros (H1 & H2 & H3). exists m. split; auto. now apply Hl. }
  destruct (print_fold n ms (fun q Hq => proj1 (proj1 (Hch q) Hq)) []) as (ls & E & HFl).
  exists ms, ls. split; [exact E|]. auto.
Qed.

(* ---- find_williamson.rs ---- *)
Definition strq (q : QuadSeq) : list ascii :=
  match to_qs q with Some v => match QS_to_string_raw v with Some t => t | None => [] end | None => [] end.
Lemma strq_text n q : pm_quad n q -> quad_text q (strq q).
Proof.
  intros Hq. destruct (quad_text_total n q Hq) as (v & t & E1 & E2). exists v. unfold strq. rewrite E1, E2. auto.
Qed.

Lemma will_rec_spec n cond (cb : QuadSeq -> bool) : 1 <= n ->
  (forall q, pm_quad n q -> cond q = Some (cb q)) ->
  forall fuel i v, length v = n -> incl v QUADRUPLETS -> n - i < fuel ->
  let L := map zip (qleaves n (fun q => cb q && qtb q) v i) in
  will_find_recursive fuel cond (zip v) i = Some (length L, map strq L).
Proof.
  intros Hn1 Hc. induction fuel as [|fuel IH]; intros i v Hv Hin Hf; [lia|]. cbv zeta.
  cbn [will_find_recursive]. replace (q_size (zip v)) with n by (cbn; auto).
  destruct (Nat.leb_spec n i) as [Hm|Hm].
  - assert (pm_quad n (zip v)) as Hp by (rewrite <- Hv; now apply zip_pm).
    rewrite Hc by auto. cbn [bind]. rewrite qleaves_leaf by auto. destruct (cb (zip v)); [|reflexivity]. cbn [andb].
    pose proof (qtb_test n _ Hp Hn1) as Ht. destruct (strq_text n _ Hp) as (w & E & Es). rewrite E in *. cbn [bind] in *.
    rewrite Ht. cbn [bind]. rewrite Es. destruct (qtb (zip v)); reflexivity.
  - rewrite qleaves_step by auto.
    set (A := QUADRUPLETS) in |- * at 1 2 3.
    assert (forall l c o, incl l QUADRUPLETS ->
      fold_m (fun '(count, out) x =>
                  let* will' := set_sequence_value (zip v) x i in
                  let* (c, o) := will_find_recursive fuel cond will' (i + 1) in
                  Some (count + c, out ++ o)) l (c, o)
      = Some (c + length (map zip (flat_map (fun x => qleaves n (fun q => cb q && qtb q) (PUTQ v i x) (S i)) l)),
              o ++ map strq (map zip (flat_map (fun x => qleaves n (fun q => cb q && qtb q) (PUTQ v i x) (S i)) l)))) as H.
    { induction l as [|x l IHl]; intros c o Hl.
      - cbn. now rewrite Nat.add_0_r, app_nil_r.
      - cbn [fold_m flat_map]. rewrite set_zip by lia. cbn [bind]. rewrite <- put_upd.
        rewrite IH; [|now rewrite put_length|apply upd_incl; auto; apply Hl; now left|lia]. cbn [bind].
        etransitivity; [apply IHl; intros y Hy; apply Hl; now right|].
        rewrite Nat.add_1_r, !map_app, app_length, !app_assoc, Nat.add_assoc. reflexivity. }
    apply (H A 0 []). apply incl_refl.
Qed.

Lemma will_find_spec n cond cb : 1 <= n -> (forall q, pm_quad n q -> cond q = Some (cb q)) ->
  exists r, will_find n cond = Some r /\
    lists_quads (fun q => pm_quad n q /\ starts_minus q /\ cb q = true /\ is_QT q) r.
Proof.
  intros Hn Hc. unfold will_find. rewrite zip_new.
  rewrite (will_rec_spec n cond cb Hn Hc (n + 1) 1 (repeat m4 n)); try lia.
  2:{ apply repeat_length. }
  2:{ intros x Hx. apply repeat_spec in Hx as ->. now left. }
  eexists. split; [reflexivity|]. destruct (qleaves_char n (fun q => cb q && qtb q) 1) as [H1 H2]; [lia|].
  assert (forall q, In q (map zip (qleaves n (fun q => cb q && qtb q) (repeat m4 n) 1)) <->
    pm_quad n q /\ starts_minus q /\ cb q = true /\ is_QT q) as H3.
  { intros q. rewrite H2, andb_true_iff. unfold starts_minus. split.
    - intros (Hq & H & Hb & Ht). split; auto. specialize (H 0). unfold quad_at, m4 in H.
      split; [assert (0 < 1) as H0 by lia; specialize (H H0); inversion H; auto|]. split; auto. now apply (qtb_spec n).
    - intros (Hq & (Ha & Hb & Hc' & Hd) & Hcb & Ht). split; auto. split; [|split; auto; now apply (qtb_spec n)].
      intros j Hj. assert (j = 0) as -> by lia. unfold quad_at. now rewrite Ha, Hb, Hc', Hd. }
  exists (map zip (qleaves n (fun q => cb q && qtb q) (repeat m4 n) 1)). split; auto. split; auto. split; auto.
  cbn [snd]. assert (forall q, In q (map zip (qleaves n (fun q => cb q && qtb q) (repeat m4 n) 1)) -> pm_quad n q) as Hp
    by (intros q Hq; now apply H3). revert Hp.
  generalize (map zip (qleaves n (fun q => cb q && qtb q) (repeat m4 n) 1)). clear. intros l Hp.
  induction l; cbn; constructor; [apply (strq_text n); auto using in_eq|auto using in_cons].
Qed.

Lemma lists_quads_ext P P' r : (forall q, P q <-> P' q) -> lists_quads P r -> lists_quads P' r.
Proof.
  intros H (L & H1 & H2 & H3 & H4). exists L. split; auto. split; auto. intros q. now rewrite H2.
Qed.

Lemma find_W_spec n : 1 <= n -> exists r, find_williamson_of_size n = Some r /\
  lists_quads (fun q => pm_quad n q /\ starts_minus q /\ is_W q) r.
Proof.
  intros Hn. set (cb := fun q => match williamson_condition q with Some b => b | None => false end).
  assert (forall q, pm_quad n q -> exists b, williamson_condition q = Some b /\ (b = true <-> is_W q)) as H.
  { intros q Hq. destruct (is_symmetric_spec n q (proj1 Hq) Hn) as (b1 & E1 & H1).
    destruct (is_periodic_complementary_spec n q Hq Hn) as (b2 & E2 & H2).
    exists (b1 && b2). unfold williamson_condition. rewrite (and_m_some _ _ _ _ E1 E2). split; auto.
    rewrite andb_true_iff, H1, H2. unfold is_W. tauto. }
  destruct (will_find_spec n williamson_condition cb Hn) as (r & E & HL).
  { intros q Hq. unfold cb. destruct (H q Hq) as (b & -> & _). reflexivity. }
  exists r. split; auto. revert HL. apply lists_quads_ext. intros q. split.
  - intros (Hq & Hs & Hb & _). split; auto. split; auto. unfold cb in Hb. destruct (H q Hq) as (b & Eb & Hb').
    rewrite Eb in Hb. now apply Hb'.
  - intros (Hq & Hs & HW). split; auto. split; auto. split.
    + unfold cb. destruct (H q Hq) as (b & -> & Hb'). now apply Hb'.
    + apply WT_QT, (W_WT n); auto. apply Hq.
Qed.
Lemma find_WT_spec n : 1 <= n -> exists r, find_williamson_type_of_size n = Some r /\
  lists_quads (fun q => pm_quad n q /\ starts_minus q /\ is_WT q) r.
Proof.
  intros Hn. set (cb := fun q => match williamson_type_condition q with Some b => b | None => false end).
  assert (forall q, pm_quad n q -> exists b, williamson_type_condition q = Some b /\ (b = true <-> is_WT q)) as H.
  { intros q Hq. destruct (is_amicable_spec n q Hq Hn) as (b1 & E1 & H1).
    destruct (is_periodic_complementary_spec n q Hq Hn) as (b2 & E2 & H2).
    exists (b1 && b2). unfold williamson_type_condition. rewrite (and_m_some _ _ _ _ E1 E2). split; auto.
    rewrite andb_true_iff, H1, H2. unfold is_WT, amicable_all. tauto. }
  destruct (will_find_spec n williamson_type_condition cb Hn) as (r & E & HL).
  { intros q Hq. unfold cb. destruct (H q Hq) as (b & -> & _). reflexivity. }
  exists r. split; auto. revert HL. apply lists_quads_ext. intros q. split.
  - intros (Hq & Hs & Hb & _). split; auto. split; auto. unfold cb in Hb. destruct (H q Hq) as (b & Eb & Hb').
    rewrite Eb in Hb. now apply Hb'.
  - intros (Hq & Hs & HW). split; auto. split; auto. split.
    + unfold cb. destruct (H q Hq) as (b & -> & Hb'). now apply Hb'.
    + now apply WT_QT.
Qed.
