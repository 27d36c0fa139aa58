(* The commands and driver.sh in a debug build. *)
From Coq Require Import Ascii String List ZArith Bool Arith Lia Relations Permutation.
From Verif Require Import Base BaseFacts Quat ModelSequence ModelWilliamson ModelEquivalence ModelFind ModelMatrices ModelGraph ModelRowsum ModelMatching ModelWrite ModelMain ModelDebug.
From Verif Require Import SeqFacts SpecDebug SpecEquiv OpFacts TypeFacts EquivFacts EquivThms OrderFacts CanonFacts NsFacts ReduceFacts ExtendFacts DriverFacts RowsumFacts WriteFacts FolderFacts SearchThms ArgFacts MainFacts MainThms DriverMain QtWt DebugFacts SpecRowsum SpecGraph SpecSearch SpecPrint SpecMain Spec.
Import ListNotations.
Open Scope nat_scope.
Notation length := List.length.

Lemma class_congr_all ord p (ops ops' : list Equivalence) fuel q : Forall2 (fun o o' : Equivalence => forall s, o s = o' s) ops ops' ->
  generate_equivalence_class fuel ord p q ops = generate_equivalence_class fuel ord p q ops'.
Proof.
  intros H. unfold generate_equivalence_class, run.
  assert (E : forall st, class_step ord p ops st = class_step ord p ops' st).
  { intros [k class]. unfold class_step, foldi. match goal with |- bind ?x _ = bind ?y _ => assert (x = y) as -> end; auto.
    apply foldi_congr. intros i acc s _. apply foldi_congr2.
    clear - H. induction H as [|o o' l l' E _ IH]; constructor; auto. intros j acc. now rewrite E. }
  assert (L : forall st, loop fuel (class_step ord p ops) st = loop fuel (class_step ord p ops') st).
  { induction fuel as [|fuel IH]; intros st; cbn [loop]; auto. rewrite E. destruct (class_step ord p ops' st) as [[s|r]|]; auto. }
  now rewrite L.
Qed.
Lemma debug_group_same fuel ord p len t ops : debug_symmetry_group fuel ord p len t (map debug_op ops) = generate_symmetry_group fuel ord p len (map impl ops).
Proof.
  unfold debug_symmetry_group, debug_class, generate_symmetry_group. apply class_congr_all. rewrite map_map. apply Forall2_map2. intros o _ s. apply debug_op_symbolic.
Qed.
Lemma debug_canonical_ops_op t : exists ops, debug_canonical_ops t = map debug_op ops /\ canonical_ops t = map impl ops.
Proof.
  destruct t; (exists [Automorphism; EvenAlternatedNegation; UniformShift; UniformHalfShift]; split; reflexivity) || (exists [Automorphism; EvenAlternatedNegation; UniformShift; DualHalfShift]; split; reflexivity).
Qed.
Lemma debug_reduce_same fuel ord p l t : debug_reduce_to_canonical_reps fuel ord p l t = reduce_to_canonical_reps fuel ord p l t.
Proof.
  unfold debug_reduce_to_canonical_reps, reduce_to_canonical_reps. destruct (vget l 0) as [q0|]; cbn [bind]; auto.
  destruct (debug_canonical_ops_op t) as (ops & -> & ->). now rewrite debug_group_same.
Qed.

(* ---- join ---- *)
Lemma normal_sorted t q : normal_rowsums t (totals q) -> has_sorted_rowsums q = true.
Proof.
  intros H. apply has_sorted_rowsums_spec. left. unfold normal_rowsums in *. destruct (totals q) as [[[a b] c] d].
  destruct H as (H1 & H2 & H3). split; auto. split; auto. intros Hd. split; auto. now apply H3.
Qed.
Lemma debug_join_same fuel ord p ls t f l : match_pairs ls t f = Some l -> (forall q, In q l -> normal_rowsums t (totals q)) ->
  debug_join_pairs fuel ord p ls t f = join_pairs fuel ord p ls t f.
Proof.
  intros E H. unfold debug_join_pairs, join_pairs. rewrite E. cbn [bind].
  rewrite (proj2 (forallb_forall _ _)). 2:{ intros q Hq. apply (normal_sorted t). auto. }
  unfold guard. destruct t; auto;
  match goal with |- bind ?x _ = bind ?x _ => destruct x; cbn [bind]; auto; apply debug_reduce_same end.
Qed.
Lemma debug_extend_same n l : (forall q, In q l -> pm_quad n q) -> debug_extend_wts n l = extend_wts n l.
Proof.
  intros H. unfold debug_extend_wts, extend_wts. match goal with |- bind ?x _ = bind ?y _ => assert (x = y) as -> end; auto.
  induction l as [|q l IH]; cbn [traverse]; auto. rewrite IH by (intros; apply H; now right).
  destruct (n mod 2 =? 0) eqn:E; auto. unfold debug_half_shift. cbn [sequence].
  destruct (H q (or_introl eq_refl)) as [(_ & -> & _) _]. rewrite E. reflexivity.
Qed.

Lemma ns_least n x : pm_quad n x -> 1 <= n -> (forall y, reach [NegateSwap] x y -> quad_le x y) -> is_ns_canonical x = Some true.
Proof.
  intros P Hn H. unfold is_ns_canonical. destruct (ns_spec n x P Hn) as (c & -> & R & L). cbn [bind].
  assert (c = x) as ->. { apply quad_le_antisym; [apply L, rt_refl|apply H, R]. }
  now rewrite (proj2 (quad_eqb_eq x x) eq_refl).
Qed.
Lemma ns_in_QT x y : reach [NegateSwap] x y -> reach (type_ops QuaternionType) x y.
Proof. apply reach_incl. intros o [<-|[]]. cbn. tauto. Qed.
Lemma ns_in_WT x y : reach [NegateSwap] x y -> reach (type_ops WilliamsonType) x y.
Proof.
  intros R. apply clos_rt_rtn1 in R. induction R as [|y z (o & [<-|[]] & Hv) _ IH]; [apply rt_refl|].
  eapply rt_trans; [exact IH|]. destruct Hv as [->|(w & Hw & ->)]; [apply rt_refl|].
  cbn [variants] in Hw. apply in_map_iff in Hw as ([[s t] u] & <- & Hp). apply in_prod_iff in Hp as [Hst Hu].
  apply rt_trans with (gact (At u Neg) y); apply rt_step.
  - exists Negate. split; [cbn; tauto|]. right. exists [At u Neg]. split; auto. cbn [variants]. apply in_map_iff. eauto.
  - exists Reorder. split; [cbn; tauto|]. right. exists [Ex s t]. split; auto. cbn [variants]. apply in_map_iff. exists (s, t). auto.
Qed.
Lemma lines_ns n r lines : Forall2 line_of_quad r lines -> (forall x, In x r -> pm_quad n x /\ is_ns_canonical x = Some true) ->
  all_m (fun line => let* qs := QS_from_str line in let* q := from_pqs qs in is_ns_canonical q) lines = Some true.
Proof.
  intros F H. apply all_m_true. intros line Hl.
  assert (exists q, In q r /\ line_of_quad q line) as (q & Hq & L).
  { clear H. induction F as [|q l r lines E F IH]; [destruct Hl|]. destruct Hl as [<-|Hl]; [exists q; split; [now left|auto]|].
    destruct (IH Hl) as (q' & ? & ?). exists q'. split; [now right|auto]. }
  destruct (H q Hq) as [P N]. destruct (line_reads n q line P L) as (s & _ & -> & E & _). cbn [bind]. rewrite E. exact N.
Qed.

(* the matches of a search, with its folder *)
Lemma search_matches {L} (e : Env L) n t m pr : 1 <= n <= 31 -> env_ok e -> three_types t ->
  exists fuel0, forall fuel, fuel0 <= fuel -> exists f c, write_pairs fuel n t m pr [] = Some (f, c) /\
  forall fuel' ord p, debug_join_pairs fuel' ord p (e_ls e) t (sortpairs f) = join_pairs fuel' ord p (e_ls e) t (sortpairs f).
Proof.
  intros Hn (_ & Hls & _) Ht. assert (H62 : (Z.of_nat n < 2 ^ 62)%Z) by (apply Z.lt_trans with 100%Z; [lia|reflexivity]).
  destruct (search_spec n t m pr (e_ls e) ltac:(lia) H62 Ht Hls) as (f0 & H). exists f0. intros fuel Hf.
  destruct (H fuel Hf) as (f & c & r & Ew & Em & A & _). exists f, c. split; auto. intros fuel' ord p.
  apply (debug_join_same _ _ _ _ _ _ r); auto. intros q Hq. now apply A.
Qed.

(* with a quadruple of the type: the join command, and the lines read by convert hm *)
Definition hm_lines (t : SequenceType) (pl : Place) : option Lines := match t with WilliamsonType => pl_qts pl | _ => pl_seq pl end.
Lemma debug_steps {L} (e : Env L) n t m pr : 1 <= n <= 31 -> env_ok e -> three_types t -> (exists q, pm_quad n q /\ is_type t q) ->
  exists fuel0, forall fuel, fuel0 <= fuel -> exists f c, write_pairs fuel n t m pr [] = Some (f, c) /\
  forall pl, pl_dirs pl = sortpairs f -> exists pl' lines,
    find_write_place fuel (e_ord e) (e_path e) (e_ls e) n t pl = Some pl' /\
    debug_find_write_place fuel (e_ord e) (e_path e) (e_ls e) n t pl = Some pl' /\
    hm_lines t pl' = Some lines /\
    all_m (fun line => let* qs := QS_from_str line in let* q := from_pqs qs in is_ns_canonical q) lines = Some true.
Proof.
  intros Hn He Ht (q & P & T). assert (Hn1 : 1 <= n) by lia. destruct (search_matches e n t m pr Hn He Ht) as (f1 & H1).
  destruct He as (Ho & Hls & Hc & Hp). destruct Ht as [-> |[-> | ->]].
  - destruct (search_classes n QuaternionType m pr (e_ls e) (e_ord e) Hn (or_introl eq_refl) Hls Ho) as (f0 & H).
    { exists q. split; auto. now apply (verify_type n). }
    exists (max f0 f1). intros fuel Hf. destruct (H fuel (0 :: e_path e) ltac:(lia)) as (f & c & r & Ew & Ej & _ & A & _).
    destruct (H1 fuel ltac:(lia)) as (f' & c' & Ew' & Ed). rewrite Ew in Ew'. injection Ew' as <- <-. exists f, c. split; auto. intros pl Hpl.
    destruct (seq_lines_spec n r) as (out & Eo & Fo); [intros x Hx; now apply A|].
    assert (Eq : qseq_text r = Some (stacked (map quad_text r))) by (apply (qseq_text_spec n); intros x Hx; now apply A).
    destruct (amicable_total n r Hn1) as (am & Ea); [intros x Hx; now apply A|].
    exists (set_seq pl out (stacked (map quad_text r))), out. split; [|split; [|split]].
    + unfold find_write_place. rewrite Hpl, Ej. cbn [bind]. rewrite Ea. cbn [bind]. rewrite Eo. cbn [bind]. rewrite Eq. reflexivity.
    + unfold debug_find_write_place. rewrite Hpl, Ed, Ej. cbn [bind].
      assert (traverse (fun q => let* b := verify_qts q in guard b (is_amicable q)) r = Some am) as ->.
      { rewrite <- Ea. clear - A. induction r as [|x r IH]; auto. cbn [traverse].
        destruct (A x (or_introl eq_refl)) as (_ & V & _). cbn [verify] in V. rewrite V. cbn [bind guard]. rewrite IH; auto. intros; apply A; now right. }
      cbn [bind]. rewrite Eo. cbn [bind]. rewrite Eq. reflexivity.
    + reflexivity.
    + apply (lines_ns n r); auto. intros x Hx. destruct (A x Hx) as (Px & _ & Lx). split; auto. apply (ns_least n); auto.
      intros y R. apply Lx. now apply ns_in_QT.
  - destruct (search_classes n WilliamsonType m pr (e_ls e) (e_ord e) Hn (or_intror eq_refl) Hls Ho) as (f0 & H).
    { exists q. split; auto. now apply (verify_type n). }
    exists (max (max f0 f1) (class_fuel n)). intros fuel Hf. destruct (H fuel (0 :: e_path e) ltac:(lia)) as (f & c & r & Ew & Ej & _ & A & B).
    destruct (H1 fuel ltac:(lia)) as (f' & c' & Ew' & Ed). rewrite Ew in Ew'. injection Ew' as <- <-. exists f, c. split; auto. intros pl Hpl.
    destruct (seq_lines_spec n r) as (out & Eo & Fo); [intros x Hx; now apply A|].
    assert (Eq : qseq_text r = Some (stacked (map quad_text r))) by (apply (qseq_text_spec n); intros x Hx; now apply A).
    assert (Hne : r <> []). { intros ->. destruct (B q P) as (x & [] & _). now apply (verify_type n). }
    destruct (wts_to_qts_at n (e_ord e) r Ho Hn Hne) as (l' & El & R).
    { apply Forall_forall. intros x Hx. destruct (A x Hx) as (? & ? & _). auto. }
    { intros z Pz Vz. destruct (B z Pz Vz) as (x & I & Rx & _). eauto. }
    destruct (R fuel (1 :: e_path e) ltac:(lia)) as (r' & Er' & Nd' & A' & B').
    destruct (seq_lines_spec n r') as (out' & Eo' & Fo'); [intros x Hx; now apply A'|].
    assert (Eq' : qseq_text r' = Some (stacked (map quad_text r'))) by (apply (qseq_text_spec n); intros x Hx; now apply A').
    exists (set_qts (set_seq pl out (stacked (map quad_text r))) out' (stacked (map quad_text r'))), out'. split; [|split; [|split]].
    + unfold find_write_place. rewrite Hpl, Ej. cbn [bind]. rewrite Eo. cbn [bind]. rewrite Eq. cbn [bind].
      rewrite El. cbn [bind]. rewrite Er'. cbn [bind]. rewrite Eo'. cbn [bind]. rewrite Eq'. reflexivity.
    + unfold debug_find_write_place. rewrite Hpl, Ed, Ej. cbn [bind]. rewrite Eo. cbn [bind]. rewrite Eq. cbn [bind].
      rewrite debug_extend_same by (intros x Hx; now apply A). rewrite El. cbn [bind]. rewrite debug_reduce_same, Er'. cbn [bind]. rewrite Eo'. cbn [bind]. rewrite Eq'. reflexivity.
    + reflexivity.
    + apply (lines_ns n r'); auto. intros x Hx. destruct (A' x Hx) as (Px & _ & Lx). split; auto. apply (ns_least n); auto.
      intros y Ry. apply Lx. now apply ns_in_QT.
  - destruct (search_classes_W n m pr (e_ls e) (e_ord e) Hn Hls Ho) as (f0 & H).
    { exists q. split; auto. now apply (verify_type n). }
    exists (max f0 f1). intros fuel Hf. destruct (H fuel (0 :: e_path e) ltac:(lia)) as (f & c & r & Ew & Ej & _ & A & _).
    destruct (H1 fuel ltac:(lia)) as (f' & c' & Ew' & Ed). rewrite Ew in Ew'. injection Ew' as <- <-. exists f, c. split; auto. intros pl Hpl.
    assert (VT : forall x, In x r -> pm_quad n x).
    { intros x Hx. destruct (A x Hx) as (z & Pz & Vz & Rz & _). apply (W_WT_verify n) in Vz; auto.
      apply (reach_type n WilliamsonType z x Pz Hn1 Rz). now apply (verify_type n). }
    destruct (seq_lines_spec n r) as (out & Eo & Fo); auto.
    assert (Eq : qseq_text r = Some (stacked (map quad_text r))) by (apply (qseq_text_spec n); auto).
    exists (set_seq pl out (stacked (map quad_text r))), out. split; [|split; [|split]].
    + unfold find_write_place. rewrite Hpl, Ej. cbn [bind]. rewrite Eo. cbn [bind]. rewrite Eq. reflexivity.
    + unfold debug_find_write_place. rewrite Hpl, Ed, Ej. cbn [bind]. rewrite Eo. cbn [bind]. rewrite Eq. reflexivity.
    + reflexivity.
    + apply (lines_ns n r); auto. intros x Hx. split; auto. destruct (A x Hx) as (z & Pz & _ & Rz & Lx). apply (ns_least n); auto.
      intros y Ry. apply Lx. apply ns_in_WT in Ry. now apply rt_trans with x.
Qed.

(* ---- driver.sh ---- *)
Lemma pm1_dec l : {pm1 l} + {~ pm1 l}.
Proof. apply Forall_dec. intros x. destruct (Z.eq_dec x 1); [now left; left|]. destruct (Z.eq_dec x (-1)); [now left; right|]. right. tauto. Qed.
Lemma pm_quad_dec n q : {pm_quad n q} + {~ pm_quad n q}.
Proof.
  unfold pm_quad, wf.
  destruct (Nat.eq_dec (q_size q) n), (Nat.eq_dec (length (q_a q)) n), (Nat.eq_dec (length (q_b q)) n), (Nat.eq_dec (length (q_c q)) n), (Nat.eq_dec (length (q_d q)) n); try (right; tauto).
  destruct (pm1_dec (q_a q)), (pm1_dec (q_b q)), (pm1_dec (q_c q)), (pm1_dec (q_d q)); try (right; tauto). left. tauto.
Qed.
Lemma type_exists_dec n t : 1 <= n -> (exists q, pm_quad n q /\ is_type t q) \/ (forall q, pm_quad n q -> ~ is_type t q).
Proof.
  intros Hn.
  assert (D : forall q, {pm_quad n q /\ verify q t = Some true} + {~ (pm_quad n q /\ verify q t = Some true)}).
  { intros q. destruct (pm_quad_dec n q) as [P|P]; [|right; tauto]. destruct (verify q t) as [[|]|]; [left; auto|right; intuition discriminate|right; intuition discriminate]. }
  destruct (Exists_dec _ (universe n) D) as [E|E].
  - apply Exists_exists in E as (q & _ & P & V). left. exists q. split; auto. now apply (verify_type n).
  - right. intros q P T. apply E, Exists_exists. exists q. split; [now apply universe_in, pm_i8|]. split; auto. now apply (verify_type n).
Qed.

Lemma debug_run_cmd {L} fuel (e : Env L) args c w : command_line (lit "rust" :: args) c ->
  debug_run_on fuel e args w = match debug_exec fuel e c w with Some w' => w' | None => w end.
Proof. intros H. unfold debug_run_on, debug_main. apply parse_args_iff in H. rewrite H. reflexivity. Qed.

Lemma same_steps {W T} (D R : T -> W -> W) (S : W -> W) (h : bool) a j c q w0 :
  D a w0 = R a w0 -> D j (S (R a w0)) = R j (S (R a w0)) -> D c (R j (S (R a w0))) = R c (R j (S (R a w0))) -> (forall w, D q w = R q w) ->
  D q (if h then D c (D j (S (D a w0))) else D j (S (D a w0))) = R q (if h then R c (R j (S (R a w0))) else R j (S (R a w0))).
Proof. intros E1 E2 E3 E4. rewrite E1, E2. destruct h; [rewrite E3|]; apply E4. Qed.

Lemma debug_driver_sh_same {L} (e : Env L) n t y m pr h w : 1 <= n <= 31 -> env_ok e -> three_types t -> canonical_numeral y n ->
  pl_dirs (place_of w (type_word t) y) = [] ->
  (exists q, pm_quad n q /\ is_type t q) \/ pl_seq (place_of w (type_word t) y) = None /\ pl_qts (place_of w (type_word t) y) = None ->
  exists fuel0, forall fuel, fuel0 <= fuel ->
    debug_driver_sh fuel e (type_word t) y (match_word m) pr h w = driver_sh fuel e (type_word t) y (match_word m) pr h w.
Proof.
  intros Hn He Ht Hy Hd Hq. assert (H64 := small_length n (proj2 Hn)). assert (Hn1 : 1 <= n) by lia.
  set (prm := str_to_rowsum_pairing pr).
  assert (K : exists fuel0, forall fuel, fuel0 <= fuel -> exists f c, write_pairs fuel n t m prm [] = Some (f, c) /\
    forall pl, pl_dirs pl = sortpairs f -> (pl_seq pl = pl_seq (place_of w (type_word t) y)) -> (pl_qts pl = pl_qts (place_of w (type_word t) y)) ->
      debug_find_write_place fuel (e_ord e) (e_path e) (e_ls e) n t pl = find_write_place fuel (e_ord e) (e_path e) (e_ls e) n t pl /\
      match find_write_place fuel (e_ord e) (e_path e) (e_ls e) n t pl with
      | Some pl' => exists lines, hm_lines t pl' = Some lines /\
          all_m (fun line => let* qs := QS_from_str line in let* q := from_pqs qs in is_ns_canonical q) lines = Some true
      | None => hm_lines t pl = None
      end).
  { assert (Dec : (exists q, pm_quad n q /\ is_type t q) \/ (forall q, pm_quad n q -> ~ is_type t q)).
    { assert (D := type_exists_dec n t Hn1). tauto. }
    destruct Dec as [Hx|Hno].
    - destruct (debug_steps e n t m prm Hn He Ht Hx) as (f0 & H). exists f0. intros fuel Hf. destruct (H fuel Hf) as (f & c & Ew & G).
      exists f, c. split; auto. intros pl Hpl _ _. destruct (G pl Hpl) as (pl' & lines & E1 & E2 & E3 & E4). rewrite E1, E2. split; auto. eauto.
    - destruct Hq as [(q & P & T)|[N1 N2]]; [now apply Hno in T|].
      destruct (search_matches e n t m prm Hn He Ht) as (f1 & H1). destruct He as (Ho & Hls & _).
      assert (H62 : (Z.of_nat n < 2 ^ 62)%Z) by (apply Z.lt_trans with 100%Z; [lia|reflexivity]).
      destruct (search_none n t m prm (e_ls e) Hn1 H62 Ht Hls) as (f0 & H). { intros q P V. apply (Hno q P). now apply (verify_type n). }
      exists (max f0 f1). intros fuel Hf. destruct (H1 fuel ltac:(lia)) as (f & c & Ew & Ed). exists f, c. split; auto. intros pl Hpl S1 S2.
      destruct (H fuel (e_ord e) (0 :: e_path e) ltac:(lia)) as (f' & c' & Ew' & Ej). rewrite Ew in Ew'. injection Ew' as <- <-.
      unfold debug_find_write_place, find_write_place. rewrite Hpl, Ed, Ej. cbn [bind]. split; auto. unfold hm_lines. rewrite S1, S2, N1, N2. now destruct t. }
  destruct K as (f0 & K). exists f0. intros fuel Hf. destruct (K fuel Hf) as (f & c & Ew & G). clear K.
  unfold debug_driver_sh, driver_sh. rewrite Hd. cbn [length Nat.eqb negb]. cbv zeta.
  set (w0 := match w (type_word t) y with Some _ => w | None => write w (type_word t) y new_place end).
  assert (H0 : w0 (type_word t) y = Some (place_of w (type_word t) y)).
  { unfold w0, place_of. destruct (w (type_word t) y) eqn:E; auto. apply write_same. }
  assert (E1 : debug_run_on fuel e [lit "pairs"; type_word t; y; match_word m; pr] w0 = run_on fuel e [lit "pairs"; type_word t; y; match_word m; pr] w0).
  { assert (C : command_line (lit "rust" :: [lit "pairs"; type_word t; y; match_word m; pr]) (Pairs t (Z.of_nat n) m prm)).
    { apply cl_pairs; [now apply numeral_length_arg|]. now apply pairing_arg_iff. }
    rewrite (debug_run_cmd fuel e _ _ _ C), (run_on_cmd fuel e _ _ _ C). reflexivity. }
  destruct (stage_pairs fuel e n t y H64 Hy w0 _ m pr f c H0 Hd Ew) as [W1 _].
  destruct (stage_sort t y _ _ W1) as [W2 _]. clear W1. cbv zeta in W2.
  set (w2 := sort_place (type_word t) y (run_on fuel e [lit "pairs"; type_word t; y; match_word m; pr] w0)) in W2.
  set (pl2 := set_dirs (set_dirs (place_of w (type_word t) y) f) _) in W2.
  destruct (G pl2 eq_refl eq_refl eq_refl) as [Ed Em].
  assert (CJ : command_line (lit "rust" :: [lit "join"; type_word t; y]) (Join t (Z.of_nat n))) by (apply cl_join; now apply numeral_length_arg).
  assert (NY : usize_to_string (Z.of_nat n) = y) by (now apply num_y).
  assert (E2 : debug_run_on fuel e [lit "join"; type_word t; y] w2 = run_on fuel e [lit "join"; type_word t; y] w2).
  { rewrite (debug_run_cmd fuel e _ _ _ CJ), (run_on_cmd fuel e _ _ _ CJ). cbn [debug_exec exec]. rewrite type_word_string, NY, W2. cbn [bind].
    rewrite Nat2Z.id, Ed. reflexivity. }
  assert (W3 : exists pl3, run_on fuel e [lit "join"; type_word t; y] w2 (type_word t) y = Some pl3 /\
    (hm_lines t pl3 = None \/ exists lines, hm_lines t pl3 = Some lines /\
       all_m (fun line => let* qs := QS_from_str line in let* q := from_pqs qs in is_ns_canonical q) lines = Some true)).
  { destruct (find_write_place fuel (e_ord e) (e_path e) (e_ls e) n t pl2) as [pl3|] eqn:Ef.
    - exists pl3. destruct (stage_join fuel e n t y H64 Hy w2 pl2 pl3 W2 Ef) as [W3 _]. split; auto.
    - exists pl2. split; auto. rewrite (run_on_cmd fuel e _ _ _ CJ). cbn [exec]. rewrite type_word_string, NY, W2. cbn [bind].
      rewrite Nat2Z.id, Ef. cbn [bind]. exact W2. }
  destruct W3 as (pl3 & W3 & Hl). set (w3 := run_on fuel e [lit "join"; type_word t; y] w2) in *.
  assert (CQ : command_line (lit "rust" :: [lit "convert"; lit "qhm"; type_word t; y]) (ConvertQhm t (Z.of_nat n))) by (apply cl_convert_qhm; now apply numeral_length_arg).
  assert (EQ : forall w', debug_run_on fuel e [lit "convert"; lit "qhm"; type_word t; y] w' = run_on fuel e [lit "convert"; lit "qhm"; type_word t; y] w').
  { intros w'. rewrite (debug_run_cmd fuel e _ _ _ CQ), (run_on_cmd fuel e _ _ _ CQ). reflexivity. }
  assert (CH : command_line (lit "rust" :: [lit "convert"; lit "hm"; type_word t; y]) (ConvertHm t (Z.of_nat n))) by (apply cl_convert_hm; now apply numeral_length_arg).
  assert (E3 : debug_run_on fuel e [lit "convert"; lit "hm"; type_word t; y] w3 = run_on fuel e [lit "convert"; lit "hm"; type_word t; y] w3).
  { rewrite (debug_run_cmd fuel e _ _ _ CH), (run_on_cmd fuel e _ _ _ CH). cbn [debug_exec exec]. rewrite type_word_string, NY, W3. cbn [bind].
    unfold hm_lines in Hl. destruct Hl as [-> |(lines & -> & Ea)]; [reflexivity|]. cbn [bind]. unfold debug_hadamard_equivalence_from_file. rewrite Ea. reflexivity. }
  exact (same_steps (debug_run_on fuel e) (run_on fuel e) (sort_place (type_word t) y) h _ _ _ _ _ E1 E2 E3 EQ).
Qed.
