(* Overflow checks: representatives, equivalence, the search and driver.sh. *)
From Coq Require Import Ascii String List ZArith Lia Arith Bool Permutation Relations.
From Verif Require Import Base BaseFacts Sums ModelSequence ModelWilliamson ModelEquivalence ModelFind ModelMatrices ModelGraph ModelRowsum ModelMatching ModelWrite ModelMain ModelDebug ModelChecked SpecDebug SpecEquiv
  SeqFacts OpFacts EquivFacts TypeFacts EquivThms FastFacts FindUniqueFacts OrderFacts CanonFacts NsFacts ReduceFacts WsFacts ExtendFacts RowsumFacts WriteFacts FolderFacts SearchThms ArgFacts MainFacts MainThms DriverMain
  DebugFacts DebugThms DebugMain Len64Facts SpecChecked CheckedFacts SpecRowsum SpecGraph SpecSearch SpecPrint SpecMain Spec.
Import ListNotations.
Notation length := List.length.
Open Scope nat_scope.

Lemma class_sound n ord p ops q fuel r : ord_ok ord -> n <= 100 -> i8_quad n q -> generate_equivalence_class fuel ord p q (map impl ops) = Some r -> forall y, In y r -> reach ops q y.
Proof.
  intros Ho Hn Hq. unfold generate_equivalence_class, run.
  assert (G : forall fuel k c, NoDup c -> (forall y, In y c -> reach ops q y) -> forall r,
    match Base.loop fuel (class_step ord p (map impl ops)) (k, c) with Some r => r | None => None end = Some r -> forall y, In y r -> reach ops q y).
  { clear fuel r. induction fuel as [|fuel IH]; intros k c Nd Hc r E; [discriminate|]. cbn [Base.loop] in E.
    destruct (class_step_spec n ord p ops k c Ho (small_ok n ops Hn)) as [[E' _]|(c' & E' & Nd' & _ & Hc')]; auto.
    - intros s Hs. apply (proj1 (reach_i8 n ops q s Hq (Hc s Hs))).
    - rewrite E' in E. injection E as <-. exact Hc.
    - rewrite E' in E. eapply IH; [exact Nd'| |exact E]. intros y Hy. apply Hc' in Hy as [Hy|(s & o & Hs & Hop & Hv)]; auto.
      eapply rt_trans; [apply Hc, Hs|]. apply rt_step. eauto. }
  intros E. eapply G; [apply nodup_1| |exact E]. intros y [<-|[]]. apply rt_refl.
Qed.

(* ---- up to length 31: the build without the checks ---- *)
Lemma checked_canonical_same n ord p q G t ops : ord_ok ord -> 1 <= n <= 31 -> pm_quad n q -> (forall y, In y G -> reach ops (symbolic_quad n) y) ->
  checked_qt_canonical ord p q G t = qt_canonical ord p q G t.
Proof.
  intros Ho Hn Hq HG. unfold checked_qt_canonical, qt_canonical. rewrite (checked_class_fast_same n ord _ q G ops); auto.
Qed.
Theorem checked_reduce_same n fuel ord p l t : ord_ok ord -> 1 <= n <= 31 -> Forall (pm_quad n) l ->
  checked_reduce_to_canonical_reps fuel ord p l t = reduce_to_canonical_reps fuel ord p l t.
Proof.
  intros Ho Hn Hl. unfold checked_reduce_to_canonical_reps, reduce_to_canonical_reps. destruct l as [|q0 l]; [reflexivity|].
  cbn [vget nth_error bind]. assert (q_size q0 = n) as -> by (inversion Hl as [|? ? H _]; apply H).
  destruct (checked_canonical_ops_op t) as (ops & -> & -> & _). rewrite (checked_group_same n) by (auto; lia).
  destruct (generate_symmetry_group _ _ _ _ _) as [G|] eqn:EG; [|reflexivity]. cbn [bind].
  match goal with |- bind ?x _ = bind ?y _ => assert (x = y) as -> end; auto.
  apply foldi_congr. intros i acc q Hq. rewrite (checked_canonical_same n ord _ q G t ops); auto.
  - now apply (proj1 (Forall_forall _ _) Hl).
  - apply (class_sound n ord (0 :: p) ops (symbolic_quad n) fuel G); auto; [lia|apply symbolic_i8].
Qed.
Theorem checked_equiv_same n fuel ord p x y t : ord_ok ord -> 1 <= n <= 31 -> pm_quad n x -> pm_quad n y ->
  checked_equiv fuel ord p x y t = equiv fuel ord p x y t.
Proof.
  intros Ho Hn Px Py. unfold checked_equiv, equiv. destruct (verify x t) as [[|]|]; cbn [bind guard]; auto. destruct (verify y t) as [[|]|]; cbn [bind guard]; auto.
  assert (Hc : supported t -> exists c1 c2, canon_of t x = Some c1 /\ canon_of t y = Some c2 /\ Forall (pm_quad n) [c1; c2]).
  { intros Ht. destruct (canon_of_spec n t x Ht Px ltac:(lia)) as (c1 & E1 & L1), (canon_of_spec n t y Ht Py ltac:(lia)) as (c2 & E2 & L2).
    exists c1, c2. split; auto. split; auto. constructor; [eapply CanonFacts.reach_pm; [apply Px|apply L1]|]. constructor; [eapply CanonFacts.reach_pm; [apply Py|apply L2]|constructor]. }
  destruct t; try reflexivity; (destruct Hc as (c1 & c2 & E1 & E2 & Hl); [unfold supported; tauto|]); cbn [canon_of] in E1, E2; rewrite E1, E2; cbn [bind];
    rewrite (checked_reduce_same n); auto.
Qed.

Lemma checked_class_part n ord p t ops q fuel : ord_ok ord -> 1 <= n <= 100 -> incl ops (type_ops t) -> pm_quad n q -> is_type t q ->
  debug_class fuel ord p q t (map checked_op ops) false = generate_equivalence_class fuel ord p q (map impl ops).
Proof.
  intros Ho Hn Hi Hq Ht. rewrite checked_class_ops. apply (class_same_of n); auto; [lia|now apply pm_i8|].
  intros x o Hx Hop. apply (reach_incl _ (type_ops t)) in Hx; auto.
  destruct (reach_type n t q x Hq ltac:(lia) Hx Ht) as [Px Tx]. rewrite (checked_op_same n).
  - apply (debug_type_op_same n); auto; lia.
  - now apply pm_i8.
  - apply (slots_min n); [now apply pm_i8|]. intros u I. apply pm_slots in Px as [_ Px]. destruct (proj1 (Forall_forall _ _) (Px u) _ I); discriminate.
Qed.
Theorem checked_reduce_equivalence_same n ord t ops l : ord_ok ord -> 1 <= n <= 31 -> incl ops (type_ops t) -> Forall (fun q => pm_quad n q /\ is_type t q) l ->
  exists fuel0, forall fuel p, fuel0 <= fuel -> checked_reduce_to_equivalence fuel ord p l t (map checked_op ops) = reduce_to_equivalence fuel ord p l (map impl ops).
Proof.
  intros Ho Hn Hi Hl. exists (class_fuel n). intros fuel p Hf. unfold checked_reduce_to_equivalence, reduce_to_equivalence.
  destruct l as [|q0 l0]; [reflexivity|]. set (l := q0 :: l0) in *. change (vget l 0) with (Some q0). cbn [bind].
  assert (q_size q0 = n) as -> by (inversion Hl as [|? ? [H _] _]; apply H). rewrite (checked_group_same n) by (auto; lia).
  destruct (symmetry_group_spec n ord (0 :: p) ops fuel Ho) as (G & -> & _ & HG); auto; [apply small_ok; lia|]. cbn [bind].
  match goal with |- bind ?x _ = bind ?y _ => assert (x = y) as -> end; auto.
  unfold collect_classes, foldi. apply foldi_congr. intros i acc q Hq. destruct (existsb (mem q) acc); auto.
  destruct (proj1 (Forall_forall _ _) Hl q Hq) as [Pq Tq]. rewrite (checked_class_fast_same n ord _ q G ops); auto; [|intros y; apply HG].
  destruct (fast_spec n ord (i :: 1 :: p) ops q G Ho ltac:(lia) (pm_i8 n q Pq) HG) as (c & -> & Nc & Hc). cbn [bind].
  rewrite (checked_class_part n) by (auto; lia).
  destruct (class_spec n ord (i :: 3 :: p) ops q fuel Ho (small_ok n _ ltac:(lia))) as (c' & -> & Nc' & Hc'); auto using pm_i8. cbn [bind].
  rewrite (same_hashset_true c c'); auto. intros y. now rewrite Hc, Hc'.
Qed.

(* ---- the search ---- *)
Lemma checked_join_same n fuel ord p ls t f r : ord_ok ord -> 1 <= n <= 31 -> three_types t -> match_pairs ls t f = Some r -> (forall q, In q r -> pm_quad n q) ->
  checked_join_pairs fuel ord p ls t f = debug_join_pairs fuel ord p ls t f.
Proof.
  intros Ho Hn Ht Em Hr. unfold checked_join_pairs, debug_join_pairs. rewrite Em. cbn [bind]. destruct (forallb has_sorted_rowsums r); [|reflexivity]. cbn [guard].
  destruct (canonical_list n t r Ht ltac:(lia) Hr) as (l & El & _ & B).
  assert (Hl : Forall (pm_quad n) (unique l)).
  { apply Forall_forall. intros x Hx. apply (proj1 (proj2 (unique_spec l) x)) in Hx. destruct (B x Hx) as (q & Hq & R). apply (CanonFacts.reach_pm n _ q x (Hr q Hq) R). }
  destruct Ht as [->|[->| ->]]; (change (traverse ns_canonical r = Some l) in El || change (traverse sn_ss_canonical r = Some l) in El); rewrite El; cbn [bind]; rewrite debug_reduce_same; now apply (checked_reduce_same n).
Qed.
Lemma extend_pm n l l' : Forall (pm_quad n) l -> extend_wts n l = Some l' -> Forall (pm_quad n) l'.
Proof.
  intros Hl E. destruct (extend_spec n l Hl) as (l2 & E2 & H). rewrite E in E2. injection E2 as <-. apply Forall_forall. intros c Hc.
  apply H in Hc as (x & Hx & Hc). eapply variants_pm; [|exact Hc]. now apply (proj1 (Forall_forall _ _) Hl).
Qed.
Lemma checked_find_write_same {L} (e : Env L) n t m pr : 1 <= n <= 31 -> env_ok e -> three_types t ->
  exists fuel0, forall fuel, fuel0 <= fuel -> exists f c, write_pairs fuel n t m pr [] = Some (f, c) /\
  (forall fuel' ord p, ord_ok ord -> checked_join_pairs fuel' ord p (e_ls e) t (sortpairs f) = join_pairs fuel' ord p (e_ls e) t (sortpairs f)) /\
  forall pl, pl_dirs pl = sortpairs f ->
    checked_find_write_place fuel (e_ord e) (e_path e) (e_ls e) n t pl = debug_find_write_place fuel (e_ord e) (e_path e) (e_ls e) n t pl.
Proof.
  intros Hn He Ht. destruct He as (Ho & Hls & He').
  assert (He : env_ok e) by (split; [exact Ho|split; [exact Hls|exact He']]).
  assert (H62 : (Z.of_nat n < 2 ^ 62)%Z) by (apply Z.lt_trans with 100%Z; [lia|reflexivity]).
  assert (W : exists f1, forall fuel, f1 <= fuel -> t = WilliamsonType -> forall f c, write_pairs fuel n t m pr [] = Some (f, c) ->
    forall result, join_pairs fuel (e_ord e) (0 :: e_path e) (e_ls e) t (sortpairs f) = Some result -> Forall (pm_quad n) result).
  { destruct (type_exists_dec n WilliamsonType ltac:(lia)) as [(q & P & T)|Hno].
    - destruct (search_classes n WilliamsonType m pr (e_ls e) (e_ord e) Hn (or_intror eq_refl) Hls Ho) as (f0 & H).
      { exists q. split; auto. apply (verify_type n); auto; lia. }
      exists f0. intros fuel Hf -> f c Ew result Ej. destruct (H fuel (0 :: e_path e) Hf) as (f' & c' & r & Ew' & Ej' & _ & A & _).
      rewrite Ew in Ew'. injection Ew' as <- <-. rewrite Ej in Ej'. injection Ej' as <-. apply Forall_forall. intros x Hx. now apply A.
    - destruct (search_none n WilliamsonType m pr (e_ls e) ltac:(lia) H62 ltac:(unfold searchable; tauto) Hls) as (f0 & H).
      { intros q P V. apply (Hno q P). apply (verify_type n); auto; lia. }
      exists f0. intros fuel Hf -> f c Ew result Ej. destruct (H fuel (e_ord e) (0 :: e_path e) Hf) as (f' & c' & Ew' & Ej').
      rewrite Ew in Ew'. injection Ew' as <- <-. congruence. }
  destruct W as (f1 & W). destruct (search_matches e n t m pr Hn He Ht) as (f2 & H2).
  destruct (search_spec n t m pr (e_ls e) ltac:(lia) H62 Ht Hls) as (f0 & H). exists (max f0 (max f1 f2)). intros fuel Hf.
  destruct (H fuel ltac:(lia)) as (f & c & r & Ew & Em & A & _). exists f, c. split; auto.
  destruct (H2 fuel ltac:(lia)) as (f' & c' & Ew' & Ed). rewrite Ew in Ew'. injection Ew' as <- <-.
  assert (J : forall fuel' ord p, ord_ok ord -> checked_join_pairs fuel' ord p (e_ls e) t (sortpairs f) = debug_join_pairs fuel' ord p (e_ls e) t (sortpairs f)).
  { intros fuel' ord p Ho'. apply (checked_join_same n fuel' ord p _ _ _ r); auto. intros q Hq. now apply A. }
  split; [intros fuel' ord p Ho'; rewrite J by auto; apply Ed|]. intros pl Hpl.
  unfold checked_find_write_place, debug_find_write_place. rewrite Hpl, J by auto.
  destruct (debug_join_pairs _ _ _ _ _ _) as [result|] eqn:Ej; [|reflexivity]. cbn [bind]. rewrite Ed in Ej.
  match goal with |- bind ?x _ = bind ?x _ => destruct x; [|reflexivity] end. cbn [bind].
  destruct (seq_lines result); [|reflexivity]. cbn [bind]. destruct (qseq_text result); [|reflexivity]. cbn [bind].
  destruct t; try reflexivity. assert (Hr : Forall (pm_quad n) result) by (apply (W fuel ltac:(lia) eq_refl f c Ew result Ej)).
  rewrite debug_extend_same by (intros q Hq; now apply (proj1 (Forall_forall _ _) Hr)).
  destruct (extend_wts n result) as [l2|] eqn:E2; [|reflexivity]. cbn [bind].
  rewrite (checked_reduce_same n), debug_reduce_same by (auto; apply (extend_pm n result l2); auto). reflexivity.
Qed.

Lemma checked_run_cmd {L} fuel (e : Env L) args c w : command_line (lit "rust" :: args) c ->
  checked_run_on fuel e args w = match checked_exec fuel e c w with Some w' => w' | None => w end.
Proof. intros H. unfold checked_run_on, checked_main. apply parse_args_iff in H. rewrite H. reflexivity. Qed.

Lemma checked_driver_sh_same {L} (e : Env L) n t y m pr h w : 1 <= n <= 31 -> env_ok e -> three_types t -> canonical_numeral y n ->
  pl_dirs (place_of w (type_word t) y) = [] ->
  exists fuel0, forall fuel, fuel0 <= fuel ->
    checked_driver_sh fuel e (type_word t) y (match_word m) pr h w = debug_driver_sh fuel e (type_word t) y (match_word m) pr h w.
Proof.
  intros Hn He Ht Hy Hd. assert (H64 := small_length n (proj2 Hn)). set (prm := str_to_rowsum_pairing pr).
  destruct (checked_find_write_same e n t m prm Hn He Ht) as (f0 & K). exists f0. intros fuel Hf. destruct (K fuel Hf) as (f & c & Ew & _ & G). clear K.
  unfold checked_driver_sh, debug_driver_sh. rewrite Hd. cbn [length Nat.eqb negb]. cbv zeta.
  set (w0 := match w (type_word t) y with Some _ => w | None => write w (type_word t) y new_place end).
  assert (H0 : w0 (type_word t) y = Some (place_of w (type_word t) y)).
  { unfold w0, place_of. destruct (w (type_word t) y) eqn:E; auto. apply write_same. }
  assert (CP : command_line (lit "rust" :: [lit "pairs"; type_word t; y; match_word m; pr]) (Pairs t (Z.of_nat n) m prm)).
  { apply cl_pairs; [now apply numeral_length_arg|]. now apply pairing_arg_iff. }
  assert (E1 : checked_run_on fuel e [lit "pairs"; type_word t; y; match_word m; pr] w0 = debug_run_on fuel e [lit "pairs"; type_word t; y; match_word m; pr] w0).
  { rewrite (checked_run_cmd fuel e _ _ _ CP), (debug_run_cmd fuel e _ _ _ CP). reflexivity. }
  assert (ER : debug_run_on fuel e [lit "pairs"; type_word t; y; match_word m; pr] w0 = run_on fuel e [lit "pairs"; type_word t; y; match_word m; pr] w0).
  { rewrite (debug_run_cmd fuel e _ _ _ CP), (run_on_cmd fuel e _ _ _ CP). reflexivity. }
  destruct (stage_pairs fuel e n t y H64 Hy w0 _ m pr f c H0 Hd Ew) as [W1 _]. rewrite <- ER in W1.
  destruct (stage_sort t y _ _ W1) as [W2 _]. clear W1. cbv zeta in W2.
  set (w2 := sort_place (type_word t) y (debug_run_on fuel e [lit "pairs"; type_word t; y; match_word m; pr] w0)) in W2.
  set (pl2 := set_dirs (set_dirs (place_of w (type_word t) y) f) _) in W2.
  assert (CJ : command_line (lit "rust" :: [lit "join"; type_word t; y]) (Join t (Z.of_nat n))) by (apply cl_join; now apply numeral_length_arg).
  assert (NY : usize_to_string (Z.of_nat n) = y) by (now apply num_y).
  assert (E2 : checked_run_on fuel e [lit "join"; type_word t; y] w2 = debug_run_on fuel e [lit "join"; type_word t; y] w2).
  { rewrite (checked_run_cmd fuel e _ _ _ CJ), (debug_run_cmd fuel e _ _ _ CJ). cbn [debug_exec checked_exec]. rewrite type_word_string, NY, W2. cbn [bind].
    rewrite Nat2Z.id, (G pl2 eq_refl). reflexivity. }
  assert (CQ : command_line (lit "rust" :: [lit "convert"; lit "qhm"; type_word t; y]) (ConvertQhm t (Z.of_nat n))) by (apply cl_convert_qhm; now apply numeral_length_arg).
  assert (EQ : forall w', checked_run_on fuel e [lit "convert"; lit "qhm"; type_word t; y] w' = debug_run_on fuel e [lit "convert"; lit "qhm"; type_word t; y] w').
  { intros w'. rewrite (checked_run_cmd fuel e _ _ _ CQ), (debug_run_cmd fuel e _ _ _ CQ). reflexivity. }
  assert (CH : command_line (lit "rust" :: [lit "convert"; lit "hm"; type_word t; y]) (ConvertHm t (Z.of_nat n))) by (apply cl_convert_hm; now apply numeral_length_arg).
  refine (same_steps (checked_run_on fuel e) (debug_run_on fuel e) (sort_place (type_word t) y) h _ _ _ _ _ E1 E2 _ EQ).
  rewrite (checked_run_cmd fuel e _ _ _ CH), (debug_run_cmd fuel e _ _ _ CH). reflexivity.
Qed.
Theorem checked_flags_same {L} (e : Env L) n t y c pr h (d : bool) w : 1 <= n <= 31 -> env_ok e -> three_types t -> canonical_numeral y n ->
  d = true \/ pl_dirs (place_of w (type_word t) y) = [] ->
  (exists q, pm_quad n q /\ is_type t q) \/ pl_seq (place_of w (type_word t) y) = None /\ pl_qts (place_of w (type_word t) y) = None ->
  exists fuel0, forall fuel, fuel0 <= fuel ->
    checked_driver_flags fuel e (type_word t) y c pr h d w = driver_flags fuel e (type_word t) y c pr h d w.
Proof.
  intros Hn He Ht Hy Hd Hq. destruct (debug_flags_same e n t y c pr h d w Hn He Ht Hy Hd Hq) as (f1 & H1).
  destruct (flags_start _ _ d w Hd) as (O & D & _). set (w1 := if d then cleanup (type_word t) y w else w) in *.
  destruct (checked_driver_sh_same e n t y (if c then CORRELATION else PSD) (match pr with Some r => r | None => lit "WZ" end) h w1 Hn He Ht Hy D) as (f0 & H).
  exists (max f0 f1). intros fuel Hf. rewrite <- H1 by lia. unfold checked_driver_flags, debug_driver_flags. rewrite match_flag. fold w1. apply H. lia.
Qed.

(* ---- from length 32 on: a panic ---- *)
Theorem checked_reduce_32 n ord p l t fuel : ord_ok ord -> 32 <= n -> Forall (fun x => q_size x = n) l ->
  checked_reduce_to_canonical_reps fuel ord p l t = None.
Proof.
  intros Ho Hn Hl. unfold checked_reduce_to_canonical_reps. destruct l as [|q l]; [reflexivity|].
  inversion Hl as [|? ? Hq _]; subst. cbn [vget nth_error bind].
  destruct (debug_symmetry_group _ _ _ _ _ _) as [G|] eqn:EG; cbn [bind]; [|reflexivity].
  apply class_start in EG; auto.
  rewrite (foldi_none _ _ q); [reflexivity|now left|]. intros i acc. unfold checked_qt_canonical.
  rewrite (checked_class_fast_none ord _ q (q_size q) G); auto. now destruct t.
Qed.
Lemma step_none ord p ops (o : Equivalence) q k : ord_ok ord -> In o ops -> o q = None -> class_step ord p ops (k, [q]) = None.
Proof.
  intros Ho Hi E. unfold class_step. rewrite (foldi_none _ _ q); [reflexivity| |].
  - apply ord_in; auto. now left.
  - intros i acc. apply (foldi_none _ _ o); [exact Hi|]. intros j acc'. now rewrite E.
Qed.
(* in odd lengths the group is found, and cannot be applied; in even ones it cannot be found *)
Theorem checked_panics_32 n ord p t : ord_ok ord -> 32 <= n ->
  if Nat.odd n && (n <=? 100) then exists fuel0, forall fuel, fuel0 <= fuel -> exists G,
    debug_symmetry_group fuel ord p n t (checked_canonical_ops t) = Some G /\ forall path q, q_size q = n -> checked_class_fast ord path q G = None
  else class_step ord p (map (fun o => o t true) (checked_canonical_ops t)) (0, [symbolic_quad n]) = None.
Proof.
  intros Ho Hn. destruct (checked_canonical_ops_op t) as (ops & -> & _ & Hneg & l & Hops). rewrite map_map.
  assert (S8 := symbolic_i8 n). destruct (Nat.odd n) eqn:On; [|cbn [andb]].
  - destruct (Nat.leb_spec n 100) as [H|H]; cbn [andb].
    + exists (class_fuel n). intros fuel Hf.
      assert (E : debug_symmetry_group fuel ord p n t (map checked_op ops) = generate_symmetry_group fuel ord p n (map impl ops)).
      { unfold debug_symmetry_group, generate_symmetry_group. rewrite checked_class_ops. apply (class_same_of n); auto.
        intros x o R I. rewrite (checked_op_same n); [apply debug_op_symbolic|apply (reach_i8 n ops _ x S8 R)|].
        assert (q_size x = n) as Sx by apply (reach_i8 n ops _ x S8 R).
        destruct (Hneg o I) as (N1 & N2 & N3 & N4). destruct o; cbn [negates]; try tauto. rewrite Sx, <- Nat.negb_odd, On. intros [C _]. discriminate. }
      rewrite E. destruct (symmetry_group_spec n ord p ops fuel Ho (small_ok n _ H) Hf) as (G & EG & _ & HG).
      exists G. split; auto. intros path q Hq. apply (checked_class_fast_none ord path q n G); auto. apply HG, rt_refl.
    + apply (step_none _ _ _ (checked_op Automorphism t true)); auto.
      * rewrite Hops. now left.
      * change (checked_op Automorphism t true (symbolic_quad n)) with (debug_op Automorphism t true (symbolic_quad n)). rewrite debug_op_symbolic.
        apply (automorphism_panics n); [apply symbolic_wf|exact H].
  - apply (step_none _ _ _ (checked_op EvenAlternatedNegation t true)); auto.
    + rewrite Hops. now right; left.
    + apply checked_op_none. cbn [negates]. split; [now rewrite <- Nat.negb_odd, (proj1 (symbolic_wf n)), On|].
      destruct (symbolic_min n Hn) as (u & E). exists u, (127 mod n). split; auto.
      assert (Even : Nat.even n = true) by (now rewrite <- Nat.negb_odd, On). apply Nat.even_spec in Even as (k & ->).
      clear E. pose proof (Nat.div_mod 127 (2 * k) ltac:(lia)) as D.
      destruct (Nat.odd (127 mod (2 * k))) eqn:O; [reflexivity|]. exfalso. rewrite <- Nat.negb_even in O. apply negb_false_iff, Nat.even_spec in O as (j & Ej).
      rewrite Ej in D. lia.
Qed.
Theorem checked_equiv_32 n ord p x y t fuel : ord_ok ord -> 32 <= n -> pm_quad n x -> pm_quad n y -> three_types t ->
  verify x t = Some true -> verify y t = Some true -> checked_equiv fuel ord p x y t = None.
Proof.
  intros Ho Hn Px Py Ht Vx Vy. apply supported_three in Ht. unfold checked_equiv. rewrite Vx, Vy. cbn [bind guard].
  destruct (canon_of_spec n t x Ht Px) as (c1 & E1 & L1); [lia|]. destruct (canon_of_spec n t y Ht Py) as (c2 & E2 & L2); [lia|].
  assert (Hl : Forall (fun x => q_size x = n) [c1; c2]).
  { constructor; [eapply CanonFacts.reach_pm; [apply Px|apply L1]|]. constructor; [eapply CanonFacts.reach_pm; [apply Py|apply L2]|constructor]. }
  destruct Ht as [->|[->| ->]]; cbn [canon_of] in E1, E2; rewrite E1, E2; cbn [bind]; now rewrite (checked_reduce_32 n).
Qed.
Theorem checked_search_32 n t m p ls : 32 <= n -> (Z.of_nat n < 2 ^ 62)%Z -> three_types t -> any_listing ls ->
  exists fuel0, forall fuel, fuel0 <= fuel -> exists f c, write_pairs fuel n t m p [] = Some (f, c) /\
    forall ord path fuel', ord_ok ord -> checked_join_pairs fuel' ord path ls t (sortpairs f) = None.
Proof.
  intros Hn H62 Ht Hls. destruct (search_spec n t m p ls ltac:(lia) H62 Ht Hls) as (f0 & H).
  exists f0. intros fuel Hf. destruct (H fuel Hf) as (f & c & r & Ew & Em & Snd & _). exists f, c. split; auto.
  intros ord path fuel' Ho. unfold checked_join_pairs. rewrite Em. cbn [bind]. destruct (forallb has_sorted_rowsums r); [|reflexivity]. cbn [guard].
  destruct (canonical_list n t r Ht ltac:(lia)) as (l & El & _ & B). { intros q Hq. now apply Snd. }
  assert (Hl : Forall (fun x => q_size x = n) (unique l)).
  { apply Forall_forall. intros x Hx. apply (proj1 (proj2 (unique_spec l) x)) in Hx.
    destruct (B x Hx) as (q & Hq & R). destruct (Snd q Hq) as (Pq & _). apply (CanonFacts.reach_pm n _ q x Pq R). }
  destruct Ht as [->|[->| ->]]; (change (traverse ns_canonical r = Some l) in El || change (traverse sn_ss_canonical r = Some l) in El); rewrite El; cbn [bind]; now apply (checked_reduce_32 n).
Qed.
Lemma fixed_steps {W T} (D : T -> W -> W) (S : W -> W) (h : bool) a j c q w0 w2 :
  S (D a w0) = w2 -> D j w2 = w2 -> D c w2 = w2 -> D q w2 = w2 ->
  D q (if h then D c (D j (S (D a w0))) else D j (S (D a w0))) = w2.
Proof. intros -> E2 E3 E4. rewrite E2. destruct h; [rewrite E3|]; exact E4. Qed.
Theorem checked_driver_32 {L} (e : Env L) n t y (c : bool) pr h (d : bool) w : 32 <= n -> (Z.of_nat n < 2 ^ 62)%Z -> env_ok e -> three_types t ->
  canonical_numeral y n -> d = true \/ pl_dirs (place_of w (type_word t) y) = [] ->
  pl_seq (place_of w (type_word t) y) = None -> pl_qts (place_of w (type_word t) y) = None ->
  exists fuel0, forall fuel, fuel0 <= fuel -> exists f k,
    write_pairs fuel n t (if c then CORRELATION else PSD) (str_to_rowsum_pairing (match pr with Some r => r | None => lit "WZ" end)) [] = Some (f, k) /\
    only w (checked_driver_flags fuel e (type_word t) y c pr h d w) (type_word t) y /\
    checked_driver_flags fuel e (type_word t) y c pr h d w (type_word t) y = Some (set_dirs (place_of w (type_word t) y) (sortpairs f)).
Proof.
  intros Hn H62 He Ht Hy Hd N1 N2. destruct He as (Ho & Hls & _).
  assert (H64 : (Z.of_nat n < 2 ^ 64)%Z) by (eapply Z.lt_trans; [exact H62|reflexivity]).
  set (m := if c then CORRELATION else PSD). set (pw := match pr with Some r => r | None => lit "WZ" end).
  destruct (checked_search_32 n t m (str_to_rowsum_pairing pw) (e_ls e) Hn H62 Ht Hls) as (f0 & H).
  exists f0. intros fuel Hf. destruct (H fuel Hf) as (f & k & Ew & Ej). exists f, k. split; [exact Ew|].
  destruct (flags_start _ _ d w Hd) as (O & D & D'). unfold checked_driver_flags. rewrite match_flag. fold m. fold pw.
  set (w1 := if d then cleanup (type_word t) y w else w) in *.
  assert (Epl : set_dirs (place_of w1 (type_word t) y) (sortpairs f) = set_dirs (place_of w (type_word t) y) (sortpairs f)).
  { unfold w1. destruct d; [rewrite cleanup_place|]; reflexivity. }
  rewrite <- Epl. unfold checked_driver_sh. rewrite D. cbn [length Nat.eqb negb]. cbv zeta.
  set (w0 := match w1 (type_word t) y with Some _ => w1 | None => write w1 (type_word t) y new_place end).
  assert (H0 : w0 (type_word t) y = Some (place_of w1 (type_word t) y) /\ only w1 w0 (type_word t) y).
  { unfold w0, place_of. destruct (w1 (type_word t) y) eqn:E; [split; auto; apply only_refl|split; [apply write_same|apply write_only]]. }
  destruct H0 as [H0 O0].
  assert (CP : command_line (lit "rust" :: [lit "pairs"; type_word t; y; match_word m; pw]) (Pairs t (Z.of_nat n) m (str_to_rowsum_pairing pw))).
  { apply cl_pairs; [now apply numeral_length_arg|]. now apply pairing_arg_iff. }
  assert (E1 : checked_run_on fuel e [lit "pairs"; type_word t; y; match_word m; pw] w0 = run_on fuel e [lit "pairs"; type_word t; y; match_word m; pw] w0).
  { rewrite (checked_run_cmd fuel e _ _ _ CP), (run_on_cmd fuel e _ _ _ CP). reflexivity. }
  destruct (stage_pairs fuel e n t y H64 Hy w0 _ m pw f k H0 D Ew) as [W1 O1].
  destruct (stage_sort t y _ _ W1) as [W2 O2]. clear W1. cbv zeta in W2, O2.
  set (w2 := sort_place (type_word t) y (run_on fuel e [lit "pairs"; type_word t; y; match_word m; pw] w0)) in *.
  set (pl2 := set_dirs (set_dirs (place_of w1 (type_word t) y) f) _) in W2.
  assert (NY : usize_to_string (Z.of_nat n) = y) by (now apply num_y).
  assert (S1 : pl_seq pl2 = None /\ pl_qts pl2 = None).
  { unfold pl2. cbn [set_dirs pl_seq pl_qts]. unfold w1. destruct d; [rewrite cleanup_place|]; auto. }
  destruct S1 as [S1 S2].
  assert (CJ : command_line (lit "rust" :: [lit "join"; type_word t; y]) (Join t (Z.of_nat n))) by (apply cl_join; now apply numeral_length_arg).
  assert (E2 : checked_run_on fuel e [lit "join"; type_word t; y] w2 = w2).
  { rewrite (checked_run_cmd fuel e _ _ _ CJ). cbn [checked_exec]. rewrite type_word_string, NY, W2. cbn [bind].
    unfold checked_find_write_place. change (pl_dirs pl2) with (sortpairs f). rewrite Ej by auto. reflexivity. }
  assert (CQ : command_line (lit "rust" :: [lit "convert"; lit "qhm"; type_word t; y]) (ConvertQhm t (Z.of_nat n))) by (apply cl_convert_qhm; now apply numeral_length_arg).
  assert (CH : command_line (lit "rust" :: [lit "convert"; lit "hm"; type_word t; y]) (ConvertHm t (Z.of_nat n))) by (apply cl_convert_hm; now apply numeral_length_arg).
  assert (E3 : checked_run_on fuel e [lit "convert"; lit "hm"; type_word t; y] w2 = w2).
  { rewrite (checked_run_cmd fuel e _ _ _ CH). cbn [checked_exec debug_exec]. rewrite type_word_string, NY, W2. cbn [bind].
    replace (match t with WilliamsonType => pl_qts pl2 | _ => pl_seq pl2 end) with (@None Lines); [reflexivity|]. rewrite S1, S2. now destruct t. }
  assert (E4 : checked_run_on fuel e [lit "convert"; lit "qhm"; type_word t; y] w2 = w2).
  { rewrite (checked_run_cmd fuel e _ _ _ CQ). cbn [checked_exec debug_exec exec]. rewrite type_word_string, NY, W2. cbn [bind]. rewrite S1. reflexivity. }
  assert (A := fixed_steps (checked_run_on fuel e) (sort_place (type_word t) y) h _ _ _ _ _ w2 (f_equal (sort_place (type_word t) y) E1) E2 E3 E4).
  match goal with |- only _ ?x _ _ /\ _ => assert (Ex : x = w2) by exact A end. rewrite Ex. split; [|exact W2].
  eapply only_trans; [exact O|]. eapply only_trans; [exact O0|]. eapply only_trans; [exact O1|exact O2].
Qed.
Theorem checked_class_member n ord p t q fuel : ord_ok ord -> 1 <= n <= 100 -> pm_quad n q -> is_type t q ->
  debug_class fuel ord p q t (checked_equivalences t) false = generate_equivalence_class fuel ord p q (equivalences t).
Proof.
  intros Ho Hn Hq Ht. replace (checked_equivalences t) with (map checked_op (type_ops t)) by (destruct t; reflexivity).
  rewrite equivalences_impl. apply (checked_class_part n); auto using incl_refl.
Qed.
