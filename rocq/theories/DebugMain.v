(* driver.sh with its flags, qhm-all and reduce_to_equivalence in a debug build. *)
From Coq Require Import Ascii String List ZArith Bool Arith Lia Relations Permutation.
From Verif Require Import Base BaseFacts Quat ModelSequence ModelWilliamson ModelEquivalence ModelFind ModelMatrices ModelGraph ModelRowsum ModelMatching ModelWrite ModelMain ModelDebug.
From Verif Require Import Convert TextFacts PrintFacts FindQuadFacts SeqFacts SpecDebug SpecEquiv OpFacts TypeFacts EquivFacts EquivThms FastFacts FindUniqueFacts OrderFacts CanonFacts NsFacts ReduceFacts ExtendFacts DriverFacts RowsumFacts WriteFacts FolderFacts SearchThms ArgFacts MainFacts MainThms DriverMain QtWt DebugFacts DebugThms SpecRowsum SpecGraph SpecSearch SpecPrint SpecMain Spec.
Import ListNotations.
Open Scope nat_scope.
Notation length := List.length.

Theorem debug_flags_same {L} (e : Env L) n t y c pr h (d : bool) w : 1 <= n <= 31 -> env_ok e -> three_types t -> canonical_numeral y n ->
  d = true \/ pl_dirs (place_of w (type_word t) y) = [] ->
  (exists q, pm_quad n q /\ is_type t q) \/ pl_seq (place_of w (type_word t) y) = None /\ pl_qts (place_of w (type_word t) y) = None ->
  exists fuel0, forall fuel, fuel0 <= fuel ->
    debug_driver_flags fuel e (type_word t) y c pr h d w = driver_flags fuel e (type_word t) y c pr h d w.
Proof.
  intros Hn He Ht Hy Hd Hq. destruct (flags_start _ _ d w Hd) as (O & D & _).
  set (w1 := if d then cleanup (type_word t) y w else w) in *.
  destruct (debug_driver_sh_same e n t y (if c then CORRELATION else PSD) (match pr with Some r => r | None => lit "WZ" end) h w1 Hn He Ht Hy D) as (f0 & H).
  { destruct Hq as [Hq|[Hq1 Hq2]]; [now left|right]. unfold w1. destruct d; [|auto]. rewrite cleanup_place. auto. }
  exists f0. intros fuel Hf. unfold debug_driver_flags, driver_flags. rewrite match_flag. fold w1. now apply H.
Qed.

(* ---- equivalent_to, canonical representative ---- *)
Theorem debug_equivalent_to_same n fuel ord p q1 q2 t : ord_ok ord -> 1 <= n <= 100 -> pm_quad n q1 -> is_type t q1 ->
  debug_equivalent_to fuel ord p q1 q2 t = equivalent_to fuel ord p q1 q2 t.
Proof. intros Ho Hn P T. unfold debug_equivalent_to, equivalent_to. now rewrite (debug_class_member n). Qed.
Theorem debug_representative_same n fuel ord p q t : ord_ok ord -> 1 <= n <= 100 -> pm_quad n q -> is_type t q ->
  debug_canonical_representative fuel ord p q t = generate_canonical_representative fuel ord p q t.
Proof. intros Ho Hn P T. unfold debug_canonical_representative, generate_canonical_representative. now rewrite (debug_class_member n). Qed.
Theorem debug_nonmember n fuel ord p q q2 t : ord_ok ord -> three_types t -> 1 <= n <= 100 -> pm_quad n q -> ~ is_type t q ->
  debug_equivalent_to fuel ord p q q2 t = None /\ debug_canonical_representative fuel ord p q t = None.
Proof.
  intros Ho Ht Hn P T. unfold debug_equivalent_to, debug_canonical_representative. now rewrite !(debug_class_panics n).
Qed.

(* ---- qhm-all ---- *)
Lemma debug_union_same n fuel ord p l t : ord_ok ord -> 1 <= n <= 100 -> Forall (fun q => pm_quad n q /\ is_type t q) l ->
  debug_equivalent_quad_seqs fuel ord p l t = generate_equivalent_quad_seqs fuel ord p l t.
Proof.
  intros Ho Hn P. unfold debug_equivalent_quad_seqs, generate_equivalent_quad_seqs, foldi.
  match goal with |- bind ?x _ = bind ?y _ => assert (x = y) as -> end; auto.
  apply foldi_congr. intros i res q Hq. destruct (mem q res); auto. destruct (proj1 (Forall_forall _ _) P q Hq) as [Pq Tq].
  now rewrite (debug_class_member n).
Qed.
Theorem debug_qhm_all_same n fuel ord p t r lines : ord_ok ord -> 1 <= n <= 100 -> Forall (fun q => pm_quad n q /\ is_type t q) r -> Forall2 line_of_quad r lines ->
  debug_qhm_write_all fuel ord p t lines = qhm_write_all fuel ord p t lines.
Proof.
  intros Ho Hn P F. assert (P1 : Forall (pm_quad n) r) by (eapply Forall_impl; [|exact P]; cbn; tauto).
  destruct (lines_read n r lines P1 F) as (seqs & _ & _ & E). unfold debug_qhm_write_all, qhm_write_all. rewrite E. cbn [bind].
  destruct (traverse QuadSeq_to_string r); cbn [bind]; auto. now rewrite (debug_union_same n).
Qed.
(* a line that is not of the type stops the command *)
Lemma debug_union_panics n fuel ord p l t x : ord_ok ord -> three_types t -> 1 <= n <= 100 -> Forall (pm_quad n) l -> In x l -> ~ is_type t x ->
  class_fuel n <= fuel -> debug_equivalent_quad_seqs fuel ord p l t = None.
Proof.
  intros Ho Ht Hn P Hx Hno Hf. unfold debug_equivalent_quad_seqs, foldi.
  assert (G : forall l i res, Forall (pm_quad n) l -> In x l -> (forall y, In y res -> is_type t y) ->
    foldi_from i (fun i res q => if mem q res then Some res
      else let* class := debug_class fuel ord (0 :: i :: p) q t (debug_equivalences t) false in
           Some (insert_all (ord (1 :: i :: p) class) res)) l res = None).
  { clear l P Hx. induction l as [|q l IH]; intros i res P Hx Hr; [destruct Hx|]. inversion P as [|? ? Pq Pl]; subst. cbn [foldi_from].
    destruct (mem q res) eqn:Em; cbn [bind].
    { apply IH; auto. destruct Hx as [->|Hx]; auto. exfalso. apply Hno, Hr. now apply mem_in. }
    destruct (debug_class fuel ord (0 :: i :: p) q t (debug_equivalences t) false) as [class|] eqn:Ec; cbn [bind]; auto.
    assert (V := verify_spec n q t Pq ltac:(lia)).
    assert (T : is_type t q).
    { destruct V as (b & _ & Hb). destruct b; [now apply Hb|]. rewrite (debug_class_panics n) in Ec; auto; [discriminate|]. intros T. apply Hb in T. discriminate. }
    apply IH; auto. { destruct Hx as [->|Hx]; auto. contradiction. }
    intros y Hy. apply insert_all_in in Hy as [Hy|Hy]; auto. apply ord_in in Hy; auto.
    rewrite (debug_class_member n), equivalences_impl in Ec; auto.
    destruct (class_spec n ord (0 :: i :: p) (type_ops t) q fuel Ho (small_ok n _ (proj2 Hn))) as (c & E & _ & Hc); auto using pm_i8.
    rewrite E in Ec. injection Ec as <-. apply Hc in Hy. apply (reach_type n t q y Pq ltac:(lia) Hy T). }
  rewrite (G l 0 [] P Hx); [reflexivity|intros y []].
Qed.
Lemma debug_qhm_all_panics_at n ord t r lines x fuel p : ord_ok ord -> three_types t -> 1 <= n <= 100 -> Forall (pm_quad n) r -> In x r -> ~ is_type t x ->
  Forall2 line_of_quad r lines -> class_fuel n <= fuel -> debug_qhm_write_all fuel ord p t lines = None.
Proof.
  intros Ho Ht Hn P Hx Hno F Hf. destruct (lines_read n r lines P F) as (seqs & _ & _ & E).
  unfold debug_qhm_write_all. rewrite E. cbn [bind]. destruct (traverse QuadSeq_to_string r); cbn [bind]; auto.
  now rewrite (debug_union_panics n fuel ord p r t x).
Qed.
Theorem debug_qhm_all_panics n ord t r lines x : ord_ok ord -> three_types t -> 1 <= n <= 100 -> Forall (pm_quad n) r -> In x r -> ~ is_type t x ->
  Forall2 line_of_quad r lines -> exists fuel0, forall fuel p, fuel0 <= fuel -> debug_qhm_write_all fuel ord p t lines = None.
Proof. intros. exists (class_fuel n). intros fuel p Hf. now apply (debug_qhm_all_panics_at n ord t r lines x). Qed.
(* ---- qhm-all after a search for Williamson sequences ---- *)
Lemma reach_W_WT n x y : 1 <= n <= 100 -> pm_quad n x -> is_WT x -> reach (type_ops Williamson) x y -> pm_quad n y /\ is_WT y.
Proof.
  intros Hn P T R. apply clos_rt_rtn1 in R. induction R as [|y z (o & Ho & Hv) _ [IH1 IH2]]; auto.
  destruct (all_ops_preserve n WilliamsonType y o) as (l & E & H); auto; try lia.
  { now apply (verify_type n). }
  { intros ->. exfalso. cbn in Ho. intuition discriminate. }
  destruct (impl_computes n o y (proj1 IH1) (fun _ => proj2 Hn)) as (l' & E' & _ & H'). rewrite E in E'. injection E' as <-.
  apply H' in Hv. destruct (H z Hv) as [Pz Vz]. split; auto. apply (verify_type n) in Vz; auto; lia.
Qed.
Lemma qhm_all_W_total n ord r lines fuel p : 1 <= n <= 100 -> ord_ok ord -> Forall (fun q => pm_quad n q /\ is_WT q) r -> Forall2 line_of_quad r lines ->
  class_fuel n <= fuel -> exists s, qhm_write_all fuel ord p Williamson lines = Some s.
Proof.
  intros Hn Ho P F Hf. assert (Hn1 : 1 <= n) by lia.
  assert (P1 : Forall (pm_quad n) r) by (eapply Forall_impl; [|exact P]; cbn; tauto).
  destruct (lines_read n r lines P1 F) as (seqs & _ & _ & E).
  destruct (equivalent_quad_seqs_at n ord Williamson r fuel p Ho) as (members & Em & Nd & M); auto; [eapply Forall_impl; [|exact P1]; intros; now apply pm_i8|lia|].
  assert (Q : Forall (fun q => pm_quad n q /\ is_QT q) members).
  { apply Forall_forall. intros y Hy. apply M in Hy as (x & Hx & R). apply (proj1 (Forall_forall _ _) P) in Hx as [Px Tx].
    destruct (reach_W_WT n x y Hn Px Tx R) as [Py Ty]. split; auto. now apply WT_QT. }
  unfold qhm_write_all. rewrite E. cbn [bind].
  assert (T : exists l, traverse QuadSeq_to_string r = Some l).
  { clear -P1. induction P1 as [|q r Hq P1 [l E]]; [now exists []|]. cbn [traverse]. rewrite (quad_to_text n q Hq). cbn [bind]. rewrite E. now eexists. }
  destruct T as (l & El). rewrite El. cbn [bind]. rewrite Em. cbn [bind]. generalize (@nil ascii).
  clear M Em Nd. induction Q as [|q members [Pq Tq] Q IH]; intros z; cbn [fold_m]; [eauto|].
  destruct (quad_text_total n q Pq) as (v & line & E1 & E2).
  destruct (line_reads n q line Pq) as (s & Es & _ & _ & Sz & Ln & F24); [now exists v|].
  destruct (qhm_of_quad n q s Pq Hn1 Tq Es Sz Ln F24) as (h & d & txt & Eh & _ & Ed & N & Et).
  rewrite Es. cbn [bind]. rewrite Eh. cbn [bind]. rewrite Ed. cbn [bind]. rewrite Et. cbn [bind]. apply IH.
Qed.

Theorem debug_run_qhm_all {L} (e : Env L) n t y pl w r lines : 1 <= n <= 100 -> env_ok e -> canonical_numeral y n -> w (type_word t) y = Some pl ->
  pl_seq pl = Some lines -> Forall (fun q => pm_quad n q /\ is_type t q) r -> Forall2 line_of_quad r lines ->
  forall fuel, debug_main fuel e [chars "rust"; chars "qhm-all"; type_word t; y] w = run_main fuel e [chars "rust"; chars "qhm-all"; type_word t; y] w.
Proof.
  intros Hn (Ho & _) Hy Hw Hs P F fuel.
  assert (H64 : (Z.of_nat n < 2 ^ 64)%Z) by (assert (Z.of_nat n <= 100)%Z by lia; assert (2 ^ 64 = 18446744073709551616)%Z by reflexivity; lia).
  assert (K : command_line [chars "rust"; chars "qhm-all"; type_word t; y] (QhmAll t (Z.of_nat n))) by (apply cl_qhm_all; now apply numeral_length_arg).
  apply parse_args_iff in K. unfold debug_main, run_main. rewrite K. cbn [bind exec debug_exec]. rewrite type_word_string, (num_y n y Hy), Hw. cbn [bind].
  rewrite Hs. cbn [bind]. now rewrite (debug_qhm_all_same n fuel (e_ord e) (e_path e) t r lines).
Qed.

Theorem debug_qhm_all_ws {L} (e : Env L) n y c pr h d w : 3 <= n <= 31 -> env_ok e -> canonical_numeral y n ->
  d = true \/ pl_dirs (place_of w (chars "ws") y) = [] -> (exists q, pm_quad n q /\ is_W q) ->
  exists fuel0, forall fuel, fuel0 <= fuel ->
    let w' := driver_flags fuel e (chars "ws") y c pr h d w in
    debug_main fuel e [chars "rust"; chars "qhm-all"; chars "ws"; y] w' = None /\
    exists w'', run_main fuel e [chars "rust"; chars "qhm-all"; chars "ws"; y] w' = Some w''.
Proof.
  intros Hn He Hy Hd Hq.
  destruct (flags_W e n y c pr h d w ltac:(lia) He Hy Hd Hq) as (f0 & H).
  assert (H64 := small_length n ltac:(lia)). destruct He as (Ho & _).
  assert (K : command_line [chars "rust"; chars "qhm-all"; chars "ws"; y] (QhmAll Williamson (Z.of_nat n))) by (apply (cl_qhm_all _ Williamson); now apply numeral_length_arg).
  apply parse_args_iff in K.
  exists (max f0 (class_fuel n)). intros fuel Hf. destruct (H fuel ltac:(lia)) as (w' & pl & r & -> & _ & W & C & (lines & S & F & _) & _ & N).
  destruct (N ltac:(lia)) as [N' _]. clear N.
  assert (P : Forall (fun q => pm_quad n q /\ is_WT q) r).
  { apply Forall_forall. intros x Hx. destruct C as (_ & C & _). destruct (C x Hx) as (z & Pz & Tz & R & _).
    apply (reach_type n WilliamsonType z x Pz ltac:(lia) R). apply (W_WT n); auto. apply Pz. }
  assert (exists x, In x r) as (x & Hx). { destruct C as (_ & _ & C), Hq as (q & Pq & Tq). destruct (C q Pq Tq) as (x & Hx & _). eauto. }
  unfold debug_main, run_main. rewrite K. cbn [bind exec debug_exec].
  change (seqtype_to_string Williamson) with (chars "ws"). rewrite (num_y n y Hy), W. cbn [bind]. rewrite S. cbn [bind].
  rewrite (debug_qhm_all_panics_at n (e_ord e) Williamson r lines x); auto; try lia.
  - split; auto. destruct (qhm_all_W_total n (e_ord e) r lines fuel (e_path e) ltac:(lia) Ho P F ltac:(lia)) as (s & ->). cbn [bind]. eauto.
  - right; now right.
  - eapply Forall_impl; [|exact P]; cbn; tauto.
Qed.

(* ---- reduce_to_equivalence ---- *)
Lemma same_hashset_true l m : NoDup l -> NoDup m -> same_set l m -> same_hashset l m = true.
Proof.
  intros Nl Nm H. unfold same_hashset. apply andb_true_iff. split.
  - apply Nat.eqb_eq, Nat.le_antisymm; apply NoDup_incl_length; auto; intros x Hx; now apply H.
  - apply forallb_forall. intros x Hx. apply mem_in. now apply H.
Qed.
Lemma same_hashset_false l m y : In y l -> ~ In y m -> same_hashset l m = false.
Proof.
  intros Hy Hn. unfold same_hashset. apply andb_false_iff. right. destruct (forallb (fun x => mem x m) l) eqn:E; auto.
  exfalso. apply Hn, mem_in. now apply (proj1 (forallb_forall _ _) E).
Qed.
Lemma debug_class_part n ord p t ops q fuel : ord_ok ord -> 1 <= n <= 100 -> incl ops (type_ops t) -> pm_quad n q -> is_type t q ->
  debug_class fuel ord p q t (map debug_op ops) false = generate_equivalence_class fuel ord p q (map impl ops).
Proof.
  intros Ho Hn Hi Hq Ht. apply (debug_class_same n); auto; [lia|now apply pm_i8|].
  intros x o Hx Hop. apply (reach_incl _ (type_ops t)) in Hx; auto.
  destruct (reach_type n t q x Hq ltac:(lia) Hx Ht) as [Px Tx]. apply (debug_op_passes n); auto; try lia.
  intros y Hy. apply asserted_variant in Hy. apply (variant_type n t o x y); auto; lia.
Qed.
Theorem debug_reduce_equivalence_same n ord t ops l : ord_ok ord -> 1 <= n <= 31 -> incl ops (type_ops t) -> Forall (fun q => pm_quad n q /\ is_type t q) l ->
  exists fuel0, forall fuel p, fuel0 <= fuel -> debug_reduce_to_equivalence fuel ord p l t (map debug_op ops) = reduce_to_equivalence fuel ord p l (map impl ops).
Proof.
  intros Ho Hn Hi Hl. exists (class_fuel n). intros fuel p Hf. unfold debug_reduce_to_equivalence, reduce_to_equivalence.
  destruct l as [|q0 l0]; [reflexivity|]. set (l := q0 :: l0) in *. change (vget l 0) with (Some q0). cbn [bind].
  rewrite debug_group_same. assert (q_size q0 = n) as -> by (inversion Hl as [|? ? [H _] _]; apply H).
  destruct (symmetry_group_spec n ord (0 :: p) ops fuel Ho) as (G & -> & _ & HG); auto; [apply small_ok; lia|]. cbn [bind].
  match goal with |- bind ?x _ = bind ?y _ => assert (x = y) as -> end; auto.
  unfold collect_classes, foldi. apply foldi_congr. intros i acc q Hq. destruct (existsb (mem q) acc); auto.
  destruct (proj1 (Forall_forall _ _) Hl q Hq) as [Pq Tq].
  destruct (fast_spec n ord (i :: 1 :: p) ops q G Ho ltac:(lia) (pm_i8 n q Pq) HG) as (c & -> & Nc & Hc). cbn [bind].
  rewrite (debug_class_part n) by (auto; lia).
  destruct (class_spec n ord (i :: 3 :: p) ops q fuel Ho (small_ok n _ ltac:(lia))) as (c' & -> & Nc' & Hc'); auto using pm_i8. cbn [bind].
  rewrite (same_hashset_true c c'); auto. intros y. now rewrite Hc, Hc'.
Qed.
(* at length 32 the assertion fails *)
Theorem debug_reduce_equivalence_32 ord t q l : ord_ok ord -> pm_quad 32 q -> is_type t q ->
  exists fuel0, forall fuel p, fuel0 <= fuel -> debug_reduce_to_equivalence fuel ord p (q :: l) t (debug_equivalences t) = None.
Proof.
  intros Ho Pq Tq. exists (class_fuel 32). intros fuel p Hf. unfold debug_reduce_to_equivalence.
  change (vget (q :: l) 0) with (Some q). cbn [bind]. rewrite debug_equivalences_op, debug_group_same, (proj1 (proj1 Pq)).
  destruct (fast_wrong_32 ord (0 :: p) (0 :: 1 :: p) t q fuel Ho Pq Tq Hf) as (G & r & y & EG & Er & Hy & Hno).
  rewrite equivalences_impl in EG. rewrite EG. cbn [bind]. unfold collect_classes, foldi. cbn [foldi_from existsb]. rewrite Er. cbn [bind].
  rewrite (debug_class_part 32) by (auto using incl_refl; lia).
  destruct (class_spec 32 ord (0 :: 3 :: p) (type_ops t) q fuel Ho (small_ok 32 _ ltac:(lia))) as (c' & -> & _ & Hc'); auto using pm_i8. cbn [bind].
  rewrite (same_hashset_false r c' y); auto. now rewrite Hc'.
Qed.

(* ---- the operations of a type, and all fourteen of them ---- *)
Theorem debug_type_op_same n t o q : 1 <= n -> (o = Automorphism -> n <= 100) -> In o (type_ops t) -> pm_quad n q -> is_type t q ->
  debug_op o t false q = impl o q.
Proof.
  intros Hn Hok Ho P T. apply (debug_op_passes n); auto. intros y Hy. apply asserted_variant in Hy. now apply (variant_type n t o q y).
Qed.
Theorem debug_any_op_same n t o q : 1 <= n -> t = QuaternionType \/ t = WilliamsonType -> (o = Automorphism -> n <= 100) ->
  (o = AlternatedNegation -> Nat.even n = true) -> pm_quad n q -> is_type t q -> debug_op o t false q = impl o q.
Proof.
  intros Hn Ht Hok Ha P T. apply (debug_op_passes n); auto. intros y Hy. apply asserted_variant in Hy.
  destruct (all_ops_preserve n t q o) as (l & E & H); auto. { now apply (verify_type n). }
  destruct (impl_computes n o q (proj1 P) Hok) as (l' & E' & _ & H'). rewrite E in E'. injection E' as <-.
  apply H' in Hy. destruct (H y Hy) as [Py Vy]. now apply (verify_type n) in Vy.
Qed.
