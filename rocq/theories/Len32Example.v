(* Length 32: the search reports a quadruple that is not a solution. *)
From Coq Require Import Ascii String List ZArith Lia Arith Bool Relations.
From Verif Require Import Base BaseFacts Sums ModelSequence ModelWilliamson ModelEquivalence SpecEquiv
  SeqFacts Convert OpFacts EquivFacts EquivThms TypeFacts FastFacts OrderFacts CanonFacts NsFacts ReduceFacts WsFacts Len32Facts Len32Thms
  ModelFourier ModelMatching ModelRowsum SpecRowsum RowsumFacts ModelWrite WriteFacts FolderFacts SearchThms ExtendFacts DriverFacts SpecSearch Spec.
Import ListNotations.

Open Scope Z_scope.

Definition pms (s : string) : list Z := map (fun c => if Ascii.eqb c "+"%char then 1 else -1) (list_ascii_of_string s).
(* a solution of the three types whose row sums are in normal form *)
Definition x32 : QuadSeq := mkQuad 32
  (pms "++---+--++++--+-+-+--++++--+---+") (pms "++---++++--+--+-+-+--+--++++---+")
  (pms "+-+-++-++++-++--+--++-++++-++-+-") (pms "+++++++-+---+--+++--+---+-++++++").
(* its canonical form under changes of sign and order, which is the same for the three types *)
Definition c32 : QuadSeq := mkQuad 32
  (pms "-------+-+++-++---++-+++-+------") (pms "--+++----++-++-+-+-++-++----+++-")
  (pms "--+++-++----++-+-+-++----++-+++-") (pms "-+-+--+----+--++-++--+----+--+-+").
(* an equivalent solution, and its canonical form *)
Definition y32 : QuadSeq := mkQuad 32
  (pms "+---++--+++++-+++++-+++++--++---") (pms "+++++---+++-++--+--++-+++---++++")
  (pms "++-+--+-+--+--+++++--+--+-+--+-+") (pms "+++---+-+--+-+-+++-+-+--+-+---++").
Definition d32 : QuadSeq := mkQuad 32
  (pms "-----+++---+--++-++--+---+++----") (pms "---+++-+-++-+-+---+-+-++-+-+++--")
  (pms "--+-++-+-++-++-----++-++-+-++-+-") (pms "-+++--++-----+-----+-----++--+++").
(* the least first sequence of the equivalent quadruples *)
Definition b32 : list Z := pms "-------------+-+++-++---++-+++-+".

Ltac pm32 := unfold pm_quad, wf, pm1; repeat split; vm_compute; repeat (apply Forall_cons || apply Forall_nil);
  (left; reflexivity) || (right; reflexivity).
Lemma x32_pm : pm_quad 32 x32. Proof. pm32. Qed.
Lemma c32_pm : pm_quad 32 c32. Proof. pm32. Qed.
Lemma y32_pm : pm_quad 32 y32. Proof. pm32. Qed.
Lemma d32_pm : pm_quad 32 d32. Proof. pm32. Qed.

Lemma x32_type t : supported t -> verify x32 t = Some true.
Proof. intros [->|[->| ->]]; vm_compute; reflexivity. Qed.
Lemma y32_type t : supported t -> verify y32 t = Some true.
Proof. intros [->|[->| ->]]; vm_compute; reflexivity. Qed.
Lemma c32_complementary : complementary c32.
Proof.
  apply (is_type_complementary QuaternionType). apply (verify_true 32); [exact c32_pm|lia|]. vm_compute. reflexivity.
Qed.
Lemma x32_canon t : supported t -> canon_of t x32 = Some c32.
Proof. intros [->|[->| ->]]; vm_compute; reflexivity. Qed.
Lemma y32_canon t : supported t -> canon_of t y32 = Some d32.
Proof. intros [->|[->| ->]]; vm_compute; reflexivity. Qed.
Lemma x32_rowsums t : normal_rowsums t (totals x32).
Proof. vm_compute. repeat split; discriminate. Qed.

Lemma c32_bounded : forallb (bounded b32) [q_a c32; q_b c32; q_c c32; q_d c32] = true.
Proof. vm_compute. reflexivity. Qed.
Lemma d32_bounded : forallb (bounded b32) [q_a d32; q_b d32; q_c d32; q_d d32] = true.
Proof. vm_compute. reflexivity. Qed.
Lemma d32_flip_bounded : bounded b32 (q_d (flip_last d32)) = true.
Proof. vm_compute. reflexivity. Qed.

Definition word32 : word := [All (Dil 29); All (Rot 8)].
Lemma word32_ok t : opword (pos_ops t) 32 word32.
Proof.
  change word32 with (([] ++ [All (Dil 29)]) ++ [All (Rot 8)]).
  apply (ow_app _ _ _ UniformShift); [apply (ow_app _ _ _ Automorphism); [constructor| |]| |].
  - destruct t; cbn; tauto.
  - cbn [variants]. apply in_map_iff. exists 29%nat. split; auto. apply filter_In. split; [apply in_seq; lia|reflexivity].
  - destruct t; cbn; tauto.
  - cbn [variants]. apply in_map_iff. exists 8%nat. split; auto. apply in_seq. lia.
Qed.

Lemma c32_candidate t : supported t -> exists c, candidate t c32 c /\ lex (q_a c) b32.
Proof.
  intros Ht.
  destruct (fast_32 t c32 word32 c32_pm (word32_ok t)) as [P _].
  destruct (canon_of_spec 32 t _ Ht P) as (c & E & _); [lia|].
  exists c. split; [exists word32; split; [apply word32_ok|exact E]|].
  assert (match canon_of t (qmap (phi c32) (wact word32 (symbolic_quad 32))) with Some c => lexb (q_a c) b32 | None => false end = true) as H.
  { destruct Ht as [->|[->| ->]]; vm_compute; reflexivity. }
  rewrite E in H. now apply lexb_lex.
Qed.

Lemma c32_wrong t m : supported t -> least (candidate t c32) m -> lex (q_a m) b32 /\ ~ complementary m.
Proof.
  intros Ht Hm. destruct (c32_candidate t Ht) as (c & Cc & L).
  exact (wrong_representative t b32 c32 c m Ht c32_pm c32_complementary c32_bounded Cc L Hm).
Qed.

(* ---- the list before the reduction ---- *)

Lemma traverse_in {A B} (f : A -> option B) l r x y : traverse f l = Some r -> In x l -> f x = Some y -> In y r.
Proof.
  revert r. induction l as [|a l IH]; intros r E Hx Ey; [destruct Hx|]. cbn [traverse] in E.
  apply bind_some in E as (b & Eb & E). apply bind_some in E as (r' & Er & E). injection E as <-.
  destruct Hx as [->|Hx]; [left; congruence|right; eauto].
Qed.

Lemma search_list_32 t m p ls : supported t -> any_listing ls ->
  exists fuel0 f c l, (forall fuel, (fuel0 <= fuel)%nat -> write_pairs fuel 32 t m p [] = Some (f, c)) /\
    (forall fuel ord path, join_pairs fuel ord path ls t (sortpairs f) = reduce_to_canonical_reps fuel ord path (unique l) t) /\
    (forall x, In x l -> pm_quad 32 x /\ complementary x) /\ In c32 l.
Proof.
  intros Ht Hls. assert (searchable t) as Hs by (unfold searchable; destruct Ht as [->|[->| ->]]; tauto).
  assert (1 <= 32)%nat as Hn by lia. assert (Z.of_nat 32 < 2 ^ 62) as Hn2 by reflexivity.
  destruct (search_spec 32 t m p ls Hn Hn2 Hs Hls) as (f0 & H).
  destruct (H f0 (le_n _)) as (f & c & r & Ew & Em & Snd & Cmp).
  destruct (canonical_list 32 t r Hs Hn) as (l & El & A & B). { intros q Hq. now apply Snd. }
  exists f0, f, c, l. split; [|split; [|split]].
  - intros fuel Hf. unfold write_pairs in *. apply bind_some in Ew as (rss & Er & Ew).
    rewrite (generate_rowsums_mono _ fuel _ _ _ Hf Er). exact Ew.
  - intros. rewrite join_pairs_eq by auto. rewrite Em. cbn [bind]. rewrite El. reflexivity.
  - intros x Hxl. destruct (B x Hxl) as (q & Hq & R). destruct (Snd q Hq) as (Pq & Tq & _).
    destruct (reach_type 32 t q x Pq Hn R Tq) as [Px Tx]. split; auto. now apply is_type_complementary in Tx.
  - apply (traverse_in (canonical t) r l x32); auto.
    + apply Cmp; [exact x32_pm| |apply x32_rowsums]. apply (verify_true 32); [exact x32_pm|lia|now apply x32_type].
    + rewrite <- (x32_canon t Ht). destruct Ht as [->|[->| ->]]; reflexivity.
Qed.

(* what a representative can be *)
Definition rep_32 (t : SequenceType) (x : QuadSeq) : Prop :=
  pm_quad 32 x /\ (~ complementary x \/ is_type (rep_type t) x).

Lemma not_solution t x : ~ complementary x -> ~ is_type t x.
Proof. intros H Ht. apply H. now apply (is_type_complementary t). Qed.

Theorem search_32 t m p ls ord : supported t -> any_listing ls -> ord_ok ord ->
  exists fuel0, forall fuel path, (fuel0 <= fuel)%nat -> exists f c r x,
    write_pairs fuel 32 t m p [] = Some (f, c) /\ join_pairs fuel ord path ls t (sortpairs f) = Some r /\
    (forall z, In z r -> pm_quad 32 z) /\ In x r /\ ~ complementary x.
Proof.
  intros Ht Hls Ho. destruct (search_list_32 t m p ls Ht Hls) as (f0 & f & c & l & Ew & Ej & S & I).
  exists (max f0 (class_fuel 32)). intros fuel path Hf.
  assert (In c32 (unique l)) as I' by now apply unique_spec.
  assert (forall z, In z (unique l) -> pm_quad 32 z) as Pl by (intros z Hz; apply S; now apply unique_spec).
  destruct (reduce_32 ord path (unique l) t fuel Ho Ht) as (r & Er & _ & Hr).
  { intros E. rewrite E in I'. exact I'. }
  { now apply Forall_forall. }
  { clear -Hf. revert Hf. generalize (class_fuel 32). lia. }
  destruct (symmetry_group_spec 32 ord [] (pos_ops t) (class_fuel 32) Ho) as (G & _ & _ & HG); auto.
  { apply small_ok. lia. }
  destruct (qt_canonical_32 ord [] c32 t G Ho Ht c32_pm HG) as (x & _ & Hx).
  exists f, c, r, x. split; [apply Ew; clear -Hf; revert Hf; generalize (class_fuel 32); lia|]. split; [now rewrite Ej|]. split; [|split].
  - intros z Hz. apply Hr in Hz as (y & Hy & Lz & _). apply (candidate_class t y z); auto.
  - apply Hr. eauto.
  - now apply (c32_wrong t x Ht).
Qed.

(* the driver script: a line of the result file is not a perfect sequence *)
Theorem driver_32 t m p ls ord : supported t -> any_listing ls -> ord_ok ord ->
  exists fuel0, forall fuel path, (fuel0 <= fuel)%nat -> exists out out' x v line,
    driver fuel ord path ls t 32 m p = Some (out, out') /\ In line out /\
    to_qs x = Some v /\ QS_to_string_raw v = Some line /\ pm_quad 32 x /\ verify x t = Some false /\ QS_is_perfect v = Some false.
Proof.
  intros Ht Hls Ho. destruct (search_32 t m p ls ord Ht Hls Ho) as (f0 & H).
  exists (max f0 (class_fuel 32)). intros fuel path Hf.
  destruct (H fuel (0%nat :: path)) as (f & c & r & x & Ew & Ej & Pr & Ix & Nx).
  { clear -Hf. revert Hf. generalize (class_fuel 32). lia. }
  destruct (seq_lines_spec 32 r Pr) as (out & Eo & Fo).
  assert (exists line, In line out /\ line_of_quad x line) as (line & Il & v & Ev & Es).
  { clear -Fo Ix. induction Fo as [|a b r out Hab Fo IH]; [destruct Ix|].
    destruct Ix as [->|Ix]; [exists b; cbn; auto|]. destruct (IH Ix) as (line & I & L). exists line. cbn. auto. }
  assert (exists out', driver fuel ord path ls t 32 m p = Some (out, out')) as (out' & Ed).
  { unfold driver. rewrite Ew. cbn [bind]. unfold find_write_quad_seq. rewrite Ej. cbn [bind]. rewrite Eo. cbn [bind].
    destruct Ht as [->|[->| ->]]; eauto.
    destruct (extend_spec 32 r) as (l' & El & Hl'); [now apply Forall_forall|]. rewrite El. cbn [bind].
    assert (forall z, In z l' -> pm_quad 32 z) as Pl.
    { intros z Hz. apply Hl' in Hz as (y & Hy & Hz). apply (variants_pm 32 y); auto. }
    assert (l' <> []) as Nl.
    { intros ->. destruct (proj2 (Hl' x)). exists x. split; auto. unfold variants_of. cbn. auto. }
    destruct (reduce_32 ord (1%nat :: path) l' QuaternionType fuel Ho) as (r' & -> & _ & Hr'); auto.
    { unfold supported; tauto. } { now apply Forall_forall. }
    { clear -Hf. revert Hf. generalize (class_fuel 32). lia. }
    cbn [bind]. destruct (seq_lines_spec 32 r') as (out' & -> & _); [|cbn [bind]; eauto].
    intros z Hz. apply Hr' in Hz as (y & Hy & Lz & _). apply (candidate_class QuaternionType y z); auto. unfold supported; tauto. }
  exists out, out', x, v, line. pose proof (Pr x Ix) as Px. split; auto. split; auto. split; auto. split; auto. split; auto.
  assert (forall t, verify x t = Some false) as V.
  { intros s. destruct (verify_spec 32 x s Px) as (b & -> & Hb); [lia|]. destruct b; auto.
    exfalso. apply (not_solution s x Nx). now apply Hb. }
  split; auto. destruct (QT_verify_perfect 32 x Px) as (v' & b & Ev' & Eb & Ep); [lia|].
  rewrite Ev in Ev'. injection Ev' as <-. rewrite Ep, <- Eb. apply V.
Qed.

(* ---- equiv ---- *)

Lemma xy_reach t : supported t -> reach (type_ops t) x32 y32.
Proof.
  intros Ht. set (z := wact [All (Dil 5); All Alt] y32).
  assert (pm_quad 32 z) as Pz by (apply wact_pm, y32_pm).
  assert (reach (type_ops t) y32 z) as R1.
  { apply (reach_word 32); [reflexivity|]. exists (([] ++ [All (Dil 5)]) ++ [All Alt]). split; [|reflexivity].
    apply (ow_app _ _ _ EvenAlternatedNegation); [apply (ow_app _ _ _ Automorphism); [constructor| |]| |].
    - destruct Ht as [->|[->| ->]]; cbn; tauto.
    - cbn [variants]. apply in_map_iff. exists 5%nat. split; auto. apply filter_In. split; [apply in_seq; lia|reflexivity].
    - destruct Ht as [->|[->| ->]]; cbn; tauto.
    - left. reflexivity. }
  assert (canon_of t z = Some c32) as Ez by (destruct Ht as [->|[->| ->]]; vm_compute; reflexivity).
  assert (forall x y, reach (slot_ops t) x y -> reach (type_ops t) x y) as Inc.
  { intros x y. apply reach_incl. destruct Ht as [->|[->| ->]]; intros o; cbn; tauto. }
  assert (forall x, pm_quad 32 x -> canon_of t x = Some c32 -> reach (type_ops t) x c32) as C.
  { intros x Px E. destruct (canon_of_spec 32 t x Ht Px) as (c & E' & [R _]); [lia|]. rewrite E in E'. injection E' as <-. auto. }
  eapply rt_trans; [apply (C x32 x32_pm (x32_canon t Ht))|].
  eapply rt_trans; [apply (reach_sym 32 _ _ _ (pm_i8 32 z Pz) (C z Pz Ez))|].
  exact (reach_sym 32 _ _ _ (pm_i8 32 y32 y32_pm) R1).
Qed.

Theorem equiv_32 t ord : supported t -> ord_ok ord ->
  exists fuel0, forall fuel path, (fuel0 <= fuel)%nat -> equiv fuel ord path x32 y32 t = Some false.
Proof.
  intros Ht Ho. exists (class_fuel 32). intros fuel path Hf.
  rewrite equiv_unfold by auto using x32_type, y32_type. rewrite x32_canon, y32_canon by auto. cbn [bind].
  destruct (reduce_32 ord path [c32; d32] t fuel Ho Ht) as (r & -> & Nr & Hr); [discriminate| |exact Hf|].
  { apply Forall_cons; [exact c32_pm|apply Forall_cons; [exact d32_pm|apply Forall_nil]]. }
  cbn [bind]. f_equal. apply Nat.eqb_neq. intros E.
  destruct (symmetry_group_spec 32 ord [] (pos_ops t) (class_fuel 32) Ho) as (G & _ & _ & HG); auto.
  { apply small_ok. lia. }
  destruct (qt_canonical_32 ord [] c32 t G Ho Ht c32_pm HG) as (x & _ & Hx).
  destruct (qt_canonical_32 ord [] d32 t G Ho Ht d32_pm HG) as (y & _ & Hy).
  assert (In x r) as Ix by (apply Hr; exists c32; cbn; auto).
  assert (In y r) as Iy by (apply Hr; exists d32; cbn; auto).
  assert (x = y) as <-.
  { destruct r as [|a [|b r]]; cbn in E; try lia. destruct Ix as [<-|[]], Iy as [<-|[]]. reflexivity. }
  apply (bound_representative t b32 d32 x Ht d32_pm d32_bounded d32_flip_bounded Hy). now apply (c32_wrong t x Ht).
Qed.

(* ---- any list of solutions ---- *)

Theorem representatives_32 t l : supported t -> l <> [] -> Forall (fun x => pm_quad 32 x /\ verify x t = Some true) l ->
  exists R fuel0, forall ord fuel path, ord_ok ord -> (fuel0 <= fuel)%nat -> exists r,
    reduce_to_canonical_reps fuel ord path l t = Some r /\ NoDup r /\ same_set r R /\
    forall m, In m r -> pm_quad 32 m /\
      ((exists x, In x l /\ reach (type_ops (rep_type t)) x m) \/ forall s, verify m s = Some false).
Proof.
  intros Ht Hne Hl. rewrite Forall_forall in Hl.
  assert (Forall (pm_quad 32) l) as Pl by (apply Forall_forall; intros x Hx; now apply Hl).
  assert (ord_ok (fun _ l => l)) as Oi by (intros p l'; apply Permutation.Permutation_refl).
  destruct (reduce_32 (fun _ l => l) [] l t (class_fuel 32) Oi Ht Hne Pl (le_n _)) as (R & _ & _ & HR).
  exists R, (class_fuel 32). intros ord fuel path Ho Hf.
  destruct (reduce_32 ord path l t fuel Ho Ht Hne Pl Hf) as (r & Er & Nr & Hr).
  exists r. split; auto. split; auto. split; [intros m; rewrite HR; apply Hr|].
  intros m Hm. apply Hr in Hm as (x & Hx & Cm & _). destruct (Hl x Hx) as [Px Vx].
  destruct (candidate_class t x m Ht Px Cm) as [Pm [Rm|Rm]]; split; auto; [left; eauto|right].
  assert (complementary x) as Cx.
  { apply (is_type_complementary t). apply (verify_true 32); auto. lia. }
  pose proof (flipped_class t x m Px Cx Rm) as Nm. intros s.
  destruct (verify_spec 32 m s Pm) as (b & -> & Hb); [lia|]. destruct b; auto.
  exfalso. apply (not_solution s m Nm). now apply Hb.
Qed.

Theorem equiv_32_wrong t : supported t ->
  exists x y, pm_quad 32 x /\ pm_quad 32 y /\ verify x t = Some true /\ verify y t = Some true /\ reach (type_ops t) x y /\
    forall ord, ord_ok ord -> exists fuel0, forall fuel path, (fuel0 <= fuel)%nat -> equiv fuel ord path x y t = Some false.
Proof.
  intros Ht. exists x32, y32. split; [exact x32_pm|]. split; [exact y32_pm|]. split; [now apply x32_type|].
  split; [now apply y32_type|]. split; [now apply xy_reach|]. intros ord. now apply equiv_32.
Qed.
