(* Lengths 33 to 63: the search, and examples of lengths at which it reports a quadruple that is not a solution. *)
From Coq Require Import Ascii String List ZArith Lia Arith Bool Relations.
From Verif Require Import Base BaseFacts Sums ModelSequence ModelWilliamson ModelEquivalence SpecEquiv
  SeqFacts Convert OpFacts EquivFacts EquivThms TypeFacts FastFacts OrderFacts CanonFacts NsFacts ReduceFacts WsFacts Len32Facts Len32Thms Len32Example Len48Facts Len48Thms Len48Even
  ModelFourier ModelMatching ModelRowsum SpecRowsum RowsumFacts ModelWrite WriteFacts FolderFacts SearchThms ExtendFacts DriverFacts SpecSearch Spec.
Import ListNotations.
Notation length := List.length.
Open Scope nat_scope.

Theorem search_any_48 n t m p ls ord : 33 <= n <= 63 -> supported t -> any_listing ls -> ord_ok ord ->
  (exists x, pm_quad n x /\ is_type t x /\ normal_rowsums t (totals x)) ->
  exists fuel0, forall fuel path, fuel0 <= fuel -> exists f c r,
    write_pairs fuel n t m p [] = Some (f, c) /\ join_pairs fuel ord path ls t (sortpairs f) = Some r /\ NoDup r /\
    forall z, In z r <-> exists x y, pm_quad n x /\ is_type t x /\ normal_rowsums t (totals x) /\ canon_of t x = Some y /\
      least (candidate_48 n t y) z.
Proof.
  intros Hn Ht Hls Ho (x0 & P0 & T0 & N0).
  assert (searchable t) as Hs by (unfold searchable; destruct Ht as [->|[->| ->]]; tauto).
  assert (1 <= n) as Hn1 by lia. assert (Z.of_nat n < 2 ^ 62)%Z as Hn2 by (apply Z.le_lt_trans with 63%Z; lia).
  destruct (search_spec n t m p ls Hn1 Hn2 Hs Hls) as (f0 & H).
  exists (max f0 (class_fuel n)). intros fuel path Hf.
  assert (f0 <= fuel /\ class_fuel n <= fuel) as [Hf0 Hf1] by (clear -Hf; revert Hf; generalize (class_fuel n); lia).
  destruct (H fuel Hf0) as (f & c & r & Ew & Em & Snd & Cmp).
  assert (canonical t = canon_of t) as Ec by (destruct Ht as [->|[->| ->]]; reflexivity).
  destruct (traverse_total (canon_of t) r) as (l & El & Hl).
  { intros q Hq. destruct (canon_of_spec n t q Ht) as (y & E & _); eauto. now apply Snd. }
  assert (forall y, In y (unique l) <-> exists x, In x r /\ canon_of t x = Some y) as Hu.
  { intros y. rewrite <- Hl. apply unique_spec. }
  destruct (reduce_any_48 n ord path (unique l) t fuel Ho Ht Hn) as (r' & Er & Nr & Hr); auto.
  { destruct (canon_of_spec n t x0 Ht P0 Hn1) as (y0 & E0 & _). intros E.
    assert (In y0 (unique l)) as I by (apply Hu; eauto). rewrite E in I. exact I. }
  { apply Forall_forall. intros y Hy. apply Hu in Hy as (x & Hx & E).
    destruct (canon_of_spec n t x Ht) as (y' & E' & R & _); [now apply Snd|exact Hn1|]. rewrite E in E'. injection E' as <-.
    eapply reach_pm; [apply (Snd x Hx)|exact R]. }
  exists f, c, r'. split; auto. split; [|split; auto].
  - rewrite join_pairs_eq by auto. rewrite Em. cbn [bind]. rewrite Ec, El. exact Er.
  - intros z. rewrite Hr. split.
    + intros (y & Hy & L). apply Hu in Hy as (x & Hx & E). exists x, y. destruct (Snd x Hx) as (A & B & C). auto.
    + intros (x & y & A & B & C & E & L). exists y. split; auto. apply Hu. eauto.
Qed.

Theorem driver_any_48 n t x c m p ls ord : 33 <= n <= 63 -> supported t -> pm_quad n x -> verify x t = Some true -> normal_rowsums t (totals x) ->
  canon_of t x = Some c -> ~ complementary (fold_quad n c) -> ~ complementary (flip_mid n (fold_quad n c)) -> any_listing ls -> ord_ok ord ->
  exists fuel0, forall fuel path, fuel0 <= fuel -> exists out out' z v line,
    driver fuel ord path ls t n m p = Some (out, out') /\ In line out /\
    to_qs z = Some v /\ QS_to_string_raw v = Some line /\ pm_quad n z /\ verify z t = Some false /\ QS_is_perfect v = Some false.
Proof.
  intros Hn Ht Px Vx Nx Ec N1 N2 Hls Ho. assert (1 <= n) as Hn1 by lia.
  assert (is_type t x) as Tx by (now apply (verify_true n)).
  assert (pm_quad n c) as Pc.
  { destruct (canon_of_spec n t x Ht Px Hn1) as (c' & E & R & _). rewrite Ec in E. injection E as <-. eapply reach_pm; [exact Px|exact R]. }
  pose proof (fold_pm n c Pc Hn) as Pf.
  destruct (search_any_48 n t m p ls ord Hn Ht Hls Ho) as (f0 & H); [eauto|].
  exists (max f0 (class_fuel n)). intros fuel path Hf.
  assert (f0 <= fuel /\ class_fuel n <= fuel) as [Hf0 Hf1] by (clear -Hf; revert Hf; generalize (class_fuel n); lia).
  destruct (H fuel (0 :: path) Hf0) as (f & k & r & Ew & Ej & _ & Hr).
  assert (forall z, In z r -> pm_quad n z) as Pr.
  { intros z Hz. apply Hr in Hz as (x' & y & A & _ & _ & E & C & _). apply (candidate_class_48 n t y z); auto.
    destruct (canon_of_spec n t x' Ht A Hn1) as (y' & E' & R' & _). rewrite E in E'. injection E' as <-. eapply reach_pm; [exact A|exact R']. }
  destruct (least_candidate n t c Ht Pc Hn) as (z & Lz).
  assert (In z r) as Iz by (apply Hr; exists x, c; auto).
  pose proof (Pr z Iz) as Pz.
  assert (~ complementary z) as Nz.
  { intros C. destruct (candidate_class_48 n t c z Ht Pc Hn (proj1 Lz)) as [_ [R|R]];
      apply (class_complementary n (rep_type t)) in R; auto using flip_pm; tauto. }
  destruct (seq_lines_spec n r Pr) as (out & Eo & Fo).
  assert (exists line, In line out /\ line_of_quad z line) as (line & Il & v & Ev & Es).
  { clear -Fo Iz. induction Fo as [|a b r out Hab Fo IH]; [destruct Iz|].
    destruct Iz as [->|Iz]; [exists b; cbn; auto|]. destruct (IH Iz) as (line & I & L). exists line. cbn. auto. }
  assert (exists out', driver fuel ord path ls t n m p = Some (out, out')) as (out' & Ed).
  { unfold driver. rewrite Ew. cbn [bind]. unfold find_write_quad_seq. rewrite Ej. cbn [bind]. rewrite Eo. cbn [bind].
    destruct Ht as [->|[->| ->]]; eauto.
    destruct (extend_spec n r) as (l' & El & Hl'); [now apply Forall_forall|]. rewrite El. cbn [bind].
    assert (forall z, In z l' -> pm_quad n z) as Pl.
    { intros u Hu. apply Hl' in Hu as (y & Hy & Hu). apply (variants_pm n y); auto. }
    assert (l' <> []) as Nl.
    { intros ->. destruct (proj2 (Hl' z)). exists z. split; auto. unfold variants_of. cbn. auto. }
    destruct (reduce_any_48 n ord (1 :: path) l' QuaternionType fuel Ho) as (r' & -> & _ & Hr'); auto.
    { unfold supported; tauto. } { now apply Forall_forall. }
    cbn [bind]. destruct (seq_lines_spec n r') as (out' & -> & _); [|cbn [bind]; eauto].
    intros u Hu. apply Hr' in Hu as (y & Hy & C & _). apply (candidate_class_48 n QuaternionType y u); auto. unfold supported; tauto. }
  exists out, out', z, v, line. split; auto. split; auto. split; auto. split; auto. split; auto.
  assert (forall t, verify z t = Some false) as V.
  { intros s. destruct (verify_spec n z s Pz) as (b & -> & Hb); [lia|]. destruct b; auto.
    exfalso. apply (not_solution s z Nz). now apply Hb. }
  split; auto. destruct (QT_verify_perfect n z Pz) as (v' & b & Ev' & Eb & Ep); [lia|].
  rewrite Ev in Ev'. injection Ev' as <-. rewrite Ep, <- Eb. apply V.
Qed.

(* ---- solutions ---- *)

Definition x33 : QuadSeq := mkQuad 33
  (pms "+-++-+++--+-+---++---+-+--+++-++-") (pms "+----++++--+-++++++++-+--++++----")
  (pms "+++--+--+-++--++++++--++-+--+--++") (pms "+-+-+-++++++--++--++--++++++-+-+-").
Definition x34 : QuadSeq := mkQuad 34
  (pms "+++--+-+---++--++-++--++---+-+--++") (pms "+-++++-++-+-----+-+-----+-++-++++-")
  (pms "-+--+++++-++--++---++--++-+++++--+") (pms "+++-+---++++-+-+++++-+-++++---+-++").
Definition x37 : QuadSeq := mkQuad 37
  (pms "--+++-+--+--+-+-++++++-+-+--+--+-+++-") (pms "--+++-+--+--+-+-++++++-+-+--+--+-+++-")
  (pms "----++++--++-+++-++++-+++-++--++++---") (pms "+---++++--++-+++-++++-+++-++--++++---").
Definition x38 : QuadSeq := mkQuad 38
  (pms "++--++------+++++-+-+-+++++------++--+") (pms "+-++---+++--+-+++-+-+-+++-+--+++---++-")
  (pms "+--++--+-+-++-+-+++++++-+-++-+-+--++--") (pms "+++--+--+--++++-+++++++-++++--+--+--++").
Definition x40 : QuadSeq := mkQuad 40
  (pms "+--+++++----+-+--+++++++--+-+----+++++--") (pms "+---+-++-+---++++-+++++-++++---+-++-+---")
  (pms "++--+-+-++--++--+++++++++--++--++-+-+--+") (pms "++-+-+--++-+--+++-+++++-+++--+-++--+-+-+").
Definition x42 : QuadSeq := mkQuad 42
  (pms "+-++---+--+--++++-+-+-+-+-++++--+--+---++-") (pms "+-++---+--+--++++-+-+++-+-++++--+--+---++-")
  (pms "+++--+---+++--+-+++++-+++++-+--+++---+--++") (pms "+++--+---+++--+-+++++++++++-+--+++---+--++").
Definition x45 : QuadSeq := mkQuad 45
  (pms "++--++++-+-+-+++--+--+--+--+--+++-+-+-++++--+") (pms "++--++++-+-+-+++--+--+--+--+--+++-+-+-++++--+")
  (pms "-++--+++-++-+-+++++--------+++++-+-++-+++--++") (pms "+++--+++-++-+-+++++--------+++++-+-++-+++--++").
Definition x46 : QuadSeq := mkQuad 46
  (pms "-+---+++-+-++-++++--+-----+--++++-++-+-+++---+") (pms "-+++--+---++++-+-++--+-+-+--++-+-++++---+--+++")
  (pms "+++-++-+++++---+-++---+-+---++-+---+++++-++-++") (pms "++-++---+--+-+++++--+++++++--+++++-+--+---++-+").
Definition x49 : QuadSeq := mkQuad 49
  (pms "-++-++-+--+++-++++------++------++++-+++--+-++-++") (pms "+++-++-+--+++-++++------++------++++-+++--+-++-++")
  (pms "++++-+-+-+--++--+++-+--++++--+-+++--++--+-+-+-+++") (pms "++++-+-+-+--++--+++-+--++++--+-+++--++--+-+-+-+++").
Definition x50 : QuadSeq := mkQuad 50
  (pms "--+++----+-++++++--+-+-+---+-+-+--++++++-+----+++-") (pms "+++--++--+-+--+++---+-+++-+++-+---+++--+-+--++--++")
  (pms "+-++--++-----++-++-++++-+++-++++-++-++-----++--++-") (pms "+--+--+-++++-+-+--+++++++-+++++++--+-+-++++-+--+--").
Definition x51 : QuadSeq := mkQuad 51
  (pms "---++-+-+-+++-++-++----++--++----++-++-+++-+-+-++--") (pms "---++-+-+-+++-++-++----++--++----++-++-+++-+-+-++--")
  (pms "-+-++++-++-++++-+-----+++--+++-----+-++++-++-++++-+") (pms "++-++++-++-++++-+-----+++--+++-----+-++++-++-++++-+").
Definition x54 : QuadSeq := mkQuad 54
  (pms "-+++-++---+++--+++++-----+-+-+-----+++++--+++---++-+++") (pms "+-+-----+++++--+++---++-+++++++-++---+++--+++++-----+-")
  (pms "++++-+-++-+-++--+--+--+++-+-+-+++--+--+--++-+-++-+-+++") (pms "++-+++--+--+--++-+-++-+-+++++++-+-++-+-++--+--+--+++-+").
Definition x55 : QuadSeq := mkQuad 55
  (pms "+-+--+---+++---+-+++++++--+--+--+++++++-+---+++---+--+-") (pms "+-+--+---+++---+-+++++++--+--+--+++++++-+---+++---+--+-")
  (pms "-+++-+++-+-++-+----+++--++-++-++--+++----+-++-+-+++-+++") (pms "++++-+++-+-++-+----+++--++-++-++--+++----+-++-+-+++-+++").
Definition x57 : QuadSeq := mkQuad 57
  (pms "--++-+++-+++-+--+++++--+----++----+--+++++--+-+++-+++-++-") (pms "-++---+++--+-++-+-+---+-++++++++++-+---+-+-++-+--+++---++")
  (pms "-++---+++--+-++-+-+---+-++++++++++-+---+-+-++-+--+++---++") (pms "+-++-+++-+++-+--+++++--+----++----+--+++++--+-+++-+++-++-").
Definition x58 : QuadSeq := mkQuad 58
  (pms "--+-+--+-++-+++-++-+++---+-+---+-+---+++-++-+++-++-+--+-+-") (pms "+-----++++---+---+++-++-+++++-+++++-++-+++---+---++++-----")
  (pms "++-++-+-+---+++-++----++-++-+-+-++-++----++-+++---+-+-++-+") (pms "+---++++++-++-+++--+-++---+++++++---++-+--+++-++-++++++---").
Definition x62 : QuadSeq := mkQuad 62
  (pms "++-+---++-+--+--+-+++-+-+--++-+++-++--+-+-+++-+--+--+-++---+-+") (pms "+-+-++--++-+-++-----+-++++-++-+++-++-++++-+-----++-+-++--++-+-")
  (pms "+++++--++-----++-+-++++-+---+++-+++---+-++++-+-++-----++--++++") (pms "+----+--++++---++++-++++++--+++-+++--++++++-++++---++++--+----").

Definition examples_48 : list QuadSeq := [x33; x34; x37; x38; x40; x42; x45; x46; x49; x50; x51; x54; x55; x57; x58; x62].

(* some shift has a sum of autocorrelations different from 0 *)
Definition off (n : nat) (x : QuadSeq) : bool :=
  existsb (fun k => negb (paf (q_a x) (Z.of_nat k) + paf (q_b x) (Z.of_nat k) + paf (q_c x) (Z.of_nat k) + paf (q_d x) (Z.of_nat k) =? 0)%Z) (seq 1 (n - 1)).

Lemma off_complementary n x : q_size x = n -> off n x = true -> ~ complementary x.
Proof.
  intros Hs H C. apply existsb_exists in H as (k & Hk & N). apply in_seq in Hk. apply negb_true_iff, Z.eqb_neq in N.
  apply N, C. rewrite Hs. lia.
Qed.

(* a boolean that says that x is a solution with row sums in normal form whose images are no solutions *)
Definition spoiled (t : SequenceType) (x : QuadSeq) : bool :=
  let n := q_size x in let '(a, b, c, d) := totals x in
  (33 <=? n) && (n <=? 63) && forallb (fun l => (length l =? n) && forallb (fun z => (z =? 1) || (z =? -1))%Z l) [q_a x; q_b x; q_c x; q_d x] &&
  ((0 <=? a) && (a <=? b) && (b <=? c) && (c <=? d))%Z &&
  match verify x t with Some v => v | None => false end &&
  match canon_of t x with Some c => off n (fold_quad n c) && off n (flip_mid n (fold_quad n c)) | None => false end.

Lemma spoiled_true t x : supported t -> spoiled t x = true -> let n := q_size x in
  33 <= n <= 63 /\ pm_quad n x /\ verify x t = Some true /\ normal_rowsums t (totals x) /\
  exists c, canon_of t x = Some c /\ ~ complementary (fold_quad n c) /\ ~ complementary (flip_mid n (fold_quad n c)).
Proof.
  intros Ht. unfold spoiled, normal_rowsums. destruct (totals x) as [[[a b] c] d]. rewrite !andb_true_iff.
  intros (((((A & B) & D) & (((E & F) & G) & H)) & V) & K). cbv zeta.
  apply Nat.leb_le in A, B. apply Z.leb_le in E, F, G, H. split; [split; auto|].
  assert (pm_quad (q_size x) x) as Px.
  { rewrite forallb_forall in D.
    assert (forall l, In l [q_a x; q_b x; q_c x; q_d x] -> length l = q_size x /\ pm1 l) as P.
    { intros l Hl. apply D in Hl. apply andb_true_iff in Hl as [L P]. split; [now apply Nat.eqb_eq|].
      unfold pm1. apply Forall_forall. intros z Hz. rewrite forallb_forall in P. specialize (P z Hz). apply orb_true_iff in P. lia. }
    unfold pm_quad, wf. cbn [In] in P. repeat split; apply P; tauto. }
  split; [exact Px|]. split; [|split].
  - now destruct (verify x t) as [[|]|].
  - lia.
  - destruct (canon_of t x) as [y|] eqn:Ey; [|discriminate]. exists y. split; auto.
    apply andb_true_iff in K as [K1 K2]. split; apply (off_complementary (q_size x)); auto; reflexivity.
Qed.

Lemma examples_spoiled : forallb (fun t => forallb (spoiled t) examples_48) [QuaternionType; WilliamsonType; Williamson] = true.
Proof. vm_compute. reflexivity. Qed.

Lemma example_spoiled t x : supported t -> In x examples_48 -> spoiled t x = true.
Proof.
  intros Ht Hx. pose proof examples_spoiled as H. rewrite forallb_forall in H.
  assert (In t [QuaternionType; WilliamsonType; Williamson]) as It by (destruct Ht as [->|[->| ->]]; cbn; tauto).
  specialize (H t It). rewrite forallb_forall in H. auto.
Qed.

Definition lengths_48 : list nat := [33; 34; 37; 38; 40; 42; 45; 46; 49; 50; 51; 54; 55; 57; 58; 62].

Theorem driver_examples_48 n t m p ls ord : In n lengths_48 -> supported t -> any_listing ls -> ord_ok ord ->
  exists fuel0, forall fuel path, fuel0 <= fuel -> exists out out' z v line,
    driver fuel ord path ls t n m p = Some (out, out') /\ In line out /\
    to_qs z = Some v /\ QS_to_string_raw v = Some line /\ pm_quad n z /\ verify z t = Some false /\ QS_is_perfect v = Some false.
Proof.
  intros Hn Ht Hls Ho.
  assert (exists x, In x examples_48 /\ q_size x = n) as (x & Ix & <-).
  { change lengths_48 with (map q_size examples_48) in Hn. apply in_map_iff in Hn as (x & E & I). eauto. }
  destruct (spoiled_true t x Ht (example_spoiled t x Ht Ix)) as (A & B & C & D & c & E & F & G). eapply driver_any_48; eauto.
Qed.

(* ---- equivalent solutions reported as different ---- *)

Definition y37 : QuadSeq := wact [All (Dil 2)] x37.

Theorem equiv_37 t : supported t ->
  exists x y, pm_quad 37 x /\ pm_quad 37 y /\ verify x t = Some true /\ verify y t = Some true /\ reach (type_ops t) x y /\
    forall ord, ord_ok ord -> exists fuel0, forall fuel path, fuel0 <= fuel -> equiv fuel ord path x y t = Some false.
Proof.
  intros Ht. assert (pm_quad 37 x37) as Px by pm32. assert (pm_quad 37 y37) as Py by (apply wact_pm, Px).
  assert (verify x37 t = Some true) as Vx by (destruct Ht as [->|[->| ->]]; vm_compute; reflexivity).
  assert (verify y37 t = Some true) as Vy by (destruct Ht as [->|[->| ->]]; vm_compute; reflexivity).
  exists x37, y37. split; [exact Px|]. split; [exact Py|]. split; [exact Vx|]. split; [exact Vy|]. split.
  - apply (reach_word 37); [reflexivity|]. exists ([] ++ [All (Dil 2)]). split; [|reflexivity].
    apply (ow_app _ _ _ Automorphism); [constructor| |].
    + destruct Ht as [->|[->| ->]]; cbn; tauto.
    + cbn [variants]. apply in_map_iff. exists 2. split; auto. apply filter_In. split; [apply in_seq; lia|reflexivity].
  - intros ord Ho. assert (odd_48 37) as H48 by (split; [lia|reflexivity]).
    destruct (equiv_48 37 t x37 y37 ord H48 Ht Px Py Vx Vy Ho) as (f0 & H). exists f0. intros fuel path Hf.
    destruct (H fuel path Hf) as (b & c & d & -> & Lc & Ld & Hb). destruct b; auto. exfalso.
    destruct (canon_of_spec 37 t x37 Ht Px) as (c' & Ec & Lc'); [lia|]. destruct (canon_of_spec 37 t y37 Ht Py) as (d' & Ed & Ld'); [lia|].
    rewrite <- (least_unique _ _ _ Lc Lc') in Ec. rewrite <- (least_unique _ _ _ Ld Ld') in Ed.
    assert (pm_quad 37 c) as Pc by (eapply reach_pm; [exact Px|apply Lc]).
    pose proof (energy_reach 37 (rep_type t) _ _ (fold_pm 37 c Pc ltac:(lia)) ltac:(lia) eq_refl (proj1 Hb eq_refl)) as E.
    assert (match canon_of t x37, canon_of t y37 with Some c, Some d => (energy (fold_quad 37 d) =? energy (fold_quad 37 c))%Z | _, _ => true end = false) as N.
    { destruct Ht as [->|[->| ->]]; vm_compute; reflexivity. }
    rewrite Ec, Ed in N. apply Z.eqb_neq in N. contradiction.
Qed.


(* ---- the statements ---- *)

(* q' is q after the substitution: the entries from 127 on, counted through the four sequences, are
   replaced by negated earlier ones *)
Definition folded (n : nat) (q q' : QuadSeq) : Prop :=
  pm_quad n q' /\ forall i, i < 4 * n -> nth i (flat q') 0%Z =
    if i <? 127 then nth i (flat q) 0%Z else (- nth (if i =? 127 then back n else 254 - i)%nat (flat q) 0)%Z.
(* x and y differ in the entry 127 at most *)
Definition but_127 (n : nat) (x y : QuadSeq) : Prop :=
  pm_quad n y /\ forall i, i < 4 * n -> i <> 127 -> nth i (flat y) 0%Z = nth i (flat x) 0%Z.

Lemma folded_fold n q : pm_quad n q -> 33 <= n <= 63 -> folded n q (fold_quad n q).
Proof. intros Hq Hn. split; [now apply fold_pm|]. intros i Hi. now apply Len48Facts.fold_flat. Qed.

Lemma folded_unique n q x : pm_quad n q -> 33 <= n <= 63 -> folded n q x -> x = fold_quad n q.
Proof.
  intros Hq Hn [Px Hx]. apply (flat_ext n); [apply Px|apply fold_wf|]. intros i Hi. rewrite Hx by auto.
  symmetry. now apply Len48Facts.fold_flat.
Qed.

Lemma but_flip n x : pm_quad n x -> 1 <= n -> but_127 n x (flip_mid n x).
Proof.
  intros Px Hn. split; [now apply flip_pm|]. intros i Hi Ne.
  pose proof (Nat.div_mod i n ltac:(lia)) as Hdm. pose proof (Nat.mod_upper_bound i n ltac:(lia)) as Hm.
  assert (i / n < 4) as Hk by (apply Nat.div_lt_upper_bound; lia).
  assert (exists t, tag_no t = i / n) as [t Ht].
  { clear Hdm. generalize dependent (i / n). intros k Hk. destruct k as [|[|[|[|k]]]]; [exists TW|exists TX|exists TY|exists TZ|lia]; reflexivity. }
  assert (i = tag_no t * n + i mod n) as E by lia. rewrite E. rewrite !(nth_flat n) by (auto using flip_wf; apply Px).
  rewrite flip_slot by auto. rewrite <- E. destruct (Nat.eqb_spec i 127); [contradiction|reflexivity].
Qed.

Theorem representatives_odd_48 n t l : 33 <= n <= 63 -> Nat.odd n = true -> supported t -> l <> [] -> Forall (pm_quad n) l ->
  exists fuel0, forall ord fuel path, ord_ok ord -> fuel0 <= fuel -> exists r,
    reduce_to_canonical_reps fuel ord path l t = Some r /\ NoDup r /\
    forall m, In m r <-> exists x x', In x l /\ folded n x x' /\ least (reach (type_ops (rep_type t)) x') m.
Proof.
  intros Hn Hodd Ht Hne Hl. exists (class_fuel n). intros ord fuel path Ho Hf.
  destruct (reduce_48 n ord path l t fuel Ho Ht Hn Hodd Hne Hl Hf) as (r & Er & Nr & Hr). exists r. split; auto. split; auto.
  rewrite Forall_forall in Hl. intros m. rewrite Hr. split.
  - intros (x & Hx & L). exists x, (fold_quad n x). split; auto. split; auto. apply folded_fold; auto.
  - intros (x & x' & Hx & F & L). apply folded_unique in F; auto. subst x'. eauto.
Qed.

Theorem representatives_48 n t l : 33 <= n <= 63 -> supported t -> l <> [] -> Forall (pm_quad n) l ->
  exists R fuel0, forall ord fuel path, ord_ok ord -> fuel0 <= fuel -> exists r,
    reduce_to_canonical_reps fuel ord path l t = Some r /\ NoDup r /\ same_set r R /\
    forall m, In m r -> pm_quad n m /\ exists x x' y, In x l /\ folded n x x' /\ but_127 n x' y /\ reach (type_ops (rep_type t)) y m.
Proof.
  intros Hn Ht Hne Hl.
  assert (ord_ok (fun _ l => l)) as Oi by (intros p l'; apply Permutation.Permutation_refl).
  destruct (reduce_any_48 n (fun _ l => l) [] l t (class_fuel n) Oi Ht Hn Hne Hl (le_n _)) as (R & _ & _ & HR).
  exists R, (class_fuel n). intros ord fuel path Ho Hf.
  destruct (reduce_any_48 n ord path l t fuel Ho Ht Hn Hne Hl Hf) as (r & Er & Nr & Hr).
  exists r. split; auto. split; auto. split; [intros m; rewrite HR; apply Hr|]. rewrite Forall_forall in Hl.
  intros m Hm. apply Hr in Hm as (x & Hx & C & _). pose proof (Hl x Hx) as Px. pose proof (fold_pm n x Px Hn) as Pf.
  destruct (candidate_class_48 n t x m Ht Px Hn C) as [Pm [Rm|Rm]]; split; auto; exists x, (fold_quad n x).
  - exists (fold_quad n x). split; auto. split; [now apply folded_fold|]. split; auto. split; auto.
  - exists (flip_mid n (fold_quad n x)). split; auto. split; [now apply folded_fold|]. split; auto. apply but_flip; auto. lia.
Qed.

Lemma psi_agree n x y z : wf n x -> wf n y -> 33 <= n <= 63 -> firstn 128 (flat x) = firstn 128 (flat y) -> sym z -> psi n x z = psi n y z.
Proof.
  intros Wx Wy Hn E [H8 Hz]. unfold psi. f_equal.
  assert (fidx n z < 128) as Hj.
  { unfold fidx. pose proof (back_lt n Hn). unfold i8 in H8. destruct (Z.eqb_spec z (-128)); lia. }
  assert (length (flat x) = 4 * n /\ length (flat y) = 4 * n) as [Lx Ly] by (split; now apply flat_length).
  rewrite <- (firstn_skipn 128 (flat x)), <- (firstn_skipn 128 (flat y)).
  rewrite !app_nth1 by (rewrite firstn_length; lia). now rewrite E.
Qed.

Lemma candidate_agree n t x y m : pm_quad n x -> pm_quad n y -> 33 <= n <= 63 -> firstn 128 (flat x) = firstn 128 (flat y) ->
  candidate_48 n t x m -> candidate_48 n t y m.
Proof.
  intros Px Py Hn E (w & Hw & C). exists w. split; auto. rewrite <- C. f_equal.
  pose proof (wact_sym n w _ (symbolic_sym n ltac:(lia))) as [_ Ss]. unfold qmap. apply quad_ext; [reflexivity|].
  intros u. rewrite !slot_of_slots. apply map_ext_in. intros z Hz. symmetry. apply psi_agree; auto; [apply Px|apply Py|].
  specialize (Ss u). rewrite Forall_forall in Ss. auto.
Qed.

Theorem prefix_48 n t x y : 33 <= n <= 63 -> supported t -> pm_quad n x -> pm_quad n y -> firstn 128 (flat x) = firstn 128 (flat y) ->
  exists m fuel0, forall ord fuel path, ord_ok ord -> fuel0 <= fuel -> reduce_to_canonical_reps fuel ord path [x; y] t = Some [m].
Proof.
  intros Hn Ht Px Py E. destruct (least_candidate n t x Ht Px Hn) as (m & Lx). exists m, (class_fuel n). intros ord fuel path Ho Hf.
  assert (least (candidate_48 n t y) m) as Ly.
  { destruct Lx as [A B]. split; [exact (candidate_agree n t x y m Px Py Hn E A)|]. intros z Hz. apply B.
    exact (candidate_agree n t y x z Py Px Hn (eq_sym E) Hz). }
  destruct (reduce_any_48 n ord path [x; y] t fuel Ho Ht Hn) as (r & -> & Nr & Hr); [discriminate|auto|auto|]. f_equal.
  assert (forall z, In z r <-> z = m) as Hz.
  { intros z. rewrite Hr. split.
    - intros (q & [<-|[<-|[]]] & L); eapply least_unique; eauto.
    - intros ->. exists x. cbn. auto. }
  destruct r as [|a [|b r]].
  - exfalso. destruct (proj2 (Hz m) eq_refl).
  - f_equal. apply Hz. now left.
  - exfalso. inversion Nr as [|? ? Na _]; subst. apply Na. left. transitivity m; [|symmetry]; apply Hz; cbn; auto.
Qed.
