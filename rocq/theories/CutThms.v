(* The search with files of pairs that have been cut. *)
From Coq Require Import Ascii String List ZArith Bool Arith Lia Permutation Relations.
From Verif Require Import Base BaseFacts Sums Quat ModelSequence ModelWilliamson ModelEquivalence SpecEquiv OpFacts EquivFacts TypeFacts
  OrderFacts EquivThms CanonFacts ReduceFacts WsFacts QtWt Convert ModelMatrices SpecMatrix SpecPrint MatFacts QhmFacts PrintFacts HmFacts ModelGraph SpecGraph GraphThms HadEquiv
  ModelRowsum SpecRowsum RowsumFacts ModelMatching ModelWrite TextFacts JoinFacts WriteFacts FolderFacts SearchThms ExtendFacts FindQuadFacts DriverFacts ModelMain SpecMain MainFacts ArgFacts MainThms RepSymm SeqFacts DriverMain
  ModelLog LogFolder LogJoin ModelScripts DirFacts SpecFiles SingleFacts SpecSearch SpecSplit SplitFacts SplitThms ModelJobs SpecJobs JobsFacts JobsThms JobsResults SpecKilled KilledFacts KilledThms KilledSilent ClassSums
  SolverFacts SpecPrinted PrintedFacts SpecMixed SpecThinned ThinFacts ThinThms SpecCut CutFacts Spec.
Import ListNotations.
Open Scope nat_scope.
Notation length := List.length.

Lemma match_some t ls f r : listing_ok ls -> match_pairs ls t f = Some r ->
  (forall e, In e f -> exists re, entry_result t ls e = Some re /\ incl re r) /\
  (forall q, In q r -> exists e re, In e f /\ entry_result t ls e = Some re /\ In q re).
Proof.
  intros (Lf & _) E. unfold match_pairs in E.
  assert (G : forall l res r, fold_m (fun (result : list QuadSeq) '((name, d) : text * Dir) =>
      let* sequences := get_sequences_from_dir (ls_seq ls name d) in
      let* (files, order) := get_order_from_dir (ls_pair ls name d) in
      let* r := join_pairs_files (fst files) (snd files) t order sequences in
      Some (result ++ r)) l res = Some r -> incl res r /\
      (forall e, In e l -> exists re, entry_result t ls e = Some re /\ incl re r) /\
      (forall q, In q r -> In q res \/ exists e re, In e l /\ entry_result t ls e = Some re /\ In q re)).
  { clear. induction l as [|[name d] l IH]; intros res r E; cbn [fold_m] in E.
    - injection E as <-. split; [now intros ?|]. split; [intros e []|]. auto.
    - apply bind_some in E as (res' & E1 & E). destruct (IH _ _ E) as (A & B & C).
      assert (X : exists re, entry_result t ls (name, d) = Some re /\ res' = res ++ re).
      { unfold entry_result. cbn [fst snd]. destruct (get_sequences_from_dir _) as [sq|]; [|discriminate]. cbn [bind] in *.
        destruct (get_order_from_dir _) as [[fl o]|]; [|discriminate]. cbn [bind] in *.
        destruct (join_pairs_files _ _ _ _ _) as [re|]; [|discriminate]. cbn [bind] in *. injection E1 as <-. eauto. }
      destruct X as (re & X & ->). split; [intros q Hq; apply A, in_app_iff; auto|]. split.
      + intros e [<-|I]; [|now apply B]. exists re. split; auto. intros q Hq. apply A, in_app_iff. auto.
      + intros q Hq. destruct (C q Hq) as [Y|(e & re' & I & Y & Z)]; [|right; exists e, re'; split; auto; now right].
        apply in_app_iff in Y as [Y|Y]; auto. right. exists (name, d), re. split; auto. now left. }
  destruct (G _ _ _ E) as (_ & B & C). split.
  - intros e I. apply B. now apply (Permutation_in _ (Permutation_sym (Lf f))).
  - intros q Hq. destruct (C q Hq) as [[]|(e & re & I & X)]. exists e, re. split; auto. now apply (Permutation_in _ (Lf f)).
Qed.

Section Cut.
Context (t : SequenceType) (m : MatchOption) (n : nat) (pr : RowsumPairing).
Hypothesis Ht : searchable t.
Hypothesis Hn : 1 <= n.
Let p := Some pr.

Definition cut_of (rs : Quad) (e e' : text * Dir) : Prop :=
  exists L W G1 G2, is_list t n rs L /\ (forall tg, file_to_sequences (W tg) = Some (L tg)) /\ cut_lines (left_lines t m n p L) G1 /\ cut_lines (right_lines t m n p L) G2 /\
    e = (rowsum_dir rs, FolderFacts.dir_of p W (left_lines t m n p L) (right_lines t m n p L)) /\ e' = (rowsum_dir rs, FolderFacts.dir_of p W G1 G2).

Lemma cut_entry rs e e' : entry_of t m n p rs e -> fst e' = fst e -> cut_dir (snd e) (snd e') -> cut_of rs e e'.
Proof.
  intros (L & W & HL & HW & ->) E F. cbn [fst snd] in *. apply cut_dir_of in F as (G1 & G2 & Ed & I1 & I2).
  exists L, W, G1, G2. destruct e' as [k d]. cbn [fst snd] in *. subst. auto 8.
Qed.

Lemma cut_match rs e e' ls r : listing_ok ls -> cut_of rs e e' -> entry_result t ls (fst e', sort_dir (snd e')) = Some r ->
  (forall q, In q r -> valid t n rs q) /\
  (forall q, valid t n rs q -> (forall pair, In pair (SpecMixed.pairs_of pr Both) -> has_whole_line (snd e) (snd e') pair q) -> In q r).
Proof.
  intros (_ & Ls & Lp) (L & W & G1 & G2 & HL & HW & I1 & I2 & -> & ->). unfold entry_result. cbn [fst snd]. rewrite sort_dir_of.
  rewrite (read_sequences p W L _ _ _ HW (Ls _ _)). cbn [bind]. intros E.
  destruct (cut_pairing t m n rs L p G1 G2 Ht Hn HL I1 I2) as [C C'].
  assert (G : (forall q, In q r -> valid t n rs q) /\ forall q, valid t n rs q -> lined L (fst (tags1 p)) (snd (tags1 p)) (both (left_lines t m n p L) G1) q ->
    lined L (fst (tags2 p)) (snd (tags2 p)) (both (right_lines t m n p L) G2) q -> In q r).
  { destruct (read_order p W G1 G2 _ (Lp (rowsum_dir rs) _)) as [O|O];
      [apply C|apply C']; (refine (eq_trans (eq_sym _) E)); (refine (eq_trans (f_equal (fun o => let* (files, order) := o in _) O) _)); reflexivity. }
  destruct G as [Gs Gc]. split; auto. intros q V H. apply Gc; auto; assert (Pq := proj1 V).
  - destruct (in_dir p W G1 G2) as (D1 & D2 & _). destruct (in_dir p W (left_lines t m n p L) (right_lines t m n p L)) as (_ & D2' & _).
    apply (lined_text t m n rs LEFT (fst (signs p)) L W _ _ _ q HL HW Pq); [intros x Hx; now apply in_both in Hx|].
    destruct (H (tags1 p)) as (la & lb & lines & lines' & k & i & j & si & sj & A & B & C1 & C2 & Ei & Ej & Ci & Cj & Nk & J & J'); [rewrite pairs_tags; now left|].
    apply D1 in A. apply D1 in B. apply D2' in C1. apply D2 in C2. subst. exists k, i, j, si, sj. split; auto. split; auto. split; auto. split; auto. split; auto. now apply in_both.
  - destruct (in_dir p W G1 G2) as (D1 & _ & D2). destruct (in_dir p W (left_lines t m n p L) (right_lines t m n p L)) as (_ & _ & D2').
    apply (lined_text t m n rs RIGHT (snd (signs p)) L W _ _ _ q HL HW Pq); [intros x Hx; now apply in_both in Hx|].
    destruct (H (tags2 p)) as (la & lb & lines & lines' & k & i & j & si & sj & A & B & C1 & C2 & Ei & Ej & Ci & Cj & Nk & J & J'); [rewrite pairs_tags; right; now left|].
    apply D1 in A. apply D1 in B. apply D2' in C1. apply D2 in C2. subst. exists k, i, j, si, sj. split; auto. split; auto. split; auto. split; auto. split; auto. now apply in_both.
Qed.

Lemma cut_folder rss f f' ls r : listing_ok ls -> NoDup rss -> Forall2 (entry_of t m n p) rss f -> cut f f' -> match_pairs ls t (sortpairs f') = Some r ->
  (forall q, In q r -> pm_quad n q /\ is_type t q /\ In (totals q) rss) /\
  (forall q, pm_quad n q -> is_type t q -> both_whole f f' pr q -> In q r).
Proof.
  intros Hls Nd F C E. destruct (match_some t ls _ r Hls E) as [A B].
  assert (G : forall e', In e' f' -> exists rs e, In rs rss /\ In e f /\ cut_of rs e e').
  { clear -F C. revert f' C. induction F as [|rs e rss f He F IH]; intros f' C; inversion C as [|? e1 ? f1 [E Ce] C']; subst; [intros e' []|].
    intros e' [<-|I].
    - exists rs, e. split; [now left|]. split; [now left|]. now apply cut_entry.
    - destruct (IH f1 C' e' I) as (rs' & e0 & X & Y & Z). exists rs', e0. split; [now right|]. split; [now right|auto]. }
  assert (U : forall nm d d', In (nm, d) f -> In (nm, d') f -> d = d').
  { clear -F Nd. revert Nd. induction F as [|rs e rss f He F IH]; intros Nd nm d d' X Y; [contradiction|]. inversion Nd as [|? ? N1 N2]; subst.
    assert (Ne : forall d, ~ In (rowsum_dir rs, d) f).
    { clear -F N1. intros d. induction F as [|rs' e rss f He F IH]; [intros []|]. intros [X|X].
      - destruct He as (L & W & _ & _ & ->). injection X as X _. apply rowsum_dir_inj in X. subst. apply N1. now left.
      - apply IH; auto. intros J. apply N1. now right. }
    destruct He as (L & W & _ & _ & ->). destruct X as [X|X], Y as [Y|Y].
    - congruence.
    - injection X as <- _. now apply Ne in Y.
    - injection Y as <- _. now apply Ne in X.
    - now apply (IH N2 nm). }
  split.
  - intros q Hq. destruct (B q Hq) as (e1 & re & I & X & Iq). unfold sortpairs in I. apply in_map_iff in I as ([k d] & <- & I).
    destruct (G _ I) as (rs & e & Ir & _ & Ce). destruct (cut_match rs e (k, d) ls re Hls Ce X) as [S _]. destruct (S q Iq) as (P & T & <-). auto.
  - intros q P T (name & d & d' & Sd & I & I' & H). apply sums_dir_unique in Sd. subst name.
    destruct (G _ I') as (rs & e & Ir & Ie & Ce). assert (Ce' := Ce). destruct Ce' as (L & W & G1 & G2 & _ & _ & _ & _ & Ee & Ee').
    assert (X : rs = totals q). { assert (X := f_equal fst Ee'). cbn [fst] in X. now apply rowsum_dir_inj in X. } subst rs.
    assert (Y : d = snd e). { apply (U (rowsum_dir (totals q))); auto. rewrite Ee in Ie |- *. exact Ie. } subst d.
    destruct (A (rowsum_dir (totals q), sort_dir d')) as (re & X & J).
    { unfold sortpairs. apply in_map_iff. exists (rowsum_dir (totals q), d'). auto. }
    apply J. destruct (cut_match (totals q) e (rowsum_dir (totals q), d') ls re Hls Ce X) as [_ S]. apply S; auto. split; auto.
Qed.
End Cut.

Theorem cut_matches n t m pr ls : 1 <= n -> (Z.of_nat n < 2 ^ 62)%Z -> three_types t -> any_listing ls ->
  exists fuel0, forall fuel, fuel0 <= fuel -> exists f c, write_pairs fuel n t m (Some pr) [] = Some (f, c) /\
    forall f' r, cut f f' -> match_pairs ls t (sortpairs f') = Some r ->
      (forall q, In q r -> pm_quad n q /\ is_type t q /\ normal_rowsums t (totals q)) /\
      (forall q, pm_quad n q -> is_type t q -> both_whole f f' pr q -> In q r).
Proof.
  intros Hn Hn2 Ht Hls. destruct (generate_rowsums_spec n t) as (f0 & H). exists f0. intros fuel Hf.
  destruct (H fuel Hf) as (rss & E & Nd & Hin).
  destruct (write_folder t m n (Some pr) rss [] 0%Z Ht Hn Hn2) as (f & c & Ew & F2); auto.
  { apply Forall_forall. intros r Hr. apply Hin in Hr. apply Hr. }
  exists f, c. split; [unfold write_pairs; rewrite E; exact Ew|]. intros f' r C Em.
  destruct (cut_folder t m n pr Ht Hn rss f f' ls r Hls Nd F2 C Em) as [A B]. split; auto.
  intros q Hq. destruct (A q Hq) as (P & T & I). apply Hin in I. tauto.
Qed.
Theorem cut_join n t m pr ls ord : 1 <= n <= 31 -> t = QuaternionType \/ t = WilliamsonType -> any_listing ls -> ord_ok ord ->
  exists fuel0, forall fuel, fuel0 <= fuel -> exists f c, write_pairs fuel n t m (Some pr) [] = Some (f, c) /\
    forall f' path r, cut f f' -> join_pairs fuel ord path ls t (sortpairs f') = Some r ->
      NoDup r /\ r <> [] /\ (forall x, In x r -> pm_quad n x /\ is_type t x /\ least (reach (type_ops t) x) x) /\
      (forall q, pm_quad n q -> is_type t q -> both_whole f f' pr q -> exists x, In x r /\ reach (type_ops t) q x /\ forall x', In x' r -> reach (type_ops t) q x' -> x' = x).
Proof.
  intros Hn Ht Hls Ho. assert (Ht' : searchable t) by (unfold searchable; tauto).
  destruct (cut_matches n t m pr ls ltac:(lia) ltac:(lia) Ht' Hls) as (f1 & H1). exists (Nat.max f1 (class_fuel n)). intros fuel Hf.
  destruct (H1 fuel ltac:(lia)) as (f & c & E & T). exists f, c. split; auto. intros f' path r C Ej.
  assert (Ej' := Ej). rewrite join_pairs_eq in Ej' by auto. apply bind_some in Ej' as (r0 & Em & Ej'). destruct (T f' r0 C Em) as [A B].
  assert (Ne : r0 <> []) by (intros ->; discriminate Ej').
  destruct (join_of n ls ord t (sortpairs f') r0 Hn Ho Ht Em) with (fuel := fuel) (path := path) as (r' & Ej2 & Nd & A1 & B1); auto; [|lia|].
  { intros q Hq. apply A in Hq. tauto. }
  rewrite Ej in Ej2. injection Ej2 as <-. split; auto. split.
  { destruct r0 as [|z r0]; [congruence|]. destruct (B1 z (or_introl eq_refl)) as (x & Ix & _). now intros ->. }
  split.
  - intros x Hx. destruct (A1 x Hx) as (P & Ty & Lx & _). auto.
  - intros q P Ty W. apply B1, B; auto.
Qed.
