(* Matching with files of pairs that have lost lines. *)
From Coq Require Import Ascii String List ZArith Bool Arith Lia Permutation Relations.
From Verif Require Import Base BaseFacts Sums Quat ModelSequence ModelWilliamson ModelEquivalence SpecEquiv OpFacts EquivFacts TypeFacts
  OrderFacts EquivThms CanonFacts ReduceFacts WsFacts QtWt Convert ModelMatrices SpecMatrix SpecPrint MatFacts QhmFacts PrintFacts HmFacts ModelGraph SpecGraph GraphThms HadEquiv
  ModelRowsum SpecRowsum RowsumFacts ModelMatching ModelWrite TextFacts JoinFacts WriteFacts FolderFacts SearchThms ExtendFacts FindQuadFacts DriverFacts ModelMain SpecMain MainFacts ArgFacts MainThms RepSymm SeqFacts DriverMain
  ModelLog LogFolder LogJoin ModelScripts DirFacts SpecFiles SingleFacts SpecSearch SpecSplit SplitFacts SplitThms ModelJobs SpecJobs JobsFacts JobsThms JobsResults SpecKilled KilledFacts KilledThms KilledSilent ClassSums
  SolverFacts SpecPrinted PrintedFacts SpecMixed SpecThinned Spec.
Import ListNotations.
Open Scope nat_scope.
Notation length := List.length.

(* a line for the sequences a and b of q *)
Definition lined (L : Tag -> list (list Z)) (a b : Tag) (G : Lines) (q : QuadSeq) : Prop :=
  exists line k i j, In line G /\ parsed line k (i, j) /\ nth_error (L a) i = Some (sequence q a) /\ nth_error (L b) j = Some (sequence q b).

Section Directory.
Context (t : SequenceType) (m : MatchOption) (n : nat) (rs : Quad) (L : Tag -> list (list Z)).
Context (Ht : searchable t).
Context (Hn : 1 <= n).
Context (HL : is_list t n rs L).
Context (a b c d : Tag) (sa sb : EquationSide) (ba bb : bool).
Context (Ho : In (a, b, c, d) orders).
Let F1 := pair_lines t m sa ba n (L a) (L b).
Let F2 := pair_lines t m sb bb n (L c) (L d).
Let S := (L TW, L TX, L TY, L TZ).
Context (G1 G2 : Lines) (I1 : incl G1 F1) (I2 : incl G2 F2).

Lemma thin_ok sd bo l1 l2 (G : Lines) : incl G (pair_lines t m sd bo n l1 l2) -> ok_lines (sort_lines G).
Proof.
  intros I. apply Forall_forall. intros line Hl. rewrite sort_lines_perm in Hl. apply I in Hl. apply in_pair_lines in Hl as (i & j & s1 & s2 & _ & _ & _ & _ & ->).
  do 2 eexists. apply get_line_pair_line.
Qed.
Lemma thin_line sd bo l1 l2 (G : Lines) line x ij : incl G (pair_lines t m sd bo n l1 l2) -> In line G -> parsed line x ij ->
  exists s1 s2, nth_error l1 (fst ij) = Some s1 /\ nth_error l2 (snd ij) = Some s2 /\ x = join (key_fields t m sd bo s1 s2).
Proof.
  intros I Hl Hp. apply I in Hl. apply in_pair_lines in Hl as (i & j & s1 & s2 & H1 & H2 & _ & _ & ->).
  apply line_parsed in Hp as [-> ->]. exists s1, s2. auto.
Qed.

Lemma thin_directory :
  exists r, join_pairs_files (sort_lines G1) (sort_lines G2) t (a, b, c, d) S = Some r /\
    (forall q, In q r -> valid t n rs q /\ lined L a b G1 q /\ lined L c d G2 q) /\
    (forall q, valid t n rs q ->
      key_fields t m sa ba (sequence q a) (sequence q b) = key_fields t m sb bb (sequence q c) (sequence q d) ->
      (forall s1 s2, In s1 (L a) -> In s2 (L b) -> unrelated (join (key_fields t m sa ba (sequence q a) (sequence q b))) (join (key_fields t m sa ba s1 s2))) ->
      (forall s3 s4, In s3 (L c) -> In s4 (L d) -> unrelated (join (key_fields t m sa ba (sequence q a) (sequence q b))) (join (key_fields t m sb bb s3 s4))) ->
      lined L a b G1 q -> lined L c d G2 q -> In q r).
Proof.
  assert (Q := fun ij kl s1 s2 s3 s4 => quad_found t n rs L HL a b c d Ho ij kl s1 s2 s3 s4).
  assert (T1 := fun line x ij => thin_line sa ba (L a) (L b) G1 line x ij I1). assert (T2 := fun line x ij => thin_line sb bb (L c) (L d) G2 line x ij I2).
  assert (P1 : forall line, In line (sort_lines G1) <-> In line G1) by (intros; now rewrite sort_lines_perm).
  assert (P2 : forall line, In line (sort_lines G2) <-> In line G2) by (intros; now rewrite sort_lines_perm).
  destruct (join_files_spec t (a, b, c, d) S (sort_lines G1) (sort_lines G2)) as (r & E & Snd & Cmp);
    try apply sort_lines_sorted; try (eapply thin_ok; eassumption).
  - intros l1 l2 x ij kl H1 H2 X1 X2. apply P1 in H1. apply P2 in H2.
    destruct (T1 _ _ _ H1 X1) as (s1 & s2 & A & B & _). destruct (T2 _ _ _ H2 X2) as (s3 & s4 & C & D & _).
    destruct (Q ij kl s1 s2 s3 s4) as (q & Eq & Pq & _); auto.
    destruct (join_condition_spec n q t Ht Hn Pq) as (v & Ev & _). eauto.
  - exists r. split; auto. split.
    + intros q Hq. destruct (Snd q Hq) as (x & l1 & l2 & [i j] & [k l] & H1 & H2 & X1 & X2 & Eq & Ec). apply P1 in H1. apply P2 in H2.
      destruct (T1 _ _ _ H1 X1) as (s1 & s2 & A & B & _). destruct (T2 _ _ _ H2 X2) as (s3 & s4 & C & D & _). cbn [fst snd] in *.
      destruct (Q (i, j) (k, l) s1 s2 s3 s4) as (q' & Eq' & Pq & Tq & Ea & Eb & Ecc & Ed); auto.
      assert (Some q = Some q') as X by (rewrite <- Eq, <- Eq'; reflexivity). injection X as <-. destruct (join_condition_spec n q t Ht Hn Pq) as (v & Ev & Hv).
      split; [|split].
      * split; auto. split; auto. apply Hv. congruence.
      * exists l1, x, i, j. rewrite Ea, Eb. auto.
      * exists l2, x, k, l. rewrite Ecc, Ed. auto.
    + intros q Vq K U1 U2 (l1 & k1 & i & j & H1 & X1 & A & B) (l2 & k2 & k & l & H2 & X2 & C & D). pose proof Vq as (Pq & Tyq & Tq).
      destruct (T1 _ _ _ H1 X1) as (s1 & s2 & A' & B' & ->). destruct (T2 _ _ _ H2 X2) as (s3 & s4 & C' & D' & ->). cbn [fst snd] in *.
      rewrite A in A'. rewrite B in B'. rewrite C in C'. rewrite D in D'. injection A' as <-. injection B' as <-. injection C' as <-. injection D' as <-.
      apply (Cmp (join (key_fields t m sa ba (sequence q a) (sequence q b)))).
      * intros line x ij Hin Hp. apply P1 in Hin. destruct (T1 _ _ _ Hin Hp) as (s1 & s2 & A' & B' & ->).
        apply U1; eapply nth_error_In; eauto.
      * intros line x ij Hin Hp. apply P2 in Hin. destruct (T2 _ _ _ Hin Hp) as (s1 & s2 & A' & B' & ->).
        apply U2; eapply nth_error_In; eauto.
      * destruct (Q (i, j) (k, l) (sequence q a) (sequence q b) (sequence q c) (sequence q d)) as (q' & Eq & Pq' & _ & Ea & Eb & Ec & Ed); auto.
        assert (q' = q).
        { apply quad_ext; [destruct Pq as ((-> & _) & _), Pq' as ((-> & _) & _); reflexivity|].
          apply (order_all (fun tg => sequence q' tg = sequence q tg) a b c d); auto. }
        subst q'. exists l1, l2, (i, j), (k, l). split; [now apply P1|]. split; [now apply P2|]. split; auto. split; [now rewrite K|]. split; [exact Eq|].
        destruct (join_condition_spec n q t Ht Hn Pq) as (v & -> & Hv). f_equal. now apply Hv.
Qed.
End Directory.

Definition tags1 (p : option RowsumPairing) := fst (pairing_tags p).
Definition tags2 (p : option RowsumPairing) := snd (pairing_tags p).
Lemma thin_pairing t m n rs L p G1 G2 : searchable t -> 1 <= n -> is_list t n rs L -> incl G1 (left_lines t m n p L) -> incl G2 (right_lines t m n p L) ->
  let S := (L TW, L TX, L TY, L TZ) in
  let good r := forall q, In q r <-> valid t n rs q /\ lined L (fst (tags1 p)) (snd (tags1 p)) G1 q /\ lined L (fst (tags2 p)) (snd (tags2 p)) G2 q in
  (exists r, join_pairs_files (sort_lines G1) (sort_lines G2) t (order_of p) S = Some r /\ good r) /\
  (exists r, join_pairs_files (sort_lines G2) (sort_lines G1) t (swapped (order_of p)) S = Some r /\ good r).
Proof.
  intros Ht Hn HL. cbv zeta. unfold left_lines, right_lines, order_of, swapped, tags1, tags2.
  pose proof (fun q Hq Ty => key_match n q t m p Hn Hq Ty Ht) as KM.
  assert (Ho : let '((a, b), (c, d)) := pairing_tags p in In (a, b, c, d) orders /\ In (c, d, a, b) orders /\ a <> b /\ c <> d).
  { destruct p as [[| |]|]; cbn [pairing_tags]; (split; [cbn; tauto|split; [cbn; tauto|split; discriminate]]). }
  destruct (pairing_tags p) as [[a b] [c d]]. cbn [fst snd]. destruct Ho as (Ho & Ho' & Nab & Ncd). intros I1 I2. split.
  - destruct (thin_directory t m n rs L Ht Hn HL a b c d LEFT RIGHT (fst (signs p)) (snd (signs p)) Ho G1 G2 I1 I2) as (r & E & Snd & Cmp).
    exists r. split; auto. intros q. split; auto. intros (Vq & H1 & H2). apply Cmp; auto.
    + apply KM; apply Vq.
    + intros s1 s2 X1 X2. apply (keys_clear t m n rs L q a b a b LEFT LEFT); auto.
    + intros s1 s2 X1 X2. apply (keys_clear t m n rs L q a b c d LEFT RIGHT); auto. right. split; [discriminate|auto].
  - destruct (thin_directory t m n rs L Ht Hn HL c d a b RIGHT LEFT (snd (signs p)) (fst (signs p)) Ho' G2 G1 I2 I1) as (r & E & Snd & Cmp).
    exists r. split; auto. intros q. split; [intros Hq; apply Snd in Hq; tauto|]. intros (Vq & H1 & H2). apply Cmp; auto.
    + symmetry. apply KM; apply Vq.
    + intros s1 s2 X1 X2. apply (keys_clear t m n rs L q c d c d RIGHT RIGHT); auto.
    + intros s1 s2 X1 X2. apply (keys_clear t m n rs L q c d a b RIGHT LEFT); auto. right. split; [discriminate|auto].
Qed.

(* ---- the directories ---- *)
Lemma pair_name_eq a b : pair_name (a, b) = pair_file a b. Proof. now destruct a, b. Qed.
Lemma seq_name_eq a : seq_name a = seq_file a. Proof. now destruct a. Qed.
Lemma forall2_cons {A B} (R : A -> B -> Prop) x y l l' : Forall2 R (x :: l) (y :: l') -> R x y /\ Forall2 R l l'.
Proof. intros H. inversion H; auto. Qed.
Lemma fewer_dir p W FL FR d : fewer_lines (FolderFacts.dir_of p W FL FR) d -> exists G1 G2, d = FolderFacts.dir_of p W G1 G2 /\ incl G1 FL /\ incl G2 FR.
Proof.
  assert (Ns : forall a q, seq_file a <> pair_name q) by (intros [] [[] []]; discriminate).
  unfold fewer_lines, FolderFacts.dir_of. destruct (pairing_tags p) as [[a b] [c d0]]. intros F.
  do 6 (destruct d as [|[? ?] d]; [now inversion F|]; apply forall2_cons in F as [[? ?] F]). inversion F; subst. cbn [fst snd] in *. subst.
  repeat match goal with H : _ = W _ \/ _ |- _ => destruct H as [->|[[q H] _]]; [|now apply Ns in H] end.
  repeat match goal with H : ?l = ?F \/ _ |- _ => assert (incl l F) by (destruct H as [->|[_ H]]; [intros ? ?; assumption|exact H]); clear H end.
  do 2 eexists. split; [reflexivity|]. split; assumption.
Qed.

Lemma sums_dir_unique r s : sums_dir r s -> s = rowsum_dir r.
Proof.
  destruct r as [[[a b] c] d]. intros (sa & sb & sc & sd & A & B & C & D & ->). unfold rowsum_dir.
  apply signed_isize in A, B, C, D. subst. reflexivity.
Qed.

Lemma line_read key i j : Forall (fun c => c <> colon) key ->
  get_line_from (key ++ lit "_:_" ++ usize_to_string (Z.of_nat i) ++ lit "_" ++ usize_to_string (Z.of_nat j)) = Some (key, (i, j)).
Proof.
  intros Hk. assert (Hi := usize_num (Z.of_nat i) ltac:(lia)). assert (Hj := usize_num (Z.of_nat j) ltac:(lia)).
  unfold get_line_from. rewrite split_at_colon by exact Hk. cbn [bind].
  rewrite split_at_none.
  2:{ apply Forall_app; split; [eapply Forall_impl; [|exact Hi]; apply num_char_colon|].
      apply Forall_app; split; [repeat constructor; discriminate|].
      eapply Forall_impl; [|exact Hj]; apply num_char_colon. }
  rewrite split_at_und by (eapply Forall_impl; [|exact Hi]; apply num_char_und).
  rewrite parse_usize_to_string by lia. cbn [bind].
  rewrite split_at_und_none by (eapply Forall_impl; [|exact Hj]; apply num_char_und).
  rewrite parse_usize_to_string by lia. cbn [bind]. now rewrite !Nat2Z.id.
Qed.

Lemma read_text x s : string_to_sequence x = Some s -> x = map sign_char s.
Proof.
  unfold string_to_sequence. revert s. induction x as [|c x IH]; intros s; cbn [traverse]; [intros E; now injection E as <-|].
  destruct (Ascii.eqb_spec c "+"%char) as [->|]; [|destruct (Ascii.eqb_spec c "-"%char) as [->|]; [|discriminate]]; cbn [bind];
    destruct (traverse _ x) as [r|]; try discriminate; cbn [bind]; intros E; injection E as <-; cbn [map]; f_equal; now apply IH.
Qed.
Lemma signs_inj s s' : pm1 s -> pm1 s' -> map sign_char s = map sign_char s' -> s = s'.
Proof.
  intros P. revert s'. induction P as [|a s Ha Hs IH]; intros [|b s'] P' E; try discriminate; auto.
  cbn [map] in E. injection E as E1 E2. inversion P' as [|? ? Hb Hs']; subst. f_equal; [|now apply IH].
  destruct Ha as [->| ->], Hb as [->| ->]; auto; discriminate E1.
Qed.
Lemma file_nth (w : Lines) (l : list (list Z)) : file_to_sequences w = Some l -> forall i x, nth_error w i = Some x ->
  exists s, nth_error l i = Some s /\ x = map sign_char s.
Proof.
  unfold file_to_sequences. revert l. induction w as [|y w IH]; intros l E i x Hx; [destruct i; discriminate|].
  cbn [traverse] in E. destruct (string_to_sequence y) as [s|] eqn:Es; [|discriminate]. cbn [bind] in E.
  destruct (traverse string_to_sequence w) as [r|] eqn:Er; [|discriminate]. cbn [bind] in E. injection E as <-.
  destruct i as [|i]; cbn [nth_error] in *; [|now apply IH]. injection Hx as <-. exists s. split; auto. now apply read_text.
Qed.
Lemma file_nth_back (w : Lines) (l : list (list Z)) : file_to_sequences w = Some l -> forall i s, nth_error l i = Some s ->
  nth_error w i = Some (map sign_char s).
Proof.
  intros E i s Hs. assert (Hl : length l = length w) by exact (traverse_length _ _ _ E).
  destruct (nth_error w i) as [x|] eqn:Ex.
  - destruct (file_nth w l E i x Ex) as (s' & E1 & ->). rewrite Hs in E1. injection E1 as <-. reflexivity.
  - apply nth_error_None in Ex. rewrite <- Hl in Ex. apply nth_error_None in Ex. congruence.
Qed.

Lemma lined_text t m n rs sd bo L W a b G q : is_list t n rs L -> (forall tg, file_to_sequences (W tg) = Some (L tg)) -> pm_quad n q -> incl G (pair_lines t m sd bo n (L a) (L b)) ->
  lined L a b G q <-> exists key i j si sj, nth_error (W a) i = Some (map sign_char (sequence q a)) /\ nth_error (W b) j = Some (map sign_char (sequence q b)) /\
    canonical_numeral si i /\ canonical_numeral sj j /\ ~ In ":"%char key /\ In (key ++ chars "_:_" ++ si ++ chars "_" ++ sj) G.
Proof.
  intros HL HW Pq I. split.
  - intros (line & k & i & j & Il & Pl & A & B). assert (X := I _ Il). apply in_pair_lines in X as (i' & j' & s1 & s2 & _ & _ & _ & _ & El).
    subst line. apply line_parsed in Pl as [-> E]. injection E as <- <-.
    exists (join (key_fields t m sd bo s1 s2)), i, j, (usize_to_string (Z.of_nat i)), (usize_to_string (Z.of_nat j)).
    split; [now apply (file_nth_back _ _ (HW a))|]. split; [now apply (file_nth_back _ _ (HW b))|]. split; [apply usize_canonical|]. split; [apply usize_canonical|]. split.
    + assert (F := join_colon (key_fields t m sd bo s1 s2)). rewrite Forall_forall in F. intros J. now apply (F _ J).
    + unfold line_of in Il. rewrite pair_line_join in Il. exact Il.
  - intros (key & i & j & si & sj & A & B & Ci & Cj & Nk & Il). apply numeral_string in Ci, Cj. subst si sj.
    exists (key ++ lit "_:_" ++ usize_to_string (Z.of_nat i) ++ lit "_" ++ usize_to_string (Z.of_nat j)), key, i, j.
    split; [exact Il|]. split.
    { apply line_read. apply Forall_forall. intros c Hc ->. now apply Nk. }
    assert (G' : forall tg k, nth_error (W tg) k = Some (map sign_char (sequence q tg)) -> nth_error (L tg) k = Some (sequence q tg)).
    { intros tg k E. destruct (file_nth _ _ (HW tg) _ _ E) as (s & Es & X). rewrite Es. f_equal. apply signs_inj.
      - apply nth_error_In in Es. apply HL in Es. tauto.
      - now apply (seq_pm n).
      - now symmetry. }
    split; auto.
Qed.

Lemma in_dir p W G1 G2 : let d := FolderFacts.dir_of p W G1 G2 in
  (forall a l, In (seq_name a, l) d <-> l = W a) /\ (forall l, In (pair_name (tags1 p), l) d <-> l = G1) /\ (forall l, In (pair_name (tags2 p), l) d <-> l = G2).
Proof.
  cbv zeta. unfold FolderFacts.dir_of, tags1, tags2. split; [|split].
  - intros a l. destruct p as [[| |]|], a; cbn [pairing_tags]; (split; [intros H; cbn [In] in H; repeat (destruct H as [H|H]; [try discriminate H; now injection H as <-|]); contradiction|intros ->; cbn [In]; tauto]).
  - intros l. destruct p as [[| |]|]; cbn [pairing_tags fst snd]; (split; [intros H; cbn [In] in H; repeat (destruct H as [H|H]; [try discriminate H; now injection H as <-|]); contradiction|intros ->; cbn [In]; tauto]).
  - intros l. destruct p as [[| |]|]; cbn [pairing_tags fst snd]; (split; [intros H; cbn [In] in H; repeat (destruct H as [H|H]; [try discriminate H; now injection H as <-|]); contradiction|intros ->; cbn [In]; tauto]).
Qed.
