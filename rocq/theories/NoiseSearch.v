(* The search with computed spectra: which quadruples are found. *)
From Coq Require Import Ascii String List ZArith Lia Arith Bool Reals Lra Permutation Relations.
From Verif Require Import Base BaseFacts Sums ModelSequence ModelWilliamson ModelEquivalence SpecEquiv OpFacts EquivFacts TypeFacts
  OrderFacts FastFacts EquivThms CanonFacts NsFacts ReduceFacts WsFacts ModelFourier ModelMatching
  ModelRowsum SeqFacts FourierFacts SpecFourier MatchFacts SpecRowsum RowsumFacts QtWt GraphFacts Convert ModelWrite TextFacts
  JoinFacts WriteFacts DirFacts FolderFacts SearchThms ModelNoise SpecNoise NoiseFacts NoiseKeys Spec.
Import ListNotations.
Notation length := List.length.
Open Scope nat_scope.

(* the lines of a pair file whose filter is w *)
Definition lines_w (w : list Z -> list Z -> bool) (t : SequenceType) (m : MatchOption) (side : EquationSide) (b : bool)
    (l1 l2 : list (list Z)) : Lines :=
  somes (map (fun '((i, s1), (j, s2)) => if w s1 s2 && kept t m b s1 s2 then Some (line_of t m side b i s1 j s2) else None)
    (iproduct (enumerate l1) (enumerate l2))).

Lemma in_lines_w w t m side b l1 l2 line : In line (lines_w w t m side b l1 l2) <->
  exists i j s1 s2, nth_error l1 i = Some s1 /\ nth_error l2 j = Some s2 /\ w s1 s2 = true /\
    kept t m b s1 s2 = true /\ line = line_of t m side b i s1 j s2.
Proof.
  unfold lines_w. rewrite in_somes, in_map_iff. split.
  - intros ([[i s1] [j s2]] & E & Hin). apply in_prod_iff in Hin as [A B]. apply in_enumerate in A, B.
    destruct (w s1 s2 && kept t m b s1 s2) eqn:W; [|discriminate]. injection E as <-. apply andb_true_iff in W as [W K]. exists i, j, s1, s2. auto.
  - intros (i & j & s1 & s2 & A & B & W & K & ->). exists ((i, s1), (j, s2)). rewrite W, K. split; auto.
    apply in_prod_iff. rewrite !in_enumerate. auto.
Qed.

Lemma somes_somes {X Y Z} (f : X -> option Y) (g : Y -> option Z) (h : X -> option Z) l :
  (forall x, h x = match f x with Some y => g y | None => None end) ->
  somes (map g (somes (map f l))) = somes (map h l).
Proof.
  intros H. unfold somes. induction l as [|x l IH]; cbn [map flat_map]; auto. rewrite H. rewrite <- IH.
  destruct (f x) as [y|]; cbn [map flat_map app]; auto.
Qed.

Section Write.
Context (n : nat) (A : Arith) (Hn : 1 <= n) (e : R) (He : (0 <= e <= 1)%R) (HA : accurate n e A).
Context (m : MatchOption).
Context (KEY : forall tags t side i s1 j s2, good n s1 -> good n s2 ->
  pair_key_f A n tags t n side m (pair_f n A i s1 j s2) = pair_key n tags t n side m (pair_of i s1 j s2)).
Let w := within_f n A.

Definition all_good (l : list (list Z)) : Prop := forall s, In s l -> good n s.

Lemma write_seq_pairs_f_spec tags b t side rs l1 l2 d : searchable t -> all_good l1 -> all_good l2 ->
  tag_sign tags = Some b ->
  (forall s, In s l1 -> total s = rowsum_of_tag rs (fst tags)) -> (forall s, In s l2 -> total s = rowsum_of_tag rs (snd tags)) ->
  write_seq_pairs_f A n l1 l2 tags t rs n d side m =
  Some (put d (pair_file (fst tags) (snd tags)) (lines_w w t m side b l1 l2), Z.of_nat (length (lines_w w t m side b l1 l2))).
Proof.
  intros Ht H1 H2 Hb R1 R2. unfold write_seq_pairs_f.
  replace (verify_rowsums l1 l2 tags rs) with true.
  2:{ unfold verify_rowsums. symmetry.
      rewrite (proj2 (forallb_forall _ l1)) by (intros s Hs; rewrite rowsum_total; apply Z.eqb_eq; auto).
      cbn [negb]. apply forallb_forall. intros s Hs. rewrite rowsum_total. apply Z.eqb_eq; auto. }
  cbn [guard]. unfold iter_psds_f.
  set (f := fun '((i, s1), (j, s2)) => if w s1 s2 then Some (pair_f n A i s1 j s2) else None).
  rewrite (traverse_map _ f).
  2:{ intros [[i s1] [j s2]] Hin. apply in_prod_iff in Hin as [B C].
      apply in_enumerate in B, C. apply nth_error_In in B, C. apply (couple_psds_f_spec n e A Hn HA); auto. }
  cbn [bind].
  destruct (buffer_loop (pair_key_f A n tags t n side m) (fun pair k => pair_line k (fst (seq_enum1 pair)) (fst (seq_enum2 pair)))
    (fun d => let '(i, s1) := seq_enum1 d in let '(j, s2) := seq_enum2 d in
              if kept t m b s1 s2 then Some (line_of t m side b i s1 j s2) else None)
    (somes (map f (iproduct (enumerate l1) (enumerate l2)))) [] [] 0%Z) as (f' & b' & c' & E & Ef & Ec).
  - intros x Hx. apply in_somes in Hx. apply in_map_iff in Hx as ([[i s1] [j s2]] & Ex & Hin). apply in_prod_iff in Hin as [B C].
    apply in_enumerate in B, C. apply nth_error_In in B, C. unfold f in Ex. destruct (w s1 s2); [|discriminate]. injection Ex as <-.
    rewrite KEY by auto. destruct (H1 _ B), (H2 _ C). rewrite (pair_key_spec n tags b) by auto.
    eexists. split; [reflexivity|]. cbn [pair_f seq_enum1 seq_enum2 fst snd]. destruct (kept t m b s1 s2); reflexivity.
  - refine (eq_trans (f_equal (fun o => let* (file, buffer, counter) := o in
      Some (put d (pair_file (fst tags) (snd tags)) (file ++ buffer), counter)) E) _).
    cbn [bind app] in *. rewrite Ef, Ec.
    rewrite (somes_somes f _ (fun '((i, s1), (j, s2)) => if w s1 s2 && kept t m b s1 s2 then Some (line_of t m side b i s1 j s2) else None)).
    + reflexivity.
    + intros [[i s1] [j s2]]. unfold f. destruct (w s1 s2); reflexivity.
Qed.

Definition left_w (t : SequenceType) (p : option RowsumPairing) (L : Tag -> list (list Z)) : Lines :=
  lines_w w t m LEFT (fst (signs p)) (L (fst (fst (pairing_tags p)))) (L (snd (fst (pairing_tags p)))).
Definition right_w (t : SequenceType) (p : option RowsumPairing) (L : Tag -> list (list Z)) : Lines :=
  lines_w w t m RIGHT (snd (signs p)) (L (fst (snd (pairing_tags p)))) (L (snd (snd (pairing_tags p)))).
Definition entry_w (t : SequenceType) (p : option RowsumPairing) (rs : Quad) (e : text * Dir) : Prop :=
  exists L W, is_list t n rs L /\ (forall tg, file_to_sequences (W tg) = Some (L tg)) /\
    e = (rowsum_dir rs, dir_of p W (left_w t p L) (right_w t p L)).

Lemma write_rowsum_f t p rs f : searchable t -> (Z.of_nat n < 2 ^ 62)%Z -> feasible n rs ->
  Forall (fun e => fst e <> rowsum_dir rs) f ->
  exists e c, write_pairs_rowsum_f A n (seqtype_to_string t) rs n m p f = Some (f ++ [e], c) /\ entry_w t p rs e.
Proof.
  intros Ht Hn2 Hf Fresh.
  destruct (tag_choice (fun tg l => candidates t (rowsum_of_tag rs tg) n = Some l /\
      forall s, In s l <-> length s = n /\ pm1 s /\ total s = rowsum_of_tag rs tg /\ (t = Williamson -> symmetric s))) as (L & HL).
  { intros tg. destruct (candidates_spec t (rowsum_of_tag rs tg) n Hn) as (l & E & _ & H); eauto. now apply (feasible_bound n). }
  assert (IL : is_list t n rs L) by (intros tg s; apply HL).
  destruct (tag_choice (fun tg w => traverse sequence_to_string (L tg) = Some w /\ file_to_sequences w = Some (L tg))) as (W & HW).
  { intros tg. apply write_lines. intros s Hs. apply IL in Hs. tauto. }
  exists (rowsum_dir rs, dir_of p W (left_w t p L) (right_w t p L)).
  assert (Len : forall tg, all_good (L tg)).
  { intros tg s Hs. apply IL in Hs. split; tauto. }
  assert (Sum : forall tg s, In s (L tg) -> total s = rowsum_of_tag rs tg).
  { intros tg s Hs. apply IL in Hs. tauto. }
  assert (WS : forall a b bo sd d, tag_sign (a, b) = Some bo -> write_seq_pairs_f A n (L a) (L b) (a, b) t rs n d sd m =
    Some (put d (pair_file a b) (lines_w w t m sd bo (L a) (L b)), Z.of_nat (length (lines_w w t m sd bo (L a) (L b))))).
  { intros a b bo sd d Hb. rewrite (write_seq_pairs_f_spec (a, b) bo) by (auto; apply Sum). reflexivity. }
  exists (Z.of_nat (length (left_w t p L)) + Z.of_nat (length (right_w t p L)))%Z.
  split; [|exists L, W; split; [exact IL|split; [intros tg; apply HW|reflexivity]]].
  - unfold write_pairs_rowsum_f. rewrite seqtype_round. cbn [bind]. rewrite (open_fresh f) by auto.
    rewrite !(proj1 (HL _)). cbn [bind].
    do 4 (rewrite (write_sequences_some _ _ _ _ (proj1 (HW _))); cbn [bind]).
    pose proof (signs_spec p) as Sg. unfold left_w, right_w, dir_of.
    destruct p as [[| |]|]; cbn [pairing_tags fst snd] in *; destruct Sg as [S1 S2];
      rewrite (WS _ _ _ LEFT _ S1); cbn [bind]; rewrite (WS _ _ _ RIGHT _ S2); cbn [bind];
      rewrite (put_fresh f) by auto; cbn [put filter seq_file fst]; reflexivity.
Qed.

Lemma write_folder_f t p rss f c : searchable t -> (Z.of_nat n < 2 ^ 62)%Z -> Forall (feasible n) rss -> NoDup rss ->
  Forall (fun e => forall rs, In rs rss -> fst e <> rowsum_dir rs) f ->
  exists f' c', fold_m (fun '(f, counter) rs =>
      let* (f, c) := write_pairs_rowsum_f A n (seqtype_to_string t) rs n m p f in Some (f, (counter + c)%Z)) rss (f, c) = Some (f ++ f', c') /\
    Forall2 (entry_w t p) rss f'.
Proof.
  intros Ht Hn2. revert f c. induction rss as [|rs rss IH]; intros f c Fe Nd Fr.
  - exists [], c. split; [cbn; now rewrite app_nil_r|constructor].
  - inversion Fe as [|? ? F1 F2]; subst. inversion Nd as [|? ? N1 N2]; subst. cbn [fold_m].
    destruct (write_rowsum_f t p rs f Ht Hn2 F1) as (e1 & k & E & He1).
    { eapply Forall_impl; [|exact Fr]. intros e0 H. apply H. now left. }
    rewrite E. cbn [bind]. destruct (IH (f ++ [e1]) (c + k)%Z F2 N2) as (f' & c' & E' & Hf').
    + apply Forall_app. split.
      * eapply Forall_impl; [|exact Fr]. intros e0 H r Hr. apply H. now right.
      * constructor; [|constructor]. intros r Hr. destruct He1 as (L & W & _ & _ & ->). cbn [fst]. intros C.
        apply rowsum_dir_inj in C. congruence.
    + exists (e1 :: f'), c'. split; [|now constructor]. refine (eq_trans E' _). now rewrite <- app_assoc.
Qed.

(* ---- joining ---- *)

Section Directory.
Context (t : SequenceType) (rs : Quad) (L : Tag -> list (list Z)).
Context (Ht : searchable t) (HL : is_list t n rs L).
Context (a b c d : Tag) (sa sb : EquationSide) (ba bb : bool).
Context (Ho : In (a, b, c, d) orders).
Let F1 := lines_w w t m sa ba (L a) (L b).
Let F2 := lines_w w t m sb bb (L c) (L d).
Let S := (L TW, L TX, L TY, L TZ).

Lemma lines_w_ok sd bo l1 l2 : ok_lines (sort_lines (lines_w w t m sd bo l1 l2)).
Proof.
  apply Forall_forall. intros line Hl. rewrite sort_lines_perm in Hl. apply in_lines_w in Hl as (i & j & s1 & s2 & _ & _ & _ & _ & ->).
  do 2 eexists. apply get_line_pair_line.
Qed.
Lemma in_sorted_w sd bo l1 l2 line x ij : In line (sort_lines (lines_w w t m sd bo l1 l2)) -> parsed line x ij ->
  exists s1 s2, nth_error l1 (fst ij) = Some s1 /\ nth_error l2 (snd ij) = Some s2 /\ x = join (key_fields t m sd bo s1 s2) /\ w s1 s2 = true.
Proof.
  intros Hl Hp. rewrite sort_lines_perm in Hl. apply in_lines_w in Hl as (i & j & s1 & s2 & H1 & H2 & W & _ & ->).
  apply line_parsed in Hp as [-> ->]. exists s1, s2. auto.
Qed.

Lemma join_directory_w :
  exists r, join_pairs_files (sort_lines F1) (sort_lines F2) t (a, b, c, d) S = Some r /\
    (forall q, In q r -> valid t n rs q /\ w (sequence q a) (sequence q b) = true /\ w (sequence q c) (sequence q d) = true) /\
    (forall q, valid t n rs q ->
      a <> b -> c <> d ->
      key_fields t m sa ba (sequence q a) (sequence q b) = key_fields t m sb bb (sequence q c) (sequence q d) ->
      (forall s1 s2, In s1 (L a) -> In s2 (L b) -> unrelated (join (key_fields t m sa ba (sequence q a) (sequence q b))) (join (key_fields t m sa ba s1 s2))) ->
      (forall s3 s4, In s3 (L c) -> In s4 (L d) -> unrelated (join (key_fields t m sa ba (sequence q a) (sequence q b))) (join (key_fields t m sb bb s3 s4))) ->
      w (sequence q a) (sequence q b) = true -> w (sequence q c) (sequence q d) = true ->
      In q r).
Proof.
  destruct (join_files_spec t (a, b, c, d) S (sort_lines F1) (sort_lines F2)) as (r & E & Snd & Cmp);
    try apply sort_lines_sorted; try apply lines_w_ok.
  - intros l1 l2 x ij kl H1 H2 P1 P2.
    destruct (in_sorted_w _ _ _ _ _ _ _ H1 P1) as (s1 & s2 & X & B & _).
    destruct (in_sorted_w _ _ _ _ _ _ _ H2 P2) as (s3 & s4 & C & D & _).
    destruct (quad_found t n rs L HL a b c d Ho ij kl s1 s2 s3 s4) as (q & Eq & Pq & _); auto.
    destruct (join_condition_spec n q t Ht Hn Pq) as (v & Ev & _). eauto.
  - exists r. split; auto. split.
    + intros q Hq. destruct (Snd q Hq) as (x & l1 & l2 & ij & kl & H1 & H2 & P1 & P2 & Eq & Ec).
      destruct (in_sorted_w _ _ _ _ _ _ _ H1 P1) as (s1 & s2 & X & B & _ & W1).
      destruct (in_sorted_w _ _ _ _ _ _ _ H2 P2) as (s3 & s4 & C & D & _ & W2).
      destruct (quad_found t n rs L HL a b c d Ho ij kl s1 s2 s3 s4) as (q' & Eq' & Pq & Tq & Q1 & Q2 & Q3 & Q4); auto.
      pose proof (eq_trans (eq_sym Eq) Eq') as EE. injection EE as <-. destruct (join_condition_spec n q t Ht Hn Pq) as (v & Ev & Hv).
      split; [|now rewrite Q1, Q2, Q3, Q4].
      split; auto. split; auto. apply Hv. congruence.
    + intros q Vq Nab Ncd K U1 U2 W1 W2. pose proof Vq as (Pq & Tyq & Tq).
      pose proof (type_WT n q t Pq Hn Tyq) as WT.
      destruct (In_nth_error _ _ (valid_listed t n rs L Ht HL q a Vq)) as (i & Hi). destruct (In_nth_error _ _ (valid_listed t n rs L Ht HL q b Vq)) as (j & Hj).
      destruct (In_nth_error _ _ (valid_listed t n rs L Ht HL q c Vq)) as (k & Hk). destruct (In_nth_error _ _ (valid_listed t n rs L Ht HL q d Vq)) as (l & Hl).
      apply (Cmp (join (key_fields t m sa ba (sequence q a) (sequence q b)))).
      * intros line x ij Hin Hp. destruct (in_sorted_w _ _ _ _ _ _ _ Hin Hp) as (s1 & s2 & X & B & -> & _).
        apply U1; eapply nth_error_In; eauto.
      * intros line x ij Hin Hp. destruct (in_sorted_w _ _ _ _ _ _ _ Hin Hp) as (s1 & s2 & X & B & -> & _).
        apply U2; eapply nth_error_In; eauto.
      * exists (line_of t m sa ba i (sequence q a) j (sequence q b)), (line_of t m sb bb k (sequence q c) l (sequence q d)), (i, j), (k, l).
        destruct (quad_found t n rs L HL a b c d Ho (i, j) (k, l) (sequence q a) (sequence q b) (sequence q c) (sequence q d)) as (q' & Eq & Pq' & _ & Ea & Eb & Ec & Ed); auto.
        assert (q' = q).
        { apply quad_ext; [destruct Pq as ((-> & _) & _), Pq' as ((-> & _) & _); reflexivity|].
          apply (order_all (fun tg => sequence q' tg = sequence q tg) a b c d); auto. }
        subst q'. split; [|split; [|split; [|split; [|split]]]].
        -- rewrite sort_lines_perm. apply in_lines_w. exists i, j, (sequence q a), (sequence q b). repeat split; auto.
           apply kept_amicable; [rewrite !(seq_len n) by auto; auto|rewrite (seq_len n) by auto; auto|now apply WT_amicable].
        -- rewrite sort_lines_perm. apply in_lines_w. exists k, l, (sequence q c), (sequence q d). repeat split; auto.
           apply kept_amicable; [rewrite !(seq_len n) by auto; auto|rewrite (seq_len n) by auto; auto|now apply WT_amicable].
        -- apply get_line_pair_line.
        -- rewrite K. apply get_line_pair_line.
        -- exact Eq.
        -- destruct (join_condition_spec n q t Ht Hn Pq) as (v & -> & Hv). f_equal. now apply Hv.
Qed.
End Directory.

(* both pairs of the quadruple pass the computed filter *)
Definition accepted (p : option RowsumPairing) (q : QuadSeq) : Prop :=
  w (sequence q (fst (fst (pairing_tags p)))) (sequence q (snd (fst (pairing_tags p)))) = true /\
  w (sequence q (fst (snd (pairing_tags p)))) (sequence q (snd (snd (pairing_tags p)))) = true.

Lemma join_pairing_w t rs L p : searchable t -> is_list t n rs L ->
  let S := (L TW, L TX, L TY, L TZ) in
  let good r := forall q, In q r <-> valid t n rs q /\ accepted p q in
  (exists r, join_pairs_files (sort_lines (left_w t p L)) (sort_lines (right_w t p L)) t (order_of p) S = Some r /\ good r) /\
  (exists r, join_pairs_files (sort_lines (right_w t p L)) (sort_lines (left_w t p L)) t (swapped (order_of p)) S = Some r /\ good r).
Proof.
  intros Ht HL. cbv zeta. unfold left_w, right_w, order_of, swapped, accepted.
  pose proof (fun q Hq Ty => key_match n q t m p Hn Hq Ty Ht) as KM.
  assert (Ho : let '((a, b), (c, d)) := pairing_tags p in In (a, b, c, d) orders /\ In (c, d, a, b) orders /\ a <> b /\ c <> d).
  { destruct p as [[| |]|]; cbn [pairing_tags]; (split; [cbn; tauto|split; [cbn; tauto|split; discriminate]]). }
  destruct (pairing_tags p) as [[a b] [c d]]. cbn [fst snd]. destruct Ho as (Ho & Ho' & Nab & Ncd). split.
  - destruct (join_directory_w t rs L Ht HL a b c d LEFT RIGHT (fst (signs p)) (snd (signs p)) Ho) as (r & E & Snd & Cmp).
    exists r. split; auto. intros q. split; [auto|]. intros (Vq & W1 & W2). apply Cmp; auto.
    + apply KM; apply Vq.
    + intros s1 s2 H1 H2. apply (keys_clear t m n rs L q a b a b LEFT LEFT); auto.
    + intros s1 s2 H1 H2. apply (keys_clear t m n rs L q a b c d LEFT RIGHT); auto. right. split; [discriminate|auto].
  - destruct (join_directory_w t rs L Ht HL c d a b RIGHT LEFT (snd (signs p)) (fst (signs p)) Ho') as (r & E & Snd & Cmp).
    exists r. split; auto. intros q. split; [intros Hq; destruct (Snd q Hq) as (? & ? & ?); auto|]. intros (Vq & W1 & W2). apply Cmp; auto.
    + symmetry. apply KM; apply Vq.
    + intros s1 s2 H1 H2. apply (keys_clear t m n rs L q c d c d RIGHT RIGHT); auto.
    + intros s1 s2 H1 H2. apply (keys_clear t m n rs L q c d a b RIGHT LEFT); auto. right. split; [discriminate|auto].
Qed.

Lemma match_entry_w t p rs e0 ls : searchable t -> listing_ok ls -> entry_w t p rs e0 ->
  exists r, (let d := sort_dir (snd e0) in
      let* sequences := get_sequences_from_dir (ls_seq ls (fst e0) d) in
      let* (files, order) := get_order_from_dir (ls_pair ls (fst e0) d) in
      join_pairs_files (fst files) (snd files) t order sequences) = Some r /\
    (forall q, In q r <-> valid t n rs q /\ accepted p q).
Proof.
  intros Ht (_ & Ls & Lp) (L & W & HL & HW & ->). cbn [fst snd]. cbv zeta. rewrite sort_dir_of.
  rewrite (read_sequences p W L _ _ _ HW (Ls _ _)). cbn [bind].
  destruct (join_pairing_w t rs L p Ht HL) as [(r & E & G) (r' & E' & G')].
  destruct (read_order p W (left_w t p L) (right_w t p L) _ (Lp (rowsum_dir rs) _)) as [O|O].
  - exists r. split; auto. refine (eq_trans (f_equal (fun o => let* (files, order) := o in _) O) _). exact E.
  - exists r'. split; auto. refine (eq_trans (f_equal (fun o => let* (files, order) := o in _) O) _). exact E'.
Qed.

Lemma match_fold_w t p rss f ls : searchable t -> listing_ok ls -> Forall2 (entry_w t p) rss f ->
  exists r, match_pairs ls t (sortpairs f) = Some r /\
    (forall q, In q r -> exists rs, In rs rss /\ valid t n rs q /\ accepted p q) /\
    (forall rs q, In rs rss -> valid t n rs q -> accepted p q -> In q r).
Proof.
  intros Ht Hls F2. unfold match_pairs.
  set (step := fun (result : list QuadSeq) '((name, d) : text * Dir) => _).
  assert (G : forall l res, (forall e, In e l -> exists rs e0, In rs rss /\ entry_w t p rs e0 /\ e = (fst e0, sort_dir (snd e0))) ->
    exists r, fold_m step l res = Some r /\
      (forall q, In q r -> In q res \/ exists rs, In rs rss /\ valid t n rs q /\ accepted p q) /\
      (forall q, In q res -> In q r) /\
      (forall rs e0 q, entry_w t p rs e0 -> In (fst e0, sort_dir (snd e0)) l -> valid t n rs q -> accepted p q -> In q r)).
  { induction l as [|e1 l IH]; intros res Hl.
    - exists res. split; auto. split; [auto|]. split; auto. intros rs e0 q _ [].
    - destruct (Hl e1) as (rs & e0 & Hrs & He0 & ->); [now left|].
      destruct (match_entry_w t p rs e0 ls Ht Hls He0) as (r0 & E0 & S0). cbv zeta in E0.
      assert (E1 : step res (fst e0, sort_dir (snd e0)) = Some (res ++ r0)).
      { unfold step. destruct (get_sequences_from_dir _) as [sq|] in *; [|discriminate]. cbn [bind] in *.
        destruct (get_order_from_dir _) as [[fl o]|] in *; [|discriminate]. cbn [bind] in *. rewrite E0. reflexivity. }
      cbn [fold_m]. rewrite E1. cbn [bind].
      destruct (IH (res ++ r0)) as (r & E & S & K & C). { intros x Hx. apply Hl. now right. }
      exists r. split; auto. split; [|split].
      + intros q Hq. destruct (S q Hq) as [H|H]; auto. apply in_app_iff in H as [H|H]; auto. right. exists rs. split; auto. now apply S0.
      + intros q Hq. apply K, in_app_iff. auto.
      + intros rs' e' q He' [H|H] Vq Aq.
        * apply K, in_app_iff. right. apply S0; auto. split; auto.
          destruct He0 as (L & W & _ & _ & ->), He' as (L' & W' & _ & _ & ->). injection H as H _.
          apply rowsum_dir_inj in H. now subst.
        * apply (C rs' e'); auto. }
  assert (HP : Permutation (ls_folder ls (sortpairs f)) (sortpairs f)) by apply Hls.
  assert (Fl : forall rs, In rs rss -> exists e0, In e0 f /\ entry_w t p rs e0).
  { clear -F2. induction F2 as [|rs e0 rss f H _ IH]; intros r [].
    - subst. exists e0. split; auto. now left.
    - destruct (IH r) as (e & A1 & B); auto. exists e. split; auto. now right. }
  assert (Fr : forall e0, In e0 f -> exists rs, In rs rss /\ entry_w t p rs e0).
  { clear -F2. induction F2 as [|rs e0 rss f H _ IH]; intros e [].
    - subst. exists rs. split; auto. now left.
    - destruct (IH e) as (r & A1 & B); auto. exists r. split; auto. now right. }
  destruct (G (ls_folder ls (sortpairs f)) []) as (r & E & S & _ & C).
  { intros e1 He1. apply (Permutation_in _ HP) in He1. apply in_map_iff in He1 as ([nm d] & <- & He1).
    destruct (Fr _ He1) as (rs & A1 & B). exists rs, (nm, d). auto. }
  exists r. split; auto. split.
  - intros q Hq. destruct (S q Hq) as [[]|H]; auto.
  - intros rs q Hrs Vq Aq. destruct (Fl rs Hrs) as (e0 & He0 & Ee0). apply (C rs e0); auto.
    apply (Permutation_in _ (Permutation_sym HP)). apply in_map_iff. exists e0. destruct e0. auto.
Qed.

(* the quadruples found are those whose two pairs pass the filter *)
Theorem search_f t p ls : (Z.of_nat n < 2 ^ 62)%Z -> searchable t -> listing_ok ls ->
  exists fuel0, forall fuel, fuel0 <= fuel -> exists f c r,
    write_pairs_f A fuel n t m p [] = Some (f, c) /\ match_pairs ls t (sortpairs f) = Some r /\
    (forall q, In q r <-> pm_quad n q /\ is_type t q /\ normal_rowsums t (totals q) /\ accepted p q).
Proof.
  intros Hn2 Ht Hls. destruct (generate_rowsums_spec n t) as (f0 & H). exists f0. intros fuel Hf.
  destruct (H fuel Hf) as (rss & E & Nd & Hin).
  destruct (write_folder_f t p rss [] 0%Z Ht Hn2) as (f & c & Ew & F2); auto.
  { apply Forall_forall. intros r Hr. apply Hin in Hr. apply Hr. }
  destruct (match_fold_w t p rss f ls Ht Hls F2) as (r & Er & S & C).
  exists f, c, r. split; [unfold write_pairs_f; rewrite E; exact Ew|]. split; auto. intros q. split.
  - intros Hq. destruct (S q Hq) as (rs & Hrs & (Pq & Tq & Rq) & Aq). subst rs. apply Hin in Hrs. tauto.
  - intros (Pq & Tq & Nq & Aq). apply (C (totals q)); [|split; auto|auto]. apply Hin. split; auto.
    apply complementary_rowsums; auto. now apply (type_WT n q t).
Qed.
End Write.
