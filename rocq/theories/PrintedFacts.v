(* The text printed by the command pairs. *)
From Coq Require Import Ascii String List ZArith Lia Arith Bool Permutation.
From Verif Require Import Base BaseFacts Sums ModelSequence ModelWilliamson ModelEquivalence ModelFourier SeqFacts FourierFacts SpecFourier MatchFacts QtWt GraphFacts Convert ModelRowsum SpecRowsum RowsumFacts ModelMatching ModelWrite TextFacts WriteFacts JoinFacts DirFacts FolderFacts DriverFacts ModelMain SpecPrint ArgFacts MainFacts MainThms DriverMain
  ModelLog LogFolder LogText LogFacts LogStages LogJoin DriverLog SpecLog SpecFiles SpecSearch SpecMain SpecSolver SolverFacts SpecSplit SplitFacts SpecMixed SpecPrinted Spec.
Import ListNotations.
Notation length := List.length.
Open Scope nat_scope.
#[local] Opaque usize_to_string isize_to_string.

Lemma digit_nat k : k < 10 -> digit (Z.of_nat k) = ascii_of_nat (48 + k).
Proof. intros H. do 10 (destruct k as [|k]; [reflexivity|]). lia. Qed.
Lemma seconds_time z : (0 <= z)%Z -> time_text z (seconds z).
Proof.
  intros H. assert (Ha := Z.mod_pos_bound (z / 10) 10 ltac:(lia)). assert (Hb := Z.mod_pos_bound z 10 ltac:(lia)). assert (Hq := Z.div_pos z 100 H ltac:(lia)).
  exists (Z.to_nat (z / 100)), (Z.to_nat (z / 10 mod 10)), (Z.to_nat (z mod 10)), (usize_to_string (z / 100)).
  split; [rewrite <- (Z2Nat.id (z / 100)) at 1 by lia; apply usize_canonical|]. split; [lia|]. split; [lia|]. rewrite !Z2Nat.id by lia. split.
  - assert (E1 := Z.div_mod z 10 ltac:(lia)). assert (E2 := Z.div_mod (z / 10) 10 ltac:(lia)). rewrite Z.div_div in E2 by lia. change (10 * 10)%Z with 100%Z in E2. lia.
  - unfold seconds. rewrite <- !digit_nat by lia. rewrite !Z2Nat.id by lia. reflexivity.
Qed.
Lemma count_canonical k : canonical_numeral (count k) k. Proof. apply usize_canonical. Qed.
Lemma quad_sums r : sums_text r (quad_debug r).
Proof. destruct r as [[[a b] c] d]. exists (isize_to_string a), (isize_to_string b), (isize_to_string c), (isize_to_string d). repeat (split; [apply isize_signed|]). reflexivity. Qed.
Lemma dir_sums r : sums_dir r (rowsum_dir r).
Proof. destruct r as [[[a b] c] d]. exists (isize_to_string a), (isize_to_string b), (isize_to_string c), (isize_to_string d). repeat (split; [apply isize_signed|]). reflexivity. Qed.
Lemma warnings what p x : warning (chars what) p x = warning_lines what p x.
Proof. destruct x as [x|]; [|reflexivity]. destruct p as [[] []]; reflexivity. Qed.

Section Printed.
Context (ck : Clock) (t : SequenceType) (m : MatchOption) (n : nat).
Hypothesis Hck : clock_ok ck.
Hypothesis Ht : searchable t.
Hypothesis Hn : 1 <= n.
Hypothesis Hn2 : (Z.of_nat n < 2 ^ 62)%Z.
Definition chosen (p : option RowsumPairing) : RowsumPairing := match p with Some pr => pr | None => WZ end.

Lemma printed_rowsum p rs f : feasible n rs -> Forall (fun e => fst e <> rowsum_dir rs) f ->
  exists d k l, write_pairs_rowsum_log ck n (seqtype_to_string t) rs n m p f = Some (f ++ [(rowsum_dir rs, d)], Z.of_nat k, l) /\
    rowsum_lines ck n t (chosen p) rs d k ((lit "Generating .pair files for rowsums " ++ quad_debug rs ++ lit " ...") :: l).
Proof.
  intros Hf Fresh.
  destruct (tag_choice (fun tg l => candidates t (rowsum_of_tag rs tg) n = Some l /\ NoDup l /\
      forall s, In s l <-> length s = n /\ pm1 s /\ total s = rowsum_of_tag rs tg /\ (t = Williamson -> symmetric s))) as (L & HL).
  { intros tg. destruct (candidates_spec t (rowsum_of_tag rs tg) n Hn) as (l & El & Nd & H); eauto. now apply (feasible_bound n). }
  assert (IL : is_list t n rs L) by (intros tg s; apply HL).
  destruct (tag_choice (fun tg w => traverse sequence_to_string (L tg) = Some w /\ file_to_sequences w = Some (L tg))) as (W & HW).
  { intros tg. apply write_lines. intros s Hs. apply IL in Hs. tauto. }
  assert (Len : forall tg, all_len n (L tg)) by (intros tg s Hs; apply IL in Hs; tauto).
  assert (Sum : forall tg s, In s (L tg) -> total s = rowsum_of_tag rs tg) by (intros tg s Hs; apply IL in Hs; tauto).
  assert (WS : forall a b bo sd d, tag_sign (a, b) = Some bo -> exists l, write_seq_pairs_log ck n (L a) (L b) (a, b) t rs n d sd m =
    Some (put d (pair_file a b) (pair_lines t m sd bo n (L a) (L b)), Z.of_nat (length (pair_lines t m sd bo n (L a) (L b))), l) /\
    forall d', In (pair_file a b, pair_lines t m sd bo n (L a) (L b)) d' -> pair_lines_text ck rs d' (a, b) (length (pair_lines t m sd bo n (L a) (L b))) l).
  { intros a b bo sd d Hb. unfold write_seq_pairs_log. rewrite (write_seq_pairs_spec n (a, b) bo) by (auto; apply Sum). cbn [bind]. eexists. split; [reflexivity|].
    intros d' I. exists (pair_lines t m sd bo n (L a) (L b)), (count (length (pair_lines t m sd bo n (L a) (L b)))). split; [replace (pair_name (a, b)) with (pair_file a b) by (destruct a, b; reflexivity); exact I|].
    split; [reflexivity|]. split; [apply count_canonical|]. f_equal; [destruct a, b; reflexivity|]. f_equal; apply warnings. }
  assert (Fd : forall tg, found_line n t (rowsum_of_tag rs tg) (found (L tg) (rowsum_of_tag rs tg))).
  { intros tg. exists (length (L tg)), (count (length (L tg))), (isize_to_string (rowsum_of_tag rs tg)). split; [exists (L tg); split; [apply HL|]; split; [apply IL|reflexivity]|].
    split; [apply count_canonical|]. split; [apply isize_signed|]. reflexivity. }
  assert (Tm1 : time_text (tm_seqs ck rs) (seconds (tm_seqs ck rs))) by (apply seconds_time; apply Hck).
  assert (Tm2 : time_text (tm_both ck rs) (seconds (tm_both ck rs))) by (apply seconds_time; apply Hck).
  assert (Main : forall a b c d bo1 bo2, pairs_of (chosen p) Both = [(a, b); (c, d)] -> tag_sign (a, b) = Some bo1 -> tag_sign (c, d) = Some bo2 -> pair_file a b <> pair_file c d ->
     exists D k l, (let* (d0, c1, l1) := write_seq_pairs_log ck n (L a) (L b) (a, b) t rs n [(seq_file TW, W TW); (seq_file TX, W TX); (seq_file TY, W TY); (seq_file TZ, W TZ)] LEFT m in
        let* (d0, c2, l2) := write_seq_pairs_log ck n (L c) (L d) (c, d) t rs n d0 RIGHT m in
        Some (d0, (c1 + c2)%Z, [found (L TW) (rowsum_of_tag rs TW); found (L TX) (rowsum_of_tag rs TX); found (L TY) (rowsum_of_tag rs TY); found (L TZ) (rowsum_of_tag rs TZ);
            lit "Generating all sequences with rowsums " ++ quad_debug rs ++ lit " took " ++ seconds (tm_seqs ck rs) ++ lit " seconds"] ++ l1 ++ l2)) = Some (D, Z.of_nat k, l) /\
     rowsum_lines ck n t (chosen p) rs D k ((lit "Generating .pair files for rowsums " ++ quad_debug rs ++ lit " ...") :: l ++ [lit "Generating .pair files for both pairs took " ++ seconds (tm_both ck rs) ++ lit " seconds"; []])).
  { intros a b c d bo1 bo2 Pp S1 S2 Ne. destruct (WS a b bo1 LEFT [(seq_file TW, W TW); (seq_file TX, W TX); (seq_file TY, W TY); (seq_file TZ, W TZ)] S1) as (l1 & E1 & P1).
    set (D1 := put _ _ _) in E1. destruct (WS c d bo2 RIGHT D1 S2) as (l2 & E2 & P2). set (D2 := put D1 _ _) in E2.
    eexists D2, _, _. split; [rewrite E1; cbn [bind]; rewrite E2; cbn [bind]; rewrite <- Nat2Z.inj_add; reflexivity|].
    exists (quad_debug rs), (found (L TW) (rowsum_of_tag rs TW)), (found (L TX) (rowsum_of_tag rs TX)), (found (L TY) (rowsum_of_tag rs TY)), (found (L TZ) (rowsum_of_tag rs TZ)), (seconds (tm_seqs ck rs)), (a, b), (c, d), (length (pair_lines t m LEFT bo1 n (L a) (L b))), (length (pair_lines t m RIGHT bo2 n (L c) (L d))), l1, l2, (seconds (tm_both ck rs)).
    split; [apply quad_sums|]. split; [assert (FW := Fd TW); assert (FX := Fd TX); assert (FY := Fd TY); assert (FZ := Fd TZ); destruct rs as [[[ra rb] rc] rd]; auto|]. split; [exact Tm1|]. split; [exact Pp|].
    split; [apply P1|split; [apply P2|]].
    - unfold D2, put. apply in_app_iff. left. apply filter_In. split; [unfold D1, put; apply in_app_iff; right; now left|]. cbn [fst]. rewrite text_eqb_neq by exact Ne. reflexivity.
    - unfold D2, put. apply in_app_iff. right. now left.
    - split; [reflexivity|]. split; [exact Tm2|]. cbn [app]. rewrite <- app_assoc. reflexivity. }
  unfold write_pairs_rowsum_log. rewrite seqtype_round. cbn [bind]. rewrite (open_fresh f) by auto.
  rewrite !(proj1 (HL _)). cbn [bind].
  do 4 (rewrite (write_sequences_some _ _ _ _ (proj1 (HW _))); cbn [bind]).
  change (put (put (put (put [] (seq_file TW) (W TW)) (seq_file TX) (W TX)) (seq_file TY) (W TY)) (seq_file TZ) (W TZ)) with [(seq_file TW, W TW); (seq_file TX, W TX); (seq_file TY, W TY); (seq_file TZ, W TZ)].
  pose proof (signs_spec p) as Sg.
  destruct p as [[| |]|]; cbn [pairing_tags fst snd] in Sg; destruct Sg as [S1 S2]; destruct (Main _ _ _ _ _ _ eq_refl S1 S2 ltac:(discriminate)) as (D & k & l & E & R); rewrite E; cbn [bind];
    rewrite (put_fresh f) by auto; exists D, k, (l ++ [lit "Generating .pair files for both pairs took " ++ seconds (tm_both ck rs) ++ lit " seconds"; []]); (split; [reflexivity|exact R]).
Qed.
Lemma printed_fold p rss : forall f k l0, NoDup rss -> Forall (feasible n) rss -> Forall (fun e => forall rs, In rs rss -> fst e <> rowsum_dir rs) f ->
  exists entries, fold_m (fun '(f, counter, l) rs =>
            let* (f, c, lr) := write_pairs_rowsum_log ck n (seqtype_to_string t) rs n m p f in
            Some (f, (counter + c)%Z, l ++ (lit "Generating .pair files for rowsums " ++ quad_debug rs ++ lit " ...") :: lr)) rss (f, k, l0) =
      Some (f ++ map (fun '(r, (d, _, _)) => (rowsum_dir r, d)) (combine rss entries), (k + Z.of_nat (list_sum (map (fun '(_, k, _) => k) entries)))%Z, l0 ++ concat (map (fun '(_, _, b) => b) entries)) /\
    Forall2 (fun r (e : Dir * nat * list (list ascii)) => let '(d, k, b) := e in rowsum_lines ck n t (chosen p) r d k b) rss entries.
Proof.
  induction rss as [|rs rss IH]; intros f k l0 Nd Fe Fr.
  - exists []. cbn. rewrite !app_nil_r. split; [now rewrite Z.add_0_r|constructor].
  - inversion Fe as [|? ? F1 F2]; subst. inversion Nd as [|? ? N1 N2]; subst. cbn [fold_m].
    destruct (printed_rowsum p rs f F1) as (d & k1 & l & E & R). { eapply Forall_impl; [|exact Fr]. intros e0 H. apply H. now left. }
    rewrite E. cbn [bind]. destruct (IH (f ++ [(rowsum_dir rs, d)]) (k + Z.of_nat k1)%Z (l0 ++ (lit "Generating .pair files for rowsums " ++ quad_debug rs ++ lit " ...") :: l) N2 F2) as (entries & E' & R').
    { apply Forall_app. split.
      - eapply Forall_impl; [|exact Fr]. intros e0 H r Hr. apply H. now right.
      - constructor; [|constructor]. intros r Hr. cbn [fst]. intros C. apply rowsum_dir_inj in C. congruence. }
    exists ((d, k1, (lit "Generating .pair files for rowsums " ++ quad_debug rs ++ lit " ...") :: l) :: entries). split; [|constructor; auto].
    refine (eq_trans E' _). cbn [combine map concat list_sum]. rewrite <- !app_assoc. cbn [app].
    change (list_sum (k1 :: map (fun '(_, k2, _) => k2) entries)) with (k1 + list_sum (map (fun '(_, k2, _) => k2) entries)). rewrite Nat2Z.inj_add, Z.add_assoc. reflexivity.
Qed.
Lemma printed_pairs p : exists fuel0, forall fuel, fuel0 <= fuel -> exists f c l, write_pairs fuel n t m p [] = Some (f, c) /\ write_pairs_log ck fuel n t m p [] = Some (f, c, l) /\ pairs_lines ck n t (chosen p) f l.
Proof.
  destruct (generate_rowsums_spec n t) as (fuel0 & G). exists fuel0. intros fuel Hf. destruct (G fuel Hf) as (rss & Er & Nd & Hin).
  assert (Fe : Forall (feasible n) rss) by (apply Forall_forall; intros r Hr; now apply Hin).
  set (l0 := (lit "Generating rowsum decompositions for length " ++ count n ++ lit " ...") :: map quad_debug rss ++ [lit "Generated " ++ count (length rss) ++ lit " different rowsums"; []]).
  destruct (printed_fold p rss [] 0%Z l0 Nd Fe) as (entries & E & R). { constructor. }
  destruct (write_folder t m n p rss [] 0%Z Ht Hn Hn2 Fe Nd) as (f' & c' & Ew & _). { constructor. }
  assert (Ew' : write_pairs fuel n t m p [] = Some (f', c')) by (unfold write_pairs; rewrite Er; cbn [bind]; exact Ew).
  destruct (pairs_log ck fuel n t m p [] f' c' Hck Ew') as (l & El & _). exists f', c', l. split; auto. split; auto.
  unfold write_pairs_log in El. rewrite Er in El. cbn [bind] in El. fold l0 in El.
  match type of El with bind ?X _ = _ => replace X with (Some ([] ++ map (fun '(r, (d, _, _)) => (rowsum_dir r, d)) (combine rss entries), (0 + Z.of_nat (list_sum (map (fun '(_, k, _) => k) entries)))%Z, l0 ++ concat (map (fun '(_, _, b) => b) entries))) in El by (symmetry; exact E) end.
  cbn [bind] in El. injection El as <- _ <-.
  exists rss, entries, (count n), (map quad_debug rss), (count (length rss)), (count (list_sum (map (fun '(_, k, _) => k) entries))), (seconds (tm_pairs ck)).
  split; auto. split; auto. split; [|split; [apply count_canonical|split; [|split; [apply count_canonical|split; [apply count_canonical|split; [apply seconds_time; apply Hck|]]]]]].
  - assert (X : forall rss' entries', Forall2 (fun r (e : Dir * nat * list (list ascii)) => let '(d, k, b) := e in rowsum_lines ck n t (chosen p) r d k b) rss' entries' -> forall f, (forall e, In e (map (fun '(r, (d, _, _)) => (rowsum_dir r, d)) (combine rss' entries')) -> In e f) ->
      Forall2 (fun r (e : Dir * nat * list (list ascii)) => let '(d, k, b) := e in rowsum_lines ck n t (chosen p) r d k b /\ exists name, sums_dir r name /\ In (name, d) f) rss' entries').
    { intros rss' entries' H. induction H as [|r [[d k] b] rss' entries' H1 H2 IH]; intros f Hs; constructor.
      - split; auto. exists (rowsum_dir r). split; [apply dir_sums|]. apply Hs. now left.
      - apply IH. intros e I. apply Hs. now right. }
    apply X; auto.
  - clear. induction rss; constructor; auto. apply quad_sums.
  - unfold l0. cbn [app]. rewrite <- !app_assoc. reflexivity.
Qed.
End Printed.

Theorem pairs_printed {L} ck (e : Env L) n t y m r pr w : clock_ok ck -> 1 <= n -> (Z.of_nat n < 2 ^ 62)%Z -> searchable t -> canonical_numeral y n -> pairing_arg r pr -> pl_dirs (place_of w (type_word t) y) = [] ->
  exists fuel0, forall fuel, fuel0 <= fuel -> exists w' lines, run_log ck fuel e [chars "pairs"; type_word t; y; match_word m; r] w = (w', lines, []) /\
    run_main fuel e [chars "rust"; chars "pairs"; type_word t; y; match_word m; r] w = Some w' /\
    pairs_lines ck n t (match pr with Some p => p | None => WZ end) (pl_dirs (place_of w' (type_word t) y)) lines.
Proof.
  intros Hck Hn Hn2 Ht Hy Hr Hd. destruct (printed_pairs ck t m n Hck Ht Hn Hn2 pr) as (fuel0 & G). exists fuel0. intros fuel Hf. destruct (G fuel Hf) as (f & c & l & Ew & El & P).
  assert (C := cl_pairs (chars "rust") t y _ m _ _ (numeral_length_arg y n Hy ltac:(lia)) Hr). apply parse_args_iff in C.
  exists (match f with [] => w | _ => write w (type_word t) y (set_dirs (place_of w (type_word t) y) f) end), l. split; [|split].
  - unfold run_log. match goal with |- context [parse_args ?a] => replace (parse_args a) with (Some (Pairs t (Z.of_nat n) m pr)) by (symmetry; exact C) end. cbn [bind exec_log]. rewrite type_word_string, <- (numeral_string y n Hy), Nat2Z.id, Hd, El. cbn [bind]. destruct f; reflexivity.
  - unfold run_main. match goal with |- context [parse_args ?a] => replace (parse_args a) with (Some (Pairs t (Z.of_nat n) m pr)) by (symmetry; exact C) end. cbn [bind exec]. rewrite type_word_string, <- (numeral_string y n Hy), Nat2Z.id, Hd, Ew. cbn [bind]. destruct f; reflexivity.
  - destruct f as [|e0 f]; [rewrite Hd; exact P|]. unfold place_of at 1. rewrite write_same. exact P.
Qed.
