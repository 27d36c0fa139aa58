(* The jobs of a split search, running at the same time. *)
From Coq Require Import Ascii String List ZArith Lia Arith Bool Reals.
From Verif Require Import Base BaseFacts Quat ModelSequence ModelWilliamson ModelEquivalence ModelRowsum SpecRowsum RowsumFacts ModelFourier ModelMatching ModelWrite TextFacts WriteFacts FolderFacts ModelMain SpecPrint SpecMain ArgFacts MainFacts MainThms DriverMain
  SpecFiles SpecSearch SpecSplit SplitFacts SplitThms ModelJobs SpecJobs JobsFacts Spec.
Import ListNotations.
Notation length := List.length.
Open Scope nat_scope.

(* ---- what the disk holds, by name ---- *)
Definition holds (st : Store) (f : Folder) : Prop :=
  forall name, match st name, get f name with
  | None, None => True
  | Some files, Some d => forall k, files k = option_map stacked (get d k)
  | _, _ => False
  end.
Definition clean (f : Folder) : Prop := NoDup (map fst f) /\ forall name d, In (name, d) f -> NoDup (map fst d).
Lemma on_disk_holds st f : on_disk st f <-> clean f /\ holds st f.
Proof.
  unfold on_disk, clean, holds. split.
  - intros (N & N' & H). split; [now split|]. intros name. specialize (H name). destruct (st name) as [files|].
    + destruct H as (d & I & H). rewrite (proj2 (get_in f name d N) I). intros k. specialize (H k). destruct (files k) as [b|].
      * destruct H as (lines & J & ->). now rewrite (proj2 (get_in d k lines (N' _ _ I)) J).
      * destruct (get d k) as [v|] eqn:E; auto. exfalso. apply H. apply get_names. congruence.
    + destruct (get f name) as [v|] eqn:E; auto. exfalso. apply H. apply get_names. congruence.
  - intros ((N & N') & H). split; auto. split; auto. intros name. specialize (H name). destruct (st name) as [files|].
    + destruct (get f name) as [d|] eqn:E; [|contradiction]. apply get_in in E; auto. exists d. split; auto. intros k. rewrite H.
      destruct (get d k) as [lines|] eqn:E'; cbn [option_map].
      * exists lines. split; auto. apply get_in; eauto.
      * rewrite <- get_names. intros X. now apply X.
    + destruct (get f name) as [d|] eqn:E; [contradiction|]. rewrite <- get_names. intros X. now apply X.
Qed.
Lemma holds_ext st st' (f : Folder) : (forall d, hasdir st' d <-> hasdir st d) -> (forall d k, file st' d k = file st d k) -> holds st f -> holds st' f.
Proof.
  intros HD HF H name. specialize (H name). specialize (HD name). unfold hasdir, file in *. specialize (HF name).
  destruct (st name) as [fs|], (st' name) as [fs'|]; auto.
  - destruct (get f name) as [d|]; auto. intros k. rewrite <- H. apply HF.
  - exfalso. now apply (proj2 HD).
  - exfalso. now apply (proj1 HD).
Qed.
Lemma holds_file st (f : Folder) d k : holds st f -> file st d k = match get f d with Some dd => option_map stacked (get dd k) | None => None end.
Proof. intros H. unfold file. specialize (H d). destruct (st d), (get f d); auto; contradiction. Qed.
Lemma holds_dir st (f : Folder) d : holds st f -> (hasdir st d <-> get f d <> None).
Proof. intros H. unfold hasdir. specialize (H d). destruct (st d), (get f d); try contradiction; split; try discriminate; auto. Qed.
Lemma holds_by st (f : Folder) : (forall d, hasdir st d <-> get f d <> None) ->
  (forall d k, file st d k = match get f d with Some dd => option_map stacked (get dd k) | None => None end) -> holds st f.
Proof.
  intros HD HF d. specialize (HD d). specialize (HF d). unfold hasdir, file in *. destruct (st d) as [fs|], (get f d) as [dd|]; auto.
  - exfalso. now apply (proj1 HD).
  - exfalso. now apply (proj2 HD).
Qed.

(* ---- writing a file ---- *)
Definition put_all (fl : list (text * Lines * list text)) (d : Dir) : Dir := fold_left (fun d '(k, l, _) => put d k l) fl d.
Definition files_acts (dir : text) (fl : list (text * Lines * list text)) : list Action :=
  concat (map (fun '(k, _, c) => put_acts dir k c) fl).
Definition whole (fl : list (text * Lines * list text)) : Prop := forall k l c, In (k, l, c) fl -> concat c = stacked l.

Lemma perform_app l l' st : perform (l ++ l') st = bind (perform l st) (perform l').
Proof. unfold perform. revert st. induction l as [|a l IH]; intros st; cbn [app fold_m bind]; auto. destruct (act st a); cbn [bind]; auto. Qed.
Lemma write_end b s : write_at b (length b) s = b ++ s.
Proof.
  destruct s as [|c s]; [symmetry; apply app_nil_r|]. unfold write_at. rewrite firstn_all, Nat.sub_diag, skipn_all2 by lia. cbn [repeat app]. now rewrite app_nil_r.
Qed.
Lemma perform_writes d k chunks : forall b st, file st d k = Some b -> exists st', perform (writes d k (length b) chunks) st = Some st' /\ put_file st d k (b ++ concat chunks) st'.
Proof.
  induction chunks as [|s r IH]; intros b st E; cbn [writes concat].
  - exists st. split; [reflexivity|]. rewrite app_nil_r. split; [reflexivity|split; auto].
  - destruct (act_write st d k b (length b) s E) as (st1 & E1 & H1 & H2 & H3). rewrite write_end in H2.
    destruct (IH (b ++ s) st1 H2) as (st2 & E2 & G1 & G2 & G3). rewrite app_length in E2.
    exists st2. split; [unfold perform in *; cbn [fold_m]; rewrite E1; exact E2|]. rewrite app_assoc. split; [intros; now rewrite G1|]. split; auto.
    intros d' f' N. rewrite G3 by auto. now apply H3.
Qed.
Lemma perform_put d k chunks st : hasdir st d -> exists st', perform (put_acts d k chunks) st = Some st' /\ put_file st d k (concat chunks) st'.
Proof.
  intros H. destruct (act_file st d k H) as (st1 & E1 & H1 & H2 & H3). destruct (perform_writes d k chunks [] st1 H2) as (st2 & E2 & G1 & G2 & G3).
  exists st2. split; [unfold put_acts, perform in *; cbn [fold_m]; rewrite E1; exact E2|]. split; [intros; now rewrite G1|]. split; auto.
  intros d' f' N. rewrite G3 by auto. now apply H3.
Qed.
Lemma put_put {A} (f : list (text * A)) k v v' k' : get (put (put f k v) k v') k' = get (put f k v') k'.
Proof. rewrite !get_put. now destruct (text_eqb k' k). Qed.
Lemma perform_files dir fl : whole fl -> forall f d st, holds st (put f dir d) ->
  exists st', perform (files_acts dir fl) st = Some st' /\ holds st' (put f dir (put_all fl d)).
Proof.
  unfold put_all, files_acts. induction fl as [|[[k l] c] fl IH]; intros W f d st H; cbn [map concat fold_left].
  - exists st. split; auto.
  - assert (Hd : hasdir st dir) by (apply (holds_dir _ _ _ H); rewrite get_put, text_eqb_refl; discriminate).
    destruct (perform_put dir k c st Hd) as (st1 & E1 & H1 & H2 & H3).
    destruct (IH (fun k l c I => W k l c (or_intror I)) f (put d k l) st1) as (st2 & E2 & G).
    { apply holds_by.
      - intros d'. rewrite H1, (holds_dir _ _ _ H), !get_put. destruct (text_eqb d' dir); [split; discriminate|reflexivity].
      - intros d' k'. rewrite get_put. destruct (text_dec d' dir) as [->|N].
        + rewrite text_eqb_refl. destruct (text_dec k' k) as [->|N'].
          * rewrite H2, get_put, text_eqb_refl. cbn [option_map]. f_equal. apply (W k l c). now left.
          * rewrite H3 by auto. rewrite (holds_file _ _ _ _ H), !get_put, text_eqb_refl, (text_eqb_neq _ _ N'). reflexivity.
        + rewrite H3 by auto. rewrite (holds_file _ _ _ _ H), get_put, (text_eqb_neq _ _ N). reflexivity. }
    exists st2. split; auto. rewrite perform_app, E1. exact E2.
Qed.
Lemma perform_job dir fl f st : whole fl -> holds st f ->
  exists st', perform (MakeDir dir :: files_acts dir fl) st = Some st' /\ holds st' (put f dir (put_all fl (open_dir f dir))).
Proof.
  intros W H. destruct (act_dir st dir) as (st1 & E1 & H1 & H2).
  destruct (perform_files dir fl W f (open_dir f dir) st1) as (st2 & E2 & G).
  - apply holds_by.
    + intros d. rewrite H1, (holds_dir _ _ _ H), get_put. destruct (text_dec d dir) as [->|N].
      * rewrite text_eqb_refl. split; [discriminate|auto].
      * rewrite (text_eqb_neq _ _ N). split; auto. intros [X|X]; [contradiction|auto].
    + intros d k. rewrite H2, (holds_file _ _ _ _ H), get_put. destruct (text_dec d dir) as [->|N].
      * rewrite text_eqb_refl, open_get. destruct (get f dir); reflexivity.
      * now rewrite (text_eqb_neq _ _ N).
  - exists st2. split; auto. unfold perform in *. cbn [fold_m]. rewrite E1. exact E2.
Qed.

(* ---- the steps of the program are those of the model of the command ---- *)
Lemma seqs_acts s t : (exists l c, concat c = stacked l /\
  (forall d, write_sequences s d t = Some (put d (seq_file t) l)) /\ forall dir, write_sequences_acts dir s t = Some (put_acts dir (seq_file t) c)) \/
  (forall d, write_sequences s d t = None) /\ forall dir, write_sequences_acts dir s t = None.
Proof.
  unfold write_sequences, write_sequences_acts. destruct (traverse sequence_to_string s) as [l|]; [left|now right].
  exists l, (map (fun l => l ++ nl1) l). split; [reflexivity|]. split; reflexivity.
Qed.
Lemma stacked_app l l' : stacked (l ++ l') = stacked l ++ stacked l'.
Proof. unfold stacked. now rewrite map_app, concat_app. Qed.
Lemma pairs_acts plan s1 s2 tags t rs p side m : (exists l ch c, concat ch = stacked l /\
  (forall d, write_seq_pairs plan s1 s2 tags t rs p d side m = Some (put d (pair_file (fst tags) (snd tags)) l, c)) /\
  forall dir, write_seq_pairs_acts dir plan s1 s2 tags t rs p side m = Some (put_acts dir (pair_file (fst tags) (snd tags)) ch)) \/
  (forall d, write_seq_pairs plan s1 s2 tags t rs p d side m = None) /\ forall dir, write_seq_pairs_acts dir plan s1 s2 tags t rs p side m = None.
Proof.
  unfold write_seq_pairs, write_seq_pairs_acts. destruct (verify_rowsums s1 s2 tags rs); cbn [guard]; [|now right].
  destruct (iter_over_enumerate_filtered_couples_psds plan s1 s2 (4 * INR p)%R) as [pairs|]; cbn [bind]; [|now right].
  assert (G : forall pairs fi bu co ch bt, concat ch = stacked fi -> bt = stacked bu ->
    match fold_m (fun '(file, buffer, counter) pair =>
        let* key := pair_key plan tags t p side m pair in
        match key with
        | None => Some (file, buffer, counter)
        | Some k =>
            let buffer := buffer ++ [pair_line k (fst (seq_enum1 pair)) (fst (seq_enum2 pair))] in
            let counter := (counter + 1)%Z in
            Some (if (counter mod 1000 =? 0)%Z then (file ++ buffer, [], counter) else (file, buffer, counter))
        end) pairs (fi, bu, co),
    fold_m (fun '(chunks, buffer, counter) pair =>
        let* key := pair_key plan tags t p side m pair in
        match key with
        | None => Some (chunks, buffer, counter)
        | Some k =>
            let buffer := buffer ++ pair_line k (fst (seq_enum1 pair)) (fst (seq_enum2 pair)) ++ nl1 in
            let counter := (counter + 1)%Z in
            Some (if (counter mod 1000 =? 0)%Z then (chunks ++ [buffer], [], counter) else (chunks, buffer, counter))
        end) pairs (ch, bt, co) with
    | Some (fi', bu', co'), Some (ch', bt', co'') => concat ch' = stacked fi' /\ bt' = stacked bu'
    | None, None => True
    | _, _ => False
    end).
  { clear. induction pairs as [|x pairs IH]; intros fi bu co ch bt E1 E2; cbn [fold_m]; [now split|].
    destruct (pair_key plan tags t p side m x) as [[k|]|]; cbn [bind]; [| |exact I].
    - cbv zeta. assert (E3 : bt ++ pair_line k (fst (seq_enum1 x)) (fst (seq_enum2 x)) ++ nl1 = stacked (bu ++ [pair_line k (fst (seq_enum1 x)) (fst (seq_enum2 x))])).
      { rewrite stacked_app, E2. f_equal. unfold stacked. cbn [map concat]. now rewrite app_nil_r. }
      destruct ((co + 1) mod 1000 =? 0)%Z; apply IH; auto.
      rewrite concat_app, E1, stacked_app. f_equal. cbn [concat]. rewrite app_nil_r. exact E3.
    - now apply IH. }
  specialize (G pairs [] [] 0%Z [] [] eq_refl eq_refl).
  match goal with |- context [fold_m ?F pairs ?S] => set (A := fold_m F pairs S) end.
  match goal with |- context [fold_m ?F pairs ?S] => set (B := fold_m F pairs S) end.
  change (match A, B with
    | Some (fi', bu', co'), Some (ch', bt', co'') => concat ch' = stacked fi' /\ bt' = stacked bu'
    | None, None => True
    | _, _ => False
    end) in G. clearbody A B.
  destruct A as [[[fi' bu'] co']|], B as [[[ch' bt'] co'']|]; try contradiction.
  - destruct G as [K1 K2]. left. cbn [bind]. exists (fi' ++ bu'), (ch' ++ [bt']), co'. split; [|split; reflexivity].
    rewrite concat_app, stacked_app, K1, K2. cbn [concat]. now rewrite app_nil_r.
  - right. split; reflexivity.
Qed.

Definition structured (dir : text) (w : Folder -> option Folder) (a : option (list Action)) : Prop :=
  (exists fl, whole fl /\ NoDup (map (fun e => fst (fst e)) fl) /\ a = Some (MakeDir dir :: files_acts dir fl) /\ forall f, w f = Some (put f dir (put_all fl (open_dir f dir)))) \/
  a = None /\ forall f, w f = None.
Lemma single_structured plan folder rs p m pairing pair :
  structured (rowsum_dir rs) (write_pair_single_rowsum plan folder rs p m pairing pair) (pair_single_acts plan folder rs p m pairing pair).
Proof.
  unfold structured, write_pair_single_rowsum, pair_single_acts.
  destruct (str_to_seqtype folder) as [t|]; cbn [bind]; [|now right].
  destruct (get_indices pairing pair) as [[i0 i1]|] eqn:Ei.
  2:{ left. exists []. split; [intros ? ? ? []|]. split; [constructor|]. split; reflexivity. }
  destruct (index_to_tag i0) as [t0|] eqn:Et0; cbn [bind]; [|now right].
  destruct (index_to_tag i1) as [t1|] eqn:Et1; cbn [bind]; [|now right].
  assert (Nd : NoDup [seq_file t0; seq_file t1; pair_file t0 t1]).
  { clear - Ei Et0 Et1. destruct pairing as [[]|], pair as [|[|[|pair]]]; try discriminate; injection Ei as <- <-; injection Et0 as <-; injection Et1 as <-;
      repeat constructor; cbn; intuition discriminate. }
  destruct (candidates t (rowsum_of_tag rs t0) p) as [s0|]; cbn [bind]; [|now right].
  destruct (candidates t (rowsum_of_tag rs t1) p) as [s1|]; cbn [bind]; [|now right].
  destruct (seqs_acts s0 t0) as [(l0 & c0 & W0 & E0 & A0)|[E0 A0]]; [|right; rewrite A0; split; [reflexivity|]; intros f; now rewrite E0].
  destruct (seqs_acts s1 t1) as [(l1 & c1 & W1 & E1 & A1)|[E1 A1]]; [|right; rewrite A0, A1; split; [reflexivity|]; intros f; rewrite E0; cbn [bind]; now rewrite E1].
  rewrite A0, A1. cbn [bind].
  destruct (match pair with 1 => Some LEFT | 2 => Some RIGHT | _ => None end) as [side|]; cbn [bind].
  2:{ right. split; [reflexivity|]. intros f. rewrite E0. cbn [bind]. now rewrite E1. }
  destruct (pairs_acts plan s0 s1 (t0, t1) t rs p side m) as [(l2 & c2 & k & W2 & E2 & A2)|[E2 A2]]; rewrite A2; cbn [bind].
  2:{ right. split; [reflexivity|]. intros f. rewrite E0. cbn [bind]. rewrite E1. cbn [bind]. now rewrite E2. }
  left. exists [(seq_file t0, l0, c0); (seq_file t1, l1, c1); (pair_file t0 t1, l2, c2)]. split; [|split; [exact Nd|split]].
  - intros ? ? ? [X|[X|[X|[]]]]; injection X as <- <- <-; assumption.
  - unfold files_acts. cbn [map concat fst snd]. now rewrite app_nil_r.
  - intros f. rewrite E0. cbn [bind]. rewrite E1. cbn [bind]. rewrite E2. reflexivity.
Qed.
Definition both_files (pairing : option RowsumPairing) : list text :=
  let '((a, b), (c, d)) := pairing_tags pairing in [seq_file TW; seq_file TX; seq_file TY; seq_file TZ; pair_file a b; pair_file c d].
Lemma both_named plan folder rs p m pairing :
  let dir := rowsum_dir rs in let w := fun f => option_map fst (write_pairs_rowsum plan folder rs p m pairing f) in let a := pairs_rowsum_acts plan folder rs p m pairing in
  (exists fl, whole fl /\ map (fun e => fst (fst e)) fl = both_files pairing /\ a = Some (MakeDir dir :: files_acts dir fl) /\ forall f, w f = Some (put f dir (put_all fl (open_dir f dir)))) \/
  a = None /\ forall f, w f = None.
Proof.
  cbv zeta. unfold write_pairs_rowsum, pairs_rowsum_acts.
  destruct (str_to_seqtype folder) as [t|]; cbn [bind]; [|now right].
  destruct (candidates t (rowsum_of_tag rs TW) p) as [s0|]; cbn [bind]; [|now right].
  destruct (candidates t (rowsum_of_tag rs TX) p) as [s1|]; cbn [bind]; [|now right].
  destruct (candidates t (rowsum_of_tag rs TY) p) as [s2|]; cbn [bind]; [|now right].
  destruct (candidates t (rowsum_of_tag rs TZ) p) as [s3|]; cbn [bind]; [|now right].
  destruct (seqs_acts s0 TW) as [(l0 & c0 & W0 & E0 & A0)|[E0 A0]]; rewrite A0; cbn [bind]; [|right; split; [reflexivity|]; intros f; now rewrite E0].
  destruct (seqs_acts s1 TX) as [(l1 & c1 & W1 & E1 & A1)|[E1 A1]]; rewrite A1; cbn [bind]; [|right; split; [reflexivity|]; intros f; rewrite E0; cbn [bind]; now rewrite E1].
  destruct (seqs_acts s2 TY) as [(l2 & c2 & W2 & E2 & A2)|[E2 A2]]; rewrite A2; cbn [bind]; [|right; split; [reflexivity|]; intros f; rewrite E0; cbn [bind]; rewrite E1; cbn [bind]; now rewrite E2].
  destruct (seqs_acts s3 TZ) as [(l3 & c3 & W3 & E3 & A3)|[E3 A3]]; rewrite A3; cbn [bind]; [|right; split; [reflexivity|]; intros f; rewrite E0; cbn [bind]; rewrite E1; cbn [bind]; rewrite E2; cbn [bind]; now rewrite E3].
  assert (Go : forall ta tb tc td sa sb sc sd,
    let a := let* b1 := write_seq_pairs_acts (rowsum_dir rs) plan sa sb (ta, tb) t rs p LEFT m in
             let* b2 := write_seq_pairs_acts (rowsum_dir rs) plan sc sd (tc, td) t rs p RIGHT m in Some (b1 ++ b2) in
    let w := fun d => let* (d, c1) := write_seq_pairs plan sa sb (ta, tb) t rs p d LEFT m in
             let* (d, c2) := write_seq_pairs plan sc sd (tc, td) t rs p d RIGHT m in Some (d, (c1 + c2)%Z) in
    (exists fl c, whole fl /\ map (fun e => fst (fst e)) fl = [pair_file ta tb; pair_file tc td] /\ a = Some (files_acts (rowsum_dir rs) fl) /\ forall d, w d = Some (put_all fl d, c)) \/ a = None /\ forall d, w d = None).
  { intros. destruct (pairs_acts plan sa sb (ta, tb) t rs p LEFT m) as [(la & ca & ka & Wa & Ea & Aa)|[Ea Aa]]; unfold a, w; rewrite Aa; cbn [bind].
    2:{ right. split; [reflexivity|]. intros d. now rewrite Ea. }
    destruct (pairs_acts plan sc sd (tc, td) t rs p RIGHT m) as [(lb & cb & kb & Wb & Eb & Ab)|[Eb Ab]]; rewrite Ab; cbn [bind].
    2:{ right. split; [reflexivity|]. intros d. rewrite Ea. cbn [bind]. now rewrite Eb. }
    left. exists [(pair_file ta tb, la, ca); (pair_file tc td, lb, cb)], (ka + kb)%Z. split; [|split; [reflexivity|split]].
    - intros ? ? ? [X|[X|[]]]; injection X as <- <- <-; assumption.
    - unfold files_acts. cbn [map concat fst snd]. now rewrite app_nil_r.
    - intros d. rewrite Ea. cbn [bind]. rewrite Eb. reflexivity. }
  assert (Fin : forall na nb a w, (exists fl c, whole fl /\ map (fun e => fst (fst e)) fl = [na; nb] /\ a = Some (files_acts (rowsum_dir rs) fl) /\ forall d : Dir, w d = Some (put_all fl d, c : Z)) \/ a = None /\ (forall d, w d = None) ->
    (exists fl, whole fl /\ map (fun e => fst (fst e)) fl = [seq_file TW; seq_file TX; seq_file TY; seq_file TZ; na; nb] /\
      (let* a4 := a in Some (MakeDir (rowsum_dir rs) :: put_acts (rowsum_dir rs) (seq_file TW) c0 ++ put_acts (rowsum_dir rs) (seq_file TX) c1 ++ put_acts (rowsum_dir rs) (seq_file TY) c2 ++ put_acts (rowsum_dir rs) (seq_file TZ) c3 ++ a4)) = Some (MakeDir (rowsum_dir rs) :: files_acts (rowsum_dir rs) fl) /\
      forall f : Folder, option_map fst (let* d := write_sequences s0 (open_dir f (rowsum_dir rs)) TW in let* d := write_sequences s1 d TX in let* d := write_sequences s2 d TY in let* d := write_sequences s3 d TZ in
        let* (d, counter) := w d in Some (put f (rowsum_dir rs) d, counter)) = Some (put f (rowsum_dir rs) (put_all fl (open_dir f (rowsum_dir rs))))) \/
    (let* a4 := a in Some (MakeDir (rowsum_dir rs) :: put_acts (rowsum_dir rs) (seq_file TW) c0 ++ put_acts (rowsum_dir rs) (seq_file TX) c1 ++ put_acts (rowsum_dir rs) (seq_file TY) c2 ++ put_acts (rowsum_dir rs) (seq_file TZ) c3 ++ a4)) = None /\
      forall f : Folder, option_map fst (let* d := write_sequences s0 (open_dir f (rowsum_dir rs)) TW in let* d := write_sequences s1 d TX in let* d := write_sequences s2 d TY in let* d := write_sequences s3 d TZ in
        let* (d, counter) := w d in Some (put f (rowsum_dir rs) d, counter)) = None).
  { intros na nb a w [(fl & c & W & N & -> & Ew)|[-> Ew]]; cbn [bind].
    - left. exists ((seq_file TW, l0, c0) :: (seq_file TX, l1, c1) :: (seq_file TY, l2, c2) :: (seq_file TZ, l3, c3) :: fl). split; [|split; [cbn [map fst]; now rewrite N|split]].
      + intros ? ? ? [X|[X|[X|[X|X]]]]; try (injection X as <- <- <-; assumption). now apply (W _ _ _ X).
      + reflexivity.
      + intros f. rewrite E0. cbn [bind]. rewrite E1. cbn [bind]. rewrite E2. cbn [bind]. rewrite E3. cbn [bind]. rewrite Ew. reflexivity.
    - right. split; [reflexivity|]. intros f. rewrite E0. cbn [bind]. rewrite E1. cbn [bind]. rewrite E2. cbn [bind]. rewrite E3. cbn [bind]. now rewrite Ew. }
  destruct pairing as [[]|]; eapply Fin; apply Go.
Qed.
Lemma both_distinct pairing : NoDup (both_files pairing).
Proof. destruct pairing as [[]|]; repeat constructor; cbn; intuition discriminate. Qed.
Lemma both_structured plan folder rs p m pairing :
  structured (rowsum_dir rs) (fun f => option_map fst (write_pairs_rowsum plan folder rs p m pairing f)) (pairs_rowsum_acts plan folder rs p m pairing).
Proof.
  destruct (both_named plan folder rs p m pairing) as [(fl & W & N & A & F)|H]; [left|now right]. exists fl. split; auto. split; [rewrite N; apply both_distinct|auto].
Qed.

(* ---- one program after the other ---- *)
Lemma clean_put f dir d : clean f -> NoDup (map fst d) -> clean (put f dir d).
Proof.
  intros [N N'] Nd. split; [now apply names_put|]. intros name d'. rewrite <- get_in by now apply names_put. rewrite get_put.
  destruct (text_eqb name dir); [intros E; now injection E as <-|]. rewrite get_in by auto. apply N'.
Qed.
Lemma clean_open f dir : clean f -> NoDup (map fst (open_dir f dir)).
Proof. intros [N N']. rewrite open_get. destruct (get f dir) as [d|] eqn:E; [|constructor]. apply get_in in E; auto. eauto. Qed.
Lemma clean_all fl d : NoDup (map fst d) -> NoDup (map fst (put_all fl d)).
Proof. unfold put_all. revert d. induction fl as [|[[k l] c] fl IH]; intros d H; cbn [fold_left]; auto. apply IH. now apply names_put. Qed.
Lemma job_disk dir fl f st : whole fl -> on_disk st f ->
  exists st', perform (MakeDir dir :: files_acts dir fl) st = Some st' /\ on_disk st' (put f dir (put_all fl (open_dir f dir))).
Proof.
  intros W H. apply on_disk_holds in H as [C H]. destruct (perform_job dir fl f st W H) as (st' & E & H'). exists st'. split; auto.
  apply on_disk_holds. split; auto. apply clean_put; auto. apply clean_all. now apply clean_open.
Qed.
Theorem actions_agree {L} (e : Env L) args x y acts : run_actions args = Some (x, y, acts) -> forall w st, on_disk st (pl_dirs (place_of w x y)) ->
  exists w' st', (forall fuel, run_main fuel e args w = Some w') /\ only w w' x y /\ perform acts st = Some st' /\ on_disk st' (pl_dirs (place_of w' x y)).
Proof.
  unfold run_actions, run_main. destruct (parse_args args) as [c|]; cbn [bind]; [|discriminate]. intros E w st H.
  assert (Fin : forall (x y : text) f, only w (write w x y (set_dirs (place_of w x y) f)) x y /\ pl_dirs (place_of (write w x y (set_dirs (place_of w x y) f)) x y) = f).
  { intros. split; [apply write_only|]. unfold place_of at 1. now rewrite write_same. }
  destruct c; try discriminate.
  - match type of E with context [pairs_rowsum_acts ?a ?b ?c ?d ?g ?h] => destruct (both_structured a b c d g h) as [(fl & W & _ & A & F)|[A F]]; rewrite A in E; [|discriminate] end.
    cbn [bind] in E. injection E as <- <- <-. destruct (job_disk (rowsum_dir rs) fl _ _ W H) as (st' & P & H'). eexists _, st'. split; [|split; [apply Fin|split; [exact P|]]].
    + intros fuel. cbn [exec].
      specialize (F (pl_dirs (place_of w (seqtype_to_string t) (usize_to_string p)))).
      destruct (write_pairs_rowsum _ _ _ _ _ _ _) as [[g k]|]; [|discriminate]. cbn [option_map fst] in F. injection F as ->. reflexivity.
    + rewrite (proj2 (Fin _ _ _)). exact H'.
  - match type of E with context [pair_single_acts ?a ?b ?c ?d ?g ?h ?i] => destruct (single_structured a b c d g h i) as [(fl & W & _ & A & F)|[A F]]; rewrite A in E; [|discriminate] end.
    cbn [bind] in E. injection E as <- <- <-. destruct (job_disk (rowsum_dir rs) fl _ _ W H) as (st' & P & H'). eexists _, st'. split; [|split; [apply Fin|split; [exact P|]]].
    + intros fuel. cbn [exec]. rewrite F. reflexivity.
    + rewrite (proj2 (Fin _ _ _)). exact H'.
Qed.

(* ---- one program is one interleaving ---- *)
Lemma interleaved_concat {A} (l : list (list A)) : interleaved l (concat l).
Proof.
  assert (G : forall l before, Forall (fun p : list A => p = []) before -> interleaved (before ++ l) (concat l)).
  { clear l. induction l as [|p l IH]; intros before H.
    - rewrite app_nil_r. now constructor.
    - cbn [concat]. induction p as [|a p IHp]; cbn [app].
      + replace (before ++ [] :: l) with ((before ++ [[]]) ++ l) by now rewrite <- app_assoc. apply IH. apply Forall_app. split; auto.
      + constructor. exact IHp. }
  apply (G l []). constructor.
Qed.
Lemma act_eq_dec (a b : Action) : {a = b} + {a <> b}.
Proof. assert (D := text_dec). decide equality; try apply Nat.eq_dec; apply D. Defined.

(* ---- the files of a program ---- *)
Section Ready.
Variables (C : text -> text -> text) (T : text -> text -> Prop).
Lemma covers_writes dir k chunks : forall off rest i, off <= i < off + length (concat chunks) -> covers (writes dir k off chunks ++ rest) dir k i.
Proof.
  induction chunks as [|s r IH]; intros off rest i H; cbn [writes concat] in *; [cbn in H; lia|]. rewrite app_length in H.
  destruct (Nat.lt_ge_cases i (off + length s)) as [H1|H1].
  - exists off, s. split; [now left|lia].
  - destruct (IH (off + length s) rest i ltac:(lia)) as (o & u & I & B). exists o, u. split; [now right|auto].
Qed.
Lemma ready_writes dir k chunks : forall pre rest (D : text -> Prop) (F : text -> text -> Prop), C dir k = pre ++ concat chunks -> F dir k -> T dir k -> ready C T D F rest ->
  ready C T D F (writes dir k (length pre) chunks ++ rest).
Proof.
  induction chunks as [|s r IH]; intros pre rest D F E Hf Ht R; cbn [writes app ready]; auto.
  cbn [concat] in E. split; auto. split; auto. split.
  - intros j Hj. rewrite E, nth_error_app2 by lia. replace (length pre + j - length pre) with j by lia. now apply nth_error_app1.
  - rewrite <- app_length. apply IH; auto. now rewrite <- app_assoc.
Qed.
Lemma ready_files dir fl : forall (D : text -> Prop) (F : text -> text -> Prop), D dir -> (forall k l c, In (k, l, c) fl -> C dir k = concat c /\ T dir k) -> ready C T D F (files_acts dir fl).
Proof.
  unfold files_acts. induction fl as [|[[k l] c] fl IH]; intros D F Hd H; cbn [map concat]; [exact I|].
  destruct (H k l c (or_introl eq_refl)) as [E Ht]. unfold put_acts. cbn [app ready]. split; auto. split; auto. split.
  - intros i Hi. apply covers_writes. rewrite <- E. lia.
  - apply (ready_writes dir k c []); auto. apply IH; auto. intros. eapply H. right. eauto.
Qed.
End Ready.
Lemma get_all fl : NoDup (map (fun e => fst (fst e)) fl) -> forall d k, get (put_all fl d) k = match find (fun e => text_eqb (fst (fst e)) k) fl with Some e => Some (snd (fst e)) | None => get d k end.
Proof.
  unfold put_all. induction fl as [|[[k0 l0] c0] fl IH]; intros N d k; cbn [fold_left find fst snd]; auto.
  inversion N as [|? ? N1 N2]; subst. rewrite IH by auto. destruct (text_dec k0 k) as [->|Ne].
  - rewrite text_eqb_refl. destruct (find _ fl) as [[[k1 l1] c1]|] eqn:E.
    + apply find_some in E as [I E]. apply text_eqb_eq in E. cbn [fst] in E. subst k1. exfalso. apply N1. apply in_map_iff. now exists (k, l1, c1).
    + now rewrite get_put, text_eqb_refl.
  - rewrite (text_eqb_neq k0 k Ne). destruct (find _ fl); auto. rewrite get_put, (text_eqb_neq k k0) by congruence. reflexivity.
Qed.
Lemma get_all_in fl d k l c : NoDup (map (fun e => fst (fst e)) fl) -> In (k, l, c) fl -> get (put_all fl d) k = Some l.
Proof.
  intros N I. rewrite get_all by auto. destruct (find _ fl) as [[[k1 l1] c1]|] eqn:E.
  - apply find_some in E as [I1 E]. apply text_eqb_eq in E. cbn [fst snd] in *. subst k1. f_equal.
    clear -N I I1. induction fl as [|[[k0 l0] c0] fl IH]; [destruct I|]. inversion N as [|? ? N1 N2]; subst.
    destruct I as [I|I], I1 as [I1|I1].
    + congruence.
    + injection I as -> -> ->. exfalso. apply N1. apply in_map_iff. now exists (k, l1, c1).
    + injection I1 as -> -> ->. exfalso. apply N1. apply in_map_iff. now exists (k, l, c).
    + now apply IH.
  - exfalso. assert (X := find_none _ _ E (k, l, c) I). cbn [fst] in X. now rewrite text_eqb_refl in X.
Qed.

(* ---- the jobs ---- *)
Section Parallel.
Context {L : Type} (e : Env L) (n : nat) (t : SequenceType) (y : list ascii) (m : MatchOption) (pr : RowsumPairing).
Hypothesis Hn : 1 <= n.
Hypothesis Hn2 : (Z.of_nat n < 2 ^ 62)%Z.
Hypothesis Ht : searchable t.
Hypothesis Hy : canonical_numeral y n.
Let x := type_word t.
Let D := full_dir t m n pr.

Lemma job_program job args : feasible n (fst job) -> job_line t y m pr job args -> exists fl,
  run_actions args = Some (x, y, MakeDir (rowsum_dir (fst job)) :: files_acts (rowsum_dir (fst job)) fl) /\
  forall k l c, In (k, l, c) fl -> concat c = stacked l /\ get (D (fst job)) k = Some l.
Proof.
  destruct job as [r h]. cbn [fst]. intros Hf J.
  destruct (job_effect t m n pr Ht Hn Hn2 r Hf) as (_ & _ & _ & Eff). destruct (Eff h []) as (d' & E & _ & G). fold D in G. clear Eff.
  assert (Fin : forall fl, whole fl -> NoDup (map (fun e => fst (fst e)) fl) -> job_folder t m n pr (r, h) [] = Some (put [] (rowsum_dir r) (put_all fl [])) ->
    forall k l c, In (k, l, c) fl -> concat c = stacked l /\ get (D r) k = Some l).
  { intros fl W N Ef k l c I. split; [now apply (W k)|]. rewrite E in Ef. injection Ef as ->. specialize (G k). rewrite (get_all_in fl [] k l c N I) in G.
    destruct (memb k (part_files pr h)); [now symmetry|]. discriminate. }
  destruct J as (a & b & c & d & Ha & ->). assert (La := numeral_length_arg y n Hy ltac:(lia)). unfold run_actions. cbn [fst snd] in *.
  assert (ny' : usize_to_string (Z.of_nat n) = y) by (symmetry; now apply numeral_string).
  destruct h.
  - assert (K := cl_pairs_rowsum (chars "rust") t y _ a b c d r m _ _ La Ha (pairing_word_arg pr)). apply parse_args_iff in K. rewrite K. cbn [bind].
    rewrite Nat2Z.id, ny'. destruct (both_structured n (seqtype_to_string t) r n m (Some pr)) as [(fl & W & N & A & F)|[A F]].
    + exists fl. rewrite A. cbn [bind]. split; [now rewrite type_word_string|]. apply Fin; auto. unfold job_folder. cbn [fst snd]. apply F.
    + unfold job_folder in E. cbn [fst snd] in E. rewrite F in E. discriminate.
  - assert (K := cl_pair_single (chars "rust") t y _ a b c d r m _ _ _ _ La Ha (pairing_word_arg pr) (one_byte n Hn)). apply parse_args_iff in K. rewrite K. cbn [bind].
    rewrite Nat2Z.id, ny'. change (Z.to_nat 1) with 1. destruct (single_structured n (seqtype_to_string t) r n m (Some pr) 1) as [(fl & W & N & A & F)|[A F]].
    + exists fl. rewrite A. cbn [bind]. split; [now rewrite type_word_string|]. apply Fin; auto. unfold job_folder. cbn [fst snd]. apply F.
    + unfold job_folder in E. cbn [fst snd] in E. rewrite F in E. discriminate.
  - assert (K := cl_pair_single (chars "rust") t y _ a b c d r m _ _ _ _ La Ha (pairing_word_arg pr) (two_byte n Hn)). apply parse_args_iff in K. rewrite K. cbn [bind].
    rewrite Nat2Z.id, ny'. change (Z.to_nat 2) with 2. destruct (single_structured n (seqtype_to_string t) r n m (Some pr) 2) as [(fl & W & N & A & F)|[A F]].
    + exists fl. rewrite A. cbn [bind]. split; [now rewrite type_word_string|]. apply Fin; auto. unfold job_folder. cbn [fst snd]. apply F.
    + unfold job_folder in E. cbn [fst snd] in E. rewrite F in E. discriminate.
Qed.

Definition program_of (job : Quad * Part) (a : list Action) : Prop := exists fl,
  a = MakeDir (rowsum_dir (fst job)) :: files_acts (rowsum_dir (fst job)) fl /\ forall k l c, In (k, l, c) fl -> concat c = stacked l /\ get (D (fst job)) k = Some l.
Lemma programs jobs lines : (forall r h, In (r, h) jobs -> feasible n r) -> Forall2 (job_line t y m pr) jobs lines ->
  exists acts, Forall2 (fun args a => run_actions args = Some (x, y, a)) lines acts /\ Forall2 program_of jobs acts.
Proof.
  intros Hf F. induction F as [|job args jobs lines J F IH]; [exists []; split; constructor|].
  destruct IH as (acts & A & B); [intros r h I; apply (Hf r h); now right|].
  destruct (job_program job args) as (fl & E & H); auto. { destruct job as [r h]. apply (Hf r h). now left. }
  eexists. split; constructor; eauto. exists fl. split; auto.
Qed.
Lemma in_turn lines acts : Forall2 (fun args a => run_actions args = Some (x, y, a)) lines acts -> forall w st, on_disk st (pl_dirs (place_of w x y)) ->
  exists w1 st1, (forall fuel, runs fuel e lines w w1) /\ only w w1 x y /\ perform (concat acts) st = Some st1 /\ on_disk st1 (pl_dirs (place_of w1 x y)).
Proof.
  induction 1 as [|args a lines acts H F IH]; intros w st S.
  - exists w, st. split; [constructor|]. split; [apply only_refl|]. split; [reflexivity|auto].
  - destruct (actions_agree e args x y a H w st S) as (w1 & st1 & R1 & O1 & P1 & S1). destruct (IH w1 st1 S1) as (w2 & st2 & R2 & O2 & P2 & S2).
    exists w2, st2. split; [intros fuel; econstructor; [apply R1|apply R2]|]. split; [eapply only_trans; eauto|]. split; auto.
    cbn [concat]. rewrite perform_app, P1. exact P2.
Qed.
Theorem jobs_parallel jobs lines w st0 : (forall r h, In (r, h) jobs -> feasible n r) -> Forall2 (job_line t y m pr) jobs lines ->
  on_disk st0 (pl_dirs (place_of w x y)) ->
  exists acts w1, Forall2 (fun args a => run_actions args = Some (x, y, a)) lines acts /\ (forall fuel, runs fuel e lines w w1) /\ only w w1 x y /\
    forall tr, interleaved acts tr -> exists st, perform tr st0 = Some st /\ on_disk st (pl_dirs (place_of w1 x y)).
Proof.
  intros Hf F S. destruct (programs jobs lines Hf F) as (acts & A & B). destruct (in_turn lines acts A w st0 S) as (w1 & st1 & R & O & P1 & S1).
  exists acts, w1. split; auto. split; auto. split; auto. intros tr I.
  set (T := fun d k => In (MakeFile d k) (concat acts)).
  set (C := fun d k => match find (fun j => text_eqb (rowsum_dir (fst j)) d) jobs with
                       | Some j => match get (D (fst j)) k with Some l => stacked l | None => [] end
                       | None => [] end).
  assert (HC : forall j, In j jobs -> forall k l, get (D (fst j)) k = Some l -> C (rowsum_dir (fst j)) k = stacked l).
  { intros j Hj k l E. unfold C. match goal with |- context [find ?P jobs] => destruct (find P jobs) as [j'|] eqn:Ej end.
    - apply find_some in Ej as [_ Ej]. apply text_eqb_eq in Ej. apply rowsum_dir_inj in Ej. rewrite Ej, E. reflexivity.
    - assert (X := find_none _ _ Ej j Hj). cbn beta in X. now rewrite text_eqb_refl in X. }
  assert (Rd : Forall (ready C T (hasdir st0) (hasfile st0)) acts).
  { apply Forall_forall. intros a Ha. assert (Pa : exists j, In j jobs /\ program_of j a).
    { clear -B Ha. induction B as [|j a' jobs acts X B IH]; [destruct Ha|]. destruct Ha as [<-|Ha]; [exists j; split; [now left|auto]|].
      destruct (IH Ha) as (j' & I & Y). exists j'. split; [now right|auto]. }
    destruct Pa as (j & Hj & fl & -> & Hfl). cbn [ready]. apply ready_files; [now left|]. intros k l c Ik. destruct (Hfl k l c Ik) as [Ec El]. split.
    - rewrite Ec. now apply HC.
    - unfold T. apply in_concat. eexists. split; [exact Ha|]. right. unfold files_acts. apply in_concat.
      exists (put_acts (rowsum_dir (fst j)) k c). split; [|now left]. apply in_map_iff. now exists (k, l, c). }
  assert (St : forall d f, T d f -> settled C st0 acts d f).
  { intros d f Tdf. left. unfold T in Tdf. apply in_concat in Tdf as (p & Hp & H). now exists p. }
  destruct (interleave C T tr acts st0 I Rd St) as (st & P & X1 & X2 & X3).
  destruct (interleave C T (concat acts) acts st0 (interleaved_concat acts) Rd St) as (st' & P' & Y1 & Y2 & Y3).
  rewrite P1 in P'. injection P' as <-. exists st. split; auto. apply on_disk_holds in S1 as [Cl Ho]. apply on_disk_holds. split; auto.
  apply (holds_ext st1); auto.
  - intros d. rewrite X3, Y3. reflexivity.
  - intros d k. destruct (in_dec act_eq_dec (MakeFile d k) (concat acts)) as [H|H].
    + rewrite (X1 d k H), (Y1 d k H). reflexivity.
    + rewrite (X2 d k H), (Y2 d k H). reflexivity.
Qed.
End Parallel.

(* a program without steps panics *)
Theorem no_actions {L} fuel (e : Env L) args w : nth_error args 1 = Some (chars "pairs_rowsum") \/ nth_error args 1 = Some (chars "pair_single") ->
  run_actions args = None -> run_main fuel e args w = None.
Proof.
  unfold run_actions, run_main. intros Hw. destruct (parse_args args) as [c|] eqn:E; cbn [bind]; auto. apply parse_args_iff in E.
  destruct E; cbn [nth_error] in Hw; try (exfalso; destruct Hw as [Hw|Hw]; discriminate Hw).
  - destruct (both_structured (Z.to_nat p) (seqtype_to_string t) rs (Z.to_nat p) m pr) as [(fl & _ & _ & A & _)|[A F]]; rewrite A; [discriminate|].
    intros _. cbn [exec]. specialize (F (pl_dirs (place_of w (seqtype_to_string t) (usize_to_string p)))). destruct (write_pairs_rowsum _ _ _ _ _ _ _) as [[g k]|]; [discriminate|reflexivity].
  - destruct (single_structured (Z.to_nat p) (seqtype_to_string t) rs (Z.to_nat p) m pr (Z.to_nat pk)) as [(fl & _ & _ & A & _)|[A F]]; rewrite A; [discriminate|].
    intros _. cbn [exec]. now rewrite F.
  - exfalso. apply H. destruct Hw as [Hw|Hw]; injection Hw as ->; unfold command_words; cbn [map In]; tauto.
Qed.
