(* A job that is killed and not repeated. *)
From Coq Require Import Ascii String List ZArith Bool Arith Lia Permutation Relations.
From Verif Require Import Base BaseFacts Sums Quat ModelSequence ModelWilliamson ModelEquivalence SpecEquiv OpFacts EquivFacts TypeFacts
  OrderFacts EquivThms CanonFacts ReduceFacts WsFacts QtWt Convert ModelMatrices SpecMatrix SpecPrint MatFacts QhmFacts PrintFacts HmFacts ModelGraph SpecGraph GraphThms HadEquiv
  ModelRowsum SpecRowsum RowsumFacts ModelMatching ModelWrite TextFacts WriteFacts FolderFacts SearchThms ExtendFacts FindQuadFacts DriverFacts ModelMain SpecMain MainFacts ArgFacts MainThms RepSymm SeqFacts DriverMain
  ModelLog LogFolder LogJoin ModelScripts DirFacts SpecFiles SingleFacts SpecSearch SpecSplit SplitFacts SplitThms ModelJobs SpecJobs JobsFacts JobsThms JobsResults SpecKilled KilledFacts KilledThms ClassSums Spec.
Import ListNotations.
Open Scope nat_scope.
Notation length := List.length.

(* ---- the directory a killed job leaves ---- *)
Lemma put_new (fl : list (text * Lines * list text)) : forall d : Dir, NoDup (map fst d ++ map (fun e => fst (fst e)) fl) -> put_all fl d = d ++ map (fun e => fst e) fl.
Proof.
  unfold put_all. induction fl as [|[[k l] c] fl IH]; intros d N; cbn [fold_left map fst] in *; [now rewrite app_nil_r|].
  assert (Ek : put d k l = d ++ [(k, l)]).
  { unfold put. f_equal. apply NoDup_remove_2 in N. clear IH. induction d as [|[a b] d IH]; cbn [filter fst]; auto. cbn [map fst app] in N.
    rewrite text_eqb_neq by (intros ->; apply N; now left). cbn [negb]. f_equal. apply IH. intros X. apply N. now right. }
  rewrite Ek, IH; [now rewrite <- app_assoc|]. rewrite map_app. cbn [map fst]. now rewrite <- app_assoc.
Qed.
Lemma cut_app k l : cut_short k (k ++ l).
Proof. induction k as [|a k IH]; cbn [app]; constructor. exact IH. Qed.

Section Silent.
Context {L : Type} (e : Env L) (n : nat) (t : SequenceType) (y : list ascii) (m : MatchOption) (pr : RowsumPairing).
Hypothesis Hn : 1 <= n.
Hypothesis Hn2 : (Z.of_nat n < 2 ^ 62)%Z.
Hypothesis Ht : searchable t.
Hypothesis Hy : canonical_numeral y n.
Let x := type_word t.
Let last_file := let '(_, (c, d)) := pairing_tags (Some pr) in pair_file c d.

Lemma silent_job r args : feasible n r -> job_line t y m pr (r, Both) args -> exists fl lr cr K W FL FR,
  run_actions args = Some (x, y, MakeDir (rowsum_dir r) :: files_acts (rowsum_dir r) (fl ++ [(last_file, lr, cr)])) /\
  whole (fl ++ [(last_file, lr, cr)]) /\ (forall tg, file_to_sequences (W tg) = Some (K tg)) /\
  full_dir t m n pr r = dir_of (Some pr) W FL FR /\
  put_all (fl ++ [(last_file, [], [])]) [] = dir_of (Some pr) W FL [] /\ map (fun e => fst (fst e)) (fl ++ [(last_file, lr, cr)]) = both_files (Some pr).
Proof.
  intros Hf J. destruct (job_effect t m n pr Ht Hn Hn2 r Hf) as ((K & W & _ & HW & ED) & _ & Wr & _). injection ED as ED.
  destruct J as (a & b & c & d & Ha & ->). assert (La := numeral_length_arg y n Hy ltac:(lia)). unfold run_actions. cbn [fst snd] in *.
  assert (ny' : usize_to_string (Z.of_nat n) = y) by (symmetry; now apply numeral_string).
  assert (P := cl_pairs_rowsum (chars "rust") t y _ a b c d r m _ _ La Ha (pairing_word_arg pr)). apply parse_args_iff in P. rewrite P. cbn [bind].
  rewrite Nat2Z.id, ny'. destruct (both_named n (seqtype_to_string t) r n m (Some pr)) as [(fl0 & Wf & N & A & F)|[A F]].
  2:{ exfalso. destruct (Wr [] (fun H => H)) as (c0 & E). specialize (F []). cbv beta in F. rewrite E in F. discriminate. }
  specialize (F []). destruct (Wr [] (fun H => H)) as (c0 & E). cbv beta in F. rewrite E in F. cbn [option_map fst app] in F.
  assert (Nd := both_distinct (Some pr)). rewrite <- N in Nd. change (open_dir [] (rowsum_dir r)) with ([] : Dir) in F. 
  rewrite (put_new fl0 [] Nd) in F. unfold put in F. cbn [filter app] in F. injection F as F. rewrite ED in F.
  exists (removelast fl0), (snd (fst (last fl0 ([], [], [])))), (snd (last fl0 ([], [], []))), K, W, (left_lines t m n (Some pr) K), (right_lines t m n (Some pr) K).
  rewrite A. cbn [bind]. rewrite type_word_string.
  assert (E0 : removelast fl0 ++ [(last_file, snd (fst (last fl0 ([], [], []))), snd (last fl0 ([], [], [])))] = fl0).
  { symmetry. etransitivity; [apply (app_removelast_last ([], [], [])); intros ->; unfold both_files in N; destruct (pairing_tags (Some pr)) as [[? ?] [? ?]]; discriminate N|].
    f_equal. f_equal. unfold last_file. clear -N. unfold both_files in N. destruct (pairing_tags (Some pr)) as [[a b] [c d]].
    destruct fl0 as [|e1 [|e2 [|e3 [|e4 [|e5 [|[[k l] ch] [|]]]]]]]; try discriminate N. cbn [last fst snd]. injection N as _ _ _ _ _ N. rewrite <- N. reflexivity. }
  rewrite E0. split; auto. split; auto. split; auto. split; auto. split; auto.
  clear -N F. unfold dir_of in F |- *. unfold last_file. unfold both_files in N.
  assert (Nd := both_distinct (Some pr)). unfold both_files in Nd. destruct (pairing_tags (Some pr)) as [[a b] [c d]].
  destruct fl0 as [|[[k1 l1] c1] [|[[k2 l2] c2] [|[[k3 l3] c3] [|[[k4 l4] c4] [|[[k5 l5] c5] [|[[k6 l6] c6] [|]]]]]]]; try discriminate N. cbn [removelast map fst] in *.
  injection F as <- <- <- <- <- <- <- <- <- <- <- <-. rewrite put_new by exact Nd. reflexivity.
Qed.

(* ---- matching with it ---- *)
Lemma no_pairs ord S l : join_pairs_files l [] t ord S = Some [] /\ join_pairs_files [] l t ord S = Some [].
Proof. unfold join_pairs_files. split; [destruct l|]; reflexivity. Qed.
Lemma silent_entry ls name K W FL : listing_ok ls -> (forall tg, file_to_sequences (W tg) = Some (K tg)) ->
  (let d := sort_dir (dir_of (Some pr) W FL []) in
   let* sequences := get_sequences_from_dir (ls_seq ls name d) in
   let* (files, order) := get_order_from_dir (ls_pair ls name d) in
   join_pairs_files (fst files) (snd files) t order sequences) = Some [].
Proof.
  intros (_ & Ls & Lp) HW. cbv zeta. rewrite sort_dir_of. rewrite (read_sequences (Some pr) W K _ _ _ HW (Ls _ _)). cbn [bind].
  destruct (read_order (Some pr) W FL [] _ (Lp name _)) as [O|O]; (refine (eq_trans (f_equal (fun o => let* (files, order) := o in _) O) _)); cbn [bind fst snd]; apply no_pairs.
Qed.
Definition entry_result ls (e : text * Dir) : option (list QuadSeq) :=
  let* sequences := get_sequences_from_dir (ls_seq ls (fst e) (snd e)) in
  let* (files, order) := get_order_from_dir (ls_pair ls (fst e) (snd e)) in
  join_pairs_files (fst files) (snd files) t order sequences.
Lemma match_entries ls (P : text * Dir -> QuadSeq -> Prop) f : listing_ok ls -> (forall e, In e f -> exists r, entry_result ls e = Some r /\ forall q, In q r <-> P e q) ->
  exists r, match_pairs ls t f = Some r /\ forall q, In q r <-> exists e, In e f /\ P e q.
Proof.
  intros (Lf & _) H. unfold match_pairs. assert (H' : forall e, In e (ls_folder ls f) -> exists r, entry_result ls e = Some r /\ forall q, In q r <-> P e q).
  { intros e0 I. apply H. now apply (Permutation_in _ (Lf f)). }
  assert (G : forall l res, (forall e, In e l -> exists r, entry_result ls e = Some r /\ forall q, In q r <-> P e q) ->
    exists r, fold_m (fun (result : list QuadSeq) '((name, d) : text * Dir) =>
      let* sequences := get_sequences_from_dir (ls_seq ls name d) in
      let* (files, order) := get_order_from_dir (ls_pair ls name d) in
      let* r := join_pairs_files (fst files) (snd files) t order sequences in
      Some (result ++ r)) l res = Some r /\ forall q, In q r <-> In q res \/ exists e, In e l /\ P e q).
  { clear. induction l as [|[name d] l IH]; intros res H.
    - exists res. split; auto. intros q. split; auto. intros [X|(? & [] & _)]; auto.
    - destruct (H (name, d) (or_introl eq_refl)) as (r & E & Hr). unfold entry_result in E. cbn [fst snd] in E. cbn [fold_m].
      destruct (get_sequences_from_dir _) as [sq|]; [|discriminate]. cbn [bind] in *.
      destruct (get_order_from_dir _) as [[fl o]|]; [|discriminate]. cbn [bind] in *. rewrite E. cbn [bind].
      destruct (IH (res ++ r)) as (r' & E' & Hr'). { intros e0 I. apply H. now right. }
      exists r'. split; auto. intros q. rewrite Hr', in_app_iff, Hr. split.
      + intros [[X|X]|(e0 & I & X)]; auto; right; [exists (name, d)|exists e0]; split; auto; [now left|now right].
      + intros [X|(e0 & [<-|I] & X)]; auto. right. now exists e0. }
  destruct (G _ [] H') as (r & E & Hr). exists r. split; auto. intros q. rewrite Hr. split.
  - intros [[]|(e0 & I & X)]. exists e0. split; auto. now apply (Permutation_in _ (Lf f)).
  - intros (e0 & I & X). right. exists e0. split; auto. now apply (Permutation_in _ (Permutation_sym (Lf f))).
Qed.

Definition silent_folder (jobs : list (Quad * Part)) (r : Quad) (W : Tag -> Lines) (FL : Lines) : Folder :=
  folder_of t m n pr (rows jobs) ++ [(rowsum_dir r, dir_of (Some pr) W FL [])].
Lemma silent_forms jobs r W FL name d : complete_jobs n jobs -> In (name, d) (silent_folder jobs r W FL) -> exists W' FL' FR', d = dir_of (Some pr) W' FL' FR'.
Proof.
  intros Hc I. apply in_app_iff in I as [I|[I|[]]].
  - unfold folder_of in I. apply in_map_iff in I as (r' & E & I). injection E as _ <-. assert (Hf := rows_feasible n jobs Hc). rewrite Forall_forall in Hf.
    apply (full_sorted n t m pr Hn Hn2 Ht r' (Hf r' I)).
  - injection I as _ <-. eauto.
Qed.
Lemma silent_sorted jobs r W FL f : complete_jobs n jobs -> same_dirs (silent_folder jobs r W FL) f ->
  same_dirs (sortpairs (silent_folder jobs r W FL)) (sortpairs f) /\ map (fun '(name, d) => (name, sort_dir_sh d)) f = sortpairs f.
Proof.
  intros H S. split.
  - apply same_dirs_sorted; auto. intros name d I. destruct (silent_forms jobs r W FL name d H I) as (W' & FL' & FR' & ->).
    rewrite sort_dir_of. destruct pr; split; try (repeat constructor; cbn; intuition discriminate); intros e0 He; cbn in He;
      repeat (destruct He as [<-|He]; [reflexivity|]); contradiction.
  - unfold sortpairs. apply map_ext_in. intros [name d] I. f_equal. unfold sort_dir_sh.
    replace (existsb _ d) with true; auto. symmetry. apply existsb_exists.
    destruct S as (_ & _ & N & S). assert (J : In name (map fst (silent_folder jobs r W FL))) by (apply N; apply in_map_iff; exists (name, d); auto).
    apply in_map_iff in J as ([nm d0] & E & J). cbn [fst] in E. subst nm. destruct (S _ _ _ J I) as [_ P].
    destruct (silent_forms jobs r W FL name d0 H J) as (W' & FL' & FR' & ->).
    destruct pr; (eexists; split; [eapply Permutation_in; [exact P|]|]; [do 4 right; left; reflexivity|reflexivity]).
Qed.
Lemma silent_match jobs r K W FL f ls : complete_jobs n jobs -> ~ In r (rows jobs) -> (forall tg, file_to_sequences (W tg) = Some (K tg)) ->
  same_dirs (silent_folder jobs r W FL) f -> listing_ok ls ->
  exists r0, match_pairs ls t (sortpairs f) = Some r0 /\ forall q, In q r0 <-> pm_quad n q /\ is_type t q /\ done jobs (totals q).
Proof.
  intros Hc Nr HW S Hls. destruct (silent_sorted jobs r W FL f Hc S) as [S' _]. assert (N' : NoDup (map fst (sortpairs f))) by apply S'.
  set (ls' := relist ls (sortpairs (silent_folder jobs r W FL)) (sortpairs f)). assert (Hls' : listing_ok ls') by now apply relist_ok.
  destruct (match_entries ls' (fun e q => exists rs, In rs (rows jobs) /\ fst e = rowsum_dir rs /\ valid t n rs q) (sortpairs (silent_folder jobs r W FL)) Hls') as (r0 & E & H).
  - intros e0 I. unfold sortpairs in I. apply in_map_iff in I as ([name d] & <- & I). apply in_app_iff in I as [I|[I|[]]].
    + unfold folder_of in I. apply in_map_iff in I as (rs & X & I). injection X as <- <-. assert (Hf := rows_feasible n jobs Hc). rewrite Forall_forall in Hf.
      destruct (job_effect t m n pr Ht Hn Hn2 rs (Hf rs I)) as (En & _).
      destruct (match_entry t m n (Some pr) rs _ ls' Ht Hn Hls' En) as (r1 & E1 & A & B). exists r1. split; [exact E1|]. intros q. split.
      * intros Iq. exists rs. split; auto.
      * intros (rs' & I' & X & V). cbn [fst] in X. apply rowsum_dir_inj in X. subst rs'. auto.
    + injection I as <- <-. exists []. split; [exact (silent_entry ls' (rowsum_dir r) K W FL Hls' HW)|]. intros q. split; [intros []|].
      intros (rs' & I' & X & V). cbn [fst] in X. apply rowsum_dir_inj in X. subst rs'. contradiction.
  - exists r0. unfold ls' in E. rewrite relist_match in E by auto. split; auto. intros q. rewrite H. split.
    + intros (e0 & _ & rs & I & _ & P & T & <-). split; auto. split; auto. now apply (rows_done n).
    + intros (P & T & Dn). apply (rows_done n jobs Hc) in Dn. exists (rowsum_dir (totals q), sort_dir (full_dir t m n pr (totals q))). split.
      * unfold sortpairs. apply in_map_iff. exists (rowsum_dir (totals q), full_dir t m n pr (totals q)). split; auto. apply in_app_iff. left.
        unfold folder_of. apply in_map_iff. now exists (totals q).
      * exists (totals q). split; auto. split; auto. split; auto.
Qed.

(* ---- on the disk ---- *)
Lemma files_app dir fl fl' : files_acts dir (fl ++ fl') = files_acts dir fl ++ files_acts dir fl'.
Proof. unfold files_acts. now rewrite map_app, concat_app. Qed.
Lemma writes_only dir k c : forall off d f, ~ In (MakeFile d f) (writes dir k off c).
Proof. induction c as [|s c IH]; intros off d f; cbn [writes]; [intros []|]. intros [X|X]; [discriminate|now apply IH in X]. Qed.
Lemma silent_back jobs lines r args : complete_jobs n jobs -> (forall h, ~ In (r, h) jobs) -> feasible n r ->
  Forall2 (job_line t y m pr) jobs lines -> job_line t y m pr (r, Both) args ->
  exists acts a k, Forall2 (fun args a => run_actions args = Some (x, y, a)) lines acts /\ run_actions args = Some (x, y, a) /\ cut_short k a /\
    (forall d f, In (MakeFile d f) a -> In (MakeFile d f) k) /\
    forall tr, interleaved (acts ++ [k]) tr -> exists st, perform tr empty_disk = Some st /\ (exists f, on_disk st f /\ tidy f) /\
      forall f, on_disk st f -> tidy f -> exists K W FL, (forall tg, file_to_sequences (W tg) = Some (K tg)) /\ same_dirs (silent_folder jobs r W FL) f.
Proof.
  intros Hc Nr Hf F J. assert (Nr' : ~ In r (rows jobs)).
  { unfold rows. rewrite nodup_In. intros I. apply in_map_iff in I as ([r' h] & E & I). cbn [fst] in E. subst r'. now apply (Nr h). }
  destruct (silent_job r args Hf J) as (fl & lr & cr & K & W & FL & FR & Ea & Wf & HW & ED & EP & Nm).
  destruct (programs n t y m pr Hn Hn2 Ht Hy jobs lines) as (acts & A & B); [intros r' h I; now apply (Hc r' h)|auto|].
  set (dir := rowsum_dir r) in *. set (fl' := fl ++ [(last_file, [], [])]) in *. set (k := MakeDir dir :: files_acts dir fl').
  set (D := full_dir t m n pr) in *. set (F' := silent_folder jobs r W FL).
  assert (Wf' : whole fl').
  { intros k0 l0 c0 I. apply in_app_iff in I as [I|[I|[]]]; [apply (Wf k0); apply in_app_iff; now left|]. injection I as <- <- <-. reflexivity. }
  assert (Nf' : NoDup (map (fun e => fst (fst e)) fl')).
  { assert (Nd := both_distinct (Some pr)). rewrite <- Nm in Nd. unfold fl'. rewrite map_app in Nd |- *. exact Nd. }
  assert (NF : NoDup (map fst F')).
  { unfold F', silent_folder. rewrite map_app. cbn [map fst]. apply (Permutation_NoDup (l := dir :: map fst (folder_of t m n pr (rows jobs)))); [apply Permutation_cons_append|]. constructor.
    - intros I. unfold folder_of in I. rewrite map_map in I. cbn [fst] in I. apply in_map_iff in I as (r' & E & I). apply rowsum_dir_inj in E. subst r'. contradiction.
    - apply names_of. apply NoDup_nodup. }
  exists acts, (MakeDir dir :: files_acts dir (fl ++ [(last_file, lr, cr)])), k. split; auto. split; auto. split; [|split].
  - unfold k, fl'. rewrite !files_app. cbn [files_acts map concat]. unfold put_acts. cbn [writes app]. rewrite app_nil_r.
    change (MakeDir dir :: files_acts dir fl ++ MakeFile dir last_file :: writes dir last_file 0 cr) with ((MakeDir dir :: files_acts dir fl) ++ [MakeFile dir last_file] ++ writes dir last_file 0 cr).
    rewrite app_assoc. apply cut_app.
  - intros d f. unfold k, fl'. rewrite !files_app. cbn [files_acts map concat]. unfold put_acts. cbn [writes app]. rewrite app_nil_r.
    intros [X|X]; [discriminate|]. right. apply in_app_iff in X as [X|[X|X]]; [apply in_app_iff; now left|apply in_app_iff; right; now left|now apply writes_only in X].
  - intros tr I. set (w := (fun _ _ => None) : World). set (T := fun d f => In (MakeFile d f) (concat (acts ++ [k]))).
    set (C := fun d k => match get F' d with Some dd => match get dd k with Some l => stacked l | None => [] end | None => [] end).
    assert (HC : forall j, In j jobs -> forall k l, get (D (fst j)) k = Some l -> C (rowsum_dir (fst j)) k = stacked l).
    { intros j Hj k0 l E. unfold C. replace (get F' (rowsum_dir (fst j))) with (Some (D (fst j))); [now rewrite E|]. symmetry. apply get_in; auto.
      unfold F', silent_folder. apply in_app_iff. left. unfold folder_of. apply in_map_iff. exists (fst j). split; auto. unfold rows. apply nodup_In. now apply in_map. }
    assert (HK : forall k0 l c, In (k0, l, c) fl' -> C dir k0 = stacked l).
    { intros k0 l c Ik. unfold C. replace (get F' dir) with (Some (dir_of (Some pr) W FL [])).
      - rewrite <- EP. now rewrite (get_all_in fl' [] k0 l c Nf' Ik).
      - symmetry. apply get_in; auto. unfold F', silent_folder. apply in_app_iff. right. now left. }
    assert (Rd : Forall (ready C T (hasdir empty_disk) (hasfile empty_disk)) (acts ++ [k])).
    { apply Forall_app. split; [|constructor; [|constructor]].
      - apply Forall_forall. intros a Ha. destruct (Forall2_right _ _ _ a B Ha) as (j & Hj & fl0 & -> & Hfl). cbn [ready]. apply ready_files; [now left|].
        intros k0 l c Ik. destruct (Hfl k0 l c Ik) as [Ec El]. split; [rewrite Ec; now apply HC|]. unfold T. apply in_concat. eexists. split; [apply in_app_iff; left; exact Ha|]. right.
        unfold files_acts. apply in_concat. exists (put_acts (rowsum_dir (fst j)) k0 c). split; [|now left]. apply in_map_iff. now exists (k0, l, c).
      - unfold k. cbn [ready]. apply ready_files; [now left|]. intros k0 l c Ik. split; [rewrite (Wf' k0 l c Ik); now apply (HK k0 l c)|].
        unfold T. apply in_concat. exists k. split; [apply in_app_iff; right; now left|]. right.
        unfold files_acts. apply in_concat. exists (put_acts dir k0 c). split; [|now left]. apply in_map_iff. now exists (k0, l, c). }
    assert (St : forall d f, T d f -> settled C empty_disk (acts ++ [k]) d f).
    { intros d f Tdf. left. unfold T in Tdf. apply in_concat in Tdf as (p & Hp & H). now exists p. }
    destruct (interleave C T tr (acts ++ [k]) empty_disk I Rd St) as (st & P & X1 & X2 & X3).
    destruct (interleave C T (concat (acts ++ [k])) (acts ++ [k]) empty_disk (interleaved_concat _) Rd St) as (st2 & P2 & Y1 & Y2 & Y3).
    destruct (in_turn e t y lines acts A w empty_disk empty_on_disk) as (w1 & st1 & R & _ & P1 & S1).
    destruct (jobs_folder n t m pr Hn Hn2 Ht jobs Hc) as (f & Ef & Sf).
    destruct (run_jobs n t y m pr Hn Hn2 Hy e jobs lines w f F) as (w1' & R' & _ & P' & _). { exact Ef. }
    change x with (type_word t) in S1. rewrite (runs_unique e 0 lines w w1 w1' (R 0) (R' 0)), P' in S1. cbn [set_dirs pl_dirs] in S1. apply (disk_same _ _ _ Sf) in S1.
    destruct (job_disk dir fl' (folder_of t m n pr (rows jobs)) st1 Wf' S1) as (st3 & P3 & S3).
    assert (E3 : st3 = st2). { rewrite concat_app, perform_app, P1 in P2. cbn [concat] in P2. rewrite app_nil_r in P2. cbn [bind] in P2. unfold k in P2. rewrite P3 in P2. now injection P2. }
    subst st3.
    assert (EF : put (folder_of t m n pr (rows jobs)) dir (put_all fl' (open_dir (folder_of t m n pr (rows jobs)) dir)) = F').
    { assert (Nd : ~ In dir (map fst (folder_of t m n pr (rows jobs)))).
      { unfold F', silent_folder in NF. rewrite map_app in NF. apply NoDup_remove_2 in NF. now rewrite app_nil_r in NF. }
      rewrite open_get. destruct (get _ dir) as [v|] eqn:Eg; [exfalso; apply Nd; apply get_names; congruence|]. rewrite EP. unfold F', silent_folder, put. f_equal.
      clear -Nd. induction (folder_of t m n pr (rows jobs)) as [|[a b] l IH]; cbn [filter fst]; auto. cbn [map fst] in Nd.
      rewrite text_eqb_neq by (intros ->; apply Nd; now left). cbn [negb]. f_equal. apply IH. intros X. apply Nd. now right. }
    rewrite EF in S3. assert (S : on_disk st F').
    { apply on_disk_holds in S3 as [Cl Ho]. apply on_disk_holds. split; auto. apply (holds_ext st2); auto.
      - intros d. rewrite X3, Y3. reflexivity.
      - intros d k0. destruct (in_dec act_eq_dec (MakeFile d k0) (concat (acts ++ [k]))) as [H|H].
        + rewrite (X1 d k0 H), (Y1 d k0 H). reflexivity.
        + rewrite (X2 d k0 H), (Y2 d k0 H). reflexivity. }
    assert (Td : tidy F').
    { intros name d fi li s I1 I2 I3. apply in_app_iff in I1 as [I1|[I1|[]]]; [exact (folder_tidy n m pr t jobs Hn Hn2 Ht Hc name d fi li s I1 I2 I3)|]. injection I1 as <- <-.
      assert (Hc1 : complete_jobs n [(r, Both)]) by (intros r' h [X|[]]; injection X as <- <-; split; auto; left; now left).
      refine (folder_tidy n m pr t [(r, Both)] Hn Hn2 Ht Hc1 dir (D r) fi li s (or_introl eq_refl) _ I3). rewrite ED.
      unfold dir_of in I2 |- *. destruct (pairing_tags (Some pr)) as [[a b] [c d]]. cbn [In] in I2 |- *.
      destruct I2 as [X|[X|[X|[X|[X|[X|[]]]]]]]; auto; [tauto..|]. injection X as _ <-. destruct I3. }
    exists st. split; auto. split; [eauto|]. intros f2 S2 T2. exists K, W, FL. split; auto. now apply (disk_unique st).
Qed.
End Silent.

Section Result.
Context {L : Type} (e : Env L) (n : nat) (y : list ascii) (m : MatchOption) (pr : RowsumPairing).
Hypothesis Hy : canonical_numeral y n.
Hypothesis Hn : 1 <= n <= 31.
Hypothesis He : env_ok e.
Theorem silent_QT jobs lines r args : complete_jobs n jobs -> (forall h, ~ In (r, h) jobs) -> feasible n r ->
  Forall2 (job_line QuaternionType y m pr) jobs lines -> job_line QuaternionType y m pr (r, Both) args ->
  (exists q, pm_quad n q /\ is_QT q /\ done jobs (totals q)) ->
  exists acts a k fuel0, Forall2 (fun args a => run_actions args = Some (type_word QuaternionType, y, a)) lines acts /\
  run_actions args = Some (type_word QuaternionType, y, a) /\ cut_short k a /\ (forall d f, In (MakeFile d f) a -> In (MakeFile d f) k) /\
  forall tr, interleaved (acts ++ [k]) tr -> exists st, perform tr empty_disk = Some st /\ (exists f, on_disk st f /\ tidy f) /\
  forall f, on_disk st f -> tidy f -> forall fuel w, fuel0 <= fuel -> exists w' pl res,
    remaining fuel e (type_word QuaternionType) y false (write w (type_word QuaternionType) y (set_dirs (place_of w (type_word QuaternionType) y) f)) = w' /\
    only w w' (type_word QuaternionType) y /\ w' (type_word QuaternionType) y = Some pl /\
    one_per_class_of (fun q => pm_quad n q /\ is_QT q /\ done jobs (totals q)) QuaternionType res /\
    lists_quads (pl_seq pl) (pl_qseq pl) res /\ lists_qhms n (pl_qhm pl) res.
Proof.
  intros Hc Nr Hf F J (z & Pz & Tz & Dz). assert (He' := He). destruct He' as (Ho & Hl & _). assert (Hn1 := proj1 Hn). assert (Hn2 : (Z.of_nat n < 2 ^ 62)%Z) by lia.
  destruct (silent_back e n QuaternionType y m pr Hn1 Hn2 (or_introl eq_refl) Hy jobs lines r args Hc Nr Hf F J) as (acts & a & k & A & Ea & Ck & Mk & B0).
  exists acts, a, k, (class_fuel n). split; auto. split; auto. split; auto. split; auto. intros tr It.
  destruct (B0 tr It) as (st & Est & Ex & Sf). exists st. split; auto. split; auto. intros f Df Tf fuel w Hfu.
  destruct (Sf f Df Tf) as (K & W & FL & HW & S).
  assert (Nr' : ~ In r (rows jobs)).
  { unfold rows. rewrite nodup_In. intros I. apply in_map_iff in I as ([r' h] & E & I). cbn [fst] in E. subst r'. now apply (Nr h). }
  destruct (silent_match n QuaternionType m pr Hn1 Hn2 (or_introl eq_refl) jobs r K W FL f (e_ls e) Hc Nr' HW S Hl) as (r0 & Em & I).
  destruct (silent_sorted n QuaternionType m pr Hn1 Hn2 (or_introl eq_refl) jobs r W FL f Hc S) as [_ Es].
  set (w1 := write w (type_word QuaternionType) y (set_dirs (place_of w (type_word QuaternionType) y) f)).
  set (pl := set_dirs (place_of w (type_word QuaternionType) y) (sortpairs f)).
  assert (Ws : sort_sh (type_word QuaternionType) y w1 (type_word QuaternionType) y = Some pl).
  { unfold sort_sh, w1. rewrite write_same. cbn [set_dirs pl_dirs]. rewrite Es. apply write_same. }
  assert (O : only w (sort_sh (type_word QuaternionType) y w1) (type_word QuaternionType) y).
  { unfold sort_sh, w1. rewrite write_same. eapply only_trans; [apply write_only|apply write_only]. }
  destruct (join_of n (e_ls e) (e_ord e) QuaternionType (pl_dirs pl) r0 Hn Ho (or_introl eq_refl) Em) with (fuel := fuel) (path := 0 :: e_path e) as (res & Ej & Nd & A1 & B1); auto.
  { intros q Hq. apply I in Hq as (? & ? & _). auto. }
  { intros ->. assert (X : In z []) by (apply I; auto). exact X. }
  destruct (last_QT e n y Hn He Hy fuel false _ pl res Ws Ej) as (pl' & equ & O' & W' & LQ & LH & X); auto; try discriminate.
  { intros q Hq. destruct (A1 q Hq) as (? & ? & _). auto. }
  eexists _, pl', res. split; [reflexivity|]. split; [eapply only_trans; [exact O|exact O']|].
  split; [exact W'|]. split; auto. split; auto. split.
  - intros q Hq. destruct (A1 q Hq) as (Px & Tx & Lx & q0 & Iq & Rq). split; auto. exists q0. split; [now apply I|exact Rq].
  - intros q Hq. apply B1. now apply I.
Qed.
End Result.

Theorem lost n jobs r res : Nat.Odd n -> (forall s h, In (s, h) jobs -> normal_rowsums QuaternionType s) -> (forall h, ~ In (r, h) jobs) ->
  normal_rowsums QuaternionType r -> one_per_class_of (fun q => pm_quad n q /\ is_QT q /\ done jobs (totals q)) QuaternionType res ->
  forall q x, pm_quad n q -> totals q = r -> In x res -> ~ reach (type_ops QuaternionType) q x.
Proof.
  intros Hn Hj Nr Hr (_ & A & _) q x Hp Hq I R. destruct (A x I) as (_ & q0 & (P0 & T0 & D0) & R0).
  assert (N0 : normal_rowsums QuaternionType (totals q0)) by (destruct D0 as [D0|[D0 _]]; apply (Hj _ _ D0)).
  assert (E := normal_unique n QuaternionType q q0 Hn Hp (rt_trans _ _ _ _ _ R (reach_sym n _ _ _ (pm_i8 n q0 P0) R0))). rewrite Hq in E. specialize (E Hr N0). rewrite E in D0.
  destruct D0 as [D0|[D0 _]]; now apply Nr in D0.
Qed.
