(* The file result.log of a run of driver.sh, and the row of the table read from it. *)
From Coq Require Import Ascii String List ZArith Bool Arith Lia Permutation Relations.
From Verif Require Import Base BaseFacts Sums Quat ModelSequence ModelWilliamson ModelEquivalence SpecEquiv OpFacts EquivFacts TypeFacts
  OrderFacts EquivThms CanonFacts ReduceFacts QtWt Convert ModelMatrices SpecMatrix SpecPrint MatFacts QhmFacts PrintFacts HmFacts ModelGraph SpecGraph GraphThms HadEquiv
  ModelRowsum ModelMatching ModelWrite TextFacts WriteFacts FolderFacts SearchThms ExtendFacts FindQuadFacts DriverFacts ModelMain SpecMain MainFacts ArgFacts MainThms RepSymm SeqFacts DriverMain
  ModelLog LogFolder LogText LogFacts LogStages LogJoin SpecSearch SpecLog Spec.
Import ListNotations.
Open Scope nat_scope.
Notation length := List.length.
#[local] Opaque usize_to_string isize_to_string seconds.

Section Driver.
Context {L : Type} (ck : Clock) (fuel : nat) (e : Env L) (n : nat) (t : SequenceType) (y : list ascii).
Hypothesis Hck : clock_ok ck.
Hypothesis Hn : (Z.of_nat n < 2 ^ 64)%Z.
Hypothesis Hy : canonical_numeral y n.
Let x := type_word t.
Local Lemma ny : usize_to_string (Z.of_nat n) = y. Proof. symmetry. now apply numeral_string. Qed.
Lemma plain_y : plain y. Proof. rewrite <- ny. apply usize_plain. lia. Qed.
Lemma run_log_cmd args c w w' l s : command_line (lit "rust" :: args) c -> exec_log ck fuel e c w = Some (w', l, s) -> exec fuel e c w = Some w' ->
  run_log ck fuel e args w = (run_on fuel e args w, l, s).
Proof.
  intros H El E. rewrite (run_on_cmd fuel e args c w H), E. unfold run_log. apply parse_args_iff in H. rewrite H. cbn [bind]. now rewrite El.
Qed.
Lemma log_pairs w pl m pr f c : w x y = Some pl -> pl_dirs pl = [] -> write_pairs fuel n t m (str_to_rowsum_pairing pr) [] = Some (f, c) ->
  exists l, run_log ck fuel e [lit "pairs"; x; y; match_word m; pr] w = (run_on fuel e [lit "pairs"; x; y; match_word m; pr] w, l, []) /\ (0 <= c)%Z /\
    reading l = mkReading None None (Some c) [seconds (tm_pairs ck)] None None.
Proof.
  intros Hw Hd Ew. destruct (pairs_log ck fuel n t m (str_to_rowsum_pairing pr) [] f c Hck Ew) as (l & El & Nc & Rl). exists l. split; [|auto].
  eapply (run_log_cmd _ (Pairs t (Z.of_nat n) m (str_to_rowsum_pairing pr))).
  - apply cl_pairs; [now apply numeral_length_arg|]. now apply pairing_arg_iff.
  - cbn [exec_log]. rewrite type_word_string, ny. fold x. unfold place_of. rewrite Hw, Hd, Nat2Z.id, El. cbn [bind].
    instantiate (1 := match f with [] => w | _ :: _ => write w x y (set_dirs pl f) end). now destruct f.
  - cbn [exec]. rewrite type_word_string, ny. fold x. unfold place_of. rewrite Hw, Hd, Nat2Z.id, Ew. cbn [bind]. now destruct f.
Qed.
Lemma log_join w pl pl' r pr : w x y = Some pl -> any_listing (e_ls e) -> Forall (sorted_entry pr) (pl_dirs pl) ->
  join_pairs fuel (e_ord e) (0 :: e_path e) (e_ls e) t (pl_dirs pl) = Some r -> (t = QuaternionType -> Forall (fun q => is_amicable q = Some true) r) ->
  find_write_place fuel (e_ord e) (e_path e) (e_ls e) n t pl = Some pl' ->
  exists l, run_log ck fuel e [lit "join"; x; y] w = (run_on fuel e [lit "join"; x; y] w, l, []) /\
    reading l = then_read (then_read (mkReading None None None [seconds (tm_match ck)] None None) (r_reduced t (length r) (Some (seconds (tm_reduce ck))))) (extra ck t pl').
Proof.
  intros Hw Hl Sh Ej Am Ef. destruct (find_log ck fuel (e_ord e) (e_path e) (e_ls e) n t pl pl' r pr Hck Hl Sh Ej Am Ef) as (l & El & Rl).
  exists l. split; [|auto]. eapply (run_log_cmd _ (Join t (Z.of_nat n))).
  - apply cl_join. now apply numeral_length_arg.
  - cbn [exec_log]. rewrite type_word_string, ny. fold x. rewrite Hw. cbn [bind]. rewrite Nat2Z.id, El. reflexivity.
  - cbn [exec]. rewrite type_word_string, ny. fold x. rewrite Hw. cbn [bind]. rewrite Nat2Z.id, Ef. reflexivity.
Qed.
Lemma log_hm w pl lines : w x y = Some pl -> match t with WilliamsonType => pl_qts pl | _ => pl_seq pl end = Some lines ->
  exists l, run_log ck fuel e [lit "convert"; lit "hm"; x; y] w = (run_on fuel e [lit "convert"; lit "hm"; x; y] w, l, []) /\ Forall quiet l.
Proof.
  intros Hw El. assert (C : command_line (lit "rust" :: [lit "convert"; lit "hm"; x; y]) (ConvertHm t (Z.of_nat n))) by (apply cl_convert_hm; now apply numeral_length_arg).
  destruct (hadamard_equivalence_from_file (e_canon e) (e_same e) (e_hms e) lines t) as [[k s]|] eqn:Eh.
  - eexists. split; [eapply run_log_cmd; [exact C| |]|].
    + cbn [exec_log]. rewrite type_word_string, ny. fold x. rewrite Hw. cbn [bind]. rewrite El. cbn [bind]. rewrite Eh. reflexivity.
    + cbn [exec]. rewrite type_word_string, ny. fold x. rewrite Hw. cbn [bind]. rewrite El. cbn [bind]. rewrite Eh. reflexivity.
    + apply quiet_hm. apply plain_y.
  - exists []. split; [|constructor]. assert (P := stage_hm_panics fuel e n t y Hn Hy w pl lines Hw El Eh). fold x in P. rewrite P. unfold run_log.
    apply parse_args_iff in C. rewrite C. cbn [bind exec_log]. rewrite type_word_string, ny. fold x. rewrite Hw. cbn [bind]. rewrite El. cbn [bind]. now rewrite Eh.
Qed.
Lemma log_qhm w pl lines k s : w x y = Some pl -> pl_seq pl = Some lines -> convert_qs_to_matrices lines = Some (k, s) ->
  exists l, run_log ck fuel e [lit "convert"; lit "qhm"; x; y] w = (run_on fuel e [lit "convert"; lit "qhm"; x; y] w, l, []) /\ Forall quiet l.
Proof.
  intros Hw El Eh. destruct k as [k nc]. eexists. split; [eapply (run_log_cmd _ (ConvertQhm t (Z.of_nat n)))|].
  - apply cl_convert_qhm. now apply numeral_length_arg.
  - cbn [exec_log]. rewrite type_word_string, ny. fold x. rewrite Hw, El, Eh. reflexivity.
  - cbn [exec]. rewrite type_word_string, ny. fold x. rewrite Hw, El, Eh. reflexivity.
  - constructor; [apply quiet_head, plain_y|]. constructor; [apply quiet_converted, plain_y|constructor].
Qed.

(* the steps of a run in which only the conversion to Hadamard matrices may fail *)
Record steps (m : MatchOption) (pr : text) (h : bool) (pl0 : Place) (f : Folder) (c : Z) (r : list QuadSeq) (pl1 : Place) (pl : Place) : Prop := mkSteps {
  st_pairs : write_pairs fuel n t m (str_to_rowsum_pairing pr) [] = Some (f, c);
  st_join : join_pairs fuel (e_ord e) (0 :: e_path e) (e_ls e) t (sortpairs f) = Some r;
  st_find : find_write_place fuel (e_ord e) (e_path e) (e_ls e) n t (set_dirs pl0 (sortpairs f)) = Some pl1;
  st_am : t = QuaternionType -> Forall (fun q => is_amicable q = Some true) r;
  st_hm : exists lines, match t with WilliamsonType => pl_qts pl1 | _ => pl_seq pl1 end = Some lines /\
    exists seqs k s, pl_seq pl1 = Some seqs /\ convert_qs_to_matrices seqs = Some (k, s) /\
    pl = set_qhm (if h then match hadamard_equivalence_from_file (e_canon e) (e_same e) (e_hms e) lines t with Some (_, s) => set_mat pl1 s | None => pl1 end else pl1) s
}.
Definition whole (h : bool) (c : Z) (r : list QuadSeq) (pl : Place) : Reading :=
  mkReading (match t with WilliamsonType => Some (Z.of_nat (length r)) | _ => None end)
    (match t with QuaternionType => Some (Z.of_nat (length r)) | WilliamsonType => option_map (fun l : Lines => Z.of_nat (length l)) (pl_qts pl) | _ => None end)
    (Some c) [seconds (tm_pairs ck); seconds (tm_sort ck); seconds (tm_match ck)] (Some (seconds (tm_reduce ck)))
    (if h then Some (seconds (tm_hm ck)) else None).
Lemma find_dirs i pl pl1 : find_write_place fuel (e_ord e) (e_path e) (e_ls e) i t pl = Some pl1 -> pl_dirs pl1 = pl_dirs pl /\ pl_mat pl1 = pl_mat pl.
Proof.
  unfold find_write_place. intros E. apply bind_some in E as (r & _ & E). apply bind_some in E as (am & _ & E). apply bind_some in E as (o & _ & E). apply bind_some in E as (q & _ & E).
  destruct t; try (injection E as <-; split; reflexivity).
  apply bind_some in E as (l & _ & E). apply bind_some in E as (r' & _ & E). apply bind_some in E as (o' & _ & E). apply bind_some in E as (q' & _ & E). injection E as <-. split; reflexivity.
Qed.
Lemma glue_nil l : l <> [] -> glue [] l = l. Proof. destruct l; [congruence|reflexivity]. Qed.

Ltac use_log R l := match goal with |- context [run_log ck fuel e ?A ?w] => replace (run_log ck fuel e A w) with (run_on fuel e A w, l, @nil ascii) by (symmetry; exact R) end.
Theorem log_steps m pr h w log f c r pl1 pl : 1 <= n -> (Z.of_nat n < 2 ^ 62)%Z -> searchable t -> any_listing (e_ls e) ->
  pl_dirs (place_of w x y) = [] -> steps m pr h (place_of w x y) f c r pl1 pl ->
  exists lg, driver_log ck fuel e x y (match_word m) pr h w log = (driver_sh fuel e x y (match_word m) pr h w, Some lg) /\
    only w (driver_sh fuel e x y (match_word m) pr h w) x y /\
    driver_sh fuel e x y (match_word m) pr h w x y = Some pl /\ pl_dirs pl = sortpairs f /\ c = Z.of_nat (countpairs (sortpairs f)) /\
    reading lg = whole h c r pl.
Proof.
  intros Hn1 Hn2 Ht Hl Hd [Ep Ej Ef Am (lines & Elines & seqs & k & s & Eseq & Ec & Epl)].
  destruct (folder_shape fuel n t m _ f c Hn1 Hn2 Ht Ep) as [Sh Cc]. assert (Sh' := sorted_shape _ _ Sh).
  destruct (find_dirs _ _ _ Ef) as [Fd Fm]. cbn [set_dirs pl_dirs] in Fd.
  unfold driver_log, driver_sh. rewrite Hd. cbn [length Nat.eqb negb]. cbv zeta.
  set (w0 := match w x y with Some _ => w | None => write w x y new_place end).
  assert (H0 : w0 x y = Some (place_of w x y) /\ only w w0 x y).
  { unfold w0, place_of. destruct (w x y) eqn:E; [split; auto; apply only_refl|split; [apply write_same|apply write_only]]. }
  destruct H0 as [H0 O0].
  destruct (log_pairs w0 _ m pr f c H0 Hd Ep) as (l1 & R1 & Nc & Q1). use_log R1 l1.
  destruct (stage_pairs fuel e n t y Hn Hy w0 _ m pr f c H0 Hd Ep) as [H1 O1]. fold x in H1, O1. clear R1.
  match goal with |- context [run_on fuel e ?A w0] => set (w1 := run_on fuel e A w0) end. change (w1 x y = Some (set_dirs (place_of w x y) f)) in H1. change (only w0 w1 x y) in O1.
  destruct (stage_sort t y _ _ H1) as [H2 O2]. fold x in H2, O2. cbn [set_dirs pl_dirs] in H2.
  assert (Q2 := sort_log_reading ck _ t y f Hck plain_y Sh).
  assert (D1 : pl_dirs (place_of w1 x y) = f) by (unfold place_of; rewrite H1; reflexivity). rewrite D1. set (w2 := sort_place x y w1) in *.
  change (set_dirs (set_dirs (place_of w x y) f) (sortpairs f)) with (set_dirs (place_of w x y) (sortpairs f)) in H2.
  destruct (log_join w2 _ pl1 r (str_to_rowsum_pairing pr) H2 Hl Sh' Ej Am Ef) as (l3 & R3 & Q3). use_log R3 l3.
  destruct (stage_join fuel e n t y Hn Hy w2 _ pl1 H2 Ef) as [H3 O3]. fold x in H3, O3. clear R3.
  match goal with |- context [run_on fuel e ?A w2] => set (w3 := run_on fuel e A w2) end. change (w3 x y = Some pl1) in H3. change (only w2 w3 x y) in O3.
  set (pl2 := if h then match hadamard_equivalence_from_file (e_canon e) (e_same e) (e_hms e) lines t with Some (_, s) => set_mat pl1 s | None => pl1 end else pl1) in *.
  assert (P2 : pl_dirs pl2 = sortpairs f /\ pl_seq pl2 = pl_seq pl1 /\ pl_qts pl2 = pl_qts pl1).
  { unfold pl2. destruct h; auto. destruct (hadamard_equivalence_from_file _ _ _ _ _) as [[? ?]|]; auto. }
  assert (H4 : exists l4, (if h then
        let '(w, l, _) := run_log ck fuel e [lit "convert"; lit "hm"; x; y] w3 in
        (w, l ++ [lit "Converting to matrices up to Hadamard equivalence took " ++ seconds (tm_hm ck) ++ lit " seconds";
                  match pl_mat (place_of w x y) with Some s => usize_to_string (file_lines s) | None => [] end
                    ++ lit " matrices were found after converting up to Hadamard equivalence."])
      else (w3, [])) = (if h then run_on fuel e [lit "convert"; lit "hm"; x; y] w3 else w3, l4) /\
      reading l4 = mkReading None None None [] None (if h then Some (seconds (tm_hm ck)) else None) /\
      (if h then run_on fuel e [lit "convert"; lit "hm"; x; y] w3 else w3) x y = Some pl2 /\ only w3 (if h then run_on fuel e [lit "convert"; lit "hm"; x; y] w3 else w3) x y).
  { destruct h; [|exists []; split; [reflexivity|]; split; [reflexivity|]; split; [exact H3|apply only_refl]].
    destruct (log_hm w3 pl1 lines H3 Elines) as (l & Rl & Ql). use_log Rl l. eexists. split; [reflexivity|]. split.
    - rewrite reading_app, (reading_quiet l Ql), then_nothing.
      change (?a :: ?b :: []) with ([a] ++ [b]). rewrite reading_app, reading_hm by apply Hck. rewrite (reading_quiet [_ ++ lit " matrices were found after converting up to Hadamard equivalence."]) by (constructor; [apply quiet_matrices|constructor]). reflexivity.
    - unfold pl2. destruct (hadamard_equivalence_from_file (e_canon e) (e_same e) (e_hms e) lines t) as [[k0 s0]|] eqn:Eh.
      + exact (stage_hm fuel e n t y Hn Hy w3 pl1 lines k0 s0 H3 Elines Eh).
      + assert (P := stage_hm_panics fuel e n t y Hn Hy w3 pl1 lines H3 Elines Eh). fold x in P. rewrite P. split; [exact H3|apply only_refl]. }
  destruct H4 as (l4 & R4 & Q4 & H4 & O4). 
  match goal with |- context [if h then run_on fuel e ?A w3 else w3] => set (w4 := if h then run_on fuel e A w3 else w3) end.
  change (w4 x y = Some pl2) in H4. change (only w3 w4 x y) in O4.
  match goal with |- context [if h then ?A else (w3, ?B)] => replace (if h then A else (w3, B)) with (w4, l4) by (symmetry; exact R4) end. clear R4.
  assert (S2 : pl_seq pl2 = Some seqs) by (destruct P2 as (_ & -> & _); exact Eseq).
  destruct (log_qhm w4 pl2 seqs k s H4 S2 Ec) as (l5 & R5 & Q5). use_log R5 l5.
  destruct (stage_qhm fuel e n t y Hn Hy w4 pl2 seqs k s H4 S2 Ec) as [H5 O5]. fold x in H5, O5.
  eexists. split; [reflexivity|]. split; [|split; [rewrite Epl; exact H5|split; [rewrite Epl; apply P2|split; [exact Cc|]]]].
  { eapply only_trans; [exact O0|]. eapply only_trans; [exact O1|]. eapply only_trans; [exact O2|]. eapply only_trans; [exact O3|]. eapply only_trans; [exact O4|exact O5]. }
  rewrite glue_nil by (destruct l4; discriminate). fold x in Q2.
  rewrite !reading_app, Q1, Q2, Q3, Q4. rewrite (reading_quiet [lit "Converting PQS to QHM ..."]) by (constructor; [apply quiet_pqs|constructor]).
  rewrite (reading_quiet l5 Q5), (reading_quiet _ (quiet_last ck Hck)). unfold whole. rewrite Epl. cbn [set_qhm pl_qts]. destruct P2 as (_ & _ & ->).
  destruct t, h; try reflexivity; unfold extra; destruct (pl_qts pl1); reflexivity.
Qed.
End Driver.
