(* driver.sh with what panicking commands leave behind. *)
From Coq Require Import Ascii String List ZArith Bool Arith Lia Permutation Relations.
From Verif Require Import Base BaseFacts Sums Quat ModelSequence ModelWilliamson ModelEquivalence SpecEquiv EquivFacts OpFacts ModelMatrices ModelGraph SpecGraph
  ModelRowsum SpecRowsum RowsumFacts ModelFourier ModelMatching ModelWrite TextFacts WriteFacts FolderFacts SearchThms FindQuadFacts DriverFacts ModelMain SpecMain MainFacts ArgFacts MainThms DriverMain
  SpecFiles SpecOutputs SpecSearch SpecScripts ScriptThms ModelPanic PanicFacts SpecPanic PanicThms SplitFacts Spec.
Import ListNotations.
Open Scope nat_scope.
Notation length := List.length.
#[local] Opaque usize_to_string isize_to_string.

Lemma write_back (w : World) x y pl : w x y = Some pl -> same_tree w (write w x y pl).
Proof.
  intros H x' y'. unfold write. destruct (text_eqb x' x) eqn:Ex; [|reflexivity]. destruct (text_eqb y' y) eqn:Ey; [|reflexivity].
  apply text_eqb_eq in Ex, Ey. subst. now rewrite H.
Qed.
Lemma only_same w w1 w2 x y : only w w1 x y -> only w w2 x y -> w2 x y = w1 x y -> same_tree w1 w2.
Proof.
  intros O1 O2 E x' y'. destruct (list_eq_dec ascii_dec x' x) as [->|N].
  - destruct (list_eq_dec ascii_dec y' y) as [->|N]; [exact E|]. rewrite O1, O2 by congruence. reflexivity.
  - rewrite O1, O2 by congruence. reflexivity.
Qed.
Lemma run_x_cmd {L} fuel (e : Env L) args c w : command_line args c -> run_main_x fuel e args w = exec_x fuel e c w.
Proof. intros H. unfold run_main_x. apply parse_args_iff in H. now rewrite H. Qed.

(* ---- the commands ---- *)
Theorem run_x_only {L} fuel (e : Env L) args c w w' ok : command_line args c -> run_main_x fuel e args w = (w', ok) ->
  match target c with
  | None => w' = w
  | Some (t, p) => only w w' (type_word t) (usize_to_string p)
  end.
Proof. intros H. rewrite (run_x_cmd _ _ _ _ _ H). apply exec_x_only. Qed.
Theorem run_x_outputs {L} fuel (e : Env L) args c w w' ok t p : command_line args c -> run_main_x fuel e args w = (w', ok) -> target c = Some (t, p) ->
  forall x, ~ In x (outputs c) -> same_file x (place_of w (type_word t) (usize_to_string p)) (place_of w' (type_word t) (usize_to_string p)).
Proof. intros H. rewrite (run_x_cmd _ _ _ _ _ H). apply exec_x_outputs. Qed.
Theorem run_x_bad {L} fuel (e : Env L) args w : (forall c, ~ command_line args c) -> run_main_x fuel e args w = (w, false).
Proof. intros H. unfold run_main_x. destruct (parse_args args) as [c|] eqn:E; [|reflexivity]. apply parse_args_iff in E. now destruct (H c). Qed.
Theorem create_x_leaves {L} fuel (e : Env L) t y n a b c d rs x w : canonical_numeral y n -> (Z.of_nat n < 2 ^ 64)%Z ->
  rowsums_arg a b c d rs -> pairing_arg x None -> pl_dirs (place_of w (type_word t) y) = [] ->
  run_main_x fuel e [lit "rust"; lit "create"; type_word t; y; a; b; c; d; x] w =
    (write w (type_word t) y (set_dirs (place_of w (type_word t) y) [(rowsum_dir rs, [])]), false).
Proof.
  intros Hy Hn Hr Hx Hd. rewrite (run_x_cmd fuel e _ (Create t (Z.of_nat n) rs None)) by (apply cl_create; [now apply numeral_length_arg|exact Hr|exact Hx]).
  cbn [exec_x]. rewrite type_word_string, <- (numeral_string y n Hy), Hd. unfold create_rowsum_dirs_x, create_rowsum_dirs.
  destruct (sort_quad rs) as [[s i]|]; cbn [bind]; [|reflexivity]. destruct (traverse index_to_tag i); reflexivity.
Qed.
(* the directories and files that are there are kept *)
Theorem create_x_keeps {L} fuel (e : Env L) t y n a b c d rs x w : canonical_numeral y n -> (Z.of_nat n < 2 ^ 64)%Z ->
  rowsums_arg a b c d rs -> pairing_arg x None -> NoDup (map fst (pl_dirs (place_of w (type_word t) y))) -> exists f,
  run_main_x fuel e [lit "rust"; lit "create"; type_word t; y; a; b; c; d; x] w =
    (write w (type_word t) y (set_dirs (place_of w (type_word t) y) f), false) /\ NoDup (map fst f) /\
  forall name files, In (name, files) f <->
    In (name, files) (pl_dirs (place_of w (type_word t) y)) \/
    name = rowsum_dir rs /\ files = [] /\ ~ In name (map fst (pl_dirs (place_of w (type_word t) y))).
Proof.
  intros Hy Hn Hr Hx Nd. set (f0 := pl_dirs (place_of w (type_word t) y)) in *.
  exists (put f0 (rowsum_dir rs) (open_dir f0 (rowsum_dir rs))). split; [|split; [now apply names_put|]].
  - rewrite (run_x_cmd fuel e _ (Create t (Z.of_nat n) rs None)) by (apply cl_create; [now apply numeral_length_arg|exact Hr|exact Hx]).
    cbn [exec_x]. rewrite type_word_string, <- (numeral_string y n Hy). fold f0. unfold create_rowsum_dirs_x, create_rowsum_dirs.
    destruct (sort_quad rs) as [[s i]|]; cbn [bind]; [|reflexivity]. destruct (traverse index_to_tag i); reflexivity.
  - intros name files. rewrite <- (get_in (put _ _ _)) by now apply names_put. rewrite get_put, <- (get_in f0), <- get_names by assumption.
    destruct (text_dec name (rowsum_dir rs)) as [->|N].
    + rewrite text_eqb_refl, open_get. destruct (get f0 (rowsum_dir rs)) as [v|].
      * split; [now left|]. intros [H|(_ & _ & H)]; auto. destruct H. discriminate.
      * split; [intros H; injection H as <-; right; auto|]. intros [H|(_ & -> & _)]; [discriminate|reflexivity].
    + rewrite (text_eqb_neq _ _ N). split; [now left|]. intros [H|(H & _)]; [exact H|contradiction].
Qed.
Section Commands.
Context {L : Type} (e : Env L) (n : nat) (t : SequenceType) (y : list ascii).
Hypothesis He : env_ok e.
Hypothesis Hy : canonical_numeral y n.

Theorem join_x_nothing w : 1 <= n <= 31 -> searchable t ->
  (forall name d, In (name, d) (pl_dirs (place_of w (type_word t) y)) -> dir_len n d) ->
  exists fuel0, forall fuel w', fuel0 <= fuel -> run_main_x fuel e [lit "rust"; lit "join"; type_word t; y] w = (w', false) -> same_tree w w'.
Proof.
  intros Hn Ht Hd. exists (class_fuel n). intros fuel w' Hf. destruct He as (Ho & Hls & _).
  rewrite (run_x_cmd fuel e _ (Join t (Z.of_nat n))) by (apply cl_join; apply numeral_length_arg; [exact Hy|now apply small_length]).
  cbn [exec_x]. rewrite type_word_string, <- (numeral_string y n Hy), Nat2Z.id. unfold place_of in Hd. destruct (w (type_word t) y) as [pl|] eqn:Ew.
  - destruct (find_write_place_x fuel (e_ord e) (e_path e) (e_ls e) n t pl) as [pl' ok] eqn:E. cbn [fst snd]. intros H. injection H as <- ->.
    assert (pl' = pl) as -> by (eapply find_nothing; eauto). now apply write_back.
  - intros H. injection H as <-. intros ? ?. reflexivity.
Qed.
Theorem qhm_all_x_nothing fuel w w' : (Z.of_nat n < 2 ^ 64)%Z -> (forall lines line, pl_seq (place_of w (type_word t) y) = Some lines -> In line lines -> length line <= 100) ->
  run_main_x fuel e [lit "rust"; lit "qhm-all"; type_word t; y] w = (w', false) -> same_tree w w'.
Proof.
  intros Hn Hl. destruct He as (Ho & _). rewrite (run_x_cmd fuel e _ (QhmAll t (Z.of_nat n))) by (apply cl_qhm_all; now apply numeral_length_arg).
  cbn [exec_x]. rewrite type_word_string, <- (numeral_string y n Hy). unfold place_of in Hl. destruct (w (type_word t) y) as [pl|] eqn:Ew; cbn [bind].
  2:{ intros H. injection H as <-. intros ? ?. reflexivity. }
  destruct (pl_seq pl) as [lines|] eqn:Es; cbn [bind]; [|intros H; injection H as <-; intros ? ?; reflexivity].
  destruct (qhm_write_all_x fuel (e_ord e) (e_path e) t lines pl) as [pl' ok] eqn:E. cbn [fst snd]. intros H. injection H as <- ->.
  assert (pl' = pl) as -> by (eapply qhm_all_nothing; eauto). now apply write_back.
Qed.
Theorem hm_x_nothing fuel w w' : (Z.of_nat n < 2 ^ 64)%Z ->
  (forall lines, match t with WilliamsonType => pl_qts (place_of w (type_word t) y) | _ => pl_seq (place_of w (type_word t) y) end = Some lines -> ~ In [] lines) ->
  run_main_x fuel e [lit "rust"; lit "convert"; lit "hm"; type_word t; y] w = (w', false) -> same_tree w w'.
Proof.
  intros Hn Hl. destruct He as (_ & _ & _ & Hp). rewrite (run_x_cmd fuel e _ (ConvertHm t (Z.of_nat n))) by (apply cl_convert_hm; now apply numeral_length_arg).
  cbn [exec_x]. rewrite type_word_string, <- (numeral_string y n Hy). unfold place_of in Hl. destruct (w (type_word t) y) as [pl|] eqn:Ew; cbn [bind].
  2:{ intros H. injection H as <-. intros ? ?. reflexivity. }
  destruct (match t with WilliamsonType => pl_qts pl | _ => pl_seq pl end) as [lines|] eqn:Es; cbn [bind]; [|intros H; injection H as <-; intros ? ?; reflexivity].
  destruct (hadamard_equivalence_x (e_canon e) (e_same e) (e_hms e) lines t pl) as [pl' ok] eqn:E. cbn [fst snd]. intros H. injection H as <- ->.
  assert (pl' = pl) as -> by (eapply hadamard_nothing; eauto). now apply write_back.
Qed.
Theorem qhm_x_truncates fuel w w' : (Z.of_nat n < 2 ^ 64)%Z ->
  (run_main_x fuel e [lit "rust"; lit "convert"; lit "qhm"; type_word t; y] w = (w', false) <->
   exists pl lines, w (type_word t) y = Some pl /\ pl_seq pl = Some lines /\ ~ Forall readable lines /\ w' = write w (type_word t) y (set_qhm pl [])).
Proof.
  intros Hn. rewrite (run_x_cmd fuel e _ (ConvertQhm t (Z.of_nat n))) by (apply cl_convert_qhm; now apply numeral_length_arg).
  cbn [exec_x]. rewrite type_word_string, <- (numeral_string y n Hy). destruct (w (type_word t) y) as [pl|] eqn:Ew; cbn [bind].
  2:{ split; [discriminate|]. intros (pl & lines & E & _). discriminate. }
  destruct (pl_seq pl) as [lines|] eqn:Es; cbn [bind].
  2:{ split; [discriminate|]. intros (pl' & lines & E & E' & _). injection E as <-. congruence. }
  unfold convert_qs_to_matrices_x. destruct (convert_qs_to_matrices lines) as [[k s]|] eqn:E; cbn [fst snd].
  - split; [discriminate|]. intros (pl' & lines' & E1 & E2 & N & _). injection E1 as <-. rewrite Es in E2. injection E2 as <-. apply convert_none in N. congruence.
  - split.
    + intros H. injection H as <-. exists pl, lines. split; auto. split; auto. split; auto. now apply convert_none.
    + intros (pl' & lines' & E1 & _ & _ & ->). injection E1 as <-. reflexivity.
Qed.
End Commands.

(* ---- a script of four steps, for any way to run a step ---- *)
Section Script.
Context (run : list text -> World -> World) (x y : text) (a : list text) (P J H Q : Place -> Place).
Hypothesis on_P : forall w pl, w x y = Some pl -> pl_dirs pl = [] -> run a w x y = Some (P pl) /\ only w (run a w) x y.
Hypothesis on_J : forall w pl, w x y = Some pl -> run [lit "join"; x; y] w x y = Some (J pl) /\ only w (run [lit "join"; x; y] w) x y.
Hypothesis on_H : forall w pl, w x y = Some pl -> run [lit "convert"; lit "hm"; x; y] w x y = Some (H pl) /\ only w (run [lit "convert"; lit "hm"; x; y] w) x y.
Hypothesis on_Q : forall w pl, w x y = Some pl -> run [lit "convert"; lit "qhm"; x; y] w x y = Some (Q pl) /\ only w (run [lit "convert"; lit "qhm"; x; y] w) x y.
Definition script (h : bool) (w : World) : World :=
  let w := match w x y with Some _ => w | None => write w x y new_place end in
  let w := run a w in
  let w := sort_place x y w in
  let w := run [lit "join"; x; y] w in
  let w := if h then run [lit "convert"; lit "hm"; x; y] w else w in
  run [lit "convert"; lit "qhm"; x; y] w.
Definition p_script (h : bool) (pl : Place) : Place :=
  let pl := P pl in
  let pl := set_dirs pl (sortpairs (pl_dirs pl)) in
  let pl := J pl in
  Q (if h then H pl else pl).
Lemma sort_step w pl : w x y = Some pl -> sort_place x y w x y = Some (set_dirs pl (sortpairs (pl_dirs pl))) /\ only w (sort_place x y w) x y.
Proof. intros E. unfold sort_place. rewrite E. split; [apply write_same|apply write_only]. Qed.
Lemma script_place h w : pl_dirs (place_of w x y) = [] -> script h w x y = Some (p_script h (place_of w x y)) /\ only w (script h w) x y.
Proof.
  intros D. unfold script. cbv zeta. destruct (open_place w x y) as [H0 O0]. set (w1 := match w x y with Some _ => w | None => write w x y new_place end) in *.
  destruct (on_P w1 _ H0 D) as [H1 O1]. set (w2 := run a w1) in *.
  destruct (sort_step w2 _ H1) as [H2 O2]. set (w3 := sort_place x y w2) in *.
  destruct (on_J w3 _ H2) as [H3 O3]. set (w4 := run [lit "join"; x; y] w3) in *.
  match type of H3 with _ = Some ?p => set (pl3 := p) in * end.
  assert (H4 : (if h then run [lit "convert"; lit "hm"; x; y] w4 else w4) x y = Some (if h then H pl3 else pl3) /\
    only w4 (if h then run [lit "convert"; lit "hm"; x; y] w4 else w4) x y).
  { destruct h; [exact (on_H w4 pl3 H3)|split; [exact H3|apply only_refl]]. }
  destruct H4 as [H4 O4]. set (w5 := if h then run [lit "convert"; lit "hm"; x; y] w4 else w4) in *.
  destruct (on_Q w5 _ H4) as [H5 O5]. split; [exact H5|].
  eapply only_trans; [exact O0|]. eapply only_trans; [exact O1|]. eapply only_trans; [exact O2|]. eapply only_trans; [exact O3|]. eapply only_trans; [exact O4|exact O5].
Qed.
End Script.

Section Driver.
Context {L : Type} (fuel : nat) (e : Env L) (n : nat) (t : SequenceType) (y : list ascii).
Hypothesis Hn : (Z.of_nat n < 2 ^ 64)%Z.
Hypothesis Hy : canonical_numeral y n.
Let x := type_word t.

Definition px_pairs m pr (pl : Place) : Place := set_dirs pl (fst (write_pairs_x fuel n t m (str_to_rowsum_pairing pr) [])).
Definition px_join (pl : Place) : Place := fst (find_write_place_x fuel (e_ord e) (e_path e) (e_ls e) n t pl).
Definition px_hm (pl : Place) : Place :=
  match match t with WilliamsonType => pl_qts pl | _ => pl_seq pl end with
  | Some lines => fst (hadamard_equivalence_x (e_canon e) (e_same e) (e_hms e) lines t pl)
  | None => pl
  end.
Definition px_qhm (pl : Place) : Place := match pl_seq pl with Some lines => fst (convert_qs_to_matrices_x lines pl) | None => pl end.

Lemma run_on_x_cmd args c w : command_line (lit "rust" :: args) c -> run_on_x fuel e args w = fst (exec_x fuel e c w).
Proof. intros H. unfold run_on_x. now rewrite (run_x_cmd _ _ _ c). Qed.
Lemma on_pairs_x w pl m pr : w x y = Some pl -> pl_dirs pl = [] -> run_on_x fuel e [lit "pairs"; x; y; match_word m; pr] w x y = Some (px_pairs m pr pl) /\
  only w (run_on_x fuel e [lit "pairs"; x; y; match_word m; pr] w) x y.
Proof.
  intros Hw Hd. unfold px_pairs. rewrite (run_on_x_cmd _ (Pairs t (Z.of_nat n) m (str_to_rowsum_pairing pr))).
  2:{ apply cl_pairs; [now apply numeral_length_arg|]. now apply pairing_arg_iff. }
  cbn [exec_x]. rewrite type_word_string, <- (numeral_string y n Hy), Nat2Z.id. fold x. unfold place_of. rewrite Hw, Hd.
  destruct (write_pairs_x _ _ _ _ _ _) as [[|a f] ok]; cbn [fst snd].
  - split; [|apply only_refl]. rewrite Hw, <- Hd. destruct pl; reflexivity.
  - split; [apply write_same|apply write_only].
Qed.
Lemma on_join_x w pl : w x y = Some pl -> run_on_x fuel e [lit "join"; x; y] w x y = Some (px_join pl) /\ only w (run_on_x fuel e [lit "join"; x; y] w) x y.
Proof.
  intros Hw. unfold px_join. rewrite (run_on_x_cmd _ (Join t (Z.of_nat n))) by (apply cl_join; now apply numeral_length_arg).
  cbn [exec_x]. rewrite type_word_string, <- (numeral_string y n Hy), Nat2Z.id. fold x. rewrite Hw. cbn [fst]. split; [apply write_same|apply write_only].
Qed.
Lemma on_hm_x w pl : w x y = Some pl -> run_on_x fuel e [lit "convert"; lit "hm"; x; y] w x y = Some (px_hm pl) /\ only w (run_on_x fuel e [lit "convert"; lit "hm"; x; y] w) x y.
Proof.
  intros Hw. unfold px_hm. rewrite (run_on_x_cmd _ (ConvertHm t (Z.of_nat n))) by (apply cl_convert_hm; now apply numeral_length_arg).
  cbn [exec_x]. rewrite type_word_string, <- (numeral_string y n Hy). fold x. rewrite Hw. cbn [bind].
  destruct (match t with WilliamsonType => pl_qts pl | _ => pl_seq pl end) as [lines|]; cbn [bind fst]; [split; [apply write_same|apply write_only]|split; [exact Hw|apply only_refl]].
Qed.
Lemma on_qhm_x w pl : w x y = Some pl -> run_on_x fuel e [lit "convert"; lit "qhm"; x; y] w x y = Some (px_qhm pl) /\ only w (run_on_x fuel e [lit "convert"; lit "qhm"; x; y] w) x y.
Proof.
  intros Hw. unfold px_qhm. rewrite (run_on_x_cmd _ (ConvertQhm t (Z.of_nat n))) by (apply cl_convert_qhm; now apply numeral_length_arg).
  cbn [exec_x]. rewrite type_word_string, <- (numeral_string y n Hy). fold x. rewrite Hw. cbn [bind].
  destruct (pl_seq pl) as [lines|]; cbn [bind fst]; [split; [apply write_same|apply write_only]|split; [exact Hw|apply only_refl]].
Qed.
Definition px_driver m pr := p_script (px_pairs m pr) px_join px_hm px_qhm.
Definition pp_driver m pr := p_script (p_pairs fuel n t m pr) (p_join fuel e n t) (p_hm e t) p_qhm.
Let pword (pr : option text) : text := match pr with Some r => r | None => lit "WZ" end.

Lemma start_place (d : bool) w : d = true \/ pl_dirs (place_of w x y) = [] ->
  let w0 := if d then cleanup x y w else w in only w w0 x y /\ pl_dirs (place_of w0 x y) = [] /\ place_of w0 x y = set_dirs (place_of w x y) [].
Proof.
  intros Hd. cbv zeta. destruct d.
  - destruct (ScriptThms.cleanup_place t y w) as (A & B & C). fold x in A, B, C. split; auto. split; auto. rewrite <- C. clear - A. destruct (place_of (cleanup x y w) x y); cbn in *; now subst.
  - destruct Hd as [|Hd]; [discriminate|]. split; [apply only_refl|]. split; auto. clear - Hd. destruct (place_of w x y); cbn in *; now subst.
Qed.
Lemma flags_x_place c pr h (d : bool) w : d = true \/ pl_dirs (place_of w x y) = [] ->
  only w (driver_flags_x fuel e x y c pr h d w) x y /\
  driver_flags_x fuel e x y c pr h d w x y = Some (px_driver (if c then CORRELATION else PSD) (pword pr) h (set_dirs (place_of w x y) [])).
Proof.
  intros Hd. destruct (start_place d w Hd) as (O & D & E). unfold driver_flags_x, driver_sh_x. set (w0 := if d then cleanup x y w else w) in *. cbv zeta.
  rewrite D. cbn [length Nat.eqb negb]. rewrite match_flag. fold (pword pr). set (m := if c then CORRELATION else PSD).
  destruct (script_place (run_on_x fuel e) x y [lit "pairs"; x; y; match_word m; pword pr] (px_pairs m (pword pr)) px_join px_hm px_qhm
    (fun w pl => on_pairs_x w pl m (pword pr)) on_join_x on_hm_x on_qhm_x h w0 D) as [A B].
  rewrite E in A. split; [eapply only_trans; [exact O|exact B]|exact A].
Qed.
Lemma flags_place c pr h (d : bool) w : d = true \/ pl_dirs (place_of w x y) = [] ->
  only w (driver_flags fuel e x y c pr h d w) x y /\
  driver_flags fuel e x y c pr h d w x y = Some (pp_driver (if c then CORRELATION else PSD) (pword pr) h (set_dirs (place_of w x y) [])).
Proof.
  intros Hd. destruct (start_place d w Hd) as (O & D & E). unfold driver_flags, driver_sh. set (w0 := if d then cleanup x y w else w) in *. cbv zeta.
  rewrite D. cbn [length Nat.eqb negb]. rewrite match_flag. fold (pword pr). set (m := if c then CORRELATION else PSD).
  destruct (script_place (run_on fuel e) x y [lit "pairs"; x; y; match_word m; pword pr] (p_pairs fuel n t m (pword pr)) (p_join fuel e n t) (p_hm e t) p_qhm
    (fun w pl => on_pairs fuel e n t y Hn Hy w pl m (pword pr)) (on_join fuel e n t y Hn Hy) (on_hm fuel e n t y Hn Hy) (on_qhm fuel e n t y Hn Hy) h w0 D) as [A B].
  rewrite E in A. split; [eapply only_trans; [exact O|exact B]|exact A].
Qed.

Lemma hm_same pl : (forall l, Permutation (e_hms e l) l) -> (forall lines, match t with WilliamsonType => pl_qts pl | _ => pl_seq pl end = Some lines -> ~ In [] lines) -> px_hm pl = p_hm e t pl.
Proof.
  intros Hp Hl. unfold px_hm, p_hm. destruct (match t with WilliamsonType => pl_qts pl | _ => pl_seq pl end) as [lines|]; auto.
  assert (A := hadamard_agree (e_canon e) (e_same e) (e_hms e) lines t pl). apply agrees_cases in A.
  destruct (hadamard_equivalence_from_file _ _ _ _ _) as [[k s]|]; cbn [bind] in A; [now rewrite A|].
  destruct (hadamard_equivalence_x (e_canon e) (e_same e) (e_hms e) lines t pl) as [pl' ok] eqn:E. cbn in A. subst ok. cbn [fst]. eapply hadamard_nothing; eauto.
Qed.
Lemma qhm_same pl : (forall lines, pl_seq pl = Some lines -> Forall readable lines) -> px_qhm pl = p_qhm pl.
Proof.
  intros Hl. unfold px_qhm, p_qhm. destruct (pl_seq pl) as [lines|]; auto. unfold convert_qs_to_matrices_x.
  destruct (convert_total lines (Hl _ eq_refl)) as (k & s & ->). reflexivity.
Qed.
End Driver.

Lemma quad_lines_usable n r out : 1 <= n -> (forall q, In q r -> pm_quad n q) -> Forall2 line_of_quad r out -> Forall usable out.
Proof.
  intros Hn P F. induction F as [|q line r out H F IH]; constructor; [|apply IH; intros; apply P; now right].
  destruct (line_reads n q line (P q (or_introl eq_refl)) H) as (s & _ & Es & _ & Sz & Ln & _).
  destruct (Convert.to_string_from_str line s Es) as (_ & Sz' & _ & _).
  split.
  - intros ->. cbn in Sz'. lia.
  - intros c Hc. destruct (in_dec ascii_dec c Q24_STRING) as [|N]; auto. assert (K : QS_from_str line = None) by (apply Convert.from_str_none; eauto). congruence.
Qed.
Theorem driver_x_same {L} (e : Env L) n t y c pr h (d : bool) w : 1 <= n <= 31 -> env_ok e -> searchable t -> canonical_numeral y n ->
  old_results_usable (place_of w (type_word t) y) ->
  exists fuel0, forall fuel, fuel0 <= fuel ->
    same_tree (driver_flags fuel e (type_word t) y c pr h d w) (driver_flags_x fuel e (type_word t) y c pr h d w).
Proof.
  intros Hn He Ht Hy [U1 U2]. assert (H64 := small_length n (proj2 Hn)). assert (Hn1 : 1 <= n) by lia.
  destruct (search_spec n t (if c then CORRELATION else PSD) (str_to_rowsum_pairing (match pr with Some r => r | None => lit "WZ" end)) (e_ls e)) as (f0 & S); auto; [lia|apply He|].
  exists (max f0 (class_fuel n)). intros fuel Hf.
  destruct d eqn:Ed; [|assert (D : pl_dirs (place_of w (type_word t) y) = [] \/ pl_dirs (place_of w (type_word t) y) <> []) by (destruct (pl_dirs (place_of w (type_word t) y)); [now left|now right]); destruct D as [D|D]].
  3:{ unfold driver_flags, driver_flags_x, driver_sh, driver_sh_x. replace (length (pl_dirs (place_of w (type_word t) y)) =? 0) with false; [cbn; intros ? ?; reflexivity|].
      symmetry. apply Nat.eqb_neq. intros E. apply D. now apply length_zero_iff_nil. }
  all: match goal with |- same_tree (driver_flags _ _ _ _ _ _ _ ?d0 _) _ => assert (Hd : d0 = true \/ pl_dirs (place_of w (type_word t) y) = []) by auto;
    destruct (flags_place fuel e n t y H64 Hy c pr h d0 w Hd) as [O1 E1]; destruct (flags_x_place fuel e n t y H64 Hy c pr h d0 w Hd) as [O2 E2] end;
  eapply only_same; [exact O1|exact O2|]; rewrite E1, E2; f_equal.
  all: clear E1 E2 O1 O2 Hd; unfold px_driver, pp_driver, p_script; set (pl0 := set_dirs (place_of w (type_word t) y) []); cbv zeta;
    destruct (S fuel ltac:(lia)) as (f & k & r0 & Ew & Em & Snd & _).
  all: assert (Ep : px_pairs fuel n t (if c then CORRELATION else PSD) (match pr with Some r => r | None => lit "WZ" end) pl0 = set_dirs pl0 f)
    by (unfold px_pairs; assert (A := write_pairs_agree fuel n t (if c then CORRELATION else PSD) (str_to_rowsum_pairing (match pr with Some r => r | None => lit "WZ" end)) []);
        apply agrees_cases in A; rewrite Ew in A; cbn [bind] in A; now rewrite A).
  all: rewrite Ep; replace (p_pairs fuel n t _ _ pl0) with (set_dirs pl0 f) by (unfold p_pairs; now rewrite Ew); cbn [set_dirs pl_dirs].
  all: match goal with |- context [px_join _ _ _ _ ?p] => set (pl1 := p) end.
  all: assert (J : px_join fuel e n t pl1 = p_join fuel e n t pl1 /\ old_results_usable (p_join fuel e n t pl1)).
  1,3: destruct (list_eq_dec quad_eq_dec r0 []) as [->|Hne].
  1,3: assert (Ej : join_pairs fuel (e_ord e) (0 :: e_path e) (e_ls e) t (pl_dirs pl1) = None) by (apply no_match_join; [exact Ht|exact Em]);
       unfold px_join, p_join; rewrite (join_none_nothing _ _ _ _ _ _ _ Ej); unfold find_write_place; rewrite Ej; cbn [bind fst]; split; [reflexivity|]; split; assumption.
  1,2: destruct (join_writes n (e_ls e) (e_ord e) t pl1 r0 Hn (proj1 He) Ht Em) with (fuel := fuel) (p := e_path e) as (r & out & pl' & Pr & Fo & Ef & Es & Eq);
       [intros q Hq; destruct (Snd q Hq) as (? & ? & _); auto|exact Hne|lia|];
       unfold px_join, p_join; rewrite Ef; assert (A := find_agree fuel (e_ord e) (e_path e) (e_ls e) n t pl1); apply agrees_cases in A; rewrite Ef in A; rewrite A; cbn [fst];
       split; [reflexivity|]; split; intros lines El;
       [rewrite Es in El; injection El as <-; now apply (quad_lines_usable n r)|].
  1,2: destruct t; try (rewrite Eq in El; now apply U2); destruct Eq as (r' & out' & Pr' & Fo' & Eo); rewrite Eo in El; injection El as <-; now apply (quad_lines_usable n r').
  all: destruct J as [-> [V1 V2]]; set (pl2 := p_join fuel e n t pl1) in *.
  all: assert (Eh : px_hm e t pl2 = p_hm e t pl2)
    by (apply hm_same; [apply He|]; intros lines El I; destruct t;
        first [apply V1 in El|apply V2 in El]; apply (proj1 (Forall_forall _ _) El) in I; now destruct I as [I _]).
  all: rewrite Eh; symmetry; symmetry; apply qhm_same.
  all: intros lines El; assert (El' : pl_seq pl2 = Some lines) by
    (destruct h; [|exact El]; unfold p_hm in El; destruct (match t with WilliamsonType => pl_qts pl2 | _ => pl_seq pl2 end); [|exact El];
     destruct (hadamard_equivalence_from_file _ _ _ _ _) as [[? ?]|]; exact El).
  all: eapply Forall_impl; [|apply (V1 _ El')]; intros a [_ Ha]; exact Ha.
Qed.

(* ---- the remaining types ---- *)
Lemma rowsum_x_put plan folder rs p m pairing f : exists d, fst (write_pairs_rowsum_x plan folder rs p m pairing f) = put f (rowsum_dir rs) d.
Proof.
  unfold write_pairs_rowsum_x. match goal with |- context [match ?o with _ => _ end] => destruct o as [[[[[t s0] s1] s2] s3]|] end; [|eexists; reflexivity].
  destruct (write_all_sequences_x _ _) as [d ok]. destruct ok; cbn [negb]; [|eexists; reflexivity]. cbv zeta.
  assert (B : forall a b tags a' b' tags', exists d0, fst (match write_seq_pairs_x plan a b tags t rs p d LEFT m with
          | (d, None) => (put f (rowsum_dir rs) d, None)
          | (d, Some c1) =>
              match write_seq_pairs_x plan a' b' tags' t rs p d RIGHT m with
              | (d, None) => (put f (rowsum_dir rs) d, None)
              | (d, Some c2) => (put f (rowsum_dir rs) d, Some (c1 + c2)%Z)
              end
          end) = put f (rowsum_dir rs) d0).
  { intros. destruct (write_seq_pairs_x _ _ _ _ _ _ _ _ LEFT _) as [d1 [c1|]]; [|eexists; reflexivity].
    destruct (write_seq_pairs_x _ _ _ _ _ _ _ _ RIGHT _) as [d2 [c2|]]; eexists; reflexivity. }
  destruct pairing as [[| |]|]; apply B.
Qed.
Lemma put_in {A} (f : list (text * A)) name d name' : In name' (map fst f) -> In name' (map fst (put f name d)).
Proof.
  unfold put. rewrite map_app, in_app_iff. intros H. destruct (text_eqb name' name) eqn:E.
  - apply text_eqb_eq in E. subst. right. now left.
  - left. apply in_map_iff in H as (a & <- & I). apply in_map_iff. exists a. split; auto. apply filter_In. split; auto. now rewrite E.
Qed.
Lemma put_self {A} (f : list (text * A)) name d : In name (map fst (put f name d)).
Proof. unfold put. rewrite map_app, in_app_iff. right. now left. Qed.
Lemma write_pairs_x_first fuel n t m pairing rs rest : generate_rowsums fuel n t = Some (rs :: rest) ->
  In (rowsum_dir rs) (map fst (fst (write_pairs_x fuel n t m pairing []))).
Proof.
  intros E. unfold write_pairs_x. rewrite E.
  assert (G : forall l f name, In name (map fst f) -> In name (map fst (fst (loop (fun f rs => match write_pairs_rowsum_x n (seqtype_to_string t) rs n m pairing f with
                        | (f, Some _) => (f, true) | (f, None) => (f, false) end) l f)))).
  { induction l as [|r l IH]; cbn [loop]; intros f name I; [exact I|].
    destruct (rowsum_x_put n (seqtype_to_string t) r n m pairing f) as (d & Ed).
    destruct (write_pairs_rowsum_x n (seqtype_to_string t) r n m pairing f) as [f1 [v|]]; cbn [fst] in Ed; subst f1; [apply IH|]; now apply put_in. }
  cbn [loop]. destruct (rowsum_x_put n (seqtype_to_string t) rs n m pairing []) as (d & Ed).
  destruct (write_pairs_rowsum_x n (seqtype_to_string t) rs n m pairing []) as [f1 [v|]]; cbn [fst] in Ed; subst f1; [apply G|]; apply put_self.
Qed.
Definition quiet (d : Dir) : Prop := forall file lines, In (file, lines) d -> lines = [] \/ exists t, file = seq_file t.
Definition other (t : SequenceType) : Prop := t <> QuaternionType /\ t <> WilliamsonType /\ t <> Williamson.
Lemma put_cases {A} (f : list (text * A)) name d name' d' : In (name', d') (put f name d) -> In (name', d') f \/ (name' = name /\ d' = d).
Proof. unfold put. rewrite in_app_iff. intros [H|[H|[]]]; [left; now apply filter_In in H|right]. injection H as <- <-. auto. Qed.
Lemma quiet_put d name lines : quiet d -> lines = [] \/ (exists t, name = seq_file t) -> quiet (put d name lines).
Proof. intros Q H file l I. apply put_cases in I as [I|[-> ->]]; [eapply Q; eauto|exact H]. Qed.
Lemma other_key plan tags t p side m data : other t -> pair_key plan tags t p side m data = None.
Proof.
  intros (N1 & N2 & N3). unfold pair_key. destruct m.
  - destruct (compute_auto_correlation_pair_dft _ _ _ _ _); cbn [bind]; [|reflexivity]. destruct (compute_cross_correlations_dft _ _ _ _ _); cbn [bind]; [|reflexivity]. destruct t; try reflexivity; exfalso; auto.
  - destruct (compute_cross_psd_pair _ _ _ _); cbn [bind]; [|reflexivity]. destruct t; try reflexivity; exfalso; auto.
Qed.
Lemma other_pairs plan s1 s2 tags t rs p d side m : other t -> quiet d -> quiet (fst (write_seq_pairs_x plan s1 s2 tags t rs p d side m)).
Proof.
  intros Ho Q. unfold write_seq_pairs_x. destruct (negb _); [exact Q|].
  match goal with |- context [loop ?f ?l ?s] => assert (G : forall l0, fst (loop f l0 s) = s); [|specialize (G l); set (r := loop f l s) in *] end.
  { induction l0 as [|[e1 e2] l0 IH]; [reflexivity|]. cbn [loop]. destruct (couple_psds _ _ _ _) as [[data|]|]; [rewrite other_key by exact Ho; reflexivity|exact IH|reflexivity]. }
  destruct r as [[[file buffer] counter] ok]. cbn [fst] in G. injection G as -> -> ->. destruct ok; apply quiet_put; auto.
Qed.
Lemma quiet_sequences s d t : quiet d -> quiet (fst (write_sequences_x s d t)).
Proof. intros Q. unfold write_sequences_x. destruct (loop _ _ _) as [lines ok]. apply quiet_put; eauto. Qed.
Lemma quiet_all l : forall d, quiet d -> quiet (fst (write_all_sequences_x l d)).
Proof.
  unfold write_all_sequences_x. induction l as [|[t s] l IH]; intros d Q; [exact Q|]. cbn [loop].
  assert (Q' := quiet_sequences s d t Q). destruct (write_sequences_x s d t) as [d' ok]. cbn [fst] in Q'. destruct ok; [apply IH; exact Q'|exact Q'].
Qed.
Definition quiet_folder (f : Folder) : Prop := forall name d, In (name, d) f -> quiet d.
Lemma quiet_folder_put f name d : quiet_folder f -> quiet d -> quiet_folder (put f name d).
Proof. intros Q H name' d' I. apply put_cases in I as [I|[-> ->]]; [eapply Q; eauto|exact H]. Qed.
Lemma quiet_rowsum plan t rs p m pairing f : other t -> quiet_folder f -> quiet_folder (fst (write_pairs_rowsum_x plan (seqtype_to_string t) rs p m pairing f)).
Proof.
  intros Ho Q. unfold write_pairs_rowsum_x.
  assert (Q0 : quiet (open_dir f (rowsum_dir rs))).
  { unfold open_dir, get. destruct (find _ f) as [[name d]|] eqn:E; cbn; [|intros ? ? []]. apply find_some in E as [E _]. eapply Q; eauto. }
  match goal with |- context [match ?o with _ => _ end] => destruct o as [[[[[t' s0] s1] s2] s3]|] eqn:E end; [|now apply quiet_folder_put].
  assert (t' = t) as ->.
  { apply bind_some in E as (t0 & E0 & E). apply bind_some in E as (? & _ & E). apply bind_some in E as (? & _ & E). apply bind_some in E as (? & _ & E). apply bind_some in E as (? & _ & E).
    injection E as -> _ _ _ _. destruct t; cbn in E0; vm_compute in E0; congruence. }
  assert (Q1 := quiet_all [(TW, s0); (TX, s1); (TY, s2); (TZ, s3)] _ Q0). destruct (write_all_sequences_x _ _) as [d ok]. cbn [fst] in Q1.
  destruct ok; cbn [negb]; [|now apply quiet_folder_put]. cbv zeta.
  assert (B : forall a b tags a' b' tags', quiet_folder (fst (match write_seq_pairs_x plan a b tags t rs p d LEFT m with
          | (d, None) => (put f (rowsum_dir rs) d, None)
          | (d, Some c1) =>
              match write_seq_pairs_x plan a' b' tags' t rs p d RIGHT m with
              | (d, None) => (put f (rowsum_dir rs) d, None)
              | (d, Some c2) => (put f (rowsum_dir rs) d, Some (c1 + c2)%Z)
              end
          end))).
  { intros. assert (Q2 := other_pairs plan a b tags t rs p d LEFT m Ho Q1). destruct (write_seq_pairs_x _ _ _ _ _ _ _ _ LEFT _) as [d1 [c1|]]; [|now apply quiet_folder_put].
    assert (Q3 := other_pairs plan a' b' tags' t rs p d1 RIGHT m Ho Q2). destruct (write_seq_pairs_x _ _ _ _ _ _ _ _ RIGHT _) as [d2 [c2|]]; now apply quiet_folder_put. }
  destruct pairing as [[| |]|]; apply B.
Qed.
Lemma quiet_pairs fuel n t m pairing : other t -> quiet_folder (fst (write_pairs_x fuel n t m pairing [])).
Proof.
  intros Ho. unfold write_pairs_x. destruct (generate_rowsums fuel n t) as [l|]; [|intros ? ? []].
  assert (Q : quiet_folder []) by (intros ? ? []). revert Q. generalize (@nil (text * Dir)).
  induction l as [|rs l IH]; intros f Q; [exact Q|]. cbn [loop]. assert (Q' := quiet_rowsum n t rs n m pairing f Ho Q).
  destruct (write_pairs_rowsum_x _ _ _ _ _ _ _) as [f' [c|]]; cbn [fst] in Q'; [now apply IH|exact Q'].
Qed.
Lemma quiet_sort d : quiet d -> quiet (sort_dir d).
Proof.
  intros Q. unfold sort_dir. assert (G : forall l d0, quiet l -> quiet d0 -> quiet (fold_left (fun d e =>
      if ends_with (fst e) (lit ".pair")
      then put (filter (fun e' => negb (text_eqb (fst e') (fst e))) d) (fst e ++ lit ".sorted") (sort_lines (snd e))
      else d) l d0)).
  { induction l as [|[file lines] l IH]; intros d0 Ql Qd; [exact Qd|]. cbn [fold_left fst snd]. apply IH; [intros ? ? I; eapply Ql; right; exact I|].
    destruct (ends_with file (lit ".pair")) eqn:E; [|exact Qd]. apply quiet_put.
    - intros ? ? I. apply filter_In in I as [I _]. eapply Qd; eauto.
    - left. destruct (Ql file lines (or_introl eq_refl)) as [->|(t & ->)]; [reflexivity|]. destruct t; vm_compute in E; discriminate. }
  now apply G.
Qed.
Lemma quiet_spec f : quiet_folder f -> no_pairs f.
Proof.
  intros Q name d file lines I J. destruct (Q name d I file lines J) as [->|(t & ->)]; [now left|right].
  destruct t; [exists "W"%char|exists "X"%char|exists "Y"%char|exists "Z"%char]; (split; [cbn; tauto|reflexivity]).
Qed.
Theorem other_types_x {L} (e : Env L) t y n c pr h (d : bool) w : t <> QuaternionType -> t <> WilliamsonType -> t <> Williamson ->
  canonical_numeral y n -> (Z.of_nat n < 2 ^ 64)%Z -> d = true \/ pl_dirs (place_of w (type_word t) y) = [] ->
  pl_seq (place_of w (type_word t) y) = None -> (exists r, feasible n r /\ normal_rowsums t r) ->
  exists fuel0, forall fuel, fuel0 <= fuel -> exists f, f <> [] /\ no_pairs f /\ only w (driver_flags_x fuel e (type_word t) y c pr h d w) (type_word t) y /\
    driver_flags_x fuel e (type_word t) y c pr h d w (type_word t) y = Some (set_dirs (place_of w (type_word t) y) f).
Proof.
  intros N1 N2 N3 Hy Hn Hd Hs (r & Fr & Nr). destruct (generate_rowsums_spec n t) as (f0 & G). exists f0. intros fuel Hf.
  destruct (G fuel Hf) as (l & El & _ & Hl). destruct l as [|rs rest]; [destruct (proj2 (Hl r) (conj Fr Nr))|].
  destruct (flags_x_place fuel e n t y Hn Hy c pr h d w Hd) as [O E]. rewrite E.
  unfold px_driver, p_script. cbv zeta. unfold px_pairs. cbn [set_dirs pl_dirs].
  set (f := fst (write_pairs_x fuel n t _ _ [])). assert (I : In (rowsum_dir rs) (map fst f)) by (apply (write_pairs_x_first _ _ _ _ _ _ _ El)).
  exists (sortpairs f). split; [|split; [|split; [exact O|]]].
  - intros K. destruct f; [destruct I|discriminate].
  - apply quiet_spec. intros name d0 J. apply in_map_iff in J as ([name1 d1] & J & J'). injection J as <- <-. apply quiet_sort.
    exact (quiet_pairs fuel n t _ _ (conj N1 (conj N2 N3)) _ _ J').
  - f_equal. match goal with |- context [px_join _ _ _ _ ?p] => set (pl1 := p) end.
    assert (E1 : px_join fuel e n t pl1 = pl1).
    { unfold px_join. rewrite join_none_nothing; [reflexivity|]. unfold join_pairs. destruct (match_pairs _ _ _); cbn [bind]; [|reflexivity]. destruct t; congruence || reflexivity. }
    rewrite E1. assert (S1 : pl_seq pl1 = None) by exact Hs.
    assert (E2 : px_hm e t pl1 = pl1) by (unfold px_hm; destruct t; try congruence; now rewrite S1).
    rewrite E2. replace (if h then pl1 else pl1) with pl1 by now destruct h. assert (E3 : px_qhm pl1 = pl1) by (unfold px_qhm; now destruct (pl_seq pl1)). exact E3.
Qed.
Theorem refuses_x {L} fuel (e : Env L) x y c pr h w : pl_dirs (place_of w x y) <> [] -> driver_flags_x fuel e x y c pr h false w = w.
Proof.
  intros D. unfold driver_flags_x, driver_sh_x. replace (length (pl_dirs (place_of w x y)) =? 0) with false; [reflexivity|].
  symmetry. apply Nat.eqb_neq. intros E. apply D. now apply length_zero_iff_nil.
Qed.
