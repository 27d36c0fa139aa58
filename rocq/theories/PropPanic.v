(* Property theorems C94 and C95: what a panicking command leaves behind, and driver.sh when its
   commands panic. *)
From Coq Require Import Ascii String List ZArith Bool Arith Lia Permutation Relations.
From Verif Require Import Base BaseFacts Sums Quat ModelSequence ModelWilliamson ModelEquivalence SpecEquiv EquivFacts OpFacts ModelMatrices ModelGraph SpecGraph
  ModelRowsum SpecRowsum ModelMatching ModelWrite ModelMain ModelPanic PanicFacts PanicThms PanicDriver PropMain SpecMain SpecOutputs SpecScripts SpecSearch SpecPrint SpecPanic Spec.
Import ListNotations.
Notation length := List.length.
Open Scope nat_scope.

(* C94: what a panicking command leaves behind *)
(* a command that does not panic does what the model without the files of panicking commands says *)
Theorem C94_agrees : forall (L : Type) fuel (e : Env L) args w w', run_main fuel e args w = Some w' <-> run_main_x fuel e args w = (w', true).
Proof. exact @run_agree. Qed.
Print Assumptions C94_agrees.
Theorem C94_one_directory : forall (L : Type) fuel (e : Env L) args c w w' ok, command_line args c -> run_main_x fuel e args w = (w', ok) ->
  match target c with
  | None => w' = w
  | Some (t, p) => only w w' (type_word t) (usize_to_string p)
  end.
Proof. exact @run_x_only. Qed.
Print Assumptions C94_one_directory.
Theorem C94_own_files : forall (L : Type) fuel (e : Env L) args c w w' ok t p, command_line args c -> run_main_x fuel e args w = (w', ok) -> target c = Some (t, p) ->
  forall x, ~ In x (outputs c) -> same_file x (place_of w (type_word t) (usize_to_string p)) (place_of w' (type_word t) (usize_to_string p)).
Proof. exact @run_x_outputs. Qed.
Print Assumptions C94_own_files.
(* bad arguments *)
Theorem C94_bad_arguments : forall (L : Type) fuel (e : Env L) args w, (forall c, ~ command_line args c) -> run_main_x fuel e args w = (w, false).
Proof. exact @run_x_bad. Qed.
Print Assumptions C94_bad_arguments.
Theorem C94_join_all_or_nothing : forall (L : Type) (e : Env L) n t y, env_ok e -> canonical_numeral y n -> forall w, 1 <= n <= 31 -> three_types t ->
  (forall name d, In (name, d) (pl_dirs (place_of w (type_word t) y)) -> dir_len n d) ->
  exists fuel0, forall fuel w', fuel0 <= fuel -> run_main_x fuel e [chars "rust"; chars "join"; type_word t; y] w = (w', false) -> same_tree w w'.
Proof. exact @join_x_nothing. Qed.
Print Assumptions C94_join_all_or_nothing.
Theorem C94_qhm_all_all_or_nothing : forall (L : Type) (e : Env L) n t y, env_ok e -> canonical_numeral y n -> forall fuel w w', (Z.of_nat n < 2 ^ 64)%Z ->
  (forall lines line, pl_seq (place_of w (type_word t) y) = Some lines -> In line lines -> length line <= 100) ->
  run_main_x fuel e [chars "rust"; chars "qhm-all"; type_word t; y] w = (w', false) -> same_tree w w'.
Proof. exact @qhm_all_x_nothing. Qed.
Print Assumptions C94_qhm_all_all_or_nothing.
Theorem C94_convert_hm_all_or_nothing : forall (L : Type) (e : Env L) n t y, env_ok e -> canonical_numeral y n -> forall fuel w w', (Z.of_nat n < 2 ^ 64)%Z ->
  (forall lines, match t with WilliamsonType => pl_qts (place_of w (type_word t) y) | _ => pl_seq (place_of w (type_word t) y) end = Some lines -> ~ In [] lines) ->
  run_main_x fuel e [chars "rust"; chars "convert"; chars "hm"; type_word t; y] w = (w', false) -> same_tree w w'.
Proof. exact @hm_x_nothing. Qed.
Print Assumptions C94_convert_hm_all_or_nothing.
(* convert qhm is the exception: it panics exactly when a line holds another letter, and then the
   result.qhm of an earlier run has become empty *)
Theorem C94_convert_qhm_all_or_nothing_refuted : forall (L : Type) (e : Env L) n t y, canonical_numeral y n -> forall fuel w w', (Z.of_nat n < 2 ^ 64)%Z ->
  (run_main_x fuel e [chars "rust"; chars "convert"; chars "qhm"; type_word t; y] w = (w', false) <->
   exists pl lines, w (type_word t) y = Some pl /\ pl_seq pl = Some lines /\ ~ Forall readable lines /\ w' = write w (type_word t) y (set_qhm pl [])).
Proof. exact @qhm_x_truncates. Qed.
Print Assumptions C94_convert_qhm_all_or_nothing_refuted.
(* nor does create leave nothing behind: without one of the three pairings it makes the directory, and then panics *)
Theorem C94_create_all_or_nothing_refuted : forall (L : Type) fuel (e : Env L) t y n a b c d rs x w, canonical_numeral y n -> (Z.of_nat n < 2 ^ 64)%Z ->
  rowsums_arg a b c d rs -> pairing_arg x None -> pl_dirs (place_of w (type_word t) y) = [] ->
  run_main_x fuel e [chars "rust"; chars "create"; type_word t; y; a; b; c; d; x] w =
    (write w (type_word t) y (set_dirs (place_of w (type_word t) y) [(rowsum_dir rs, [])]), false).
Proof. exact @create_x_leaves. Qed.
Print Assumptions C94_create_all_or_nothing_refuted.
(* the directories that are there keep their files *)
Theorem C94_create_keeps : forall (L : Type) fuel (e : Env L) t y n a b c d rs x w, canonical_numeral y n -> (Z.of_nat n < 2 ^ 64)%Z ->
  rowsums_arg a b c d rs -> pairing_arg x None -> NoDup (map fst (pl_dirs (place_of w (type_word t) y))) -> exists f,
  run_main_x fuel e [chars "rust"; chars "create"; type_word t; y; a; b; c; d; x] w =
    (write w (type_word t) y (set_dirs (place_of w (type_word t) y) f), false) /\ NoDup (map fst f) /\
  forall name files, In (name, files) f <->
    In (name, files) (pl_dirs (place_of w (type_word t) y)) \/
    name = rowsum_dir rs /\ files = [] /\ ~ In name (map fst (pl_dirs (place_of w (type_word t) y))).
Proof. exact @create_x_keeps. Qed.
Print Assumptions C94_create_keeps.
Definition old_dir : World := write no_files (chars "qts") (chars "3") (set_dirs new_place [(chars "rowsum_1_1_1_3", [(chars "seq_W.seq", [chars "++-"])])]).
Example C94_create_instance : NoDup (map fst (pl_dirs (place_of old_dir (type_word QuaternionType) (chars "3")))) /\ pairing_arg (chars "XX") None /\
  option_map pl_dirs (fst (run_main_x 50 env0 (map chars ["rust"; "create"; "qts"; "3"; "1"; "1"; "1"; "3"; "XX"]%string) old_dir) (chars "qts") (chars "3")) =
    Some [(chars "rowsum_1_1_1_3", [(chars "seq_W.seq", [chars "++-"])])].
Proof. split; [repeat constructor; intros []|]. split; [intros []; discriminate|vm_compute; reflexivity]. Qed.
Definition bad_seq : World := write no_files (chars "qts") (chars "3") (set_qhm (set_seq new_place [chars "1+-"; chars "1?-"] []) (chars "old")).
Definition after (r : World * bool) : bool * option (option Lines * option text * list text) :=
  (snd r, option_map (fun pl => (pl_seq pl, pl_qhm pl, map fst (pl_dirs pl))) (fst r (chars "qts") (chars "3"))).
Example C94_instance : env_ok env0 /\ canonical_numeral (chars "3") 3 /\
  after (run_main_x 50 env0 (map chars ["rust"; "convert"; "qhm"; "qts"; "3"]%string) bad_seq) = (false, Some (Some [chars "1+-"; chars "1?-"], Some [], [])) /\
  after (run_main_x 50 env0 (map chars ["rust"; "convert"; "hm"; "qts"; "3"]%string) bad_seq) = (false, Some (Some [chars "1+-"; chars "1?-"], Some (chars "old"), [])) /\
  after (run_main_x 50 env0 (map chars ["rust"; "qhm-all"; "qts"; "3"]%string) bad_seq) = (false, Some (Some [chars "1+-"; chars "1?-"], Some (chars "old"), [])) /\
  after (run_main_x 50 env0 (map chars ["rust"; "join"; "qts"; "3"]%string) bad_seq) = (false, Some (Some [chars "1+-"; chars "1?-"], Some (chars "old"), [])) /\
  after (run_main_x 50 env0 (map chars ["rust"; "create"; "qts"; "3"; "1"; "1"; "1"; "3"; "XX"]%string) bad_seq) =
    (false, Some (Some [chars "1+-"; chars "1?-"], Some (chars "old"), [chars "rowsum_1_1_1_3"])) /\
  after (run_main_x 50 env0 (map chars ["rust"; "join"; "qts"]%string) bad_seq) = (false, Some (Some [chars "1+-"; chars "1?-"], Some (chars "old"), [])).
Proof.
  split; [exact env0_ok|]. split; [exact numeral3|]. repeat split; vm_compute; reflexivity.
Qed.

(* C95: driver.sh when its commands panic *)
(* whatever panics on the way, the tree is the one of the theorems on driver.sh (C72-C77, C80, C84) *)
Theorem C95_driver : forall (L : Type) (e : Env L) n t y c pr h (d : bool) w, 1 <= n <= 31 -> env_ok e -> three_types t -> canonical_numeral y n ->
  old_results_usable (place_of w (type_word t) y) ->
  exists fuel0, forall fuel, fuel0 <= fuel ->
    same_tree (driver_flags fuel e (type_word t) y c pr h d w) (driver_flags_x fuel e (type_word t) y c pr h d w).
Proof. exact @driver_x_same. Qed.
Print Assumptions C95_driver.
(* the other types: directories of row sums without pairs are left, no result file is written ... *)
Theorem C95_other_types : forall (L : Type) (e : Env L) t y n c pr h (d : bool) w, t <> QuaternionType -> t <> WilliamsonType -> t <> Williamson ->
  canonical_numeral y n -> (Z.of_nat n < 2 ^ 64)%Z -> d = true \/ pl_dirs (place_of w (type_word t) y) = [] ->
  pl_seq (place_of w (type_word t) y) = None -> (exists r, feasible n r /\ normal_rowsums t r) ->
  exists fuel0, forall fuel, fuel0 <= fuel -> exists f, f <> [] /\ no_pairs f /\ only w (driver_flags_x fuel e (type_word t) y c pr h d w) (type_word t) y /\
    driver_flags_x fuel e (type_word t) y c pr h d w (type_word t) y = Some (set_dirs (place_of w (type_word t) y) f).
Proof. exact @other_types_x. Qed.
Print Assumptions C95_other_types.
(* ... so that the next run without -d stops at once *)
Theorem C95_stops : forall (L : Type) fuel (e : Env L) x y c pr h w, pl_dirs (place_of w x y) <> [] -> driver_flags_x fuel e x y c pr h false w = w.
Proof. exact @refuses_x. Qed.
Print Assumptions C95_stops.
Example C95_instance : env_ok env0 /\ canonical_numeral (chars "3") 3 /\ three_types WilliamsonType /\
  old_results_usable (place_of no_files (chars "wts") (chars "3")) /\
  old_results_usable (place_of (write no_files (chars "wts") (chars "3") (set_seq new_place [line3] [])) (chars "wts") (chars "3")) /\ line3 <> [] /\
  feasible 3 (1, 1, 1, 3)%Z /\ normal_rowsums ItoType (1, 1, 1, 3)%Z.
Proof.
  split; [exact env0_ok|]. split; [exact numeral3|]. split; [right; now left|]. split; [split; discriminate|]. split.
  - split; [|discriminate]. intros lines E. injection E as <-. constructor; [|constructor]. split; [discriminate|].
    intros ch Hc. cbn in Hc. decompose [or] Hc; try contradiction; subst; cbn; tauto.
  - split; [discriminate|]. split; [vm_compute; repeat split; reflexivity|]. cbn. lia.
Qed.
