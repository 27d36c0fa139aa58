(* Property theorems C79-C81: the files written by each command, the log of driver.sh and the table made
   from it by collect_results.py. *)
From Coq Require Import Ascii String List ZArith Lia Arith Bool Permutation Relations.
From Verif Require Import Base BaseFacts Sums Quat ModelSequence ModelWilliamson ModelEquivalence SpecEquiv EquivFacts EquivThms OpFacts ModelMatrices SpecMatrix SpecPrint QhmFacts
  ModelGraph SpecGraph GraphThms HadEquiv ModelRowsum SpecRowsum ModelMatching ModelWrite WriteFacts FolderFacts ModelMain ModelLog LogFolder LogText MainFacts ArgFacts MainThms DriverMain FilesMain TableThms
  PropSequences PropEquivalence PropMatching PropSearch PropGraph PropMain SpecMain SpecOutputs SpecLog SpecSearch Spec.
Import ListNotations.
Notation length := List.length.
Open Scope nat_scope.

(* C79: the files written by each command *)
Theorem C79_outputs : forall (L : Type) fuel (e : Env L) args c w w' t p, command_line args c -> run_main fuel e args w = Some w' -> target c = Some (t, p) ->
  forall x, ~ In x (outputs c) -> same_file x (place_of w (type_word t) (usize_to_string p)) (place_of w' (type_word t) (usize_to_string p)).
Proof. exact @run_outputs. Qed.
Print Assumptions C79_outputs.
Theorem C79_rowsums_file : forall (L : Type) (e : Env L) n t y pl w, 1 <= n -> (Z.of_nat n < 2 ^ 64)%Z -> canonical_numeral y n -> w (type_word t) y = Some pl ->
  exists fuel0, forall fuel, fuel0 <= fuel -> exists w' pl' rs lines,
    run_main fuel e [chars "rust"; chars "rowsums"; type_word t; y] w = Some w' /\ w' (type_word t) y = Some pl' /\
    pl_quad pl' = Some lines /\ Forall2 rowsum_line rs lines /\ NoDup rs /\ (forall r, In r rs <-> feasible n r /\ normal_rowsums t r).
Proof. exact @run_rowsums. Qed.
Print Assumptions C79_rowsums_file.
(* the directory is not created *)
Theorem C79_rowsums_without_directory : forall (L : Type) fuel (e : Env L) n t y w, (Z.of_nat n < 2 ^ 64)%Z -> canonical_numeral y n -> w (type_word t) y = None ->
  run_main fuel e [chars "rust"; chars "rowsums"; type_word t; y] w = None.
Proof. exact @run_rowsums_panics. Qed.
Print Assumptions C79_rowsums_without_directory.
Theorem C79_qhm_all_file : forall (L : Type) (e : Env L) n t y pl w r lines, 1 <= n <= 100 -> env_ok e -> canonical_numeral y n -> w (type_word t) y = Some pl ->
  pl_seq pl = Some lines -> Forall (fun q => pm_quad n q /\ is_type t q) r -> Forall2 line_of_quad r lines ->
  exists fuel0, forall fuel, fuel0 <= fuel -> exists w' pl' members ds txts,
    run_main fuel e [chars "rust"; chars "qhm-all"; type_word t; y] w = Some w' /\ w' (type_word t) y = Some pl' /\
    NoDup members /\ (forall y, In y members <-> exists x, In x r /\ reach (type_ops t) x y) /\
    Forall2 (normal_qhm n) members ds /\ Forall2 (fun d s => QHM_to_string d = Some s) ds txts /\
    pl_all pl' = Some (stacked (map (fun s => s ++ [newline]) txts)).
Proof. exact @run_qhm_all. Qed.
Print Assumptions C79_qhm_all_file.
Definition one_seq : World := write no_files (chars "wts") (chars "3") (set_seq new_place [line3] []).
Example C79_instance :
  option_map (fun w' => option_map (fun pl => (pl_quad pl, pl_seq pl)) (w' (chars "wts") (chars "3"))) (run_main 50 env0 (map chars ["rust"; "rowsums"; "wts"; "3"]%string) one_seq) =
    Some (Some (Some [chars "1 1 1 3"], Some [line3])) /\
  option_map (fun w' => option_map (fun pl => (option_map line_count (pl_all pl), pl_qhm pl)) (w' (chars "wts") (chars "3"))) (run_main 50 env0 (map chars ["rust"; "qhm-all"; "wts"; "3"]%string) one_seq) =
    Some (Some (Some 960, None)) /\
  rowsum_line (1, 1, 1, 3)%Z (chars "1 1 1 3") /\ feasible 3 (1, 1, 1, 3)%Z /\ normal_rowsums WilliamsonType (1, 1, 1, 3)%Z /\
  run_main 50 env0 (map chars ["rust"; "rowsums"; "wts"; "3"]%string) no_files = None.
Proof.
  split; [|split; [|split; [|split; [|split]]]].
  - vm_compute. reflexivity.
  - vm_compute. reflexivity.
  - exact (quad_line (1, 1, 1, 3)%Z).
  - vm_compute. repeat split; reflexivity.
  - unfold normal_rowsums. split; [lia|]. split; [cbn; lia|lia].
  - reflexivity.
Qed.

(* C80: the table *)
Theorem C80_table_qts : forall (L : Type) ck (e : Env L) n y, clock_ok ck -> 1 <= n <= 31 -> env_ok e -> canonical_numeral y n ->
  forall c pr h (d : bool) w log, d = true \/ pl_dirs (place_of w (chars "qts") y) = [] -> (exists q, pm_quad n q /\ is_QT q) ->
  exists fuel0, forall fuel, fuel0 <= fuel -> exists w' pl lg r equ,
    driver_flags_log ck fuel e (chars "qts") y c pr h d w log = (w', Some lg) /\ w' = driver_flags fuel e (chars "qts") y c pr h d w /\ w' (chars "qts") y = Some pl /\
    one_per_class n QuaternionType r /\ one_matrix_per_class n QuaternionType equ /\
    row_qts (collect pl lg) = Z.of_nat (length r) /\ row_wts (collect pl lg) = (-1)%Z /\
    row_mat (collect pl lg) = (if h then Z.of_nat (length equ) else matrix_count (pl_mat (place_of w (chars "qts") y))) /\
    row_pairs (collect pl lg) = Z.of_nat (countpairs (pl_dirs pl)) /\
    row_runtimes (collect pl lg) = [seconds (tm_pairs ck); seconds (tm_sort ck); seconds (tm_match ck)] /\
    row_qt_time (collect pl lg) = Some (seconds (tm_reduce ck)) /\ row_hm_time (collect pl lg) = (if h then Some (seconds (tm_hm ck)) else None).
Proof. exact @table_QT. Qed.
Print Assumptions C80_table_qts.
Theorem C80_table_wts : forall (L : Type) ck (e : Env L) n y, clock_ok ck -> 1 <= n <= 31 -> env_ok e -> canonical_numeral y n ->
  forall c pr h (d : bool) w log, d = true \/ pl_dirs (place_of w (chars "wts") y) = [] -> (exists q, pm_quad n q /\ is_WT q) ->
  exists fuel0, forall fuel, fuel0 <= fuel -> exists w' pl lg r r' equ,
    driver_flags_log ck fuel e (chars "wts") y c pr h d w log = (w', Some lg) /\ w' = driver_flags fuel e (chars "wts") y c pr h d w /\ w' (chars "wts") y = Some pl /\
    one_per_class n WilliamsonType r /\ one_per_class n QuaternionType r' /\ one_matrix_per_class n WilliamsonType equ /\
    row_wts (collect pl lg) = Z.of_nat (length r) /\ row_qts (collect pl lg) = Z.of_nat (length r') /\
    row_mat (collect pl lg) = (if h then Z.of_nat (length equ) else matrix_count (pl_mat (place_of w (chars "wts") y))) /\
    row_pairs (collect pl lg) = Z.of_nat (countpairs (pl_dirs pl)) /\
    row_runtimes (collect pl lg) = [seconds (tm_pairs ck); seconds (tm_sort ck); seconds (tm_match ck)] /\
    (* the column "QT Equ Time": the time of the reduction up to WT equivalence, see the refutation below *)
    row_qt_time (collect pl lg) = Some (seconds (tm_reduce ck)) /\ row_hm_time (collect pl lg) = (if h then Some (seconds (tm_hm ck)) else None).
Proof. exact @table_WT. Qed.
Print Assumptions C80_table_wts.
(* for wts the column "QT Equ Time" does not show the time of the reduction up to QT equivalence *)
Theorem C80_qt_time_wts_refuted : forall (L : Type) ck (e : Env L) n y, clock_ok ck -> seconds (tm_reduce ck) <> seconds (tm_qts ck) -> 1 <= n <= 31 -> env_ok e -> canonical_numeral y n ->
  forall c pr h (d : bool) w log, d = true \/ pl_dirs (place_of w (chars "wts") y) = [] -> (exists q, pm_quad n q /\ is_WT q) ->
  exists fuel0, forall fuel, fuel0 <= fuel -> exists w' pl lg,
    driver_flags_log ck fuel e (chars "wts") y c pr h d w log = (w', Some lg) /\ w' (chars "wts") y = Some pl /\
    row_qt_time (collect pl lg) <> Some (seconds (tm_qts ck)).
Proof. exact @table_WT_time. Qed.
Print Assumptions C80_qt_time_wts_refuted.
(* for ws both counts are missing from the table *)
Theorem C80_table_ws_refuted : forall (L : Type) ck (e : Env L) n y, clock_ok ck -> 1 <= n <= 31 -> env_ok e -> canonical_numeral y n ->
  forall c pr h (d : bool) w log, d = true \/ pl_dirs (place_of w (chars "ws") y) = [] -> (exists q, pm_quad n q /\ is_W q) ->
  exists fuel0, forall fuel, fuel0 <= fuel -> exists w' pl lg,
    driver_flags_log ck fuel e (chars "ws") y c pr h d w log = (w', Some lg) /\ w' = driver_flags fuel e (chars "ws") y c pr h d w /\ w' (chars "ws") y = Some pl /\
    row_wts (collect pl lg) = (-1)%Z /\ row_qts (collect pl lg) = (-1)%Z /\ row_pairs (collect pl lg) = Z.of_nat (countpairs (pl_dirs pl)).
Proof. exact @table_W. Qed.
Print Assumptions C80_table_ws_refuted.
Definition ck0 : Clock := mkClock (fun _ => 2%Z) (fun _ => 3%Z) 4 2 0 125 7 1 0 1099 (fun _ _ => Some (chars "0.0000001")) (fun _ _ => None).
Example C80_instance : clock_ok ck0 /\ seconds (tm_reduce ck0) = chars "1.25" /\ seconds (tm_reduce ck0) <> seconds (tm_qts ck0) /\
  env_ok env0 /\ canonical_numeral (chars "3") 3 /\ pl_dirs (place_of no_files (chars "wts") (chars "3")) = [] /\ pm_quad 3 w3 /\ is_QT w3 /\ is_WT w3 /\ is_W w3 /\
  collect new_place (map chars ["Generated 6 total pairs"; "Matching took: 0.02 seconds."; "Found 3 wts after matching"; "Found 2 wts after reducing to equivalence"; "Reducing to equivalence took 0.05 seconds.";
     "Found 1 qts after reducing to equivalence"; "Reducing to equivalence took 0.07 seconds."]%string) = mkRow 1 2 (-1) 6 [chars "0.02"] (Some (chars "0.05")) None.
Proof.
  destruct C72_instance as (_ & N & D & P & A & B & C & _). split; [|split; [vm_compute; reflexivity|split; [vm_compute; discriminate|split; [exact env0_ok|]]]].
  - unfold clock_ok. do 10 (split; [cbn; intros; lia|]). cbn. intros rs tags s [E|E]; [|discriminate]. injection E as <-. split; [discriminate|]. repeat (constructor; [vm_compute; tauto|]). constructor.
  - do 6 (split; [auto; reflexivity|]). vm_compute. reflexivity.
Qed.
(* the column of matrices counts the lines of result.mat, also a last one without a line break *)
Theorem C80_matrix_lines : forall pl lg ls last, Forall (fun l => ~ In newline l) ls -> ~ In newline last -> last <> [] ->
  (pl_mat pl = None -> row_mat (collect pl lg) = (-1)%Z) /\
  (pl_mat pl = Some (stacked ls) -> row_mat (collect pl lg) = Z.of_nat (length ls)) /\
  (pl_mat pl = Some (stacked ls ++ last) -> row_mat (collect pl lg) = Z.of_nat (length ls + 1)).
Proof. exact table_matrices. Qed.
Print Assumptions C80_matrix_lines.
Example C80_lines_instance : Forall (fun l => ~ In newline l) [chars "[1,-1]"; chars ""] /\ ~ In newline (chars "[1") /\
  stacked [chars "a"; chars ""] ++ chars "b" = [ "a"; newline; newline; "b" ]%char.
Proof. split; [repeat constructor; cbn; intuition discriminate|]. split; [cbn; intuition discriminate|reflexivity]. Qed.

(* C81: the total printed by the command pairs, shown in the table, is what countpairs.sh counts *)
Theorem C81_pairs_total : forall fuel n t m p f c, 1 <= n -> (Z.of_nat n < 2 ^ 62)%Z -> searchable t -> write_pairs fuel n t m p [] = Some (f, c) ->
  c = Z.of_nat (countpairs (sortpairs f)).
Proof. exact (fun fuel n t m p f c H1 H2 H3 H4 => proj2 (folder_shape fuel n t m p f c H1 H2 H3 H4)). Qed.
Print Assumptions C81_pairs_total.
(* such a run exists for every length up to 31 with a solution *)
Example C81_instance : searchable WilliamsonType /\ exists fuel f c, write_pairs fuel 3 WilliamsonType CORRELATION None [] = Some (f, c).
Proof.
  split; [right; now left|]. destruct C72_instance as (He & _ & _ & P & _ & B & _). destruct He as (Ho & Hl & _).
  destruct (SearchThms.search_classes 3 WilliamsonType CORRELATION None ls_rev ord_mix ltac:(lia) (or_intror eq_refl) Hl Ho) as (f0 & H).
  { exists w3. split; [exact P|]. vm_compute. reflexivity. }
  destruct (H f0 [] (le_n _)) as (f & c & r & E & _). exists f0, f, c. exact E.
Qed.
