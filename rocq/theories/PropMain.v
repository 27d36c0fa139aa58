(* Property theorems C71-C78: matrices of equivalent quadruples, the command line, and driver.sh as a whole. *)
From Coq Require Import Ascii String List ZArith Lia Arith Bool Permutation Relations.
From Verif Require Import Base BaseFacts Sums Quat ModelSequence ModelWilliamson ModelEquivalence SpecEquiv EquivFacts EquivThms OpFacts ModelMatrices SpecMatrix SpecPrint QhmFacts
  ModelGraph SpecGraph GraphThms HadEquiv ModelRowsum ModelMatching ModelWrite ModelMain RepSymm MainFacts ArgFacts MainThms DriverMain
  PropSequences PropEquivalence PropMatching PropSearch PropGraph SpecMain SpecSearch Spec.
Import ListNotations.
Notation length := List.length.
Open Scope nat_scope.

(* C71: equivalent quadruples give equivalent matrices *)
Theorem C71_quaternion_type : forall n q q', 1 <= n -> pm_quad n q -> reach (type_ops QuaternionType) q q' ->
  exists h h', HM_from_williamson q QuaternionType = Some h /\ HM_from_williamson q' QuaternionType = Some h' /\
    hm_size h = 4 * n /\ hm_size h' = 4 * n /\ hadamard_equivalent (4 * n) (hm_matrix h) (hm_matrix h').
Proof. exact qt_reach_hadamard. Qed.
Print Assumptions C71_quaternion_type.
(* for Williamson-type equivalence: the matrix or its transpose *)
Theorem C71_williamson_type_odd : forall n q q', Nat.even n = false -> pm_quad n q -> reach (type_ops WilliamsonType) q q' ->
  exists h h', HM_from_williamson q QuaternionType = Some h /\ HM_from_williamson q' QuaternionType = Some h' /\
    hm_size h = 4 * n /\ hm_size h' = 4 * n /\
    (hadamard_equivalent (4 * n) (hm_matrix h) (hm_matrix h') \/
     exists m, transposed (4 * n) (hm_matrix h) m /\ hadamard_equivalent (4 * n) m (hm_matrix h')).
Proof. exact odd_wt_reach_hadamard. Qed.
Print Assumptions C71_williamson_type_odd.
Theorem C71_without_half_shifts : forall n q q', 1 <= n -> pm_quad n q ->
  reach [Negate; UniformShift; Reorder; EvenAlternatedNegation; Automorphism] q q' ->
  exists h h', HM_from_williamson q QuaternionType = Some h /\ HM_from_williamson q' QuaternionType = Some h' /\
    hm_size h = 4 * n /\ hm_size h' = 4 * n /\
    (hadamard_equivalent (4 * n) (hm_matrix h) (hm_matrix h') \/
     exists m, transposed (4 * n) (hm_matrix h) m /\ hadamard_equivalent (4 * n) m (hm_matrix h')).
Proof. exact whole_reach_hadamard. Qed.
Print Assumptions C71_without_half_shifts.
(* a sequence negated and two exchanged *)
Definition w3s : QuadSeq := (mkQuad 3 [-1;1;1] [1;1;1] [-1;1;1] [-1;1;1])%Z.
Definition w3n : QuadSeq := (mkQuad 3 [1;1;1] [-1;1;1] [-1;1;1] [-1;1;1])%Z.
Example C71_instance : pm_quad 3 w3 /\ w3s <> w3 /\ reach (type_ops QuaternionType) w3 w3s /\
  reach (type_ops WilliamsonType) w3 w3n /\ reach [Negate; UniformShift; Reorder; EvenAlternatedNegation; Automorphism] w3 w3n /\
  option_map hm_matrix (HM_from_williamson w3 QuaternionType) <> option_map hm_matrix (HM_from_williamson w3s QuaternionType).
Proof.
  split; [exact w3_pm|]. split; [discriminate|]. split; [|split; [|split]].
  - apply rt_step. exists NegateSwap. split; [cbn; tauto|]. right. exists [At TW Neg; Ex TW TX]. split; [|reflexivity]. vm_compute. tauto.
  - apply rt_step. exists Negate. split; [cbn; tauto|]. right. exists [At TW Neg]. split; [|reflexivity]. vm_compute. tauto.
  - apply rt_step. exists Negate. split; [cbn; tauto|]. right. exists [At TW Neg]. split; [|reflexivity]. vm_compute. tauto.
  - vm_compute. discriminate.
Qed.

(* C72: driver.sh; c, pr, h, d are the flags -c, -p, -h, -d *)
Theorem C72_driver_qts : forall (L : Type) (e : Env L) n y c pr h d w, 1 <= n <= 31 -> env_ok e -> canonical_numeral y n ->
  d = true \/ pl_dirs (place_of w (chars "qts") y) = [] -> (exists q, pm_quad n q /\ is_QT q) ->
  exists fuel0, forall fuel, fuel0 <= fuel -> exists w' pl r equ,
    driver_flags fuel e (chars "qts") y c pr h d w = w' /\ only w w' (chars "qts") y /\ w' (chars "qts") y = Some pl /\
    one_per_class n QuaternionType r /\ lists_quads (pl_seq pl) (pl_qseq pl) r /\
    one_matrix_per_class n QuaternionType equ /\ (if h then lists_matrices (pl_mat pl) equ else pl_mat pl = pl_mat (place_of w (chars "qts") y)) /\
    lists_qhms n (pl_qhm pl) r.
Proof. exact @flags_QT. Qed.
Print Assumptions C72_driver_qts.
Theorem C72_driver_wts : forall (L : Type) (e : Env L) n y c pr h d w, 1 <= n <= 31 -> env_ok e -> canonical_numeral y n ->
  d = true \/ pl_dirs (place_of w (chars "wts") y) = [] -> (exists q, pm_quad n q /\ is_WT q) ->
  exists fuel0, forall fuel, fuel0 <= fuel -> exists w' pl r r' equ,
    driver_flags fuel e (chars "wts") y c pr h d w = w' /\ only w w' (chars "wts") y /\ w' (chars "wts") y = Some pl /\
    one_per_class n WilliamsonType r /\ lists_quads (pl_seq pl) (pl_qseq pl) r /\
    one_per_class n QuaternionType r' /\ lists_quads (pl_qts pl) (pl_qts_q pl) r' /\
    one_matrix_per_class n WilliamsonType equ /\ (if h then lists_matrices (pl_mat pl) equ else pl_mat pl = pl_mat (place_of w (chars "wts") y)) /\
    lists_qhms n (pl_qhm pl) r.
Proof. exact @flags_WT. Qed.
Print Assumptions C72_driver_wts.
(* the number that driver.sh prints, the number of lines of result.mat, is the number of matrices *)
Theorem C72_matrix_count : forall s equ, lists_matrices (Some s) equ -> line_count s = length equ.
Proof. intros s equ H. injection H as ->. exact (matrices_lines equ). Qed.
Print Assumptions C72_matrix_count.
Theorem C72_existing_pairs_kept : forall (L : Type) fuel (e : Env L) x y c pr h w,
  pl_dirs (place_of w x y) <> [] -> driver_flags fuel e x y c pr h false w = w.
Proof. exact @flags_refuses. Qed.
Print Assumptions C72_existing_pairs_kept.
Definition env0 : Env Graph := mkEnv Graph ord_mix [] ls_rev (fun g => g) iso_b (fun l => rev l).
Definition no_files : World := fun _ _ => None.
Lemma numeral3 : canonical_numeral (chars "3") 3.
Proof. split; [exact (decimal_digit 3 ltac:(lia))|]. right. intros r. discriminate. Qed.
Lemma env0_ok : env_ok env0.
Proof. split; [exact ord_mix_ok|]. split; [exact ls_rev_ok|]. split; [exact C41_canonical_exists|]. intros l. apply Permutation_sym, Permutation_rev. Qed.
Example C72_instance : env_ok env0 /\ canonical_numeral (chars "3") 3 /\ pl_dirs (place_of no_files (chars "qts") (chars "3")) = [] /\
  pm_quad 3 w3 /\ is_QT w3 /\ is_WT w3 /\ is_W w3 /\
  pl_dirs (place_of (write no_files (chars "qts") (chars "3") (set_dirs new_place [(chars "rowsum_1_1_1_3", [])])) (chars "qts") (chars "3")) <> [].
Proof.
  destruct C65_instance as (_ & _ & P & A & B & C). split; [exact env0_ok|]. split; [exact numeral3|]. split; [reflexivity|].
  split; [exact P|]. split; [exact A|]. split; [exact B|]. split; [exact C|discriminate].
Qed.

(* C73: the command line; in particular every other command line panics *)
Theorem C73_command_line : forall args c, parse_args args = Some c <-> command_line args c.
Proof. exact parse_args_iff. Qed.
Print Assumptions C73_command_line.
Example C73_instance :
  command_line (map chars ["rust"; "pairs_rowsum"; "wts"; "+5"; "-1"; "1"; "3"; "03"; "psd"; "XW"]%string) (PairsRowsum WilliamsonType 5 (-1, 1, 3, 3)%Z PSD None) /\
  parse_args (map chars ["rust"; "pairs"; "wts"; "-5"; "psd"; "WZ"]%string) = None /\
  parse_args (map chars ["rust"; "frobnicate"; "5"]%string) = Some Unrecognized.
Proof. split; [apply C73_command_line; vm_compute; reflexivity|]. split; vm_compute; reflexivity. Qed.

(* C74: convert qhm *)
Theorem C74_convert_qhm : forall n quads lines, 1 <= n -> Forall (fun q => pm_quad n q /\ is_QT q) quads -> Forall2 line_of_quad quads lines ->
  exists ds txts flags, Forall2 (normal_qhm n) quads ds /\ Forall2 (fun d s => QHM_to_string d = Some s) ds txts /\
    Forall2 (fun d b => b = true <-> non_commuting n (qhm_matrix d)) ds flags /\
    convert_qs_to_matrices lines = Some (length quads, count_occ bool_dec flags true, stacked txts).
Proof. exact convert_spec. Qed.
Print Assumptions C74_convert_qhm.

(* C75: qhm-all *)
Theorem C75_qhm_all : forall n ord t r lines, 1 <= n <= 100 -> ord_ok ord ->
  Forall (fun q => pm_quad n q /\ is_type t q) r -> Forall2 line_of_quad r lines ->
  exists fuel0, forall fuel p, fuel0 <= fuel -> exists members ds txts,
    NoDup members /\ (forall y, In y members <-> exists x, In x r /\ reach (type_ops t) x y) /\
    Forall2 (normal_qhm n) members ds /\ Forall2 (fun d s => QHM_to_string d = Some s) ds txts /\
    qhm_write_all fuel ord p t lines = Some (stacked (map (fun s => s ++ [newline]) txts)).
Proof. exact qhm_all_spec. Qed.
Print Assumptions C75_qhm_all.

(* C76: amicable *)
Theorem C76_amicable : forall n r lines, 1 <= n -> Forall (pm_quad n) r -> Forall2 line_of_quad r lines ->
  (verify_qts_eq_wts lines = Some tt <-> Forall is_QT r).
Proof. exact amicable_spec. Qed.
Print Assumptions C76_amicable.
Definition line3 : list ascii := match to_qs w3 with Some v => match QS_to_string_raw v with Some l => l | None => [] end | None => [] end.
Example C74_C75_C76_instance : pm_quad 3 w3 /\ is_QT w3 /\ line_of_quad w3 line3 /\
  option_map fst (convert_qs_to_matrices [line3; line3]) = Some (2, 0) /\ verify_qts_eq_wts [line3; line3] = Some tt /\
  option_map line_count (qhm_write_all 10 ord_mix [] QuaternionType [line3]) = Some 960.
Proof.
  split; [exact w3_pm|]. split; [apply C65_instance|]. split; [|split; [|split]]; [|vm_compute; reflexivity..].
  unfold line_of_quad, line3. destruct (to_qs w3) as [v|] eqn:E; [|discriminate]. exists v. split; auto.
  assert (K : (let* v := to_qs w3 in match QS_to_string_raw v with Some _ => Some true | None => None end) = Some true) by (vm_compute; reflexivity).
  rewrite E in K. cbn [bind] in K. destruct (QS_to_string_raw v); [reflexivity|discriminate].
Qed.

(* C77: the list of representatives for ws holds no Williamson sequence from length 3 on, and the
   conversion to Hadamard matrices fails *)
Theorem C77_representative_never_williamson : forall n q, 3 <= n -> pm_quad n q -> complementary q ->
  (forall y, reach (type_ops WilliamsonType) q y -> quad_le q y) -> ~ is_W q.
Proof. exact least_not_symmetric. Qed.
Print Assumptions C77_representative_never_williamson.
Theorem C77_convert_hm_panics : forall (L : Type) (canon : Graph -> L) same ord n r lines t, 1 <= n -> Forall (pm_quad n) r -> Forall2 line_of_quad r lines ->
  (exists q, In q r /\ ~ is_type t q) -> hadamard_equivalence_from_file canon same ord lines t = None.
Proof. exact @from_file_rejects. Qed.
Print Assumptions C77_convert_hm_panics.
Theorem C77_driver_ws : forall (L : Type) (e : Env L) n y c pr h d w, 1 <= n <= 31 -> env_ok e -> canonical_numeral y n ->
  d = true \/ pl_dirs (place_of w (chars "ws") y) = [] -> (exists q, pm_quad n q /\ is_W q) ->
  exists fuel0, forall fuel, fuel0 <= fuel -> exists w' pl r,
    driver_flags fuel e (chars "ws") y c pr h d w = w' /\ only w w' (chars "ws") y /\ w' (chars "ws") y = Some pl /\
    one_per_class_W n r /\ lists_quads (pl_seq pl) (pl_qseq pl) r /\ lists_qhms n (pl_qhm pl) r /\
    (3 <= n -> (forall x, In x r -> ~ is_W x) /\ pl_mat pl = pl_mat (place_of w (chars "ws") y)).
Proof. exact @flags_W. Qed.
Print Assumptions C77_driver_ws.
(* the least member of the class of w3 *)
Definition r3 : QuadSeq := (mkQuad 3 [-1;-1;-1] [-1;-1;1] [-1;-1;1] [-1;-1;1])%Z.
Example C77_instance : pm_quad 3 r3 /\ is_WT r3 /\ ~ is_W r3 /\
  option_map (fun c => existsb (fun y => match will_less_than y r3 with Some b => b | None => true end) c)
    (generate_equivalence_class 10 ord_id [] r3 (equivalences WilliamsonType)) = Some false.
Proof.
  assert (P : pm_quad 3 r3) by pm_tac. split; [exact P|]. split; [|split].
  - apply (verify_true 3 r3 WilliamsonType); auto.
  - intros H. apply (verify_true 3 r3 Williamson) in H; auto. vm_compute in H. discriminate.
  - vm_compute. reflexivity.
Qed.

(* C78: every command works on its own directory only *)
Theorem C78_one_directory : forall (L : Type) fuel (e : Env L) args c w w', command_line args c -> run_main fuel e args w = Some w' ->
  match target c with
  | None => w' = w
  | Some (t, p) => only w w' (type_word t) (usize_to_string p)
  end.
Proof. exact @run_target. Qed.
Print Assumptions C78_one_directory.
(* a length with a leading zero: the program works on another directory than the scripts, and no
   result appears where driver.sh looks for it *)
Theorem C78_leading_zero_refuted : forall (L : Type) fuel (e : Env L) x y ch s c pr h d w, y = "0"%char :: ch :: s ->
  d = true \/ pl_dirs (place_of w x y) = [] ->
  driver_flags fuel e x y c pr h d w x y = Some (set_dirs (place_of w x y) []).
Proof. exact @leading_zero. Qed.
Print Assumptions C78_leading_zero_refuted.
(* the types its, et1, et2 and et3: accepted on the command line, but no result file is written *)
Theorem C78_other_types : forall (L : Type) fuel (e : Env L) t y n c pr h d w, t <> QuaternionType -> t <> WilliamsonType -> t <> Williamson ->
  canonical_numeral y n -> (Z.of_nat n < 2 ^ 64)%Z -> d = true \/ pl_dirs (place_of w (type_word t) y) = [] ->
  pl_seq (place_of w (type_word t) y) = None ->
  exists f, driver_flags fuel e (type_word t) y c pr h d w (type_word t) y = Some (set_dirs (place_of w (type_word t) y) f).
Proof. exact @other_types. Qed.
Print Assumptions C78_other_types.
Example C78_instance : command_line (map chars ["rust"; "rowsums"; "wts"; "3"]%string) (Rowsums WilliamsonType 3) /\
  (exists w', run_main 10 env0 (map chars ["rust"; "create"; "wts"; "03"; "1"; "1"; "1"; "3"; "WZ"]%string) no_files = Some w' /\
     option_map (fun pl => map fst (pl_dirs pl)) (w' (chars "wts") (chars "3")) = Some [chars "rowsum_1_1_1_3"] /\ w' (chars "wts") (chars "03") = None) /\
  pl_dirs (place_of no_files (chars "its") (chars "3")) = [].
Proof.
  split; [apply parse_args_iff; vm_compute; reflexivity|]. split; [|reflexivity].
  eexists. split; [reflexivity|]. split; vm_compute; reflexivity.
Qed.
