(* Property theorem C114: the text of result.log. *)
From Coq Require Import Ascii String List ZArith Lia Arith Bool Permutation.
From Verif Require Import Base ModelSequence ModelWilliamson ModelEquivalence ModelMatrices ModelGraph ModelRowsum SpecRowsum ModelMatching ModelWrite ModelMain ModelLog SpecPrint SolverFacts Published
  PropSequences PropEquivalence PropMatching PropMain PropAgree PrintedFacts ResultLog SpecSearch SpecMain SpecLog SpecFiles SpecSolver SpecSplit SpecMixed SpecPrinted SpecResultLog Spec.
Import ListNotations.
Notation length := List.length.
Open Scope nat_scope.

(* every character of the file, when no command fails *)
Theorem C114_result_log : forall (L : Type) ck (e : Env L) n t y m r pr w, clock_ok ck -> 1 <= n -> (Z.of_nat n < 2 ^ 62)%Z -> three_types t -> canonical_numeral y n -> pairing_arg r pr ->
  pl_dirs (place_of w (type_word t) y) = [] ->
  exists fuel0, forall fuel (h : bool) log, fuel0 <= fuel -> exists w1, run_main fuel e [chars "rust"; chars "pairs"; type_word t; y; match_word m; r] (made (type_word t) y w) = Some w1 /\
    forall w3 w4 w5, run_main fuel e [chars "rust"; chars "join"; type_word t; y] (sort_place (type_word t) y w1) = Some w3 ->
      (if h then run_main fuel e [chars "rust"; chars "convert"; chars "hm"; type_word t; y] w3 = Some w4 else w4 = w3) ->
      run_main fuel e [chars "rust"; chars "convert"; chars "qhm"; type_word t; y] w4 = Some w5 ->
      exists lines, driver_log ck fuel e (type_word t) y (match_word m) r h w log = (w5, Some lines) /\
        result_log ck (e_ls e) n t y (match pr with Some p => p | None => WZ end) h (pl_dirs (place_of w1 (type_word t) y)) (place_of w3 (type_word t) y) (place_of w5 (type_word t) y) (stacked lines).
Proof. exact @log_printed. Qed.
Print Assumptions C114_result_log.
(* up to length 31 pairs, join and convert qhm do not fail *)
Theorem C114_complete : forall (L : Type) ck (e : Env L) n t y m r pr w, clock_ok ck -> env_ok e -> 1 <= n <= 31 -> three_types t -> (exists q, pm_quad n q /\ is_type t q) -> canonical_numeral y n -> pairing_arg r pr ->
  pl_dirs (place_of w (type_word t) y) = [] ->
  exists fuel0, forall fuel (h : bool) log, fuel0 <= fuel -> exists w1 w3, run_main fuel e [chars "rust"; chars "pairs"; type_word t; y; match_word m; r] (made (type_word t) y w) = Some w1 /\
    run_main fuel e [chars "rust"; chars "join"; type_word t; y] (sort_place (type_word t) y w1) = Some w3 /\
    forall w4, (if h then run_main fuel e [chars "rust"; chars "convert"; chars "hm"; type_word t; y] w3 = Some w4 else w4 = w3) ->
      exists w5 lines, run_main fuel e [chars "rust"; chars "convert"; chars "qhm"; type_word t; y] w4 = Some w5 /\
        driver_log ck fuel e (type_word t) y (match_word m) r h w log = (w5, Some lines) /\
        result_log ck (e_ls e) n t y (match pr with Some p => p | None => WZ end) h (pl_dirs (place_of w1 (type_word t) y)) (place_of w3 (type_word t) y) (place_of w5 (type_word t) y) (stacked lines).
Proof. exact @log_complete. Qed.
Print Assumptions C114_complete.
(* lines of the published runs of lengths 7 and 18 *)
Example C114_instance : clock_ok ck_3 /\ env_ok env0 /\ three_types WilliamsonType /\ (exists q, pm_quad 3 q /\ is_type QuaternionType q) /\ canonical_numeral (chars "3") 3 /\ pairing_arg (chars "WZ") (Some WZ) /\
  pl_dirs (place_of no_files (chars "wts") (chars "3")) = [] /\
  sorting_lines ck_3 (chars "wts") (chars "7") WZ [(chars "rowsum_1_1_1_5", []); (chars "rowsum_1_3_3_3", [])]
    (map chars ["Sorting file results/pairs/wts/find_7/rowsum_1_1_1_5/pair_WZ.pair ..."; "Sorting file results/pairs/wts/find_7/rowsum_1_1_1_5/pair_XY.pair ...";
                "Sorting file results/pairs/wts/find_7/rowsum_1_3_3_3/pair_WZ.pair ..."; "Sorting file results/pairs/wts/find_7/rowsum_1_3_3_3/pair_XY.pair ..."; "Total time to sort: 0.02 seconds."; ""]%string) /\
  hadamard_lines ck_3 WilliamsonType (chars "18") (set_mat new_place (stacked (repeat (chars "M") 82)))
    (map chars ["Converting sequences found in results/pairs/wts/find_18/result-qts.seq to Hadamard matrices up to Hadamard equivalence ..."; "Reducing matrices to equivalence via graph isomorphism...";
                "Number of matrices up to equivalence : 82"; "Converting to matrices up to Hadamard equivalence took 0.01 seconds"; "82 matrices were found after converting up to Hadamard equivalence."]%string).
Proof.
  destruct C97_instance as (Hy & He & _ & _ & _ & Q & _).
  split; [unfold clock_ok; do 10 (split; [cbn; intros; lia|]); cbn; intros rs tags s [E|E]; discriminate|]. split; [exact He|]. split; [right; now left|]. split; [exact Q|]. split; [exact Hy|]. split; [reflexivity|].
  split; [reflexivity|]. split.
  - exists (TW, TZ), (TX, TY), (chars "0.02"), [chars "rowsum_1_1_1_5"; chars "rowsum_1_3_3_3"]. split; [reflexivity|]. split; [exact (seconds_time 2 ltac:(lia))|]. split; [apply Permutation_refl|reflexivity].
  - exists (repeat (chars "M") 82), (chars "82"), (chars "0.01"). split; [reflexivity|]. split; [|split; [exact (usize_canonical 82)|split; [exact (seconds_time 1 ltac:(lia))|reflexivity]]].
    apply Forall_forall. intros m Hm. apply repeat_spec in Hm. subst m. intros [E|[]]. discriminate.
Qed.
