(* Independent specification of the file result.log of a run of driver.sh. *)
From Coq Require Import Ascii String List ZArith Bool Arith Permutation.
From Verif Require Import Base ModelSequence ModelWilliamson ModelMatrices ModelRowsum ModelMatching ModelWrite ModelMain ModelLog SpecSearch SpecMain SpecPrint SpecFiles SpecSolver SpecSplit SpecMixed SpecPrinted Spec.
Import ListNotations.
Notation length := List.length.
Open Scope nat_scope.

(* the tree with the directory of type x and length y *)
Definition made (x y : list ascii) (w : World) : World := match w x y with Some _ => w | None => write w x y new_place end.
(* results/pairs/qts/find_7 *)
Definition place_path (x y : list ascii) : list ascii := chars "results/pairs/" ++ x ++ chars "/find_" ++ y.

(* sortpairs.sh: the two files of every directory *)
Definition sorting_lines (ck : Clock) (x y : list ascii) (pr : RowsumPairing) (f : Folder) (lines : list (list ascii)) : Prop :=
  exists p1 p2 tm g, pairs_of pr Both = [p1; p2] /\ time_text (tm_sort ck) tm /\ Permutation g (map fst f) /\
    lines = concat (map (fun dir => map (fun p => chars "Sorting file " ++ place_path x y ++ chars "/" ++ dir ++ chars "/" ++ pair_name p ++ chars " ...") [p1; p2]) g) ++
            [chars "Total time to sort: " ++ tm ++ chars " seconds."; []].
(* the conversion to Hadamard matrices: k is the number of matrices in the file, one per line *)
Definition hadamard_lines (ck : Clock) (t : SequenceType) (y : list ascii) (pl : Place) (lines : list (list ascii)) : Prop :=
  exists ms ks tm, pl_mat pl = Some (stacked ms) /\ Forall (fun m => ~ In newline m) ms /\ canonical_numeral ks (length ms) /\ time_text (tm_hm ck) tm /\
    lines = [chars "Converting sequences found in " ++ place_path (type_word t) y ++ (match t with WilliamsonType => chars "/result-qts.seq" | _ => chars "/result.seq" end)
               ++ chars " to Hadamard matrices up to Hadamard equivalence ...";
             chars "Reducing matrices to equivalence via graph isomorphism...";
             chars "Number of matrices up to equivalence : " ++ ks;
             chars "Converting to matrices up to Hadamard equivalence took " ++ tm ++ chars " seconds";
             ks ++ chars " matrices were found after converting up to Hadamard equivalence."].
(* the conversion to quaternionic Hadamard matrices, and the end of the file: c is the number of matrices
   with entries that do not commute *)
Definition last_lines (ck : Clock) (n : nat) (x y : list ascii) (pl : Place) (lines : list (list ascii)) : Prop :=
  exists seq c ks cs t1 t2, pl_seq pl = Some seq /\ canonical_numeral ks (length seq) /\ canonical_numeral cs c /\ c <= length seq /\
    (forall quads, Forall (fun q => pm_quad n q /\ is_QT q) quads -> Forall2 line_of_quad quads seq ->
       exists ds flags, Forall2 (normal_qhm n) quads ds /\ Forall2 (fun d b => b = true <-> non_commuting n (qhm_matrix d)) ds flags /\ c = count_occ bool_dec flags true) /\
    time_text (tm_qhm ck) t1 /\ time_text (tm_all ck) t2 /\
    lines = [chars "Converting PQS to QHM ..."; chars "./" ++ place_path x y ++ chars "/result.seq";
             chars "converted " ++ ks ++ chars " sequences of size " ++ y ++ chars ". " ++ cs ++ chars " contained non-commuting elements.";
             chars "Converting to PQS to QHM took " ++ t1 ++ chars " seconds"; [];
             chars "Total execution time was " ++ t2 ++ chars " seconds."].
(* the file: f is the folder after the command pairs, pl the place after join, pl' the place at the end *)
Definition result_log (ck : Clock) (ls : Listing) (n : nat) (t : SequenceType) (y : list ascii) (pr : RowsumPairing) (h : bool) (f : Folder) (pl pl' : Place) (text : list ascii) : Prop :=
  exists l1 l2 j l4 l5, pairs_lines ck n t pr f l1 /\ sorting_lines ck (type_word t) y pr f l2 /\ join_text ck ls n t (sortpairs f) pl j /\
    (if h then hadamard_lines ck t y pl' l4 else l4 = []) /\ last_lines ck n (type_word t) y pl' l5 /\
    text = stacked l1 ++ stacked l2 ++ j ++ stacked l4 ++ stacked l5.
