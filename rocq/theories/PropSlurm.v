(* C109: the flag -s of the scripts. *)
From Coq Require Import Ascii String List ZArith Bool Arith Lia.
From Verif Require Import Base Quat ModelSequence ModelWilliamson ModelEquivalence ModelMatrices ModelGraph ModelRowsum ModelMatching ModelWrite ModelMain ModelScripts ModelSlurm.
From Verif Require Import SpecEquiv SpecRowsum SpecGraph SpecSearch SpecPrint SpecMain SpecMatrix SpecScripts SpecSplit SpecSlurm FindQuadFacts SlurmThms PropSearch PropMain Spec.
Import ListNotations.
Open Scope nat_scope.
Notation length := List.length.

(* every value of the variable is of one of the three kinds *)
Theorem C109_values : forall v, no_word v \/ one_word v \/ more_words v.
Proof. exact words_cases. Qed.
Print Assumptions C109_values.
(* the program is compiled and $SLURM_TMPDIR is one word: the same tree as without -s, for all arguments and flags *)
Theorem C109_driver_same : forall (L : Type) v fuel (e : Env L) x y c pr h d w, one_word v -> driver_slurm true v fuel e x y c pr h d w = driver_flags fuel e x y c pr h d w.
Proof. exact @slurm_same. Qed.
Print Assumptions C109_driver_same.
Theorem C109_sortpairs_same : forall v x y w, one_word v -> slurm_sort_sh v x y w = sort_sh x y w.
Proof. exact slurm_sort_same. Qed.
Print Assumptions C109_sortpairs_same.
Theorem C109_pairs_same : forall (L : Type) fuel (e : Env L) x y c pr d w, pairs_slurm true fuel e x y c pr d w = pairs_sh fuel e x y c pr d w.
Proof. exact @slurm_pairs_same. Qed.
Print Assumptions C109_pairs_same.
(* the program is not compiled: driver.sh -s and pairs.sh -s only create the folder, and with -d remove its directories *)
Theorem C109_not_compiled : forall (L : Type) v fuel (e : Env L) x y c pr h d w, pl_dirs (place_of w x y) = [] \/ d = true ->
  driver_slurm false v fuel e x y c pr h d w x y = Some (set_dirs (place_of w x y) []) /\ only w (driver_slurm false v fuel e x y c pr h d w) x y /\
  pairs_slurm false fuel e x y c pr d w x y = Some (set_dirs (place_of w x y) []) /\ only w (pairs_slurm false fuel e x y c pr d w) x y.
Proof. exact @slurm_no_program. Qed.
Print Assumptions C109_not_compiled.
(* $SLURM_TMPDIR unset or blank: the pairs are lost.  What driver.sh -s leaves are the directories pairs.sh leaves, with
   empty sorted files in the place of the pair files, and no result *)
Theorem C109_unset_refuted : forall (L : Type) (e : Env L) n t y, 1 <= n -> (Z.of_nat n < 2 ^ 62)%Z -> three_types t -> canonical_numeral y n ->
  forall v c pr h d w, no_word v -> any_listing (e_ls e) -> d = true \/ pl_dirs (place_of w (type_word t) y) = [] ->
  pl_seq (place_of w (type_word t) y) = None -> pl_qts (place_of w (type_word t) y) = None -> forall fuel,
  exists f g, pairs_sh fuel e (type_word t) y c pr d w (type_word t) y = Some (set_dirs (place_of w (type_word t) y) f) /\
    driver_slurm true v fuel e (type_word t) y c pr h d w (type_word t) y = Some (set_dirs (place_of w (type_word t) y) g) /\
    only w (driver_slurm true v fuel e (type_word t) y c pr h d w) (type_word t) y /\ folder_lost false f g.
Proof. exact @slurm_unset. Qed.
Print Assumptions C109_unset_refuted.
(* $SLURM_TMPDIR of several words: no result either, but the pair files are kept *)
Theorem C109_words_refuted : forall (L : Type) (e : Env L) n t y, 1 <= n -> (Z.of_nat n < 2 ^ 62)%Z -> three_types t -> canonical_numeral y n ->
  forall v c pr h d w, more_words v -> any_listing (e_ls e) -> d = true \/ pl_dirs (place_of w (type_word t) y) = [] ->
  pl_seq (place_of w (type_word t) y) = None -> pl_qts (place_of w (type_word t) y) = None -> forall fuel,
  exists f g, pairs_sh fuel e (type_word t) y c pr d w (type_word t) y = Some (set_dirs (place_of w (type_word t) y) f) /\
    driver_slurm true v fuel e (type_word t) y c pr h d w (type_word t) y = Some (set_dirs (place_of w (type_word t) y) g) /\
    only w (driver_slurm true v fuel e (type_word t) y c pr h d w) (type_word t) y /\ folder_lost true f g.
Proof. exact @slurm_words. Qed.
Print Assumptions C109_words_refuted.
(* and sortpairs.sh, join_pairs.sh, convert_hm.sh and convert_qhm.sh then complete the run *)
Theorem C109_words_recovered : forall (L : Type) (e : Env L) n t y, 1 <= n -> (Z.of_nat n < 2 ^ 62)%Z -> three_types t -> canonical_numeral y n ->
  forall v c pr h d w, more_words v -> any_listing (e_ls e) -> d = true \/ pl_dirs (place_of w (type_word t) y) = [] ->
  pl_seq (place_of w (type_word t) y) = None -> pl_qts (place_of w (type_word t) y) = None -> forall fuel,
  same_tree (driver_flags fuel e (type_word t) y c pr h d w) (remaining fuel e (type_word t) y h (driver_slurm true v fuel e (type_word t) y c pr h d w)).
Proof. exact @slurm_recover. Qed.
Print Assumptions C109_words_recovered.
(* something is lost: there is a directory for the row sums of every quadruple to be found *)
Theorem C109_directories : forall (L : Type) (e : Env L) n t y, 1 <= n -> (Z.of_nat n < 2 ^ 62)%Z -> three_types t -> canonical_numeral y n ->
  forall v c pr h d w, ~ one_word v -> any_listing (e_ls e) -> d = true \/ pl_dirs (place_of w (type_word t) y) = [] ->
  pl_seq (place_of w (type_word t) y) = None -> pl_qts (place_of w (type_word t) y) = None -> exists fuel0, forall fuel, fuel0 <= fuel ->
  forall q, pm_quad n q -> is_type t q -> normal_rowsums t (totals q) ->
  In (rowsum_dir (totals q)) (map fst (pl_dirs (place_of (driver_slurm true v fuel e (type_word t) y c pr h d w) (type_word t) y))).
Proof. exact @slurm_dirs. Qed.
Print Assumptions C109_directories.
(* the hypotheses: three values of the variable, and the row sums of a quadruple of length 3 *)
Example C109_instance : one_word (Some (chars "/localscratch/job.1")) /\ no_word None /\ no_word (Some (chars "  ")) /\ more_words (Some (chars "/tmp/my job")) /\
  three_types QuaternionType /\ env_ok env0 /\ canonical_numeral (chars "3") 3 /\ pl_dirs (place_of no_files (chars "qts") (chars "3")) = [] /\
  pl_seq (place_of no_files (chars "qts") (chars "3")) = None /\ pl_qts (place_of no_files (chars "qts") (chars "3")) = None /\
  (let q := (mkQuad 3 [-1;1;1] [-1;1;1] [-1;1;1] [1;1;1])%Z in pm_quad 3 q /\ is_type QuaternionType q /\ normal_rowsums QuaternionType (totals q)) /\
  (* a pair file, sorted with the three values *)
  (let d := [(chars "a.seq", [chars "+"]); (chars "p.pair", [chars "b"; chars "a"])] in
   slurm_sort_dir (Some (chars "/localscratch/job.1")) d = [(chars "a.seq", [chars "+"]); (chars "p.pair.sorted", [chars "a"; chars "b"])] /\
   slurm_sort_dir None d = [(chars "a.seq", [chars "+"]); (chars "p.pair.sorted", [])] /\
   slurm_sort_dir (Some (chars "/tmp/my job")) d = d ++ [(chars "p.pair.sorted", [])]).
Proof.
  destruct C72_instance as (He & N & D & _).
  split; [|split; [now left|split; [right; eexists; split; [reflexivity|repeat constructor; now left]|split]]].
  - exists (chars "/localscratch/job.1"), [], (chars "/localscratch/job.1"), []. split; auto. split; auto. split; [constructor|]. split; [constructor|]. split; [discriminate|].
    repeat (apply Forall_cons; [unfold blank; intuition discriminate|]). apply Forall_nil.
  - exists (chars "/tmp/my job"), (chars "/tmp/m"), "y"%char, (chars " "), "j"%char, (chars "ob"). split; auto. split; auto. split; [unfold blank; intuition discriminate|].
    split; [unfold blank; intuition discriminate|]. exists " "%char. split; now left.
  - split; [now left|]. split; auto. split; auto. split; auto. split; auto. split; auto. split; [|split; [reflexivity|split; reflexivity]].
    set (q := (mkQuad 3 [-1;1;1] [-1;1;1] [-1;1;1] [1;1;1])%Z).
    assert (Q : pm_quad 3 q) by (repeat split; auto; repeat (apply Forall_cons; [auto|]); apply Forall_nil).
    split; [exact Q|]. split; [|vm_compute; intuition discriminate]. apply (WriteFacts.verify_type 3 q QuaternionType Q ltac:(lia)). vm_compute. reflexivity.
Qed.
