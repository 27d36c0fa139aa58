(* Property theorems C106: jobs of a split search that are killed. *)
From Coq Require Import Ascii String List ZArith Lia Arith Bool Permutation Relations.
From Verif Require Import Base BaseFacts Sums Quat ModelSequence ModelWilliamson ModelEquivalence SpecEquiv EquivFacts EquivThms OpFacts ModelMatrices SpecMatrix SpecPrint QhmFacts
  ModelGraph SpecGraph GraphThms HadEquiv ModelRowsum SpecRowsum ModelMatching ModelWrite WriteFacts FolderFacts ModelMain ModelScripts MainFacts ArgFacts MainThms DriverMain
  SplitFacts SplitThms ModelJobs SpecJobs JobsFacts JobsThms JobsResults SpecKilled KilledFacts KilledThms KilledSilent ClassSums PropMain PropSplit PropJobs SpecMain SpecOutputs SpecSplit SpecSearch Spec.
Import ListNotations.
Notation length := List.length.
Open Scope nat_scope.


(* C106: some jobs end, others are killed at any step, possibly in the middle of a write, all at the same time; the
   killed ones are repeated.  None of the programs panics and the files are those of running all jobs one after the other *)
Theorem C106_repeated_same_files : forall (L : Type) (e : Env L) n t y m pr, 1 <= n -> (Z.of_nat n < 2 ^ 62)%Z -> t = QuaternionType \/ t = WilliamsonType \/ t = Williamson ->
  canonical_numeral y n -> forall jobs1 jobs2 lines1 lines2 w st0, (forall r h, In (r, h) (jobs1 ++ jobs2) -> feasible n r) ->
  Forall2 (job_line t y m pr) jobs1 lines1 -> Forall2 (job_line t y m pr) jobs2 lines2 ->
  on_disk st0 (pl_dirs (place_of w (type_word t) y)) ->
  exists acts1 acts2 w1, Forall2 (fun args a => run_actions args = Some (type_word t, y, a)) lines1 acts1 /\
    Forall2 (fun args a => run_actions args = Some (type_word t, y, a)) lines2 acts2 /\
    (forall fuel, runs fuel e (lines1 ++ lines2) w w1) /\ only w w1 (type_word t) y /\
    forall killed tr1 tr2, Forall (fun k => exists a, In a acts2 /\ cut_short k a) killed -> interleaved (acts1 ++ killed) tr1 -> interleaved acts2 tr2 ->
      exists st, perform (tr1 ++ tr2) st0 = Some st /\ on_disk st (pl_dirs (place_of w1 (type_word t) y)).
Proof. exact @jobs_killed. Qed.
Print Assumptions C106_repeated_same_files.
(* and the remaining steps find one member of every class *)
Theorem C106_repeated_results_qts : forall (L : Type) (e : Env L) n y m pr, canonical_numeral y n -> 1 <= n <= 31 -> env_ok e ->
  forall jobs1 jobs2 lines1 lines2, let jobs := jobs1 ++ jobs2 in complete_jobs n jobs ->
  (forall r, feasible n r -> normal_rowsums QuaternionType r -> done jobs r) ->
  Forall2 (job_line QuaternionType y m pr) jobs1 lines1 -> Forall2 (job_line QuaternionType y m pr) jobs2 lines2 ->
  (exists q, pm_quad n q /\ is_QT q) ->
  exists acts1 acts2 fuel0, Forall2 (fun args a => run_actions args = Some (chars "qts", y, a)) lines1 acts1 /\
  Forall2 (fun args a => run_actions args = Some (chars "qts", y, a)) lines2 acts2 /\
  forall killed tr1 tr2, Forall (fun k => exists a, In a acts2 /\ cut_short k a) killed -> interleaved (acts1 ++ killed) tr1 -> interleaved acts2 tr2 ->
  exists st, perform (tr1 ++ tr2) empty_disk = Some st /\ (exists f, on_disk st f /\ tidy f) /\
  forall f, on_disk st f -> tidy f -> forall fuel (h : bool) w, fuel0 <= fuel -> exists w' pl r equ,
    remaining fuel e (chars "qts") y h (write w (chars "qts") y (set_dirs (place_of w (chars "qts") y) f)) = w' /\
    only w w' (chars "qts") y /\ w' (chars "qts") y = Some pl /\
    one_per_class n QuaternionType r /\ lists_quads (pl_seq pl) (pl_qseq pl) r /\ lists_qhms n (pl_qhm pl) r /\
    if h then one_matrix_per_class n QuaternionType equ /\ lists_matrices (pl_mat pl) equ else pl_mat pl = pl_mat (place_of w (chars "qts") y).
Proof. exact @killed_QT. Qed.
Print Assumptions C106_repeated_results_qts.
Theorem C106_repeated_results_wts : forall (L : Type) (e : Env L) n y m pr, canonical_numeral y n -> 1 <= n <= 31 -> env_ok e ->
  forall jobs1 jobs2 lines1 lines2, let jobs := jobs1 ++ jobs2 in complete_jobs n jobs ->
  (forall r, feasible n r -> normal_rowsums WilliamsonType r -> done jobs r) ->
  Forall2 (job_line WilliamsonType y m pr) jobs1 lines1 -> Forall2 (job_line WilliamsonType y m pr) jobs2 lines2 ->
  (exists q, pm_quad n q /\ is_WT q) ->
  exists acts1 acts2 fuel0, Forall2 (fun args a => run_actions args = Some (chars "wts", y, a)) lines1 acts1 /\
  Forall2 (fun args a => run_actions args = Some (chars "wts", y, a)) lines2 acts2 /\
  forall killed tr1 tr2, Forall (fun k => exists a, In a acts2 /\ cut_short k a) killed -> interleaved (acts1 ++ killed) tr1 -> interleaved acts2 tr2 ->
  exists st, perform (tr1 ++ tr2) empty_disk = Some st /\ (exists f, on_disk st f /\ tidy f) /\
  forall f, on_disk st f -> tidy f -> forall fuel (h : bool) w, fuel0 <= fuel -> exists w' pl r r' equ,
    remaining fuel e (chars "wts") y h (write w (chars "wts") y (set_dirs (place_of w (chars "wts") y) f)) = w' /\
    only w w' (chars "wts") y /\ w' (chars "wts") y = Some pl /\
    one_per_class n WilliamsonType r /\ lists_quads (pl_seq pl) (pl_qseq pl) r /\
    one_per_class n QuaternionType r' /\ lists_quads (pl_qts pl) (pl_qts_q pl) r' /\ lists_qhms n (pl_qhm pl) r /\
    if h then one_matrix_per_class n WilliamsonType equ /\ lists_matrices (pl_mat pl) equ else pl_mat pl = pl_mat (place_of w (chars "wts") y).
Proof. exact @killed_WT. Qed.
Print Assumptions C106_repeated_results_wts.
(* a killed job that is not repeated goes unnoticed: killed when all its files exist, it leaves a directory the remaining
   steps accept, and they list the classes of the other jobs only *)
Theorem C106_unrepeated_unnoticed : forall (L : Type) (e : Env L) n y m pr, canonical_numeral y n -> 1 <= n <= 31 -> env_ok e ->
  forall jobs lines r args, complete_jobs n jobs -> (forall h, ~ In (r, h) jobs) -> feasible n r ->
  Forall2 (job_line QuaternionType y m pr) jobs lines -> job_line QuaternionType y m pr (r, Both) args ->
  (exists q, pm_quad n q /\ is_QT q /\ done jobs (totals q)) ->
  exists acts a k fuel0, Forall2 (fun args a => run_actions args = Some (chars "qts", y, a)) lines acts /\
  run_actions args = Some (chars "qts", y, a) /\ cut_short k a /\ (forall d f, In (MakeFile d f) a -> In (MakeFile d f) k) /\
  forall tr, interleaved (acts ++ [k]) tr -> exists st, perform tr empty_disk = Some st /\ (exists f, on_disk st f /\ tidy f) /\
  forall f, on_disk st f -> tidy f -> forall fuel w, fuel0 <= fuel -> exists w' pl res,
    remaining fuel e (chars "qts") y false (write w (chars "qts") y (set_dirs (place_of w (chars "qts") y) f)) = w' /\
    only w w' (chars "qts") y /\ w' (chars "qts") y = Some pl /\
    one_per_class_of (fun q => pm_quad n q /\ is_QT q /\ done jobs (totals q)) QuaternionType res /\
    lists_quads (pl_seq pl) (pl_qseq pl) res /\ lists_qhms n (pl_qhm pl) res.
Proof. exact @silent_QT. Qed.
Print Assumptions C106_unrepeated_unnoticed.
(* of odd length, no class with the row sums of the killed job is among them *)
Theorem C106_unrepeated_lost : forall n jobs r res, Nat.Odd n -> (forall s h, In (s, h) jobs -> normal_rowsums QuaternionType s) -> (forall h, ~ In (r, h) jobs) ->
  normal_rowsums QuaternionType r -> one_per_class_of (fun q => pm_quad n q /\ is_QT q /\ done jobs (totals q)) QuaternionType res ->
  forall q x, pm_quad n q -> totals q = r -> In x res -> ~ reach (type_ops QuaternionType) q x.
Proof. exact lost. Qed.
Print Assumptions C106_unrepeated_lost.
(* the hypotheses: C82_instance and C96_instance for the repeated jobs; two row sums of length 7, each with sequences *)
Definition q7a : QuadSeq := mkQuad 7 [-1; 1; 1; -1; -1; 1; 1]%Z [-1; 1; -1; 1; 1; -1; 1]%Z [-1; -1; 1; 1; 1; 1; -1]%Z [-1; 1; 1; 1; 1; 1; 1]%Z.
Definition q7b : QuadSeq := mkQuad 7 [-1; 1; 1; -1; -1; 1; 1]%Z [1; 1; 1; -1; -1; 1; 1]%Z [1; -1; 1; 1; 1; 1; -1]%Z [1; -1; 1; 1; 1; 1; -1]%Z.
Example C106_instance : let jobs := [((1, 1, 1, 5)%Z, Both)] in
  complete_jobs 7 jobs /\ (forall s h, In (s, h) jobs -> normal_rowsums QuaternionType s) /\ (forall h, ~ In ((1, 3, 3, 3)%Z, h) jobs) /\
  feasible 7 (1, 3, 3, 3)%Z /\ normal_rowsums QuaternionType (1, 3, 3, 3)%Z /\
  (exists lines, Forall2 (job_line QuaternionType (chars "7") PSD WY) jobs lines) /\ (exists args, job_line QuaternionType (chars "7") PSD WY ((1, 3, 3, 3)%Z, Both) args) /\
  pm_quad 7 q7a /\ is_QT q7a /\ done jobs (totals q7a) /\ pm_quad 7 q7b /\ is_QT q7b /\ totals q7b = (1, 3, 3, 3)%Z /\
  (* a program killed in the middle of a write *)
  let one := MakeDir (chars "d") :: put_acts (chars "d") (chars "f") [chars "ab"; chars "cd"] in
  let k := [MakeDir (chars "d"); MakeFile (chars "d") (chars "f"); WriteAt (chars "d") (chars "f") 0 (chars "ab"); WriteAt (chars "d") (chars "f") 2 (chars "c")] in
  cut_short k one /\ (exists st, perform k empty_disk = Some st /\ file st (chars "d") (chars "f") = Some (chars "abc")) /\
  exists st, perform (k ++ one) empty_disk = Some st /\ file st (chars "d") (chars "f") = Some (chars "abcd").
Proof.
  assert (S : forall k, k < 10 -> rowsum_arg [ascii_of_nat (48 + k)] (Z.of_nat k)).
  { intros k Hk. split; [left; left; exact (decimal_digit k Hk)|lia]. }
  assert (Pa : pm_quad 7 q7a) by (repeat split; auto; repeat (apply Forall_cons; [auto|]); apply Forall_nil).
  assert (Pb : pm_quad 7 q7b) by (repeat split; auto; repeat (apply Forall_cons; [auto|]); apply Forall_nil).
  intros jobs. split; [intros r h [E|[]]; injection E as <- <-; split; [vm_compute; tauto|left; now left]|].
  split; [intros s h [E|[]]; injection E as <- <-; cbn; lia|].
  split; [intros h [E|[]]; discriminate|]. split; [vm_compute; tauto|]. split; [cbn; lia|].
  split; [|split; [|split; [exact Pa|split; [|split; [left; now left|split; [exact Pb|split; [|split; [reflexivity|]]]]]]]].
  - eexists. constructor; [|constructor]. exists [ascii_of_nat (48 + 1)], [ascii_of_nat (48 + 1)], [ascii_of_nat (48 + 1)], [ascii_of_nat (48 + 5)]; split; [|reflexivity].
    repeat split; try (apply (S 1); lia); try (apply (S 5); lia); lia.
  - eexists. exists [ascii_of_nat (48 + 1)], [ascii_of_nat (48 + 3)], [ascii_of_nat (48 + 3)], [ascii_of_nat (48 + 3)]; split; [|reflexivity].
    repeat split; try (apply (S 1); lia); try (apply (S 3); lia); lia.
  - apply (WriteFacts.verify_type 7 q7a QuaternionType Pa ltac:(lia)). vm_compute. reflexivity.
  - apply (WriteFacts.verify_type 7 q7b QuaternionType Pb ltac:(lia)). vm_compute. reflexivity.
  - split; [|split].
    + do 3 apply cut_later. exact (cut_write (chars "d") (chars "f") 2 (chars "c") (chars "d") []).
    + eexists. split; reflexivity.
    + eexists. split; reflexivity.
Qed.
