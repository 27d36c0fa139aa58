(* Property theorems C96: jobs of a split search that run at the same time. *)
From Coq Require Import Ascii String List ZArith Lia Arith Bool Permutation Relations.
From Verif Require Import Base BaseFacts Sums Quat ModelSequence ModelWilliamson ModelEquivalence SpecEquiv EquivFacts EquivThms OpFacts ModelMatrices SpecMatrix SpecPrint QhmFacts
  ModelGraph SpecGraph GraphThms HadEquiv ModelRowsum SpecRowsum ModelMatching ModelWrite WriteFacts FolderFacts ModelMain ModelScripts MainFacts ArgFacts MainThms DriverMain
  SplitFacts SplitThms ModelJobs SpecJobs JobsFacts JobsThms JobsResults PropMain PropSplit SpecMain SpecOutputs SpecSplit SpecSearch Spec.
Import ListNotations.
Notation length := List.length.
Open Scope nat_scope.

(* the steps of a program, taken one after the other, have the effect of the program *)
Theorem C96_steps_of_a_run : forall (L : Type) (e : Env L) args x y acts, run_actions args = Some (x, y, acts) -> forall w st, on_disk st (pl_dirs (place_of w x y)) ->
  exists w' st', (forall fuel, run_main fuel e args w = Some w') /\ only w w' x y /\ perform acts st = Some st' /\ on_disk st' (pl_dirs (place_of w' x y)).
Proof. exact @actions_agree. Qed.
Print Assumptions C96_steps_of_a_run.
(* and a run that has no steps panics *)
Theorem C96_no_steps : forall (L : Type) fuel (e : Env L) args w, nth_error args 1 = Some (chars "pairs_rowsum") \/ nth_error args 1 = Some (chars "pair_single") ->
  run_actions args = None -> run_main fuel e args w = None.
Proof. exact @no_actions. Qed.
Print Assumptions C96_no_steps.
(* C96: however the steps of the jobs are mixed, none of them panics and the files are those of running them one after the other *)
Theorem C96_parallel_same_files : forall (L : Type) (e : Env L) n t y m pr, 1 <= n -> (Z.of_nat n < 2 ^ 62)%Z -> t = QuaternionType \/ t = WilliamsonType \/ t = Williamson ->
  canonical_numeral y n -> forall jobs lines w st0, (forall r h, In (r, h) jobs -> feasible n r) -> Forall2 (job_line t y m pr) jobs lines ->
  on_disk st0 (pl_dirs (place_of w (type_word t) y)) ->
  exists acts w1, Forall2 (fun args a => run_actions args = Some (type_word t, y, a)) lines acts /\ (forall fuel, runs fuel e lines w w1) /\ only w w1 (type_word t) y /\
    forall tr, interleaved acts tr -> exists st, perform tr st0 = Some st /\ on_disk st (pl_dirs (place_of w1 (type_word t) y)).
Proof. exact @jobs_parallel. Qed.
Print Assumptions C96_parallel_same_files.
(* whatever folder is read from the disk afterwards, the remaining steps find one member of every class *)
Theorem C96_parallel_results_qts : forall (L : Type) (e : Env L) n y m pr, canonical_numeral y n -> 1 <= n <= 31 -> env_ok e -> forall jobs lines, complete_jobs n jobs ->
  (forall r, feasible n r -> normal_rowsums QuaternionType r -> done jobs r) -> Forall2 (job_line QuaternionType y m pr) jobs lines ->
  (exists q, pm_quad n q /\ is_QT q) ->
  exists acts fuel0, Forall2 (fun args a => run_actions args = Some (chars "qts", y, a)) lines acts /\
  forall tr, interleaved acts tr -> exists st, perform tr empty_disk = Some st /\ (exists f, on_disk st f /\ tidy f) /\
  forall f, on_disk st f -> tidy f -> forall fuel (h : bool) w, fuel0 <= fuel -> exists w' pl r equ,
    remaining fuel e (chars "qts") y h (write w (chars "qts") y (set_dirs (place_of w (chars "qts") y) f)) = w' /\
    only w w' (chars "qts") y /\ w' (chars "qts") y = Some pl /\
    one_per_class n QuaternionType r /\ lists_quads (pl_seq pl) (pl_qseq pl) r /\ lists_qhms n (pl_qhm pl) r /\
    if h then one_matrix_per_class n QuaternionType equ /\ lists_matrices (pl_mat pl) equ else pl_mat pl = pl_mat (place_of w (chars "qts") y).
Proof. exact @parallel_QT. Qed.
Print Assumptions C96_parallel_results_qts.
Theorem C96_parallel_results_wts : forall (L : Type) (e : Env L) n y m pr, canonical_numeral y n -> 1 <= n <= 31 -> env_ok e -> forall jobs lines, complete_jobs n jobs ->
  (forall r, feasible n r -> normal_rowsums WilliamsonType r -> done jobs r) -> Forall2 (job_line WilliamsonType y m pr) jobs lines ->
  (exists q, pm_quad n q /\ is_WT q) ->
  exists acts fuel0, Forall2 (fun args a => run_actions args = Some (chars "wts", y, a)) lines acts /\
  forall tr, interleaved acts tr -> exists st, perform tr empty_disk = Some st /\ (exists f, on_disk st f /\ tidy f) /\
  forall f, on_disk st f -> tidy f -> forall fuel (h : bool) w, fuel0 <= fuel -> exists w' pl r r' equ,
    remaining fuel e (chars "wts") y h (write w (chars "wts") y (set_dirs (place_of w (chars "wts") y) f)) = w' /\
    only w w' (chars "wts") y /\ w' (chars "wts") y = Some pl /\
    one_per_class n WilliamsonType r /\ lists_quads (pl_seq pl) (pl_qseq pl) r /\
    one_per_class n QuaternionType r' /\ lists_quads (pl_qts pl) (pl_qts_q pl) r' /\ lists_qhms n (pl_qhm pl) r /\
    if h then one_matrix_per_class n WilliamsonType equ /\ lists_matrices (pl_mat pl) equ else pl_mat pl = pl_mat (place_of w (chars "wts") y).
Proof. exact @parallel_WT. Qed.
Print Assumptions C96_parallel_results_wts.
(* the hypotheses: C82_instance, an empty disk, and jobs that can be mixed *)
Example C96_instance : on_disk empty_disk (pl_dirs (place_of no_files (chars "qts") (chars "3"))) /\ complete_jobs 3 (jobs3 ++ jobs3) /\
  (exists lines, Forall2 (job_line QuaternionType (chars "3") PSD WY) (jobs3 ++ jobs3) lines) /\
  (forall acts, exists tr, @interleaved Action acts tr) /\
  (* two programs write the same file; the second one starts over when the first is half way *)
  let one := MakeDir (chars "d") :: put_acts (chars "d") (chars "f") [chars "ab"; chars "cd"] in
  exists tr st, interleaved [one; one] tr /\ tr <> one ++ one /\ perform tr empty_disk = Some st /\ file st (chars "d") (chars "f") = Some (chars "abcd") /\
  exists st1, perform (firstn 6 tr) empty_disk = Some st1 /\ file st1 (chars "d") (chars "f") = Some [Ascii.zero; Ascii.zero; "c"%char; "d"%char].
Proof.
  destruct C82_instance as (_ & _ & _ & Hc & _ & (lines & F) & _).
  split; [exact empty_on_disk|]. split; [|split; [|split]].
  - intros r h I. apply in_app_iff in I as [I|I]; destruct (Hc r h I) as [X [Y|[Y Z]]]; (split; [exact X|]); [left|right|left|right]; rewrite ?in_app_iff; auto.
  - exists (lines ++ lines). now apply Forall2_app.
  - intros acts. exists (concat acts). apply interleaved_concat.
  - cbv zeta. set (d := chars "d"). set (f := chars "f").
    exists [MakeDir d; MakeDir d; MakeFile d f; WriteAt d f 0 (chars "ab"); MakeFile d f; WriteAt d f 2 (chars "cd"); WriteAt d f 0 (chars "ab"); WriteAt d f 2 (chars "cd")].
    eexists. split; [|split; [discriminate|split; [reflexivity|split; [reflexivity|eexists; split; reflexivity]]]].
    apply (il_step []). cbn. apply (il_step [_]). cbn. apply (il_step []). cbn. apply (il_step []). cbn. apply (il_step [_]). cbn.
    apply (il_step []). cbn. apply (il_step [_]). cbn. apply (il_step [_]). cbn. apply il_done. repeat constructor.
Qed.
