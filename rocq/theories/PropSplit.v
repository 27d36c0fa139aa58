(* Property theorems C82-C85: a search split over several jobs, the scripts run one by one, and repeated runs. *)
From Coq Require Import Ascii String List ZArith Lia Arith Bool Permutation Relations.
From Verif Require Import Base BaseFacts Sums Quat ModelSequence ModelWilliamson ModelEquivalence SpecEquiv EquivFacts EquivThms OpFacts ModelMatrices SpecMatrix SpecPrint QhmFacts
  ModelGraph SpecGraph GraphThms HadEquiv ModelRowsum SpecRowsum ModelMatching ModelWrite WriteFacts FolderFacts ModelMain ModelLog ModelScripts LogFolder LogText MainFacts ArgFacts MainThms DriverMain
  SplitFacts SplitThms ScriptThms PropSequences PropEquivalence PropMatching PropSearch PropGraph PropMain PropDriver SpecMain SpecOutputs SpecLog SpecSplit SpecScripts SpecSearch Spec.
Import ListNotations.
Notation length := List.length.
Open Scope nat_scope.

(* C82: the pairs of the row sums may be written by separate jobs, in any order, a row sum even by two *)
Theorem C82_split_same_files : forall (L : Type) (e : Env L) n y m pr, canonical_numeral y n -> forall t jobs lines w,
  1 <= n -> (Z.of_nat n < 2 ^ 62)%Z -> t = QuaternionType \/ t = WilliamsonType \/ t = Williamson -> pl_dirs (place_of w (type_word t) y) = [] ->
  complete_jobs n jobs -> (forall r, done jobs r <-> feasible n r /\ normal_rowsums t r) -> Forall2 (job_line t y m pr) jobs lines ->
  exists w1 f1 fuel0, (forall fuel, runs fuel e lines w w1) /\ only w w1 (type_word t) y /\
    place_of w1 (type_word t) y = set_dirs (place_of w (type_word t) y) f1 /\
    forall fuel, fuel0 <= fuel -> exists w2 f2,
      run_main fuel e [chars "rust"; chars "pairs"; type_word t; y; match_word m; pairing_word pr] w = Some w2 /\ only w w2 (type_word t) y /\
      place_of w2 (type_word t) y = set_dirs (place_of w (type_word t) y) f2 /\ same_dirs f2 f1.
Proof. exact @split_files. Qed.
Print Assumptions C82_split_same_files.
Theorem C82_split_results_qts : forall (L : Type) (e : Env L) n y m pr, canonical_numeral y n -> 1 <= n <= 31 -> env_ok e -> forall jobs lines h w,
  pl_dirs (place_of w (chars "qts") y) = [] -> complete_jobs n jobs -> (forall r, feasible n r -> normal_rowsums QuaternionType r -> done jobs r) ->
  Forall2 (job_line QuaternionType y m pr) jobs lines -> (exists q, pm_quad n q /\ is_QT q) ->
  exists w1 fuel0, (forall fuel, runs fuel e lines w w1) /\ forall fuel, fuel0 <= fuel -> exists w' pl r equ,
    remaining fuel e (chars "qts") y h w1 = w' /\ only w w' (chars "qts") y /\ w' (chars "qts") y = Some pl /\
    one_per_class n QuaternionType r /\ lists_quads (pl_seq pl) (pl_qseq pl) r /\ lists_qhms n (pl_qhm pl) r /\
    if h then one_matrix_per_class n QuaternionType equ /\ lists_matrices (pl_mat pl) equ else pl_mat pl = pl_mat (place_of w (chars "qts") y).
Proof. exact @split_QT. Qed.
Print Assumptions C82_split_results_qts.
Theorem C82_split_results_wts : forall (L : Type) (e : Env L) n y m pr, canonical_numeral y n -> 1 <= n <= 31 -> env_ok e -> forall jobs lines h w,
  pl_dirs (place_of w (chars "wts") y) = [] -> complete_jobs n jobs -> (forall r, feasible n r -> normal_rowsums WilliamsonType r -> done jobs r) ->
  Forall2 (job_line WilliamsonType y m pr) jobs lines -> (exists q, pm_quad n q /\ is_WT q) ->
  exists w1 fuel0, (forall fuel, runs fuel e lines w w1) /\ forall fuel, fuel0 <= fuel -> exists w' pl r r' equ,
    remaining fuel e (chars "wts") y h w1 = w' /\ only w w' (chars "wts") y /\ w' (chars "wts") y = Some pl /\
    one_per_class n WilliamsonType r /\ lists_quads (pl_seq pl) (pl_qseq pl) r /\
    one_per_class n QuaternionType r' /\ lists_quads (pl_qts pl) (pl_qts_q pl) r' /\ lists_qhms n (pl_qhm pl) r /\
    if h then one_matrix_per_class n WilliamsonType equ /\ lists_matrices (pl_mat pl) equ else pl_mat pl = pl_mat (place_of w (chars "wts") y).
Proof. exact @split_WT. Qed.
Print Assumptions C82_split_results_wts.
(* jobs for some of the row sums only: the classes of the quadruples with these row sums *)
Theorem C82_some_rowsums : forall (L : Type) (e : Env L) n y m pr, canonical_numeral y n -> 1 <= n <= 31 -> env_ok e -> forall jobs lines w,
  pl_dirs (place_of w (chars "qts") y) = [] -> complete_jobs n jobs -> Forall2 (job_line QuaternionType y m pr) jobs lines ->
  (exists q, pm_quad n q /\ is_QT q /\ done jobs (totals q)) ->
  exists w1 fuel0, (forall fuel, runs fuel e lines w w1) /\ forall fuel, fuel0 <= fuel -> exists w' pl r,
    remaining fuel e (chars "qts") y false w1 = w' /\ only w w' (chars "qts") y /\ w' (chars "qts") y = Some pl /\
    one_per_class_of (fun q => pm_quad n q /\ is_QT q /\ done jobs (totals q)) QuaternionType r /\
    lists_quads (pl_seq pl) (pl_qseq pl) r /\ lists_qhms n (pl_qhm pl) r.
Proof. exact @split_some. Qed.
Print Assumptions C82_some_rowsums.
(* two jobs, in the wrong order, for the only row sums of length 3 *)
Definition jobs3 : list (Quad * Part) := [((1, 1, 1, 3)%Z, Second); ((1, 1, 1, 3)%Z, First)].
Lemma feasible3 : forall t r, feasible 3 r -> normal_rowsums t r -> r = (1, 1, 1, 3)%Z.
Proof.
  intros t [[[a b] c] d]. unfold feasible, normal_rowsums. change (Z.of_nat 3 mod 2)%Z with 1%Z. change (4 * Z.of_nat 3)%Z with 12%Z. intros (E & Ha & Hb & Hc & Hd) (H1 & H2 & H3).
  assert (Bd : (-3 <= d <= 3)%Z) by nia. assert (Ba : (0 <= a <= 3)%Z) by lia. assert (Bb : (0 <= b <= 3)%Z) by lia. assert (Bc : (0 <= c <= 3)%Z) by lia.
  assert (Ca : (a = 1 \/ a = 3)%Z). { assert (a = 0 \/ a = 1 \/ a = 2 \/ a = 3)%Z as [->|[->|[->| ->]]] by lia; try discriminate; auto. }
  assert (Cb : (b = 1 \/ b = 3)%Z). { assert (b = 0 \/ b = 1 \/ b = 2 \/ b = 3)%Z as [->|[->|[->| ->]]] by lia; try discriminate; auto. }
  assert (Cc : (c = 1 \/ c = 3)%Z). { assert (c = 0 \/ c = 1 \/ c = 2 \/ c = 3)%Z as [->|[->|[->| ->]]] by lia; try discriminate; auto. }
  assert (Cd : (d = -3 \/ d = -2 \/ d = -1 \/ d = 0 \/ d = 1 \/ d = 2 \/ d = 3)%Z) by lia.
  destruct Ca as [->| ->], Cb as [->| ->], Cc as [->| ->], Cd as [->|[->|[->|[->|[->|[->| ->]]]]]]; try lia; reflexivity.
Qed.
Example C82_instance : canonical_numeral (chars "3") 3 /\ env_ok env0 /\ pl_dirs (place_of no_files (chars "qts") (chars "3")) = [] /\
  complete_jobs 3 jobs3 /\ (forall t r, done jobs3 r <-> feasible 3 r /\ normal_rowsums t r) /\
  (exists lines, Forall2 (job_line QuaternionType (chars "3") PSD WY) jobs3 lines) /\ pm_quad 3 w3 /\ is_QT w3 /\ is_WT w3 /\
  exists q, pm_quad 3 q /\ is_QT q /\ done jobs3 (totals q).
Proof.
  destruct C72_instance as (He & N & D & P & A & B & _).
  assert (F : feasible 3 (1, 1, 1, 3)%Z) by (vm_compute; tauto).
  assert (Dn : done jobs3 (1, 1, 1, 3)%Z) by (right; cbn; tauto).
  split; [exact N|]. split; [exact He|]. split; [exact D|]. split; [|split; [|split; [|split; [exact P|split; [exact A|split; [exact B|]]]]]].
  - intros r h [E|[E|[]]]; injection E as <- <-; auto.
  - intros t r. split.
    + intros [[E|[E|[]]]|[[E|[E|[]]] _]]; try discriminate; injection E as <-. split; [exact F|]. cbn. lia.
    + intros (F' & G). rewrite (feasible3 t r F' G). exact Dn.
  - assert (S : forall k, k < 10 -> rowsum_arg [ascii_of_nat (48 + k)] (Z.of_nat k)).
    { intros k Hk. split; [left; left; exact (decimal_digit k Hk)|lia]. }
    eexists. constructor; [|constructor; [|constructor]].
    all: exists [ascii_of_nat (48 + 1)], [ascii_of_nat (48 + 1)], [ascii_of_nat (48 + 1)], [ascii_of_nat (48 + 3)]; split; [|reflexivity].
    all: repeat split; try (apply (S 1); lia); try (apply (S 3); lia); lia.
  - set (q := (mkQuad 3 [-1;1;1] [-1;1;1] [-1;1;1] [1;1;1])%Z).
    assert (Q : pm_quad 3 q) by (repeat split; auto; repeat (apply Forall_cons; [auto|]); apply Forall_nil).
    exists q. split; [exact Q|]. split; [|exact Dn]. apply (WriteFacts.verify_type 3 q QuaternionType Q ltac:(lia)). vm_compute. reflexivity.
Qed.

(* C83: pairs.sh, sortpairs.sh, join_pairs.sh, convert_hm.sh and convert_qhm.sh do what driver.sh does *)
Theorem C83_same_tree : forall (L : Type) fuel (e : Env L) n t y, 1 <= n -> (Z.of_nat n < 2 ^ 62)%Z -> t = QuaternionType \/ t = WilliamsonType \/ t = Williamson ->
  canonical_numeral y n -> forall c pr h (d : bool) w, d = true \/ pl_dirs (place_of w (type_word t) y) = [] ->
  remaining fuel e (type_word t) y h (pairs_sh fuel e (type_word t) y c pr d w) = driver_flags fuel e (type_word t) y c pr h d w.
Proof. exact @scripts_tree. Qed.
Print Assumptions C83_same_tree.
(* and the line of the table is the same although the logs differ *)
Theorem C83_same_row : forall (L : Type) ck st (e : Env L) n t y c pr h (d : bool) w log, clock_ok ck -> watch_ok st -> 1 <= n <= 31 -> env_ok e -> canonical_numeral y n ->
  t = QuaternionType \/ t = WilliamsonType \/ t = Williamson -> d = true \/ pl_dirs (place_of w (type_word t) y) = [] -> (exists q, pm_quad n q /\ is_type t q) ->
  exists fuel0, forall fuel, fuel0 <= fuel -> exists w' pl lg lg',
    driver_flags_log ck fuel e (type_word t) y c pr h d w log = (w', Some lg) /\ one_by_one ck st fuel e (type_word t) y c pr h d w log = (w', Some lg') /\
    w' (type_word t) y = Some pl /\ collect pl lg' = collect pl lg.
Proof. exact @scripts_row. Qed.
Print Assumptions C83_same_row.
Example C83_instance : clock_ok ck0 /\ watch_ok (mkWatch 12 0) /\ env_ok env0 /\ canonical_numeral (chars "3") 3 /\
  pl_dirs (place_of no_files (chars "ws") (chars "3")) = [] /\ pm_quad 3 w3 /\ is_type Williamson w3.
Proof.
  destruct C80_instance as (Ck & _ & _ & He & N & _ & P & _ & _ & C & _). split; [exact Ck|]. split; [split; cbn; lia|]. split; [exact He|]. split; [exact N|].
  split; [reflexivity|]. split; [exact P|exact C].
Qed.

(* C84: a second run of driver.sh -d, and files left by an earlier search *)
Theorem C84_rerun : forall (L : Type) fuel (e : Env L) n t y, (Z.of_nat n < 2 ^ 64)%Z -> canonical_numeral y n -> forall c pr h w,
  same_tree (driver_flags fuel e (type_word t) y c pr h true w) (driver_flags fuel e (type_word t) y c pr h true (driver_flags fuel e (type_word t) y c pr h true w)).
Proof. exact @rerun. Qed.
Print Assumptions C84_rerun.
Theorem C84_stale_files : forall (L : Type) fuel (e : Env L) n t y, (Z.of_nat n < 2 ^ 64)%Z -> canonical_numeral y n -> forall c pr h w w0,
  w0 (type_word t) y = None -> exists p p0,
    driver_flags fuel e (type_word t) y c pr h true w (type_word t) y = Some p /\ driver_flags fuel e (type_word t) y c pr h true w0 (type_word t) y = Some p0 /\ files_of p0 p.
Proof. exact @stale_files. Qed.
Print Assumptions C84_stale_files.
(* files_of is not equality: a result.mat of an earlier search survives a search that writes none *)
Example C84_instance : canonical_numeral (chars "3") 3 /\ exists w fuel, no_files (chars "qts") (chars "3") = None /\
  pl_mat (place_of (driver_flags fuel env0 (chars "qts") (chars "3") true None false true w) (chars "qts") (chars "3")) = Some [] /\
  pl_mat (place_of (driver_flags fuel env0 (chars "qts") (chars "3") true None false true no_files) (chars "qts") (chars "3")) = None.
Proof.
  destruct C72_instance as (He & N & _ & P & A & _). split; [exact N|]. set (w := write no_files (chars "qts") (chars "3") (set_mat new_place [])).
  destruct (C72_driver_qts _ env0 3 (chars "3") true None false true w ltac:(lia) He N (or_introl eq_refl) (ex_intro _ w3 (conj P A))) as (f1 & H1).
  destruct (C72_driver_qts _ env0 3 (chars "3") true None false true no_files ltac:(lia) He N (or_introl eq_refl) (ex_intro _ w3 (conj P A))) as (f2 & H2).
  exists w, (f1 + f2). destruct (H1 (f1 + f2) ltac:(lia)) as (w1 & pl1 & _ & _ & -> & _ & E1 & _ & _ & _ & M1 & _).
  destruct (H2 (f1 + f2) ltac:(lia)) as (w2 & pl2 & _ & _ & -> & _ & E2 & _ & _ & _ & M2 & _).
  split; [reflexivity|]. unfold place_of at 1 2. rewrite E1, E2. rewrite M1, M2. split; reflexivity.
Qed.

(* C85: sortpairs.sh must not run twice *)
Theorem C85_sorting_twice : forall (L : Type) fuel (e : Env L) n t y, 1 <= n -> (Z.of_nat n < 2 ^ 62)%Z -> t = QuaternionType \/ t = WilliamsonType \/ t = Williamson ->
  canonical_numeral y n -> forall c pr (d : bool) w, any_listing (e_ls e) -> d = true \/ pl_dirs (place_of w (type_word t) y) = [] ->
  let w2 := sort_sh (type_word t) y (pairs_sh fuel e (type_word t) y c pr d w) in
  pl_dirs (place_of w2 (type_word t) y) <> [] ->
  run_main fuel e [chars "rust"; chars "join"; type_word t; y] (sort_sh (type_word t) y w2) = None.
Proof. exact @sort_twice. Qed.
Print Assumptions C85_sorting_twice.
Example C85_instance : any_listing (e_ls env0) /\ exists fuel,
  pl_dirs (place_of (sort_sh (chars "wts") (chars "3") (pairs_sh fuel env0 (chars "wts") (chars "3") false None false no_files)) (chars "wts") (chars "3")) <> [].
Proof.
  destruct C72_instance as (He & N & _). split; [exact (proj1 (proj2 He))|]. exists 100.
  destruct (write_folder WilliamsonType PSD 3 (Some WZ) [(1, 1, 1, 3)%Z] [] 0%Z) as (f' & c' & E & F).
  { right; now left. } { lia. } { lia. } { constructor; [vm_compute; tauto|constructor]. } { repeat constructor. intros []. } { constructor. }
  assert (G : write_pairs 100 3 WilliamsonType PSD (str_to_rowsum_pairing (lit "WZ")) [] = Some (f', c')).
  { unfold write_pairs. replace (generate_rowsums 100 3 WilliamsonType) with (Some [(1, 1, 1, 3)%Z]) by (vm_compute; reflexivity). exact E. }
  inversion F as [|r en l l' Hen Hl]; subst. clear F.
  unfold pairs_sh. change (negb (length (pl_dirs (place_of no_files (chars "wts") (chars "3"))) =? 0)) with false. cbv iota zeta.
  destruct (stage_pairs 100 env0 3 WilliamsonType (chars "3") ltac:(lia) N (write no_files (chars "wts") (chars "3") new_place) new_place PSD (lit "WZ") _ _ (ltac:(reflexivity)) eq_refl G) as (S & _).
  match goal with |- context [sort_sh _ _ ?W] => change (W (chars "wts") (chars "3") = Some (set_dirs new_place (en :: l'))) in S; revert S; generalize W end.
  intros w S. unfold sort_sh. rewrite S. unfold place_of. rewrite write_same. cbn. discriminate.
Qed.
