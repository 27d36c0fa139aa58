(* Property theorems C111: jobs of a split search that do not use the same options. *)
From Coq Require Import Ascii String List ZArith Lia Arith Bool Permutation Relations.
From Verif Require Import Base BaseFacts Sums Quat ModelSequence ModelWilliamson ModelEquivalence SpecEquiv EquivFacts EquivThms OpFacts ModelMatrices SpecMatrix SpecPrint QhmFacts
  ModelGraph SpecGraph GraphThms HadEquiv ModelRowsum SpecRowsum ModelMatching ModelWrite WriteFacts FolderFacts ModelMain ModelLog ModelScripts LogFolder LogText MainFacts ArgFacts MainThms DriverMain
  SplitFacts SplitThms ScriptThms MixedThms MixedFacts MixedSplit PropSequences PropEquivalence PropMatching PropSearch PropGraph PropMain PropDriver PropSplit SpecMain SpecOutputs SpecLog SpecSplit SpecScripts SpecSearch SpecMixed Spec.
Import ListNotations.
Notation length := List.length.
Open Scope nat_scope.

(* the options may differ from one row sum to the next: the search is exhaustive *)
Theorem C111_options_qts : forall (L : Type) (e : Env L) n y, canonical_numeral y n -> 1 <= n <= 31 -> env_ok e ->
  forall jobs lines (h : bool) w, pl_dirs (place_of w (type_word QuaternionType) y) = [] -> complete_jobs n (map fst jobs) -> settled jobs ->
  (forall r, feasible n r -> normal_rowsums QuaternionType r -> done (map fst jobs) r) -> Forall2 (mixed_line QuaternionType y) jobs lines ->
  (exists q, pm_quad n q /\ is_QT q) ->
  exists w1 fuel0, (forall fuel, runs fuel e lines w w1) /\ forall fuel, fuel0 <= fuel -> exists w' pl r equ,
    remaining fuel e (type_word QuaternionType) y h w1 = w' /\ only w w' (type_word QuaternionType) y /\ w' (type_word QuaternionType) y = Some pl /\
    one_per_class n QuaternionType r /\ lists_quads (pl_seq pl) (pl_qseq pl) r /\ lists_qhms n (pl_qhm pl) r /\
    (if h then one_matrix_per_class n QuaternionType equ /\ lists_matrices (pl_mat pl) equ else pl_mat pl = pl_mat (place_of w (type_word QuaternionType) y)).
Proof. exact @mixed_QT. Qed.
Print Assumptions C111_options_qts.
Theorem C111_options_wts : forall (L : Type) (e : Env L) n y, canonical_numeral y n -> 1 <= n <= 31 -> env_ok e ->
  forall jobs lines (h : bool) w, pl_dirs (place_of w (type_word WilliamsonType) y) = [] -> complete_jobs n (map fst jobs) -> settled jobs ->
  (forall r, feasible n r -> normal_rowsums WilliamsonType r -> done (map fst jobs) r) -> Forall2 (mixed_line WilliamsonType y) jobs lines ->
  (exists q, pm_quad n q /\ is_WT q) ->
  exists w1 fuel0, (forall fuel, runs fuel e lines w w1) /\ forall fuel, fuel0 <= fuel -> exists w' pl r r' equ,
    remaining fuel e (type_word WilliamsonType) y h w1 = w' /\ only w w' (type_word WilliamsonType) y /\ w' (type_word WilliamsonType) y = Some pl /\
    one_per_class n WilliamsonType r /\ lists_quads (pl_seq pl) (pl_qseq pl) r /\
    one_per_class n QuaternionType r' /\ lists_quads (pl_qts pl) (pl_qts_q pl) r' /\ lists_qhms n (pl_qhm pl) r /\
    (if h then one_matrix_per_class n WilliamsonType equ /\ lists_matrices (pl_mat pl) equ else pl_mat pl = pl_mat (place_of w (type_word WilliamsonType) y)).
Proof. exact @mixed_WT. Qed.
Print Assumptions C111_options_wts.
(* the pairings of the jobs of one row sum must agree: join panics unless two pairs were written for every row sum, panics if for no row sum
   they are the pairs of one pairing, and lists only quadruples found on row sums where they are *)
Theorem C111_pairings : forall (L : Type) (e : Env L) n t y, 1 <= n -> (Z.of_nat n < 2 ^ 62)%Z -> t = QuaternionType \/ t = WilliamsonType \/ t = Williamson -> canonical_numeral y n ->
  forall jobs lines w, env_ok e -> Forall2 (mixed_line t y) jobs lines -> (forall j, In j jobs -> feasible n (fst (fst j))) -> pl_dirs (place_of w (type_word t) y) = [] -> jobs <> [] ->
  exists w1, (forall fuel, runs fuel e lines w w1) /\ only w w1 (type_word t) y /\ let w2 := sort_sh (type_word t) y w1 in
    (forall r h mp k fuel, In ((r, h), mp) jobs -> pairs_written jobs r k -> k <> 2 -> run_main fuel e [chars "rust"; chars "join"; type_word t; y] w2 = None) /\
    ((forall r, ~ one_pairing jobs r) -> forall fuel, run_main fuel e [chars "rust"; chars "join"; type_word t; y] w2 = None) /\
    (forall fuel w3, n <= 31 -> t = QuaternionType \/ t = WilliamsonType -> class_fuel n <= fuel -> run_main fuel e [chars "rust"; chars "join"; type_word t; y] w2 = Some w3 ->
      exists r, lists_quads (pl_seq (place_of w3 (type_word t) y)) (pl_qseq (place_of w3 (type_word t) y)) r /\ NoDup r /\
        forall z, In z r -> pm_quad n z /\ is_type t z /\ least (reach (type_ops t) z) z /\ exists q, pm_quad n q /\ is_type t q /\ reach (type_ops t) q z /\ one_pairing jobs (totals q)).
Proof. exact @mixed. Qed.
Print Assumptions C111_pairings.

(* length 3: two row sums with different options; a row sum in two halves of different pairings; a row sum under two pairings *)
Definition two_options : list MixedJob := [((1, 1, 1, 3)%Z, Second, (PSD, WY)); ((1, 1, 3, 1)%Z, Both, (CORRELATION, WX)); ((1, 1, 1, 3)%Z, First, (PSD, WY))].
Definition two_halves : list MixedJob := [((1, 1, 1, 3)%Z, First, (PSD, WX)); ((1, 1, 1, 3)%Z, Second, (PSD, WY))].
Definition two_pairings : list MixedJob := [((1, 1, 1, 3)%Z, Both, (PSD, WX)); ((1, 1, 1, 3)%Z, Both, (PSD, WY))].
Example C111_instance : canonical_numeral (chars "3") 3 /\ env_ok env0 /\ pl_dirs (place_of no_files (chars "qts") (chars "3")) = [] /\ pm_quad 3 w3 /\ is_QT w3 /\ is_WT w3 /\
  complete_jobs 3 (map fst two_options) /\ settled two_options /\ (forall t r, feasible 3 r -> normal_rowsums t r -> done (map fst two_options) r) /\
  (forall jobs, In jobs [two_options; two_halves; two_pairings] -> (forall j, In j jobs -> feasible 3 (fst (fst j))) /\ forall t, exists lines, Forall2 (mixed_line t (chars "3")) jobs lines) /\
  (exists lines w1 v, Forall2 (mixed_line QuaternionType (chars "3")) two_options lines /\ (forall fuel, runs fuel env0 lines no_files w1) /\
    run_main (class_fuel 3) env0 [chars "rust"; chars "join"; chars "qts"; chars "3"] (sort_sh (chars "qts") (chars "3") w1) = Some v) /\
  (forall r, ~ one_pairing two_halves r) /\ pairs_written two_pairings (1, 1, 1, 3)%Z 4.
Proof.
  destruct C82_instance as (N & He & D & _ & Ud & _ & P & A & B & q & Pq & Tq & Dq).
  assert (F : feasible 3 (1, 1, 1, 3)%Z) by (vm_compute; tauto). assert (F' : feasible 3 (1, 1, 3, 1)%Z) by (vm_compute; tauto).
  assert (Sub : forall r, done jobs3 r -> done (map fst two_options) r).
  { intros r [[E|[E|[]]]|[[E|[E|[]]] _]]; try discriminate; injection E as <-; right; cbn; tauto. }
  assert (Cj : complete_jobs 3 (map fst two_options)).
  { intros r h [E|[E|[E|[]]]]; injection E as <- <-; (split; [assumption|]); [right; cbn; tauto|left; cbn; tauto|right; cbn; tauto]. }
  assert (Sj : settled two_options).
  { intros r h o h' o' [E|[E|[E|[]]]] [E'|[E'|[E'|[]]]]; injection E; injection E'; intros; subst; try discriminate; reflexivity. }
  assert (S : forall k, k < 10 -> rowsum_arg [ascii_of_nat (48 + k)] (Z.of_nat k)).
  { intros k Hk. split; [left; left; exact (decimal_digit k Hk)|lia]. }
  assert (Ln : forall t h o, exists args, mixed_line t (chars "3") ((1, 1, 1, 3)%Z, h, o) args).
  { intros t h o. eexists. exists [ascii_of_nat (48 + 1)], [ascii_of_nat (48 + 1)], [ascii_of_nat (48 + 1)], [ascii_of_nat (48 + 3)]. split; [|reflexivity].
    repeat split; try (apply (S 1); lia); try (apply (S 3); lia); lia. }
  assert (Ln' : forall t h o, exists args, mixed_line t (chars "3") ((1, 1, 3, 1)%Z, h, o) args).
  { intros t h o. eexists. exists [ascii_of_nat (48 + 1)], [ascii_of_nat (48 + 1)], [ascii_of_nat (48 + 3)], [ascii_of_nat (48 + 1)]. split; [|reflexivity].
    repeat split; try (apply (S 1); lia); try (apply (S 3); lia); lia. }
  assert (All : forall jobs, In jobs [two_options; two_halves; two_pairings] -> (forall j, In j jobs -> feasible 3 (fst (fst j))) /\ forall t, exists lines, Forall2 (mixed_line t (chars "3")) jobs lines).
  { intros jobs [<-|[<-|[<-|[]]]]; (split; [intros j Ij; cbn in Ij; repeat (destruct Ij as [<-|Ij]; [assumption|]); contradiction|intros t]).
    - destruct (Ln t Second (PSD, WY)) as (a1 & H1). destruct (Ln' t Both (CORRELATION, WX)) as (a2 & H2). destruct (Ln t First (PSD, WY)) as (a3 & H3). exists [a1; a2; a3]. repeat constructor; assumption.
    - destruct (Ln t First (PSD, WX)) as (a1 & H1). destruct (Ln t Second (PSD, WY)) as (a2 & H2). exists [a1; a2]. repeat constructor; assumption.
    - destruct (Ln t Both (PSD, WX)) as (a1 & H1). destruct (Ln t Both (PSD, WY)) as (a2 & H2). exists [a1; a2]. repeat constructor; assumption. }
  split; [exact N|]. split; [exact He|]. split; [exact D|]. split; [exact P|]. split; [exact A|]. split; [exact B|]. split; [exact Cj|]. split; [exact Sj|].
  split; [intros t r Fr Nr; apply Sub, (Ud t); auto|]. split; [exact All|]. split; [|split].
  - destruct (proj2 (All two_options (or_introl eq_refl)) QuaternionType) as (lines & Fl).
    destruct (joins env0 3 (chars "3") two_options lines no_files q N ltac:(lia) He D Cj Sj Fl Pq Tq (Sub _ Dq)) as (w1 & R & J). specialize (J (class_fuel 3) (le_n _)).
    change (type_word QuaternionType) with (chars "qts") in J. destruct (run_main (class_fuel 3) env0 _ _) as [v|] eqn:Ev; [|now elim J]. exists lines, w1, v. auto.
  - intros r (pr & H). assert (X := proj2 (H (match pr with WX => (TY, TZ) | WY => (TW, TY) | WZ => (TW, TZ) end)) ltac:(destruct pr; cbn; tauto)). destruct X as (h & m & pr' & [I|[I|[]]] & K).
    + injection I as <- <- <- <-. destruct pr; cbn in K; destruct K as [K|[]]; discriminate K.
    + injection I as <- <- <- <-. destruct pr; cbn in K; destruct K as [K|[]]; discriminate K.
  - exists [(TW, TX); (TY, TZ); (TW, TY); (TX, TZ)]. split; [repeat constructor; cbn; intuition discriminate|]. split; [|reflexivity]. intros p. split.
    + intros I. cbn in I. destruct I as [<-|[<-|[<-|[<-|[]]]]]; [exists Both, PSD, WX|exists Both, PSD, WX|exists Both, PSD, WY|exists Both, PSD, WY]; cbn; tauto.
    + intros (h & m & pr & [I|[I|[]]] & K); injection I as <- <- <-; cbn in *; tauto.
Qed.
