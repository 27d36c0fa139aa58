(* Property theorems C112 and C113: the text printed by the commands pairs and join. *)
From Coq Require Import Ascii String List ZArith Lia Arith Bool Permutation Sorting.Sorted.
From Verif Require Import Base ModelSequence ModelWilliamson ModelEquivalence ModelGraph ModelRowsum SpecRowsum ModelMatching ModelWrite ModelMain ModelLog SpecPrint SolverFacts LogText Published
  PrintedFacts PrintedJoin SpecSearch SpecMain SpecLog SpecSolver SpecSplit SpecMixed SpecPrinted Spec.
Import ListNotations.
Notation length := List.length.
Open Scope nat_scope.

(* every line of the command pairs *)
Theorem C112_pairs_text : forall (L : Type) ck (e : Env L) n t y m r pr w, clock_ok ck -> 1 <= n -> (Z.of_nat n < 2 ^ 62)%Z -> three_types t -> canonical_numeral y n -> pairing_arg r pr ->
  pl_dirs (place_of w (type_word t) y) = [] ->
  exists fuel0, forall fuel, fuel0 <= fuel -> exists w' lines, run_log ck fuel e [chars "pairs"; type_word t; y; match_word m; r] w = (w', lines, []) /\
    run_main fuel e [chars "rust"; chars "pairs"; type_word t; y; match_word m; r] w = Some w' /\
    pairs_lines ck n t (match pr with Some p => p | None => WZ end) (pl_dirs (place_of w' (type_word t) y)) lines.
Proof. exact @pairs_printed. Qed.
Print Assumptions C112_pairs_text.
Definition three_1 : list (list Z) := [[1; 1; -1]; [1; -1; 1]; [-1; 1; 1]]%Z.
Example C112_instance : clock_ok ck_3 /\ three_types WilliamsonType /\ canonical_numeral (chars "3") 3 /\ pairing_arg (chars "WX") (Some WX) /\ pairing_arg (chars "XW") None /\
  pl_dirs (place_of (fun _ _ => None) (chars "wts") (chars "3")) = [] /\
  found_line 3 WilliamsonType 1 (chars "Found 3 sequences with rowsum 1") /\ sums_text (1, 1, -3, 5)%Z (chars "(1, 1, -3, 5)") /\ time_text 66996 (chars "669.96").
Proof.
  split; [unfold clock_ok; do 10 (split; [cbn; intros; lia|]); cbn; intros rs tags s [E|E]; discriminate|]. split; [right; now left|]. split; [exact (usize_canonical 3)|]. split; [reflexivity|].
  split; [intros []; discriminate|]. split; [reflexivity|]. split; [|split; [exact (quad_sums (1, 1, -3, 5)%Z)|exact (seconds_time 66996 ltac:(lia))]].
  exists 3, (chars "3"), (chars "1"). split; [|split; [exact (usize_canonical 3)|split; [exact (isize_signed 1)|reflexivity]]].
  exists three_1. split; [repeat constructor; cbn; intuition discriminate|]. split; [|reflexivity]. intros s. split.
  - intros [<-|[<-|[<-|[]]]]; (split; [reflexivity|]; split; [repeat constructor; auto|]; split; [reflexivity|discriminate]).
  - intros (Ls & P & T & _). destruct s as [|a [|b [|c [|]]]]; try discriminate. inversion P as [|? ? Ha P1]; subst. inversion P1 as [|? ? Hb P2]; subst. inversion P2 as [|? ? Hc _]; subst.
    destruct Ha as [->| ->], Hb as [->| ->], Hc as [->| ->]; cbn in T; try discriminate; cbn; auto.
Qed.

(* the text of the command join *)
Theorem C113_join_text : forall (L : Type) ck (e : Env L) fuel n t y w w', clock_ok ck -> 1 <= n -> (Z.of_nat n < 2 ^ 64)%Z -> canonical_numeral y n ->
  run_main fuel e [chars "rust"; chars "join"; type_word t; y] w = Some w' ->
  exists lines s, run_log ck fuel e [chars "join"; type_word t; y] w = (w', lines, s) /\
    join_text ck (e_ls e) n t (pl_dirs (place_of w (type_word t) y)) (place_of w' (type_word t) y) (stacked lines ++ s).
Proof. exact @join_printed. Qed.
Print Assumptions C113_join_text.
(* the pair files of the published run of length 3 *)
Definition left_3 : list (list ascii) := map chars ["4_:_0_0"; "4_:_1_0"; "4_:_2_0"]%string.
Definition right_3 : list (list ascii) := map chars ["4_:_0_0"; "4_:_1_1"; "4_:_2_2"]%string.
Definition world_3 : World :=
  fun x y => match dir_of 3 (1, 1, 1, 3)%Z left_3 right_3 with
             | Some d => if text_eqb x (chars "wts") && text_eqb y (chars "3") then Some (set_dirs new_place (sortpairs [d])) else None
             | None => None
             end.
Example C113_instance : (exists w', run_main 60 env_id (map chars ["rust"; "join"; "wts"; "3"]%string) world_3 = Some w' /\ pl_seq (place_of w' (chars "wts") (chars "3")) = Some [chars "++Q"]) /\
  ordered left_3 /\ ordered right_3 /\ separate_keys (left_3 ++ right_3) /\ same_keys left_3 right_3 = 9 /\ ~ matches left_3 right_3 8 /\ ~ matches left_3 right_3 10 /\
  same_keys (map chars ["4_:_0_0"; "4_1_:_1_0"]%string) (map chars ["4_:_0_0"; "5_:_0_0"]%string) = 1.
Proof.
  assert (O : ordered left_3 /\ ordered right_3).
  { assert (P : forall i j, pair_text (chars "4" ++ chars "_:_" ++ usize_to_string (Z.of_nat i) ++ chars "_" ++ usize_to_string (Z.of_nat j))).
    { intros i j. exists (chars "4"), i, j, (usize_to_string (Z.of_nat i)), (usize_to_string (Z.of_nat j)). split; [intros [H|[]]; discriminate|]. split; [apply usize_canonical|]. split; [apply usize_canonical|reflexivity]. }
    split; (split; [repeat constructor|]).
    - constructor; [exact (P 0 0)|]. constructor; [exact (P 1 0)|]. constructor; [exact (P 2 0)|constructor].
    - constructor; [exact (P 0 0)|]. constructor; [exact (P 1 1)|]. constructor; [exact (P 2 2)|constructor]. }
  destruct O as [O1 O2].
  assert (S : separate_keys (left_3 ++ right_3)).
  { intros a b r Ia Ib E. assert (K : forall x, In x (left_3 ++ right_3) -> key_text x = chars "4") by (intros x Ix; repeat (destruct Ix as [<-|Ix]; [reflexivity|]); destruct Ix).
    rewrite (K a Ia), (K b Ib) in E. injection E as E. now symmetry. }
  assert (N : same_keys left_3 right_3 = 9) by reflexivity.
  split; [|split; [exact O1|split; [exact O2|split; [exact S|split; [exact N|split; [|split; [|reflexivity]]]]]]].
  - assert (G : match run_main 60 env_id (map chars ["rust"; "join"; "wts"; "3"]%string) world_3 with Some w' => pl_seq (place_of w' (chars "wts") (chars "3")) | None => None end = Some [chars "++Q"]) by (vm_compute; reflexivity).
    destruct (run_main 60 env_id _ world_3) as [w'|]; [exists w'; auto|discriminate].
  - intros [_ H]. specialize (H O1 O2 S). rewrite N in H. discriminate.
  - intros [H _]. rewrite N in H. lia.
Qed.
