(* Property theorem C116: files of pairs that have been cut. *)
From Coq Require Import Ascii String List ZArith Lia Arith Bool Permutation Relations.
From Verif Require Import Base BaseFacts Sums Quat ModelSequence ModelWilliamson ModelEquivalence SpecEquiv EquivFacts EquivThms ReduceFacts ModelMatrices SpecMatrix ModelGraph ModelRowsum SpecRowsum ModelMatching ModelWrite ModelMain
  ModelScripts SolverFacts MainThms SplitThms PropSequences PropSearch SpecPrint SpecOutputs SpecSearch SpecMain SpecFiles SpecSolver SpecSplit SpecMixed SpecPrinted SpecThinned ThinFacts ThinThms PropThinned SpecCut CutFacts CutThms Spec.
Import ListNotations.
Notation length := List.length.
Open Scope nat_scope.

(* a file of lines that ends after any number of bytes: its lines are beginnings of lines that were written, and all but
   the last are whole *)
Theorem C116_truncated : forall (l l' : Lines) (bytes lost : list ascii), Forall (fun x => ~ In newline x) l -> text_lines bytes l' -> stacked l = bytes ++ lost ->
  cut_lines l l' /\ incl (removelast l') l.
Proof. exact truncated_lines. Qed.
Print Assumptions C116_truncated.
(* the command join on cut files panics or finds only quadruples of the type, and all those whose two lines are whole *)
Theorem C116_matches : forall n t m pr ls, 1 <= n -> (Z.of_nat n < 2 ^ 62)%Z -> three_types t -> any_listing ls ->
  exists fuel0, forall fuel, fuel0 <= fuel -> exists f c, write_pairs fuel n t m (Some pr) [] = Some (f, c) /\
    forall f' r, cut f f' -> match_pairs ls t (sortpairs f') = Some r ->
      (forall q, In q r -> pm_quad n q /\ is_type t q /\ normal_rowsums t (totals q)) /\
      (forall q, pm_quad n q -> is_type t q -> both_whole f f' pr q -> In q r).
Proof. exact cut_matches. Qed.
Print Assumptions C116_matches.
Theorem C116_join : forall n t m pr ls ord, 1 <= n <= 31 -> t = QuaternionType \/ t = WilliamsonType -> any_listing ls -> ord_ok ord ->
  exists fuel0, forall fuel, fuel0 <= fuel -> exists f c, write_pairs fuel n t m (Some pr) [] = Some (f, c) /\
    forall f' path r, cut f f' -> join_pairs fuel ord path ls t (sortpairs f') = Some r ->
      NoDup r /\ r <> [] /\ (forall x, In x r -> pm_quad n x /\ is_type t x /\ least (reach (type_ops t) x) x) /\
      (forall q, pm_quad n q -> is_type t q -> both_whole f f' pr q -> exists x, In x r /\ reach (type_ops t) q x /\ forall x', In x' r -> reach (type_ops t) q x' -> x' = x).
Proof. exact cut_join. Qed.
Print Assumptions C116_join.

(* a file cut in a number names another pair, and may give a quadruple of the type; cut before the number, join panics;
   a file cut after a whole line *)
Definition wide (wx yz : Lines) : Folder :=
  [(chars "rowsum_1_1_1_3", [(chars "seq_W.seq", [chars "-++"]);
     (chars "seq_X.seq", [chars "++-"; chars "-++"; chars "+-+"; chars "+-+"; chars "+-+"; chars "+-+"; chars "+-+"; chars "+-+"; chars "+-+"; chars "+-+"; chars "+-+"]);
     (chars "seq_Y.seq", [chars "-++"]); (chars "seq_Z.seq", [chars "+++"]); (chars "pair_WX.pair", wx); (chars "pair_YZ.pair", yz)])].
Definition written : Lines := [chars "-8_:_0_1"; chars "-8_:_0_10"].
Example C116_instance :
  let f := wide written [chars "-8_:_0_0"] in
  let f1 := wide [chars "-8_:_0_1"; chars "-8_:_0_"] [chars "-8_:_0_0"] in
  let f2 := wide [chars "-8_:_0_1"; chars "-8_:_0_1"] [chars "-8_:_0_0"] in
  text_lines (chars "-8_:_0_1" ++ newline :: chars "-8_:_0_") [chars "-8_:_0_1"; chars "-8_:_0_"] /\
  stacked written = (chars "-8_:_0_1" ++ newline :: chars "-8_:_0_") ++ chars "10" ++ [newline] /\
  cut f f1 /\ match_pairs ls_id QuaternionType (sortpairs f1) = None /\
  cut f f2 /\ match_pairs ls_id QuaternionType (sortpairs f2) = Some [q3; q3] /\ both_whole f f2 WX q3.
Proof.
  intros f f1 f2.
  assert (C : forall wx, cut_lines written wx -> cut f (wide wx [chars "-8_:_0_0"])).
  { intros wx I. constructor; [|constructor]. split; [reflexivity|]. do 4 (constructor; [split; auto|]).
    constructor; [split; [reflexivity|right; split; [now exists (TW, TX)|exact I]]|]. constructor; [split; auto|constructor]. }
  split.
  { split; [repeat (apply Forall_cons; [cbn; intuition discriminate|]); apply Forall_nil|]. right. exists [chars "-8_:_0_1"], (chars "-8_:_0_"). split; [discriminate|]. split; reflexivity. }
  split; [reflexivity|]. split.
  { apply C. intros x [<-|[<-|[]]]; [exists (chars "-8_:_0_1"), []|exists (chars "-8_:_0_10"), (chars "10")]; (split; [cbn; tauto|reflexivity]). }
  split; [vm_compute; reflexivity|]. split.
  { apply C. intros x [<-|[<-|[]]]; [exists (chars "-8_:_0_1"), []|exists (chars "-8_:_0_10"), (chars "0")]; (split; [cbn; tauto|reflexivity]). }
  split; [vm_compute; reflexivity|].
  eexists _, _, _. split; [|split; [now left|split; [now left|]]].
  { exists (chars "1"), (chars "1"), (chars "1"), (chars "3"). split; [exact (isize_signed 1)|]. split; [exact (isize_signed 1)|]. split; [exact (isize_signed 1)|]. split; [exact (isize_signed 3)|reflexivity]. }
  intros p [<-|[<-|[]]].
  - do 4 eexists. exists (chars "-8"), 0, 1, (chars "0"), (chars "1").
    split; [now left|]. split; [right; now left|]. split; [do 4 right; now left|]. split; [do 4 right; now left|]. split; [reflexivity|]. split; [reflexivity|].
    split; [exact (usize_canonical 0)|]. split; [exact (usize_canonical 1)|]. split; [intros [X|[X|[]]]; discriminate|split; now left].
  - do 4 eexists. exists (chars "-8"), 0, 0, (chars "0"), (chars "0").
    split; [right; right; now left|]. split; [do 3 right; now left|]. split; [do 5 right; now left|]. split; [do 5 right; now left|]. split; [reflexivity|]. split; [reflexivity|].
    split; [exact (usize_canonical 0)|]. split; [exact (usize_canonical 0)|]. split; [intros [X|[X|[]]]; discriminate|split; now left].
Qed.
