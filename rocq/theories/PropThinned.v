(* Property theorem C115: files of pairs that have lost lines. *)
From Coq Require Import Ascii String List ZArith Lia Arith Bool Permutation Relations.
From Verif Require Import Base BaseFacts Sums Quat ModelSequence ModelWilliamson ModelEquivalence SpecEquiv EquivFacts EquivThms ReduceFacts ModelMatrices SpecMatrix ModelGraph ModelRowsum SpecRowsum ModelMatching ModelWrite ModelMain
  ModelScripts SolverFacts MainThms SplitThms PropSequences PropSearch SpecPrint SpecOutputs SpecSearch SpecMain SpecFiles SpecSolver SpecSplit SpecMixed SpecPrinted SpecThinned ThinFacts ThinThms Spec.
Import ListNotations.
Notation length := List.length.
Open Scope nat_scope.

(* the files written by the command pairs, with any lines of the files of pairs removed: nothing panics, and the
   quadruples found are exactly those whose two lines are still there *)
Theorem C115_matches : forall n t m pr ls, 1 <= n -> (Z.of_nat n < 2 ^ 62)%Z -> three_types t -> any_listing ls ->
  exists fuel0, forall fuel, fuel0 <= fuel -> exists f c, write_pairs fuel n t m (Some pr) [] = Some (f, c) /\
    forall f', thinned f f' -> exists r, match_pairs ls t (sortpairs f') = Some r /\
      forall q, In q r <-> pm_quad n q /\ is_type t q /\ normal_rowsums t (totals q) /\ both_lines f' pr q.
Proof. exact thinned_matches. Qed.
Print Assumptions C115_matches.
(* as written, the files have both lines of every quadruple of the type *)
Theorem C115_all_lines : forall n t m pr, 1 <= n -> (Z.of_nat n < 2 ^ 62)%Z -> three_types t ->
  exists fuel0, forall fuel, fuel0 <= fuel -> exists f c, write_pairs fuel n t m (Some pr) [] = Some (f, c) /\
    forall q, pm_quad n q -> is_type t q -> normal_rowsums t (totals q) -> both_lines f pr q.
Proof. exact all_lines. Qed.
Print Assumptions C115_all_lines.
(* the reduction then lists one member of each class that has a quadruple left, and panics only if none has *)
Theorem C115_join : forall n t m pr ls ord, 1 <= n <= 31 -> t = QuaternionType \/ t = WilliamsonType -> any_listing ls -> ord_ok ord ->
  exists fuel0, forall fuel, fuel0 <= fuel -> exists f c, write_pairs fuel n t m (Some pr) [] = Some (f, c) /\
    forall f' path, thinned f f' -> let left q := pm_quad n q /\ is_type t q /\ normal_rowsums t (totals q) /\ both_lines f' pr q in
      ((exists q, left q) -> exists r, join_pairs fuel ord path ls t (sortpairs f') = Some r /\ one_per_class_of left t r) /\
      ((forall q, ~ left q) -> join_pairs fuel ord path ls t (sortpairs f') = None).
Proof. exact thinned_join. Qed.
Print Assumptions C115_join.
(* the scripts sortpairs.sh, join_pairs.sh and convert_qhm.sh on such files *)
Theorem C115_results_qts : forall (L : Type) (e : Env L) n y m pr, canonical_numeral y n -> 1 <= n <= 31 -> env_ok e ->
  exists fuel0, forall fuel, fuel0 <= fuel -> exists f c, write_pairs fuel n QuaternionType m (Some pr) [] = Some (f, c) /\
  forall f' w, thinned f f' -> let left q := pm_quad n q /\ is_QT q /\ normal_rowsums QuaternionType (totals q) /\ both_lines f' pr q in
  (exists q, left q) -> exists w' pl res,
    remaining fuel e (chars "qts") y false (write w (chars "qts") y (set_dirs (place_of w (chars "qts") y) f')) = w' /\
    only w w' (chars "qts") y /\ w' (chars "qts") y = Some pl /\
    one_per_class_of left QuaternionType res /\ lists_quads (pl_seq pl) (pl_qseq pl) res /\ lists_qhms n (pl_qhm pl) res.
Proof. exact @thinned_QT. Qed.
Print Assumptions C115_results_qts.

(* the folder of pairs for length 3 has the lines of q3; two small folders with and without the line that
   matters *)
Definition q3 : QuadSeq := mkQuad 3 [-1; 1; 1]%Z [-1; 1; 1]%Z [-1; 1; 1]%Z [1; 1; 1]%Z.
Definition small (wx yz : Lines) : Folder :=
  [(chars "rowsum_1_1_1_3", [(chars "seq_W.seq", [chars "++-"; chars "-++"]); (chars "seq_X.seq", [chars "-++"]); (chars "seq_Y.seq", [chars "-++"]); (chars "seq_Z.seq", [chars "+++"]);
                             (chars "pair_WX.pair", wx); (chars "pair_YZ.pair", yz)])].
Example C115_instance : pm_quad 3 q3 /\ is_QT q3 /\ normal_rowsums QuaternionType (totals q3) /\
  (exists fuel f c, write_pairs fuel 3 QuaternionType PSD (Some WX) [] = Some (f, c) /\ thinned f f /\ both_lines f WX q3) /\
  let f := small [chars "-8_:_0_0"; chars "-8_:_1_0"] [chars "-8_:_0_0"] in
  let f1 := small [chars "-8_:_1_0"] [chars "-8_:_0_0"] in let f2 := small [chars "-8_:_0_0"] [chars "-8_:_0_0"] in
  thinned f f1 /\ both_lines f1 WX q3 /\ match_pairs ls_id QuaternionType (sortpairs f1) = Some [q3] /\
  thinned f f2 /\ ~ both_lines f2 WX q3 /\ match_pairs ls_id QuaternionType (sortpairs f2) = Some [].
Proof.
  assert (P : pm_quad 3 q3) by (repeat split; auto; repeat (apply Forall_cons; [auto|]); apply Forall_nil).
  assert (T : is_QT q3).
  { apply (WriteFacts.verify_type 3 q3 QuaternionType P ltac:(lia)). vm_compute. reflexivity. }
  assert (N : normal_rowsums QuaternionType (totals q3)) by (cbn; lia).
  split; auto. split; auto. split; auto. split.
  { destruct (C115_all_lines 3 QuaternionType PSD WX ltac:(lia) ltac:(lia) (or_introl eq_refl)) as (f0 & H). destruct (H f0 (le_n _)) as (f & c & E & A).
    exists f0, f, c. split; auto. split; [|now apply A].
    unfold thinned. clear. induction f as [|x f IH]; constructor; auto. split; auto. unfold fewer_lines. induction (snd x); constructor; auto. }
  intros f f1 f2.
  assert (Th : forall wx yz wx', incl wx' wx -> thinned (small wx yz) (small wx' yz)).
  { intros wx yz wx' I. constructor; [|constructor]. split; [reflexivity|]. do 4 (constructor; [split; auto|]).
    constructor; [split; [reflexivity|right; split; [now exists (TW, TX)|exact I]]|]. constructor; [split; auto|constructor]. }
  split; [apply Th; intros x [<-|[]]; right; now left|]. split.
  { eexists _, _. split; [|split; [now left|]].
    { exists (chars "1"), (chars "1"), (chars "1"), (chars "3"). split; [exact (isize_signed 1)|]. split; [exact (isize_signed 1)|]. split; [exact (isize_signed 1)|]. split; [exact (isize_signed 3)|reflexivity]. }
    intros p [<-|[<-|[]]].
    - exists [chars "++-"; chars "-++"], [chars "-++"], [chars "-8_:_1_0"], (chars "-8"), 1, 0, (chars "1"), (chars "0").
      split; [now left|]. split; [right; now left|]. split; [do 4 right; now left|]. split; [reflexivity|]. split; [reflexivity|].
      split; [exact (usize_canonical 1)|]. split; [exact (usize_canonical 0)|]. split; [intros [X|[X|[]]]; discriminate|now left].
    - exists [chars "-++"], [chars "+++"], [chars "-8_:_0_0"], (chars "-8"), 0, 0, (chars "0"), (chars "0").
      split; [right; right; now left|]. split; [do 3 right; now left|]. split; [do 5 right; now left|]. split; [reflexivity|]. split; [reflexivity|].
      split; [exact (usize_canonical 0)|]. split; [exact (usize_canonical 0)|]. split; [intros [X|[X|[]]]; discriminate|now left]. }
  split; [vm_compute; reflexivity|]. split; [apply Th; intros x [<-|[]]; now left|]. split; [|vm_compute; reflexivity].
  intros (name & d & _ & [E|[]] & H). injection E as _ <-. destruct (H (TW, TX) (or_introl eq_refl)) as (la & lb & lines & key & i & j & si & sj & A & _ & C & Ei & _ & Ci & Cj & Nk & I).
  cbn [In fst snd] in A, C. repeat (destruct A as [A|A]; [try discriminate A|]); [|contradiction]. repeat (destruct C as [C|C]; [try discriminate C|]); [|contradiction].
  injection A as <-. injection C as <-. destruct I as [I|[]]. apply numeral_string in Ci, Cj. subst si sj.
  assert (X := line_read key i j). unfold lit in X. unfold chars in I. rewrite <- I in X.
  assert (Y : i = 0).
  { assert (Z : Some (chars "-8", (0, 0)) = Some (key, (i, j))); [|now injection Z]. rewrite <- X; [reflexivity|].
    apply Forall_forall. intros c Hc ->. now apply Nk. }
  subst i. discriminate Ei.
Qed.
