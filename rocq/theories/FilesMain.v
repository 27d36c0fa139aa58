(* What each command writes. *)
From Coq Require Import Ascii String List ZArith Lia Arith Bool Permutation Relations.
From Verif Require Import Base BaseFacts Sums Quat ModelSequence ModelWilliamson ModelEquivalence SpecEquiv ModelMatrices ModelGraph
  ModelRowsum RowsumFacts SpecRowsum ModelMatching ModelWrite TextFacts WriteFacts ModelMain SpecMain MainFacts ArgFacts MainThms DriverMain SpecPrint SpecSearch SpecOutputs Spec.
Import ListNotations.
Open Scope nat_scope.
Notation length := List.length.

Lemma decimal_usize z : (0 <= z)%Z -> decimal (usize_to_string z) z.
Proof. intros H. apply parse_digits_iff; [apply usize_nonempty|now apply parse_usize_digits]. Qed.
Lemma signed_isize z : signed (isize_to_string z) z.
Proof.
  unfold isize_to_string. destruct (Z.ltb_spec z 0) as [H|H]; [|left; left; now apply decimal_usize].
  right. exists (usize_to_string (- z)), (- z)%Z. split; auto. split; [apply decimal_usize; lia|lia].
Qed.
Lemma quad_line q : rowsum_line q (quad_to_string q).
Proof.
  destruct q as [[[a b] c] d]. unfold rowsum_line, quad_to_string.
  exists (isize_to_string a), (isize_to_string b), (isize_to_string c), (isize_to_string d). repeat split; try apply signed_isize.
Qed.

Lemma find_keeps fuel ord p ls i t pl pl1 : find_write_place fuel ord p ls i t pl = Some pl1 ->
  forall x, ~ In x (outputs (Join t (Z.of_nat i))) -> same_file x pl pl1.
Proof.
  unfold find_write_place. intros E. apply bind_some in E as (r & _ & E). apply bind_some in E as (am & _ & E). apply bind_some in E as (o & _ & E). apply bind_some in E as (q & _ & E).
  destruct t; try (injection E as <-; intros x Hx; destruct x; cbn in Hx |- *; intuition congruence).
  apply bind_some in E as (l & _ & E). apply bind_some in E as (r' & _ & E). apply bind_some in E as (o' & _ & E). apply bind_some in E as (q' & _ & E). injection E as <-.
  intros x Hx; destruct x; cbn in Hx |- *; intuition congruence.
Qed.
Lemma place_write w x y pl : place_of (write w x y pl) x y = pl.
Proof. unfold place_of. now rewrite write_same. Qed.
Lemma place_some (w : World) x y pl : w x y = Some pl -> place_of w x y = pl.
Proof. unfold place_of. now intros ->. Qed.
Lemma same_refl x pl : same_file x pl pl. Proof. now destruct x. Qed.
Theorem exec_outputs {L} fuel (e : Env L) c w w' t p : exec fuel e c w = Some w' -> target c = Some (t, p) ->
  forall x, ~ In x (outputs c) -> same_file x (place_of w (type_word t) (usize_to_string p)) (place_of w' (type_word t) (usize_to_string p)).
Proof.
  intros E T x Hx. destruct c; cbn [target] in T; try discriminate; injection T as <- <-; cbn [exec] in E; rewrite ?type_word_string in E.
  - apply bind_some in E as (pl & Hw & E). apply bind_some in E as (l & _ & E). apply bind_some in E as (s & _ & E). injection E as <-.
    rewrite place_write, (place_some _ _ _ _ Hw). destruct x; cbn in Hx |- *; intuition congruence.
  - apply bind_some in E as (pl & Hw & E). apply bind_some in E as (l & _ & E). apply bind_some in E as (u & _ & E). injection E as <-. apply same_refl.
  - apply bind_some in E as (pl & Hw & E). apply bind_some in E as (l & _ & E). injection E as <-.
    rewrite place_write, (place_some _ _ _ _ Hw). destruct x; cbn in Hx |- *; intuition congruence.
  - apply bind_some in E as (pl & Hw & E). apply bind_some in E as (pl1 & Ef & E). injection E as <-.
    rewrite place_write, (place_some _ _ _ _ Hw). apply (find_keeps _ _ _ _ _ _ _ _ Ef). destruct t0; exact Hx.
  - apply bind_some in E as (pl & Hw & E). apply bind_some in E as (l & _ & E). apply bind_some in E as ([k s] & _ & E). injection E as <-.
    rewrite place_write, (place_some _ _ _ _ Hw). destruct x; cbn in Hx |- *; intuition congruence.
  - destruct (w _ _) as [pl|] eqn:Hw; [|injection E as <-; apply same_refl]. destruct (pl_seq pl); [|injection E as <-; apply same_refl].
    apply bind_some in E as ([k s] & _ & E). injection E as <-.
    rewrite place_write, (place_some _ _ _ _ Hw). destruct x; cbn in Hx |- *; intuition congruence.
  - apply bind_some in E as ([f k] & _ & E). destruct f; injection E as <-; [apply same_refl|].
    rewrite place_write. destruct x; cbn in Hx |- *; intuition congruence.
  - apply bind_some in E as ([f k] & _ & E). injection E as <-. rewrite place_write. destruct x; cbn in Hx |- *; intuition congruence.
  - apply bind_some in E as (f & _ & E). injection E as <-. rewrite place_write. destruct x; cbn in Hx |- *; intuition congruence.
  - apply bind_some in E as (f & _ & E). injection E as <-. rewrite place_write. destruct x; cbn in Hx |- *; intuition congruence.
Qed.
Theorem run_outputs {L} fuel (e : Env L) args c w w' t p : command_line args c -> run_main fuel e args w = Some w' -> target c = Some (t, p) ->
  forall x, ~ In x (outputs c) -> same_file x (place_of w (type_word t) (usize_to_string p)) (place_of w' (type_word t) (usize_to_string p)).
Proof. intros H E. apply parse_args_iff in H. unfold run_main in E. rewrite H in E. now apply exec_outputs with (1 := E). Qed.

(* rowsums *)
Theorem run_rowsums {L} (e : Env L) n t y pl w : 1 <= n -> (Z.of_nat n < 2 ^ 64)%Z -> canonical_numeral y n -> w (type_word t) y = Some pl ->
  exists fuel0, forall fuel, fuel0 <= fuel -> exists w' pl' rs lines,
    run_main fuel e [chars "rust"; chars "rowsums"; type_word t; y] w = Some w' /\ w' (type_word t) y = Some pl' /\
    pl_quad pl' = Some lines /\ Forall2 rowsum_line rs lines /\ NoDup rs /\ (forall r, In r rs <-> feasible n r /\ normal_rowsums t r).
Proof.
  intros Hn H64 Hy Hw. destruct (generate_rowsums_spec n t) as (f0 & G). exists f0. intros fuel Hf. destruct (G fuel Hf) as (l & El & Nd & Hl).
  assert (C : command_line [chars "rust"; chars "rowsums"; type_word t; y] (Rowsums t (Z.of_nat n))) by (apply cl_rowsums; now apply numeral_length_arg).
  apply parse_args_iff in C. eexists _, _, l, (map quad_to_string l). split; [|split; [|split; [|split; [|split; [exact Nd|exact Hl]]]]].
  - unfold run_main. rewrite C. cbn [bind exec]. rewrite type_word_string, <- (numeral_string y n Hy). rewrite Hw. cbn [bind]. rewrite Nat2Z.id.
    unfold write_rowsums. rewrite El. reflexivity.
  - apply write_same.
  - reflexivity.
  - clear. induction l; constructor; auto. apply quad_line.
Qed.
(* without the directory the command panics *)
Theorem run_rowsums_panics {L} fuel (e : Env L) n t y w : (Z.of_nat n < 2 ^ 64)%Z -> canonical_numeral y n -> w (type_word t) y = None ->
  run_main fuel e [chars "rust"; chars "rowsums"; type_word t; y] w = None.
Proof.
  intros H64 Hy Hw. assert (C : command_line [chars "rust"; chars "rowsums"; type_word t; y] (Rowsums t (Z.of_nat n))) by (apply cl_rowsums; now apply numeral_length_arg).
  apply parse_args_iff in C. unfold run_main. rewrite C. cbn [bind exec]. now rewrite type_word_string, <- (numeral_string y n Hy), Hw.
Qed.
(* qhm-all *)
Theorem run_qhm_all {L} (e : Env L) n t y pl w r lines : 1 <= n <= 100 -> env_ok e -> canonical_numeral y n -> w (type_word t) y = Some pl ->
  pl_seq pl = Some lines -> Forall (fun q => pm_quad n q /\ is_type t q) r -> Forall2 line_of_quad r lines ->
  exists fuel0, forall fuel, fuel0 <= fuel -> exists w' pl' members ds txts,
    run_main fuel e [chars "rust"; chars "qhm-all"; type_word t; y] w = Some w' /\ w' (type_word t) y = Some pl' /\
    NoDup members /\ (forall y, In y members <-> exists x, In x r /\ reach (type_ops t) x y) /\
    Forall2 (normal_qhm n) members ds /\ Forall2 (fun d s => QHM_to_string d = Some s) ds txts /\
    pl_all pl' = Some (stacked (map (fun s => s ++ [newline]) txts)).
Proof.
  intros Hn (Ho & _) Hy Hw Hs P F. destruct (qhm_all_spec n (e_ord e) t r lines Hn Ho P F) as (f0 & H). exists f0. intros fuel Hf.
  destruct (H fuel (e_path e) Hf) as (members & ds & txts & A & B & C & D & E).
  assert (H64 : (Z.of_nat n < 2 ^ 64)%Z) by (assert (Z.of_nat n <= 100)%Z by lia; assert (2 ^ 64 = 18446744073709551616)%Z by reflexivity; lia).
  assert (K : command_line [chars "rust"; chars "qhm-all"; type_word t; y] (QhmAll t (Z.of_nat n))) by (apply cl_qhm_all; now apply numeral_length_arg).
  apply parse_args_iff in K. eexists _, _, members, ds, txts. split; [|split; [|split; [exact A|split; [exact B|split; [exact C|split; [exact D|]]]]]].
  - unfold run_main. rewrite K. cbn [bind exec]. rewrite type_word_string, <- (numeral_string y n Hy). rewrite Hw. cbn [bind]. rewrite Hs. cbn [bind].
    rewrite E. reflexivity.
  - apply write_same.
  - reflexivity.
Qed.
