(* Property theorems C97: searches of one length agree with each other. *)
From Coq Require Import Ascii String List ZArith Lia Arith Bool Permutation Relations.
From Verif Require Import Base ModelSequence ModelWilliamson ModelEquivalence SpecEquiv SpecPrint ModelMatrices SpecGraph ModelMatching ModelWrite ModelMain AgreeThms PropSequences PropSearch PropMain SpecMain SpecAgree SpecSearch Spec.
Import ListNotations.
Open Scope nat_scope.

(* C97: result.seq of qts and result-qts.seq of wts have the same lines; result.seq of wts is a part of them; the matrices match *)
Theorem C97_qts_wts : forall (L L' : Type) (e : Env L) (e' : Env L') n y c c' pr pr' h h' d d' w w', 1 <= n <= 31 -> env_ok e -> env_ok e' -> canonical_numeral y n ->
  d = true \/ pl_dirs (place_of w (chars "qts") y) = [] -> d' = true \/ pl_dirs (place_of w' (chars "wts") y) = [] -> (exists q, pm_quad n q /\ is_QT q) ->
  exists fuel0, forall fuel fuel', fuel0 <= fuel -> fuel0 <= fuel' -> exists pl pl' q_lines w_lines wq_lines,
    driver_flags fuel e (chars "qts") y c pr h d w (chars "qts") y = Some pl /\ driver_flags fuel' e' (chars "wts") y c' pr' h' d' w' (chars "wts") y = Some pl' /\
    pl_seq pl = Some q_lines /\ pl_seq pl' = Some w_lines /\ pl_qts pl' = Some wq_lines /\
    Permutation q_lines wq_lines /\ NoDup q_lines /\ NoDup w_lines /\ incl w_lines q_lines /\
    (h = true -> h' = true -> same_matrices (4 * n) (pl_mat pl) (pl_mat pl')).
Proof. exact @agree_QT_WT. Qed.
Print Assumptions C97_qts_wts.
(* result.seq of ws is a part of result.seq of wts *)
Theorem C97_ws_wts : forall (L L' : Type) (e : Env L) (e' : Env L') n y c c' pr pr' h h' d d' w w', 1 <= n <= 31 -> env_ok e -> env_ok e' -> canonical_numeral y n ->
  d = true \/ pl_dirs (place_of w (chars "ws") y) = [] -> d' = true \/ pl_dirs (place_of w' (chars "wts") y) = [] -> (exists q, pm_quad n q /\ is_W q) ->
  exists fuel0, forall fuel fuel', fuel0 <= fuel -> fuel0 <= fuel' -> exists pl pl' s_lines w_lines,
    driver_flags fuel e (chars "ws") y c pr h d w (chars "ws") y = Some pl /\ driver_flags fuel' e' (chars "wts") y c' pr' h' d' w' (chars "wts") y = Some pl' /\
    pl_seq pl = Some s_lines /\ pl_seq pl' = Some w_lines /\ NoDup s_lines /\ incl s_lines w_lines.
Proof. exact @agree_W_WT. Qed.
Print Assumptions C97_ws_wts.
(* two searches for one type, with any options, trees and environments *)
Theorem C97_same_search : forall (L L' : Type) (e : Env L) (e' : Env L') n t y c c' pr pr' h h' d d' w w', 1 <= n <= 31 -> three_types t -> env_ok e -> env_ok e' -> canonical_numeral y n ->
  d = true \/ pl_dirs (place_of w (type_word t) y) = [] -> d' = true \/ pl_dirs (place_of w' (type_word t) y) = [] -> (exists q, pm_quad n q /\ is_type t q) ->
  exists fuel0, forall fuel fuel', fuel0 <= fuel -> fuel0 <= fuel' -> exists pl pl' lines lines',
    driver_flags fuel e (type_word t) y c pr h d w (type_word t) y = Some pl /\ driver_flags fuel' e' (type_word t) y c' pr' h' d' w' (type_word t) y = Some pl' /\
    pl_seq pl = Some lines /\ pl_seq pl' = Some lines' /\ Permutation lines lines' /\ NoDup lines /\
    (t = WilliamsonType -> exists q_lines q_lines', pl_qts pl = Some q_lines /\ pl_qts pl' = Some q_lines' /\ Permutation q_lines q_lines' /\ NoDup q_lines) /\
    (h = true -> h' = true -> t <> Williamson -> same_matrices (4 * n) (pl_mat pl) (pl_mat pl')).
Proof. exact @agree_runs. Qed.
Print Assumptions C97_same_search.
(* the operations of quaternion type never leave a class of Williamson type *)
Theorem C97_classes_nested : forall x y, 1 <= q_size x -> reach (type_ops QuaternionType) x y -> reach (type_ops WilliamsonType) x y.
Proof. exact ops_QT_WT. Qed.
Print Assumptions C97_classes_nested.
(* the hypotheses *)
Example C97_instance : canonical_numeral (chars "3") 3 /\ env_ok env0 /\ pl_dirs (place_of no_files (chars "qts") (chars "3")) = [] /\
  pl_dirs (place_of no_files (chars "wts") (chars "3")) = [] /\ pl_dirs (place_of no_files (chars "ws") (chars "3")) = [] /\
  (exists q, pm_quad 3 q /\ is_QT q) /\ (exists q, pm_quad 3 q /\ is_W q) /\ 1 <= q_size w3.
Proof. destruct C72_instance as (He & N & D & P & A & B & C & _). repeat (split; [first [assumption|reflexivity|now exists w3]|]). cbn. lia. Qed.
