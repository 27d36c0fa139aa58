(* Independent specification of the scripts run one by one, and of repeated runs. *)
From Coq Require Import Ascii String List ZArith Bool Arith Permutation.
From Verif Require Import Base Quat ModelSequence ModelWilliamson ModelEquivalence ModelRowsum ModelMatching ModelWrite ModelMain ModelLog ModelScripts SpecMain.
Import ListNotations.
Open Scope nat_scope.

Definition watch_ok (st : Watch) : Prop := (0 <= tm_gen st)%Z /\ (0 <= tm_join st)%Z.
(* pairs.sh, sortpairs.sh, join_pairs.sh, convert_hm.sh (optional) and convert_qhm.sh *)
Definition one_by_one {L} (ck : Clock) (st : Watch) (fuel : nat) (e : Env L) (x y : list ascii) (c : bool) (pr : option (list ascii)) (h d : bool)
    (w : World) (log : option Lines) : World * option Lines :=
  let '(w, log) := pairs_sh_log ck st fuel e x y c pr d w log in
  let '(w, log) := sort_sh_log ck x y w log in
  let '(w, log) := join_sh_log ck st fuel e x y w log in
  let '(w, log) := if h then hm_sh_log ck fuel e x y w log else (w, log) in
  qhm_sh_log ck fuel e x y w log.
Definition same_tree (w w' : World) : Prop := forall x y, w' x y = w x y.
(* every file of p, the directories included, is in p' with the same contents *)
Definition kept {A} (a b : option A) : Prop := forall v, a = Some v -> b = Some v.
Definition files_of (p p' : Place) : Prop :=
  pl_dirs p = pl_dirs p' /\ kept (pl_quad p) (pl_quad p') /\ kept (pl_seq p) (pl_seq p') /\ kept (pl_qseq p) (pl_qseq p') /\
  kept (pl_qts p) (pl_qts p') /\ kept (pl_qts_q p) (pl_qts_q p') /\ kept (pl_mat p) (pl_mat p') /\ kept (pl_qhm p) (pl_qhm p') /\ kept (pl_all p) (pl_all p').
