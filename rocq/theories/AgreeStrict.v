(* The search for Williamson type can list strictly fewer sequences than the search for quaternion type. *)
From Coq Require Import Ascii String List ZArith Lia Arith Bool Permutation Relations.
From Verif Require Import Base BaseFacts SeqFacts Sums Quat ModelSequence ModelWilliamson ModelEquivalence SpecEquiv EquivFacts EquivThms OpFacts TypeFacts OrderFacts CanonFacts QtWt ModelMatrices SpecMatrix SpecPrint QhmFacts
  ModelGraph SpecGraph GraphThms HadEquiv ModelRowsum SpecRowsum ModelMatching ModelWrite WriteFacts FolderFacts ModelMain MainFacts ArgFacts MainThms DriverMain DriverFacts SameResult DebugThms SpecMain ExploreThms AgreeThms SpecAgree SpecOutputs SpecSearch Spec.
Import ListNotations.
Notation length := List.length.
Open Scope nat_scope.

Lemma a4_b4_lt : quad_lt a4 b4.
Proof. unfold quad_lt, flat. cbn [a4 b4 q_a q_b q_c q_d app]. repeat (apply lex_here; lia) || apply lex_later. Qed.
Lemma b4_rep r r' : one_per_class 4 WilliamsonType r' -> one_per_class 4 QuaternionType r -> In b4 r /\ ~ In b4 r'.
Proof.
  intros (_ & A' & _) (_ & A & B). split.
  - assert (T : is_type QuaternionType b4) by (apply (verify_true 4); [exact b4_pm|lia|reflexivity]).
    destruct (B b4 b4_pm T) as (x & Ix & R & _). destruct (A x Ix) as (_ & _ & (_ & Lx)).
    destruct (not_below_least b4 b4_pm b4_least) as (_ & Lb).
    replace b4 with x; auto. apply quad_le_antisym; [apply Lx; apply (reach_sym 4); auto using pm_i8, b4_pm|apply Lb; exact R].
  - intros I. destruct (A' b4 I) as (_ & _ & (_ & Lb)).
    assert (K : quad_le b4 a4) by (apply Lb; apply (reach_sym 4); [apply pm_i8, a4_pm|exact a4_b4]).
    assert (E : a4 = b4) by (apply quad_le_antisym; [right; exact a4_b4_lt|exact K]). discriminate.
Qed.
Lemma shorter {A} (l l' : list A) x : NoDup l' -> incl l' l -> In x l -> ~ In x l' -> length l' < length l.
Proof.
  intros N I Hx Hx'. assert (length (x :: l') <= length l); [|cbn in *; lia]. apply NoDup_incl_length; [now constructor|]. intros y [<-|Hy]; auto.
Qed.

Theorem agree_strict {L L'} (e : Env L) (e' : Env L') c c' pr pr' h h' d d' w w' : env_ok e -> env_ok e' ->
  d = true \/ pl_dirs (place_of w (chars "qts") (chars "4")) = [] -> d' = true \/ pl_dirs (place_of w' (chars "wts") (chars "4")) = [] ->
  exists fuel0, forall fuel fuel', fuel0 <= fuel -> fuel0 <= fuel' -> exists pl pl' q_lines w_lines,
    driver_flags fuel e (chars "qts") (chars "4") c pr h d w (chars "qts") (chars "4") = Some pl /\
    driver_flags fuel' e' (chars "wts") (chars "4") c' pr' h' d' w' (chars "wts") (chars "4") = Some pl' /\
    pl_seq pl = Some q_lines /\ pl_seq pl' = Some w_lines /\ length w_lines < length q_lines.
Proof.
  intros He He' Hd Hd'.
  assert (Hn : 1 <= 4 <= 31) by lia. assert (Hy : canonical_numeral (chars "4") 4) by (split; [exact (decimal_digit 4 ltac:(lia))|right; intros r; discriminate]).
  assert (Hq : exists q, pm_quad 4 q /\ is_QT q) by (exists b4; split; [exact b4_pm|]; exact (proj1 (verify_true 4 b4 QuaternionType b4_pm ltac:(lia)) eq_refl)).
  assert (Hq' : exists q, pm_quad 4 q /\ is_WT q) by (exists b4; split; [exact b4_pm|]; exact (proj1 (verify_true 4 b4 WilliamsonType b4_pm ltac:(lia)) eq_refl)).
  destruct (flags_QT e 4 _ c pr h d w Hn He Hy Hd Hq) as (f & H). destruct (flags_WT e' 4 _ c' pr' h' d' w' Hn He' Hy Hd' Hq') as (f' & H').
  exists (max f f'). intros fuel fuel' F F'.
  destruct (H fuel ltac:(lia)) as (w1 & pl & r & equ & E & _ & W & A & (o & So & Fo & _) & M & Mt & _).
  destruct (H' fuel' ltac:(lia)) as (w1' & pl' & r' & rq & equ' & E' & _ & W' & A' & (o' & So' & Fo' & _) & _).
  exists pl, pl', o, o'. rewrite E, E'. do 4 (split; [assumption|]).
  pose proof (F2_len _ _ _ Fo) as K1. pose proof (F2_len _ _ _ Fo') as K2. unfold text in *. rewrite <- K1, <- K2. destruct (b4_rep r r' A' A) as (I & N).
  apply (shorter r r' b4); auto; [apply A'|apply (reps_WT_QT 4); auto; lia].
Qed.
