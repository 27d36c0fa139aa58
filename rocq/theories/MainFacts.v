(* The commands of main.rs on single files. *)
From Coq Require Import Ascii String List ZArith Lia Arith Bool Reals Permutation Relations QArith Qcanon.
From Verif Require Import Base BaseFacts Sums Quat QuatFacts FindFacts ModelSequence SeqFacts ModelWilliamson ModelEquivalence SpecEquiv OpFacts EquivFacts TypeFacts
  OrderFacts EquivThms CanonFacts ReduceFacts Convert ModelMatrices SpecMatrix SpecPrint MatFacts QhmFacts PrintFacts HmFacts ModelGraph SpecGraph GraphThms HadEquiv
  ModelRowsum ModelMatching ModelWrite TextFacts WriteFacts SearchThms ExtendFacts FindQuadFacts DriverFacts ModelMain SpecMain SpecSearch Spec.
Import ListNotations.
Open Scope nat_scope.
Notation length := List.length.

(* ---- reading back lines ---- *)
Lemma line_reads n q line : pm_quad n q -> line_of_quad q line ->
  exists s, to_qs q = Some s /\ QS_from_str line = Some s /\ from_pqs s = Some q /\ qs_size s = n /\ length (qs_values s) = n /\
    Forall (fun p => In p Q24) (qs_values s).
Proof.
  intros Hq (s & Es & El). exists s. split; auto. destruct (from_pqs_to_qs n q Hq) as (s' & Es' & Ep). rewrite Es in Es'. apply Some_inj' in Es'. subst s'.
  rewrite (to_qs_spec n q Hq) in Es. apply Some_inj' in Es. 
  assert (F : forall p, In p (qs_values s) -> In p Q24).
  { subst s. cbn [qs_values]. intros p Hp. apply in_map_iff in Hp as (i & <- & Hi).
    destruct QPLUS_ok as (_ & Hi24 & _). apply Hi24, quad_quat_QPLUS. apply in_seq in Hi. apply (quad_at_pm n); auto. lia. }
  destruct (from_str_to_string s F) as (txt & Et & Er). rewrite El in Et. apply Some_inj' in Et. subst txt.
  assert (L : length (qs_values s) = n) by (subst s; cbn [qs_values]; now rewrite map_length, seq_length).
  rewrite L in Er. split; [|split; [auto|split; [now subst s|split; auto]]].
  - rewrite Er. now subst s.
  - now apply Forall_forall.
Qed.

(* ---- the text of a quadruple ---- *)
Lemma element_sign x : x = 1%Z \/ x = (-1)%Z -> element_to_string x = Some (sign_char x).
Proof. intros [-> | ->]; reflexivity. Qed.
Lemma seq_signs n s : length s = n -> pm1 s ->
  traverse (fun i => let* x := vget s i in element_to_string x) (range 0 n) = Some (map sign_char s).
Proof.
  intros L P. replace (map sign_char s) with (map (fun i => sign_char (nth i s 0%Z)) (seq 0 n))
    by (rewrite <- L, <- (map_map (fun i => nth i s 0%Z) sign_char), map_nth_seq; reflexivity).
  unfold range. rewrite Nat.sub_0_r.
  apply traverse_map. intros i Hi. apply in_seq in Hi. rewrite (vget_nth s i 0%Z) by lia. cbn [bind].
  apply element_sign. apply (proj1 (Forall_forall _ _) P). apply nth_In. lia.
Qed.

Lemma quad_to_text n q : pm_quad n q -> QuadSeq_to_string q = Some (quad_text q).
Proof.
  intros ((Hs & La & Lb & Lc & Ld) & Pa & Pb & Pc & Pd). unfold QuadSeq_to_string. rewrite Hs. cbn [fold_m].
  rewrite !seq_signs by auto. cbn [bind]. f_equal. unfold quad_text, lit, chars, nl1, newline, nl. cbn [map concat].
  rewrite app_nil_r, <- !app_assoc. reflexivity.
Qed.
Lemma stacked_cons t l : stacked (t :: l) = (t ++ [newline]) ++ stacked l. Proof. reflexivity. Qed.
Lemma qseq_text_spec n l : (forall q, In q l -> pm_quad n q) -> qseq_text l = Some (stacked (map quad_text l)).
Proof.
  intros H. unfold qseq_text.
  assert (G : forall s, fold_m (fun s w => let* t := QuadSeq_to_string w in Some (s ++ t ++ nl1)) l s = Some (s ++ stacked (map quad_text l))).
  2:{ rewrite G. reflexivity. }
  induction l as [|q l IH]; intros s; cbn [fold_m map]; [now rewrite app_nil_r|].
  rewrite (quad_to_text n) by (apply H; now left). cbn [bind]. rewrite IH by (intros; apply H; now right).
  rewrite stacked_cons, <- !app_assoc. reflexivity.
Qed.

(* ---- quaternionic matrices ---- *)
Lemma qhm_of_quad n q s : pm_quad n q -> 1 <= n -> is_QT q -> to_qs q = Some s -> qs_size s = n -> length (qs_values s) = n ->
  Forall (fun p => In p Q24) (qs_values s) ->
  exists h d txt, QHM_from_pqs s = Some h /\ QHM_dephase h = Some d /\ QHM_dephased h = Some d /\ normal_qhm n q d /\ QHM_to_string d = Some txt.
Proof.
  intros Hq Hn T Es Hs L F. destruct (from_pqs_verify s) as (h & b & Eh & Ev & Ep & Hb & Sz); [congruence|auto|]. rewrite Hs in *.
  pose proof (from_pqs_spec s ltac:(congruence)) as Eh'. rewrite Eh, Hs in Eh'. apply Some_inj' in Eh'.
  assert (Q : b = true).
  { destruct (QT_verify_perfect n q Hq Hn) as (s' & b' & E1 & E2 & E3). rewrite Es in E1. apply Some_inj' in E1. subst s'.
    rewrite Ep in E3. apply Some_inj' in E3. subst b'. apply (verify_true n q QuaternionType) in T; auto. congruence. }
  assert (Sq : square n (qhm_matrix h)) by (subst h; apply tab_square).
  assert (E24 : entries_in24 (qhm_matrix h)).
  { subst h. apply entries_tab. intros i j Hi Hj. unfold qcirc, qentry. apply (proj1 (Forall_forall _ _) F). apply nth_In. apply pos_lt. lia. }
  destruct (dephase_spec n h Sz Sq E24) as (d & Ed & Ed' & Sd & Sqd & E24d & Nd & Hd & (txt & Et)).
  destruct (dephase_scales n h Sz Sq E24) as (d' & u & v & Ed2 & Sc). rewrite Ed in Ed2. apply Some_inj' in Ed2. subst d'.
  exists h, d, txt. split; auto. split; auto. split; auto. split; auto.
  split; auto. split; [apply Hd, Hb, Q|]. split; auto. split; auto. exists s, u, v. split; auto. intros i j Hi Hj.
  destruct (Sc i j Hi Hj) as (A & B & C). split; auto. split; auto. rewrite C. subst h. cbn [qhm_matrix]. now rewrite cell_tab.
Qed.

Lemma convert_fold n quads lines : 1 <= n -> Forall (fun q => pm_quad n q /\ is_QT q) quads -> Forall2 line_of_quad quads lines ->
  exists ds txts flags, Forall2 (normal_qhm n) quads ds /\ Forall2 (fun d s => QHM_to_string d = Some s) ds txts /\
    Forall2 (fun d b => b = true <-> non_commuting n (qhm_matrix d)) ds flags /\
    forall a b r, fold_m (fun '(num_seq, num_non_commutative, result) line =>
      let* pqs := QS_from_str line in
      let* qhm := QHM_from_pqs pqs in
      let* qhm := QHM_dephase qhm in
      let* b := contains_non_commuting_elements qhm in
      let* s := QHM_to_string qhm in
      Some (num_seq + 1, (if b then num_non_commutative + 1 else num_non_commutative), result ++ s ++ nl1))
    lines (a, b, r) = Some (a + length quads, b + count_occ bool_dec flags true, r ++ stacked txts).
Proof.
  intros Hn P F. induction F as [|q line quads lines Hl F IH].
  { exists [], [], []. repeat (split; [constructor|]). intros. cbn [fold_m length count_occ stacked map concat]. rewrite !Nat.add_0_r, app_nil_r. reflexivity. }
  inversion P as [|? ? [Hq T] P']; subst. destruct (IH P') as (ds & txts & flags & F1 & F2 & F3 & E).
  destruct (line_reads n q line Hq Hl) as (s & Es & Er & _ & Sz & L & F24).
  destruct (qhm_of_quad n q s Hq Hn T Es Sz L F24) as (h & d & txt & Eh & Ed & _ & N & Et).
  destruct (contains_non_commuting_normalised n d) as (b & Eb & Hb); [apply N| |apply N|].
  { apply N. }
  exists (d :: ds), (txt :: txts), (b :: flags). split; [constructor; auto|]. split; [constructor; auto|]. split; [constructor; auto|].
  intros x y r. cbn [fold_m]. rewrite Er. cbn [bind]. rewrite Eh. cbn [bind]. rewrite Ed. cbn [bind]. rewrite Eb. cbn [bind]. rewrite Et. cbn [bind].
  rewrite E. cbn [length count_occ]. rewrite stacked_cons, <- !app_assoc. unfold nl1, newline, nl.
  replace (x + 1 + length quads) with (x + S (length quads)) by lia.
  destruct b; [|reflexivity]. change (if bool_dec true true then S (count_occ bool_dec flags true) else count_occ bool_dec flags true) with (S (count_occ bool_dec flags true)). replace (y + 1 + count_occ bool_dec flags true) with (y + S (count_occ bool_dec flags true)) by lia. reflexivity.
Qed.
Theorem convert_spec n quads lines : 1 <= n -> Forall (fun q => pm_quad n q /\ is_QT q) quads -> Forall2 line_of_quad quads lines ->
  exists ds txts flags, Forall2 (normal_qhm n) quads ds /\ Forall2 (fun d s => QHM_to_string d = Some s) ds txts /\
    Forall2 (fun d b => b = true <-> non_commuting n (qhm_matrix d)) ds flags /\
    convert_qs_to_matrices lines = Some (length quads, count_occ bool_dec flags true, stacked txts).
Proof.
  intros Hn P F. destruct (convert_fold n quads lines Hn P F) as (ds & txts & flags & F1 & F2 & F3 & E).
  exists ds, txts, flags. repeat (split; [assumption|]). exact (E 0 0 []).
Qed.
