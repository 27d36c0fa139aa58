(* The command line. *)
From Coq Require Import Ascii String List ZArith Lia Arith Bool.
From Verif Require Import Base BaseFacts ModelSequence ModelWilliamson ModelRowsum ModelMatching ModelWrite TextFacts ModelMain SpecPrint SpecMain.
Import ListNotations.
Open Scope nat_scope.
Notation length := List.length.

Lemma text_eqb_eq x y : text_eqb x y = true <-> x = y.
Proof.
  revert y. induction x as [|a x IH]; intros [|b y]; cbn [text_eqb]; try (split; congruence).
  rewrite andb_true_iff, IH, Ascii.eqb_eq. split; [intros [-> ->]; auto|intros [= -> ->]; auto].
Qed.
Lemma text_eqb_refl x : text_eqb x x = true. Proof. now apply text_eqb_eq. Qed.

(* ---- numerals ---- *)
Lemma digit_value_iff c d : digit_value c = Some d <-> d < 10 /\ c = ascii_of_nat (48 + d).
Proof.
  unfold digit_value, guard. split.
  - destruct ((48 <=? nat_of_ascii c) && (nat_of_ascii c <=? 57)) eqn:E; [|discriminate]. intros [= <-].
    apply andb_true_iff in E as [A B]. apply Nat.leb_le in A, B. split; [lia|].
    replace (48 + (nat_of_ascii c - 48)) with (nat_of_ascii c) by lia. now rewrite ascii_nat_embedding.
  - intros [H ->]. rewrite nat_ascii_embedding by lia. replace ((48 <=? 48 + d) && (48 + d <=? 57)) with true.
    + f_equal. lia.
    + symmetry. apply andb_true_iff. split; apply Nat.leb_le; lia.
Qed.
Lemma digit_not c d : digit_value c = Some d -> c <> "+"%char /\ c <> "-"%char.
Proof. intros H. split; intros ->; discriminate. Qed.
Lemma decimal_nonempty s z : decimal s z -> s <> [].
Proof. destruct 1; [discriminate|]. destruct s; discriminate. Qed.
Lemma parse_digits_iff s z : s <> [] -> (parse_digits s = Some z <-> decimal s z).
Proof.
  revert z. induction s as [|c s IH] using rev_ind; [congruence|]. intros z _.
  assert (E : parse_digits (s ++ [c]) = let* x := parse_digits s in let* d := digit_value c in Some (10 * x + Z.of_nat d)%Z).
  { unfold parse_digits. rewrite fold_m_app. destruct (fold_m _ s 0%Z); cbn; [|reflexivity]. destruct (digit_value c); reflexivity. }
  rewrite E. destruct s as [|a s'].
  - cbn [parse_digits fold_m bind app]. split.
    + destruct (digit_value c) as [d|] eqn:Ed; [|discriminate]. cbn [bind]. intros [= <-]. apply digit_value_iff in Ed as [Hd ->].
      apply decimal_digit with (d := d). exact Hd.
    + intros H. remember [c] as l eqn:El. destruct H as [d Hd|s0 z d H Hd].
      * injection El as <-. rewrite (proj2 (digit_value_iff _ d)) by auto. cbn [bind]. reflexivity.
      * exfalso. destruct s0 as [|a s0]; [now apply decimal_nonempty in H|]. destruct s0; discriminate.
  - specialize (IH). assert (Ne : a :: s' <> []) by discriminate. set (t := a :: s') in *. split.
    + destruct (parse_digits t) as [x|] eqn:Ex; [|discriminate]. cbn [bind].
      destruct (digit_value c) as [d|] eqn:Ed; [|discriminate]. cbn [bind]. intros [= <-]. apply digit_value_iff in Ed as [Hd ->].
      apply decimal_more; auto. now apply IH.
    + intros H. remember (t ++ [c]) as l eqn:El. destruct H as [d Hd|s z d H Hd].
      * exfalso. subst t. destruct s'; discriminate.
      * apply app_inj_tail in El as [<- <-]. rewrite (proj2 (IH z Ne) H). cbn [bind].
        rewrite (proj2 (digit_value_iff _ d)) by auto. reflexivity.
Qed.
Lemma decimal_head s z c r : decimal s z -> s = c :: r -> exists d, digit_value c = Some d.
Proof.
  intros H. revert c r. induction H as [d Hd|s z d H IH Hd]; intros c r E.
  - injection E as <- _. exists d. now apply digit_value_iff.
  - destruct s as [|c' s']; [destruct (decimal_nonempty _ _ H); auto|]. injection E as -> _. eauto.
Qed.
Lemma decimal_nonneg s z : decimal s z -> (0 <= z)%Z.
Proof. induction 1; lia. Qed.
Lemma parse_usize_iff s z : parse_usize s = Some z <-> unsigned s z.
Proof.
  unfold parse_usize, unsigned.
  destruct s as [|c r].
  - cbn. split; [discriminate|]. intros [H|(r & E & _)]; [destruct (decimal_nonempty _ _ H); auto|discriminate].
  - destruct (Ascii.eqb_spec c "+"%char) as [->|N].
    + destruct r as [|a r'].
      * cbn. split; [discriminate|]. intros [H|(r & E & H)].
        -- destruct (decimal_head _ _ _ _ H eq_refl) as (d & Ed). discriminate.
        -- injection E as <-. destruct (decimal_nonempty _ _ H); auto.
      * cbn [length Nat.eqb negb guard]. rewrite parse_digits_iff by discriminate. split; [intros H; right; eauto|].
        intros [H|(r & E & H)]; [|injection E as <-; auto]. destruct (decimal_head _ _ _ _ H eq_refl) as (d & Ed). discriminate.
    + cbn [length Nat.eqb negb guard]. rewrite parse_digits_iff by discriminate. split; [auto|].
      intros [H|(r' & E & H)]; auto. congruence.
Qed.
Lemma length_arg_iff s z : str_to_usize s = Some z <-> length_arg s z.
Proof.
  unfold str_to_usize, length_arg. destruct (parse_usize s) as [x|] eqn:E; cbn [bind].
  - unfold guard. destruct (Z.ltb_spec x (2 ^ 64)).
    + split; [intros [= <-]; split; auto; now apply parse_usize_iff|]. intros [U _]. apply parse_usize_iff in U. congruence.
    + split; [discriminate|]. intros [U K]. apply parse_usize_iff in U. rewrite U in E. injection E as ->. lia.
  - split; [discriminate|]. intros [U _]. apply parse_usize_iff in U. congruence.
Qed.
Lemma byte_arg_iff s z : str_to_u8 s = Some z <-> byte_arg s z.
Proof.
  unfold str_to_u8, byte_arg. destruct (parse_usize s) as [x|] eqn:E; cbn [bind].
  - unfold guard. destruct (Z.ltb_spec x 256).
    + split; [intros [= <-]; split; auto; now apply parse_usize_iff|]. intros [U _]. apply parse_usize_iff in U. congruence.
    + split; [discriminate|]. intros [U K]. apply parse_usize_iff in U. rewrite U in E. injection E as ->. lia.
  - split; [discriminate|]. intros [U _]. apply parse_usize_iff in U. congruence.
Qed.
Lemma unsigned_nonneg s z : unsigned s z -> (0 <= z)%Z.
Proof. intros [H|(r & _ & H)]; now apply decimal_nonneg in H. Qed.
Lemma rowsum_arg_iff s z : str_to_isize s = Some z <-> rowsum_arg s z.
Proof.
  unfold str_to_isize, rowsum_arg, signed. destruct s as [|c r].
  - split; [discriminate|]. intros [[U|(r & k & E & _)] _]; [apply parse_usize_iff in U|]; discriminate.
  - destruct (Ascii.eqb_spec c "-"%char) as [->|N].
    + assert (NU : forall x, ~ unsigned ("-"%char :: r) x).
      { intros x [H|(r' & E & _)]; [|discriminate]. destruct (decimal_head _ _ _ _ H eq_refl) as (d & Ed). discriminate. }
      destruct r as [|a r'].
      * cbn. split; [discriminate|]. intros [[U|(r & k & E & H & _)] _]; [destruct (NU _ U)|]. injection E as <-. destruct (decimal_nonempty _ _ H); auto.
      * cbn [length Nat.eqb negb guard]. set (r := a :: r') in *. assert (Ne : r <> []) by discriminate.
        destruct (parse_digits r) as [k|] eqn:Ek; cbn [bind].
        -- pose proof (proj1 (parse_digits_iff r k Ne) Ek) as Dk. pose proof (decimal_nonneg _ _ Dk). unfold guard. destruct (Z.leb_spec k (2 ^ 63)).
           ++ split; [intros [= <-]; split; [right; exists r, k; auto|lia]|]. intros [[U|(x & y & E & D & ->)] _]; [destruct (NU _ U)|].
              injection E as <-. apply parse_digits_iff in D; auto. congruence.
           ++ split; [discriminate|]. intros [[U|(x & y & E & D & ->)] K]; [destruct (NU _ U)|].
              injection E as <-. apply parse_digits_iff in D; auto. rewrite D in Ek. injection Ek as ->. lia.
        -- split; [discriminate|]. intros [[U|(x & y & E & D & ->)] _]; [destruct (NU _ U)|]. injection E as <-. apply parse_digits_iff in D; auto. congruence.
    + destruct (parse_usize (c :: r)) as [x|] eqn:E; cbn [bind].
      * pose proof (proj1 (parse_usize_iff _ _) E) as U. pose proof (unsigned_nonneg _ _ U). unfold guard. destruct (Z.ltb_spec x (2 ^ 63)).
        -- split; [intros [= <-]; split; auto; lia|]. intros [[U'|(y & k & E' & _)] _]; [|congruence]. apply parse_usize_iff in U'. congruence.
        -- split; [discriminate|]. intros [[U'|(y & k & E' & _)] K]; [|congruence]. apply parse_usize_iff in U'. rewrite U' in E. injection E as ->. lia.
      * split; [discriminate|]. intros [[U'|(y & k & E' & _)] _]; [|congruence]. apply parse_usize_iff in U'. congruence.
Qed.

(* ---- words ---- *)
Ltac eqb_cases H := repeat match type of H with context [if text_eqb ?a ?b then _ else _] =>
  let E := fresh "E" in destruct (text_eqb a b) eqn:E; [apply text_eqb_eq in E|] end.
Lemma type_word_iff s t : str_to_seqtype s = Some t <-> s = type_word t.
Proof.
  split; [|intros ->; destruct t; reflexivity]. unfold str_to_seqtype. intros H. eqb_cases H; try discriminate; injection H as <-; subst; reflexivity.
Qed.
Lemma match_word_iff s m : str_to_match_option s = Some m <-> s = match_word m.
Proof.
  split; [|intros ->; destruct m; reflexivity]. unfold str_to_match_option. intros H. eqb_cases H; try discriminate; injection H as <-; subst; reflexivity.
Qed.
Lemma pairing_arg_iff s p : str_to_rowsum_pairing s = p <-> pairing_arg s p.
Proof.
  assert (A : forall r, str_to_rowsum_pairing s = Some r <-> s = pairing_word r).
  { intros r. split; [|intros ->; destruct r; reflexivity]. unfold str_to_rowsum_pairing. intros H. eqb_cases H; try discriminate; injection H as <-; subst; reflexivity. }
  destruct p as [r|]; cbn [pairing_arg]; [apply A|]. split.
  - intros E r K. apply A in K. congruence.
  - intros H. destruct (str_to_rowsum_pairing s) as [r|] eqn:E; auto. destruct (H r). now apply A.
Qed.
Lemma rowsums_iff prog w x y a b c d more rs : str_to_rowsums (prog :: w :: x :: y :: a :: b :: c :: d :: more) = Some rs <-> rowsums_arg a b c d rs.
Proof.
  unfold str_to_rowsums, rowsums_arg. cbn [vget nth_error bind]. destruct rs as [[[z1 z2] z3] z4]. rewrite <- !rowsum_arg_iff.
  destruct (str_to_isize a) as [u1|]; cbn [bind]; [|split; [discriminate|intros (K & _); discriminate]].
  destruct (str_to_isize b) as [u2|]; cbn [bind]; [|split; [discriminate|intros (_ & K & _); discriminate]].
  destruct (str_to_isize c) as [u3|]; cbn [bind]; [|split; [discriminate|intros (_ & _ & K & _); discriminate]].
  destruct (str_to_isize d) as [u4|]; cbn [bind]; [|split; [discriminate|intros (_ & _ & _ & K); discriminate]].
  split; [intros [= -> -> -> ->]; auto|intros ([= ->] & [= ->] & [= ->] & [= ->]); auto].
Qed.
Lemma type_length_iff args i x y t p : vget args i = Some x -> vget args (i + 1) = Some y ->
  (type_and_length args i = Some (t, p) <-> x = type_word t /\ length_arg y p).
Proof.
  intros Hx Hy. unfold type_and_length. rewrite Hx, Hy. cbn [bind]. rewrite <- type_word_iff, <- length_arg_iff.
  destruct (str_to_seqtype x) as [t'|]; cbn [bind]; [|split; [discriminate|intros [K _]; discriminate]].
  destruct (str_to_usize y) as [p'|]; cbn [bind]; [|split; [discriminate|intros [_ K]; discriminate]].
  split; [intros [= -> ->]; auto|intros [[= ->] [= ->]]; auto].
Qed.

Lemma type_length_2 a b t y p more : length_arg y p -> type_and_length (a :: b :: type_word t :: y :: more) 2 = Some (t, p).
Proof. intros H. now apply (type_length_iff _ 2 (type_word t) y). Qed.
Lemma type_length_3 a b c t y p more : length_arg y p -> type_and_length (a :: b :: c :: type_word t :: y :: more) 3 = Some (t, p).
Proof. intros H. now apply (type_length_iff _ 3 (type_word t) y). Qed.

(* ---- the whole command line ---- *)
Lemma word_list a : In a command_words <-> exists w, In w ["qhm-all"; "amicable"; "rowsums"; "join"; "convert"; "pairs"; "pairs_rowsum"; "create"; "pair_single"]%string /\ chars w = a.
Proof. unfold command_words. rewrite in_map_iff. split; intros (w & A & B); exists w; auto. Qed.
Ltac one_bind H := match type of H with (bind ?e _ = Some _) => let E := fresh "E" in destruct e as [?|] eqn:E; cbn [bind] in H; [|discriminate H] end.
Ltac clean_eqb := repeat match goal with X : text_eqb _ _ = false |- _ => clear X end.
Theorem parse_args_iff args c : parse_args args = Some c <-> command_line args c.
Proof.
  split.
  - unfold parse_args. intros H. destruct args as [|prog [|a args]]; [discriminate|injection H as <-; constructor|].
    cbn [length Nat.eqb vget nth_error bind] in H.
    repeat match type of H with context [if text_eqb a ?b then _ else _] =>
      let E := fresh "E" in destruct (text_eqb a b) eqn:E; [apply text_eqb_eq in E|] end.
    10:{ injection H as <-. apply cl_other. intros K. apply word_list in K as (w & K & <-).
      repeat (destruct K as [<-|K]; [match goal with X : text_eqb (chars ?s) (lit ?s) = false |- _ => unfold chars, lit in X; rewrite text_eqb_refl in X; discriminate X end|]). destruct K. }
    + subst a. clean_eqb. destruct args as [|x [|y [|]]]; cbn [length Nat.eqb guard] in H; try discriminate.
      one_bind H. destruct p as [t p]. apply (type_length_iff _ 2 x y) in E as [-> P]; [|reflexivity|reflexivity]. injection H as <-. now constructor.
    + subst a. clean_eqb. destruct args as [|x [|]]; cbn [length Nat.eqb guard vget nth_error bind] in H; try discriminate.
      one_bind H. apply length_arg_iff in E. injection H as <-. now constructor.
    + subst a. clean_eqb. destruct args as [|x [|y [|]]]; cbn [length Nat.eqb guard] in H; try discriminate.
      one_bind H. destruct p as [t p]. apply (type_length_iff _ 2 x y) in E as [-> P]; [|reflexivity|reflexivity]. injection H as <-. now constructor.
    + subst a. clean_eqb. destruct args as [|x [|y [|]]]; cbn [length Nat.eqb guard] in H; try discriminate.
      one_bind H. destruct p as [t p]. apply (type_length_iff _ 2 x y) in E as [-> P]; [|reflexivity|reflexivity]. injection H as <-. now constructor.
    + subst a. clean_eqb. destruct args as [|k [|x [|y [|]]]]; cbn [length Nat.eqb guard] in H; try discriminate.
      one_bind H. destruct p as [t p]. apply (type_length_iff _ 3 x y) in E as [-> P]; [|reflexivity|reflexivity]. cbn [vget nth_error bind] in H.
      destruct (text_eqb k (lit "hm")) eqn:E1; [apply text_eqb_eq in E1; subst k; injection H as <-; now constructor|].
      destruct (text_eqb k (lit "qhm")) eqn:E2; [apply text_eqb_eq in E2; subst k; injection H as <-; now constructor|discriminate].
    + subst a. clean_eqb. destruct args as [|x [|y [|m [|r [|]]]]]; cbn [length Nat.eqb guard] in H; try discriminate.
      one_bind H. destruct p as [t p]. apply (type_length_iff _ 2 x y) in E as [-> P]; [|reflexivity|reflexivity]. cbn [vget nth_error bind] in H.
      one_bind H. apply match_word_iff in E. subst m. injection H as <-. constructor; auto. now apply pairing_arg_iff.
    + subst a. clean_eqb. destruct args as [|x [|y [|a [|b [|c' [|d [|m [|r [|]]]]]]]]]; cbn [length Nat.eqb guard] in H; try discriminate.
      one_bind H. destruct p as [t p]. apply (type_length_iff _ 2 x y) in E as [-> P]; [|reflexivity|reflexivity].
      one_bind H. apply rowsums_iff in E. cbn [vget nth_error bind] in H.
      one_bind H. apply match_word_iff in E0. subst m. injection H as <-. constructor; auto. now apply pairing_arg_iff.
    + subst a. clean_eqb. one_bind H. destruct p as [t p].
      destruct args as [|x [|y args]].
      { unfold type_and_length in E. cbn in E. discriminate E. }
      { unfold type_and_length in E. cbn in E. destruct (str_to_seqtype x); cbn in E; discriminate E. }
      apply (type_length_iff _ 2 x y) in E as [-> P]; [|reflexivity|reflexivity].
      one_bind H. assert (exists a b c' d more, args = a :: b :: c' :: d :: more) as (a & b & c' & d & more & ->).
      { unfold str_to_rowsums in E. destruct args as [|a [|b [|c' [|d more]]]]; cbn [vget nth_error bind] in E; try discriminate; eauto 8;
          repeat (match type of E with (bind ?e _ = Some _) => destruct e; cbn [bind] in E; try discriminate E end). }
      apply rowsums_iff in E. destruct more as [|r more]; [discriminate|]. cbn [vget nth_error bind] in H. injection H as <-. constructor; auto. now apply pairing_arg_iff.
    + subst a. clean_eqb. destruct args as [|x [|y [|a [|b [|c' [|d [|m [|r [|k [|]]]]]]]]]]; cbn [length Nat.eqb guard] in H; try discriminate.
      one_bind H. destruct p as [t p]. apply (type_length_iff _ 2 x y) in E as [-> P]; [|reflexivity|reflexivity].
      one_bind H. apply rowsums_iff in E. cbn [vget nth_error bind] in H.
      one_bind H. apply match_word_iff in E0. subst m. one_bind H. apply byte_arg_iff in E0. injection H as <-. constructor; auto. now apply pairing_arg_iff.
  - intros H. destruct H; unfold parse_args; cbn [length Nat.eqb vget nth_error bind guard].
    + reflexivity.
    + change (text_eqb (chars "qhm-all") (lit "qhm-all")) with true. cbv iota.
      rewrite (type_length_2 _ _ t y p) by auto. reflexivity.
    + change (text_eqb (chars "amicable") (lit "qhm-all")) with false. change (text_eqb (chars "amicable") (lit "amicable")) with true. cbv iota.
      rewrite (proj2 (length_arg_iff _ _) H). reflexivity.
    + cbn [chars list_ascii_of_string]. cbv [lit list_ascii_of_string text_eqb Ascii.eqb Bool.eqb andb]. cbn beta iota.
      rewrite (type_length_2 _ _ t y p) by auto. reflexivity.
    + cbn [chars list_ascii_of_string]. cbv [lit list_ascii_of_string text_eqb Ascii.eqb Bool.eqb andb]. cbn beta iota.
      rewrite (type_length_2 _ _ t y p) by auto. reflexivity.
    + cbn [chars list_ascii_of_string]. cbv [lit list_ascii_of_string text_eqb Ascii.eqb Bool.eqb andb]. cbn beta iota.
      rewrite (type_length_3 _ _ _ t y p) by auto. reflexivity.
    + cbn [chars list_ascii_of_string]. cbv [lit list_ascii_of_string text_eqb Ascii.eqb Bool.eqb andb]. cbn beta iota.
      rewrite (type_length_3 _ _ _ t y p) by auto. reflexivity.
    + cbn [chars list_ascii_of_string]. cbv [lit list_ascii_of_string text_eqb Ascii.eqb Bool.eqb andb]. cbn beta iota.
      rewrite (type_length_2 _ _ t y p) by auto. cbn [bind].
      rewrite (proj2 (match_word_iff _ m) eq_refl). cbn [bind]. apply pairing_arg_iff in H0. rewrite H0. reflexivity.
    + cbn [chars list_ascii_of_string]. cbv [lit list_ascii_of_string text_eqb Ascii.eqb Bool.eqb andb]. cbn beta iota.
      rewrite (type_length_2 _ _ t y p) by auto. cbn [bind].
      rewrite (proj2 (rowsums_iff _ _ _ _ a b c d _ rs)) by auto. cbn [bind].
      rewrite (proj2 (match_word_iff _ m) eq_refl). cbn [bind]. apply pairing_arg_iff in H1. rewrite H1. reflexivity.
    + cbn [chars list_ascii_of_string]. cbv [lit list_ascii_of_string text_eqb Ascii.eqb Bool.eqb andb]. cbn beta iota.
      rewrite (type_length_2 _ _ t y p) by auto. cbn [bind].
      rewrite (proj2 (rowsums_iff _ _ _ _ a b c d _ rs)) by auto. cbn [bind]. apply pairing_arg_iff in H1. rewrite H1. reflexivity.
    + cbn [chars list_ascii_of_string]. cbv [lit list_ascii_of_string text_eqb Ascii.eqb Bool.eqb andb]. cbn beta iota.
      rewrite (type_length_2 _ _ t y p) by auto. cbn [bind].
      rewrite (proj2 (rowsums_iff _ _ _ _ a b c d _ rs)) by auto. cbn [bind].
      rewrite (proj2 (match_word_iff _ m) eq_refl). cbn [bind]. rewrite (proj2 (byte_arg_iff _ _) H2). cbn [bind]. apply pairing_arg_iff in H1. rewrite H1. reflexivity.
    + assert (N : forall w, In w ["qhm-all"; "amicable"; "rowsums"; "join"; "convert"; "pairs"; "pairs_rowsum"; "create"; "pair_single"]%string -> text_eqb word (lit w) = false).
      { intros w Hw. apply not_true_is_false. intros K. apply text_eqb_eq in K. apply H. apply word_list. exists w. auto. }
      rewrite !N by (cbn [In]; tauto). reflexivity.
Qed.
