(* The text of equations and how it reads back. *)
From Coq Require Import Ascii String List ZArith Arith Bool Lia.
From Verif Require Import Base BaseFacts Sums ModelWilliamson ModelWrite TextFacts ModelEquations Spec SpecEquations.
Import ListNotations.
Notation length := List.length.
Open Scope nat_scope.

(* ---- pieces ---- *)
Lemma pieces_cons c s : exists p ps, pieces c s = p :: ps.
Proof.
  induction s as [|a s (p & ps & E)]; cbn; [eauto|].
  destruct (Ascii.eqb a c); [eauto|]. rewrite E. eauto.
Qed.
Lemma pieces_sep c x r : Forall (fun a => a <> c) x -> pieces c (x ++ c :: r) = x :: pieces c r.
Proof.
  induction 1 as [|a x Ha Hx IH]; cbn.
  - now rewrite Ascii.eqb_refl.
  - destruct (Ascii.eqb_spec a c); [contradiction|]. now rewrite IH.
Qed.
Lemma pieces_last c x : Forall (fun a => a <> c) x -> pieces c x = [x].
Proof.
  induction 1 as [|a x Ha Hx IH]; cbn; [reflexivity|].
  destruct (Ascii.eqb_spec a c); [contradiction|]. now rewrite IH.
Qed.

(* ---- words ---- *)
Definition plain_char (a : ascii) : Prop := a <> " "%char /\ a <> line_break.
Definition word_ok (w : text) : Prop := w <> [] /\ Forall plain_char w.
Definition unwords (ws : list text) : text := concat (map (fun w => w ++ [" "%char]) ws).

Lemma unwords_app x y : unwords (x ++ y) = unwords x ++ unwords y.
Proof. unfold unwords. now rewrite map_app, concat_app. Qed.

Lemma plain_space w : Forall plain_char w -> Forall (fun a => a <> " "%char) w.
Proof. apply Forall_impl. now intros a []. Qed.
Lemma plain_break w : Forall plain_char w -> Forall (fun a => a <> line_break) w.
Proof. apply Forall_impl. now intros a []. Qed.

Lemma words_unwords ws l : Forall word_ok ws -> word_ok l -> words (unwords ws ++ l) = ws ++ [l].
Proof.
  intros Hw [Hl1 Hl2]. induction Hw as [|w ws [H1 H2] Hw IH]; cbn [app].
  - unfold words. cbn [unwords map concat app]. rewrite pieces_last by now apply plain_space.
    destruct l; [contradiction|reflexivity].
  - unfold words in *. unfold unwords. cbn [map concat]. fold (unwords ws).
    rewrite <- !app_assoc. cbn [app]. rewrite pieces_sep by now apply plain_space.
    cbn [filter]. destruct w; [contradiction|]. cbn [is_nil negb]. now rewrite IH.
Qed.

Lemma unwords_nobreak ws : Forall word_ok ws -> Forall (fun a => a <> line_break) (unwords ws).
Proof.
  induction 1 as [|w ws [H1 H2] Hw IH]; [constructor|].
  unfold unwords. cbn [map concat]. apply Forall_app. split; [|exact IH].
  apply Forall_app. split; [now apply plain_break|]. constructor; [discriminate|constructor].
Qed.

(* ---- numbers ---- *)
Lemma read_digit_value c d : digit_value c = Some d -> read_digit c = Some (Z.of_nat d).
Proof.
  unfold digit_value, read_digit, guard. destruct (_ && _) eqn:E; [|discriminate].
  intros H. injection H as <-. apply andb_true_iff in E as [E1 E2]. apply Nat.leb_le in E1, E2.
  f_equal. rewrite Nat2Z.inj_sub by exact E1. reflexivity.
Qed.
Lemma read_digits_parse s : forall acc z,
  fold_m (fun acc c => let* d := digit_value c in Some (10 * acc + Z.of_nat d)%Z) s acc = Some z -> read_digits acc s = Some z.
Proof.
  induction s as [|c s IH]; cbn; intros acc z H; [exact H|].
  destruct (digit_value c) as [d|] eqn:E; [|discriminate]. cbn in H.
  rewrite (read_digit_value _ _ E). cbn. now apply IH.
Qed.
Lemma read_number_usize z : (0 <= z)%Z -> read_number (usize_to_string z) = Some z.
Proof.
  intros Hz. unfold read_number. destruct (usize_to_string z) eqn:E.
  - now apply usize_nonempty in E.
  - cbn [is_nil]. rewrite <- E. apply read_digits_parse. exact (parse_usize_digits z Hz).
Qed.
Lemma digit_head z : (0 <= z)%Z -> exists c r, usize_to_string z = c :: r /\ is_digit c /\ Forall is_digit r.
Proof.
  intros Hz. pose proof (usize_digits z Hz) as H. destruct (usize_to_string z) as [|c r] eqn:E.
  - now apply usize_nonempty in E.
  - inversion H; subst. eauto.
Qed.
Lemma digit_not c a : is_digit c -> ~ is_digit a -> c <> a.
Proof. intros H1 H2 ->. now apply H2. Qed.
Local Opaque read_number usize_to_string.
Definition num_start (c : ascii) : Prop := is_digit c \/ c = "+"%char \/ c = "-"%char.
Ltac all_ascii c := destruct c as [[] [] [] [] [] [] [] []].
Lemma read_word_start c r : num_start c ->
  read_word (c :: r) =
    if Ascii.eqb (last (c :: r) " "%char) ";"%char
    then let* z := read_integer (removelast (c :: r)) in Some (Final z)
    else let* k := read_integer (c :: r) in Some (Coefficient k).
Proof.
  intros [H|[-> | ->]]; [|reflexivity|reflexivity].
  unfold is_digit in H.
  all_ascii c; cbv [nat_of_ascii N_of_ascii N_of_digits N.to_nat] in H; cbn in H; try lia; reflexivity.
Qed.
Lemma read_integer_digit c r : is_digit c -> read_integer (c :: r) = read_number (c :: r).
Proof.
  intros H. unfold is_digit in H. all_ascii c; cbn in H; try lia; reflexivity.
Qed.
Lemma read_integer_isize z : read_integer (isize_to_string z) = Some z.
Proof.
  unfold isize_to_string. destruct (Z.ltb_spec z 0).
  - cbn. rewrite read_number_usize by lia. cbn. f_equal. lia.
  - destruct (digit_head z) as (c & r & E & Hc & _); [lia|]. rewrite E, read_integer_digit by auto.
    rewrite <- E. now apply read_number_usize.
Qed.
Lemma read_integer_plus z : (0 <= z)%Z -> read_integer ("+"%char :: isize_to_string z) = Some z.
Proof.
  intros Hz. cbn. unfold isize_to_string. destruct (Z.ltb_spec z 0); [lia|]. now apply read_number_usize.
Qed.
Lemma isize_start z : exists c r, isize_to_string z = c :: r /\ num_start c.
Proof.
  unfold isize_to_string, num_start. destruct (Z.ltb_spec z 0); [eauto 6|].
  destruct (digit_head z) as (c & r & E & Hc & _); [lia|]. rewrite E. eauto 6.
Qed.
Lemma last_digit w d : w <> [] -> Forall num_char w -> last w d <> ";"%char.
Proof.
  intros Hw H. destruct (exists_last Hw) as (w' & c & ->). rewrite last_last.
  apply Forall_app in H as [_ H]. apply Forall_inv in H. intros ->. destruct H as [F|F]; [discriminate|unfold is_digit in F; vm_compute in F; lia].
Qed.
Lemma num_plain c : num_char c -> plain_char c.
Proof.
  intros [H|H].
  - subst c. split; discriminate.
  - unfold is_digit in H. split; intros ->; vm_compute in H; lia.
Qed.

(* the words of equations *)
Definition var (i : nat) : text := "x"%char :: num i.
Lemma word_isize z : word_ok (isize_to_string z).
Proof. split; [apply isize_nonempty|]. eapply Forall_impl; [|apply isize_chars]. exact num_plain. Qed.
Lemma word_plus z : word_ok ("+"%char :: isize_to_string z).
Proof. split; [discriminate|]. constructor; [split; discriminate|]. apply word_isize. Qed.
Lemma word_var i : word_ok (var i).
Proof.
  split; [discriminate|]. constructor; [split; discriminate|].
  eapply Forall_impl; [|apply usize_num; lia]. exact num_plain.
Qed.
Lemma word_final z : word_ok (isize_to_string z ++ [";"%char]).
Proof.
  split; [now destruct (isize_to_string z)|]. apply Forall_app. split; [apply word_isize|].
  constructor; [split; discriminate|constructor].
Qed.
Lemma read_coefficient z : read_word (isize_to_string z) = Some (Coefficient z).
Proof.
  destruct (isize_start z) as (c & r & E & Hc). rewrite E, read_word_start by auto. rewrite <- E.
  destruct (Ascii.eqb_spec (last (isize_to_string z) " "%char) ";"%char) as [F|F].
  - now apply last_digit in F; [|apply isize_nonempty|apply isize_chars].
  - now rewrite read_integer_isize.
Qed.
Lemma read_plus z : (0 <= z)%Z -> read_word ("+"%char :: isize_to_string z) = Some (Coefficient z).
Proof.
  intros Hz. rewrite read_word_start by (right; left; reflexivity).
  replace (last ("+"%char :: isize_to_string z) " "%char) with (last (isize_to_string z) " "%char).
  2: { pose proof (isize_nonempty z). now destruct (isize_to_string z). }
  destruct (Ascii.eqb_spec (last (isize_to_string z) " "%char) ";"%char) as [F|F].
  - now apply last_digit in F; [|apply isize_nonempty|apply isize_chars].
  - now rewrite read_integer_plus.
Qed.
Lemma read_var i : read_word (var i) = Some (Variable_ i).
Proof.
  unfold var, num. cbn. destruct (usize_to_string (Z.of_nat i)) eqn:E; [now apply usize_nonempty in E|].
  rewrite <- E, read_number_usize by lia. cbn. now rewrite Nat2Z.id.
Qed.
Lemma read_final z : read_word (isize_to_string z ++ [";"%char]) = Some (Final z).
Proof.
  destruct (isize_start z) as (c & r & E & Hc). rewrite E. cbn [app]. rewrite read_word_start by auto.
  change (c :: r ++ [";"%char]) with ((c :: r) ++ [";"%char]). rewrite last_last, removelast_last, <- E.
  now rewrite read_integer_isize.
Qed.

(* ---- chunks of terms ---- *)
Definition chunk (txt : text) (ts : list (Z * list nat)) : Prop :=
  exists ws toks, txt = unwords ws /\ Forall word_ok ws /\ traverse read_word ws = Some toks /\
    forall r ts' z, read_terms r = Some ([], ts', z) -> read_terms (toks ++ r) = Some ([], ts ++ ts', z).

Lemma chunk_nil : chunk [] [].
Proof. exists [], []. repeat split; auto. Qed.
Lemma chunk_app t1 a t2 b : chunk t1 a -> chunk t2 b -> chunk (t1 ++ t2) (a ++ b).
Proof.
  intros (w1 & k1 & -> & O1 & R1 & H1) (w2 & k2 & -> & O2 & R2 & H2).
  exists (w1 ++ w2), (k1 ++ k2). split; [now rewrite unwords_app|]. split; [now apply Forall_app|].
  split.
  - clear - R1 R2. revert k1 R1. induction w1 as [|w w1 IH]; cbn; intros k1 R1; [now injection R1 as <-|].
    destruct (read_word w); [|discriminate]. cbn in *. destruct (traverse read_word w1) as [k|]; [|discriminate].
    cbn in *. injection R1 as <-. now rewrite (IH k eq_refl).
  - intros r ts' z Hr. rewrite <- !app_assoc. apply H1. now apply H2.
Qed.
Lemma read_terms_vars vs : forall l ts z, read_terms l = Some ([], ts, z) -> l <> [] ->
  read_terms (map Variable_ vs ++ l) = Some (vs, ts, z).
Proof.
  induction vs as [|i vs IH]; intros l ts z H Hl; [exact H|]. cbn. now rewrite (IH l ts z).
Qed.
Lemma read_terms_coef c r : read_terms (Coefficient c :: r) = let* (vs, ts, z) := read_terms r in Some ([], (c, vs) :: ts, z).
Proof. reflexivity. Qed.
Lemma chunk_word w c vs : word_ok w -> read_word w = Some (Coefficient c) ->
  chunk (unwords (w :: map var vs)) [(c, vs)].
Proof.
  intros Hw R. exists (w :: map var vs), (Coefficient c :: map Variable_ vs).
  split; [reflexivity|]. split.
  - constructor; [exact Hw|]. apply Forall_map, Forall_forall. intros. apply word_var.
  - split.
    + cbn. rewrite R. cbn. replace (traverse read_word (map var vs)) with (Some (map Variable_ vs)); [reflexivity|].
      induction vs as [|i vs IH]; [reflexivity|]. cbn [map traverse]. rewrite read_var. cbn. now rewrite <- IH.
    + intros r ts' z Hr. cbn [app]. rewrite read_terms_coef, (read_terms_vars vs r ts' z); [reflexivity|exact Hr|].
      now intros ->.
Qed.
Lemma chunk_int c vs : chunk (unwords (isize_to_string c :: map var vs)) [(c, vs)].
Proof. apply chunk_word; [apply word_isize|apply read_coefficient]. Qed.
Lemma chunk_plus c vs : (0 <= c)%Z -> chunk (unwords (("+"%char :: isize_to_string c) :: map var vs)) [(c, vs)].
Proof. intros. apply chunk_word; [apply word_plus|now apply read_plus]. Qed.

(* ---- equations and files ---- *)
Lemma read_line txt ts z : chunk txt ts ->
  read_equation (txt ++ lit "= " ++ isize_to_string z ++ lit ";") = Some (mkEquation ts z).
Proof.
  intros (ws & toks & -> & O & R & H). unfold read_equation.
  replace (unwords ws ++ lit "= " ++ isize_to_string z ++ lit ";")
    with (unwords (ws ++ [lit "="]) ++ (isize_to_string z ++ [";"%char])).
  2: { rewrite unwords_app, <- app_assoc. reflexivity. }
  rewrite words_unwords.
  - assert (E : traverse read_word ((ws ++ [lit "="]) ++ [isize_to_string z ++ [";"%char]])
      = Some (toks ++ [Equals; Final z])).
    2: { unfold text in *. rewrite E. cbn [bind]. rewrite (H [Equals; Final z] [] z) by reflexivity.
      cbn. now rewrite app_nil_r. }
    clear - R. revert toks R. induction ws as [|w ws IH]; intros toks R.
    + injection R as <-. cbn [app traverse]. change (read_word (lit "=")) with (Some Equals).
        rewrite read_final. reflexivity.
    + cbn [app traverse] in *. destruct (read_word w); [|discriminate]. cbn [bind] in *.
      destruct (traverse read_word ws) as [k|]; [|discriminate]. cbn in R. injection R as <-.
      rewrite (IH k eq_refl). reflexivity.
  - apply Forall_app. split; [exact O|]. constructor; [|constructor]. split; [discriminate|].
    constructor; [split; discriminate|constructor].
  - apply word_final.
Qed.

(* text that reads as the given equations, whatever follows *)
Definition opb (txt : text) (es : list equation) : Prop :=
  forall rest, read_opb (txt ++ rest) = let* r := read_opb rest in Some (es ++ r).
Lemma opb_nil : opb [] [].
Proof. intros rest. cbn [app]. destruct (read_opb rest); reflexivity. Qed.
Lemma opb_app t1 a t2 b : opb t1 a -> opb t2 b -> opb (t1 ++ t2) (a ++ b).
Proof.
  intros H1 H2 rest. rewrite <- app_assoc, H1, H2. destruct (read_opb rest); cbn; [|reflexivity].
  now rewrite <- app_assoc.
Qed.
Lemma opb_all txt es : opb txt es -> read_opb txt = Some es.
Proof.
  intros H. specialize (H []). rewrite app_nil_r in H. rewrite H. cbn. now rewrite app_nil_r.
Qed.
Lemma opb_line txt ts z : chunk txt ts -> txt <> [] ->
  opb (txt ++ lit "= " ++ isize_to_string z ++ lit ";" ++ nl) [mkEquation ts z].
Proof.
  intros Hc Hne rest. unfold read_opb.
  replace ((txt ++ lit "= " ++ isize_to_string z ++ lit ";" ++ nl) ++ rest)
    with ((txt ++ lit "= " ++ isize_to_string z ++ lit ";") ++ line_break :: rest).
  2: { rewrite <- !app_assoc. reflexivity. }
  rewrite pieces_sep.
  - cbn [filter]. replace (skipped (txt ++ lit "= " ++ isize_to_string z ++ lit ";")) with false.
    + cbn [negb traverse]. rewrite (read_line _ _ _ Hc). cbn [bind].
      destruct (traverse read_equation (filter (fun l => negb (skipped l)) (pieces line_break rest))); reflexivity.
    + destruct Hc as (ws & toks & -> & O & R & _). destruct ws as [|w ws]; [contradiction|].
      inversion O as [|? ? [Hw1 Hw2] _]; subst. destruct w as [|c w]; [contradiction|].
      cbn. destruct (Ascii.eqb_spec c "*"%char) as [->|]; [|reflexivity].
      exfalso. cbn [traverse] in R. assert (Hn : read_word ("*"%char :: w) = None).
      { cbn. destruct (Ascii.eqb _ _); [|reflexivity]. destruct w; reflexivity. }
      rewrite Hn in R. discriminate.
  - destruct Hc as (ws & toks & -> & O & R & _).
    apply Forall_app. split; [now apply unwords_nobreak|].
    apply Forall_app. split; [repeat constructor; discriminate|].
    apply Forall_app. split; [apply plain_break, word_isize|repeat constructor; discriminate].
Qed.
