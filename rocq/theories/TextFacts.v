(* Decimal numbers, lines of pair files and the bytewise order. *)
From Coq Require Import Ascii String List ZArith Lia Arith Bool Permutation Sorted.
From Verif Require Import Base BaseFacts ModelWilliamson ModelRowsum ModelWrite Spec.
Import ListNotations.
Notation length := List.length.
Open Scope nat_scope.

Definition und : ascii := "_"%char.
Definition colon : ascii := ":"%char.

(* ---- decimal numbers ---- *)

Definition is_digit (c : ascii) : Prop := 48 <= nat_of_ascii c <= 57.

Lemma digit_code d : (0 <= d <= 9)%Z -> nat_of_ascii (digit d) = 48 + Z.to_nat d.
Proof. intros H. unfold digit. apply nat_ascii_embedding. lia. Qed.
Lemma digit_is_digit d : (0 <= d <= 9)%Z -> is_digit (digit d).
Proof. intros H. unfold is_digit. rewrite digit_code by auto. lia. Qed.
Lemma digit_value_digit d : (0 <= d <= 9)%Z -> digit_value (digit d) = Some (Z.to_nat d).
Proof.
  intros H. unfold digit_value. rewrite digit_code by auto.
  rewrite (proj2 (Nat.leb_le _ _)), (proj2 (Nat.leb_le _ _)) by lia. cbn [andb guard]. f_equal. lia.
Qed.

Lemma digits_digits fuel z : (0 <= z)%Z -> Forall is_digit (digits fuel z).
Proof.
  revert z. induction fuel as [|k IH]; intros z Hz; [constructor|]. cbn [digits].
  destruct (Z.ltb_spec z 10); [constructor; [apply digit_is_digit; lia|constructor]|].
  apply Forall_app; split; [apply IH; apply Z.div_pos; lia|].
  constructor; [|constructor]. apply digit_is_digit. pose proof (Z.mod_pos_bound z 10). lia.
Qed.

Lemma fold_m_app {A B} (f : A -> B -> option A) l1 l2 a :
  fold_m f (l1 ++ l2) a = let* b := fold_m f l1 a in fold_m f l2 b.
Proof. revert a. induction l1; cbn; intros; auto. destruct (f a0 a); cbn; auto. Qed.

Lemma parse_digits_snoc s c x d : parse_digits s = Some x -> digit_value c = Some d ->
  parse_digits (s ++ [c]) = Some (10 * x + Z.of_nat d)%Z.
Proof. intros Hs Hc. unfold parse_digits in *. rewrite fold_m_app, Hs. cbn. now rewrite Hc. Qed.

Lemma parse_digits_digits fuel z : 1 <= fuel -> (0 <= z < 2 ^ Z.of_nat fuel)%Z -> parse_digits (digits fuel z) = Some z.
Proof.
  revert z. induction fuel as [|k IH]; intros z Hf Hz; [lia|]. cbn [digits].
  destruct (Z.ltb_spec z 10).
  - unfold parse_digits. cbn [fold_m]. rewrite digit_value_digit by lia. cbn [bind]. f_equal. lia.
  - rewrite Nat2Z.inj_succ, Z.pow_succ_r in Hz by lia.
    pose proof (Z.mod_pos_bound z 10 ltac:(lia)).
    rewrite (parse_digits_snoc _ _ (z / 10) (Z.to_nat (z mod 10))).
    + f_equal. pose proof (Z.div_mod z 10). lia.
    + assert (Hk : 1 <= k). { destruct k; [cbn in Hz; lia|lia]. }
      apply IH; auto. split; [apply Z.div_pos; lia|].
      apply Z.div_lt_upper_bound; lia.
    + apply digit_value_digit. lia.
Qed.

Lemma digits_nonempty fuel z : 1 <= fuel -> digits fuel z <> [].
Proof.
  destruct fuel; [lia|]. intros _. cbn [digits]. destruct (z <? 10)%Z; [discriminate|].
  intros H. apply (f_equal (@length _)) in H. rewrite app_length in H. cbn in H. lia.
Qed.

Lemma digits_head fuel z : (0 < z < 2 ^ Z.of_nat fuel)%Z -> exists c r, digits fuel z = c :: r /\ c <> "0"%char.
Proof.
  revert z. induction fuel as [|k IH]; intros z Hz; [cbn in Hz; lia|]. cbn [digits].
  destruct (Z.ltb_spec z 10).
  - exists (digit z), []. split; auto. intros E. apply (f_equal nat_of_ascii) in E. rewrite digit_code in E by lia.
    change (nat_of_ascii "0"%char) with 48 in E. lia.
  - rewrite Nat2Z.inj_succ, Z.pow_succ_r in Hz by lia.
    destruct (IH (z / 10)%Z) as (c & r & -> & Hc).
    + split; [apply Z.div_str_pos; lia|]. apply Z.div_lt_upper_bound; lia.
    + exists c, (r ++ [digit (z mod 10)]). auto.
Qed.

Lemma log2_fuel z : (0 <= z)%Z -> (z < 2 ^ Z.of_nat (S (Z.to_nat (Z.log2 z))))%Z.
Proof.
  intros Hz. rewrite Nat2Z.inj_succ, Z2Nat.id by apply Z.log2_nonneg.
  destruct (Z.eq_dec z 0) as [->|]; [reflexivity|]. apply Z.log2_spec. lia.
Qed.

Lemma usize_digits z : (0 <= z)%Z -> Forall is_digit (usize_to_string z).
Proof. apply digits_digits. Qed.
Lemma parse_usize_digits z : (0 <= z)%Z -> parse_digits (usize_to_string z) = Some z.
Proof. intros Hz. apply parse_digits_digits; [lia|]. split; auto. now apply log2_fuel. Qed.
Lemma usize_nonempty z : usize_to_string z <> [].
Proof. apply digits_nonempty. lia. Qed.

Lemma parse_usize_to_string z : (0 <= z)%Z -> parse_usize (usize_to_string z) = Some z.
Proof.
  intros Hz. pose proof (parse_usize_digits z Hz) as P. pose proof (usize_digits z Hz) as D.
  pose proof (usize_nonempty z) as N.
  unfold parse_usize. destruct (usize_to_string z) as [|c r]; [congruence|].
  inversion D as [|? ? Hc _]; subst. destruct (Ascii.eqb_spec c "+"%char) as [->|].
  - exfalso. unfold is_digit in Hc. change (nat_of_ascii "+"%char) with 43 in Hc. lia.
  - cbn [length Nat.eqb negb guard]. exact P.
Qed.

Definition num_char (c : ascii) : Prop := c = "-"%char \/ is_digit c.
Lemma isize_chars z : Forall num_char (isize_to_string z).
Proof.
  unfold isize_to_string. destruct (Z.ltb_spec z 0).
  - constructor; [now left|]. eapply Forall_impl; [|apply usize_digits; lia]. intros; now right.
  - eapply Forall_impl; [|apply usize_digits; lia]. intros; now right.
Qed.
Lemma isize_nonempty z : isize_to_string z <> [].
Proof. unfold isize_to_string. destruct (z <? 0)%Z; [discriminate|apply usize_nonempty]. Qed.
Lemma isize_inj x y : isize_to_string x = isize_to_string y -> x = y.
Proof.
  assert (D : forall z, (0 <= z)%Z -> forall r, usize_to_string z <> "-"%char :: r).
  { intros z Hz r E. pose proof (usize_digits z Hz) as H. rewrite E in H. inversion H as [|? ? Hc _]; subst.
    unfold is_digit in Hc. change (nat_of_ascii "-"%char) with 45 in Hc. lia. }
  assert (I : forall a b, (0 <= a)%Z -> (0 <= b)%Z -> usize_to_string a = usize_to_string b -> a = b).
  { intros a b Ha Hb E. apply (f_equal parse_digits) in E. rewrite !parse_usize_digits in E by auto. congruence. }
  unfold isize_to_string. destruct (Z.ltb_spec x 0), (Z.ltb_spec y 0); intros E.
  - injection E as E. apply I in E; lia.
  - symmetry in E. now apply D in E.
  - now apply D in E.
  - apply I; auto.
Qed.

Lemma isize_zero : isize_to_string 0 = ["0"%char]. Proof. reflexivity. Qed.
Lemma isize_head_zero z r : isize_to_string z = "0"%char :: r -> z = 0%Z.
Proof.
  unfold isize_to_string. destruct (Z.ltb_spec z 0); [discriminate|]. intros E.
  destruct (Z.eq_dec z 0) as [->|]; auto. exfalso.
  destruct (digits_head (S (Z.to_nat (Z.log2 z))) z) as (c & r' & E' & Hc).
  - split; [lia|]. apply log2_fuel; lia.
  - unfold usize_to_string in E. rewrite E' in E. congruence.
Qed.

Lemma num_char_und c : num_char c -> c <> und.
Proof.
  intros [->|H] E; [discriminate|]. subst. unfold is_digit in H. change (nat_of_ascii und) with 95 in H. lia.
Qed.
Lemma num_char_colon c : num_char c -> c <> colon.
Proof.
  intros [->|H] E; [discriminate|]. subst. unfold is_digit in H. change (nat_of_ascii colon) with 58 in H. lia.
Qed.

(* ---- keys ---- *)

(* the fields of a key separated by underscores *)
Fixpoint join (fs : list Z) : text :=
  match fs with
  | [] => []
  | [x] => isize_to_string x
  | x :: r => isize_to_string x ++ und :: join r
  end.

Lemma join_cons x y r : join (x :: y :: r) = isize_to_string x ++ und :: join (y :: r).
Proof. reflexivity. Qed.

Lemma concat_fields fs : fs <> [] -> concat (map field fs) = join fs ++ [und].
Proof.
  induction fs as [|x [|y r] IH]; intros H; [congruence| |].
  - cbn. now rewrite app_nil_r.
  - cbn [map concat]. cbn [map concat] in IH. rewrite IH by discriminate. rewrite join_cons.
    unfold field. change (lit "_") with [und]. rewrite <- !app_assoc. reflexivity.
Qed.

Lemma pair_line_join fs i j : pair_line (concat (map field fs)) i j =
  join fs ++ lit "_:_" ++ usize_to_string (Z.of_nat i) ++ lit "_" ++ usize_to_string (Z.of_nat j).
Proof.
  unfold pair_line. destruct fs as [|x r].
  - reflexivity.
  - rewrite concat_fields by discriminate. rewrite app_length. cbn [length].
    replace (length (join (x :: r)) + 1 =? 0) with false by (symmetry; apply Nat.eqb_neq; lia).
    rewrite <- !app_assoc. reflexivity.
Qed.

Lemma join_colon fs : Forall (fun c => c <> colon) (join fs).
Proof.
  induction fs as [|x [|y r] IH]; [constructor| |].
  - cbn [join]. eapply Forall_impl; [|apply isize_chars]. apply num_char_colon.
  - rewrite join_cons. apply Forall_app; split.
    + eapply Forall_impl; [|apply isize_chars]. apply num_char_colon.
    + constructor; [discriminate|exact IH].
Qed.

(* the first underscore determines both parts *)
Lemma split_und (a b r s : text) :
  Forall (fun c => c <> und) a -> Forall (fun c => c <> und) b -> a ++ und :: r = b ++ und :: s -> a = b /\ r = s.
Proof.
  revert b. induction a as [|x a IH]; intros [|y b] Ha Hb E; cbn in E.
  - injection E as ->. auto.
  - injection E as <- _. inversion Hb; congruence.
  - injection E as -> _. inversion Ha; congruence.
  - injection E as <- E. inversion Ha; inversion Hb; subst. destruct (IH b) as [-> ->]; auto.
Qed.
Lemma isize_und z : Forall (fun c => c <> und) (isize_to_string z).
Proof. eapply Forall_impl; [|apply isize_chars]. apply num_char_und. Qed.

(* keys with the same number of fields, one a prefix of the other *)
Lemma join_prefix fs gs r : length fs = length gs -> join gs = join fs ++ r ->
  fs = gs \/ exists h x y, fs = h ++ [x] /\ gs = h ++ [y] /\ x <> y /\ isize_to_string y = isize_to_string x ++ r.
Proof.
  revert gs. induction fs as [|x [|x' fs] IH]; intros gs Hl E.
  - destruct gs; [now left|discriminate].
  - destruct gs as [|y [|? ?]]; try discriminate. cbn [join] in E.
    destruct (Z.eq_dec x y) as [->|N]; [now left|]. right. exists [], x, y. auto.
  - destruct gs as [|y [|y' gs]]; try discriminate. rewrite !join_cons in E. rewrite <- app_assoc in E. cbn [app] in E.
    apply split_und in E as [E1 E2]; try apply isize_und. apply isize_inj in E1. subst y.
    destruct (IH (y' :: gs)) as [H|(h & u & v & H1 & H2 & H3 & H4)]; auto.
    + left. now rewrite H.
    + right. exists (x :: h), u, v. rewrite H1, H2. auto.
Qed.

Lemma join_nil fs : join fs = [] -> fs = [].
Proof.
  destruct fs as [|x [|y r]]; auto; cbn [join]; intros E.
  - now apply isize_nonempty in E.
  - apply app_eq_nil in E as [E _]. now apply isize_nonempty in E.
Qed.

Lemma join_inj fs gs : join fs = join gs -> fs = gs.
Proof.
  revert gs. induction fs as [|x [|x' fs] IH]; intros gs E.
  - symmetry in E. apply join_nil in E. auto.
  - destruct gs as [|y [|y' gs]].
    + cbn [join] in E. now apply isize_nonempty in E.
    + cbn [join] in E. apply isize_inj in E. congruence.
    + exfalso. rewrite join_cons in E. cbn [join] in E. pose proof (isize_und x) as H. rewrite E in H.
      apply Forall_app in H as [_ H]. inversion H; congruence.
  - destruct gs as [|y [|y' gs]].
    + apply (join_nil (x :: x' :: fs)) in E. discriminate.
    + exfalso. rewrite join_cons in E. cbn [join] in E. pose proof (isize_und y) as H. rewrite <- E in H.
      apply Forall_app in H as [_ H]. inversion H; congruence.
    + rewrite !join_cons in E. apply split_und in E as [E1 E2]; try apply isize_und.
      apply isize_inj in E1. subst. rewrite (IH _ E2). reflexivity.
Qed.

(* ---- parsing lines ---- *)

Lemma split_at_colon (x r : text) : Forall (fun c => c <> colon) x -> split_at (lit "_:_") (x ++ lit "_:_" ++ r) = (x, Some r).
Proof.
  induction x as [|c x IH]; intros H; [reflexivity|].
  inversion H as [|? ? Hc Hx]; subst. specialize (IH Hx).
  cbn [app split_at]. change (lit "_:_") with [und; colon; und] in *.
  assert (E : strip_prefix [und; colon; und] (c :: x ++ [und; colon; und] ++ r) = None).
  { cbn [strip_prefix]. destruct (Ascii.eqb und c); auto.
    destruct x as [|c' x]; cbn [app]; [reflexivity|].
    inversion Hx as [|? ? Hc' _]; subst. destruct (Ascii.eqb_spec colon c'); congruence. }
  rewrite E, IH. reflexivity.
Qed.

Lemma split_at_none (x : text) : Forall (fun c => c <> colon) x -> split_at (lit "_:_") x = (x, None).
Proof.
  induction x as [|c x IH]; intros H; [reflexivity|].
  inversion H as [|? ? Hc Hx]; subst. specialize (IH Hx).
  cbn [split_at]. change (lit "_:_") with [und; colon; und] in *.
  assert (E : strip_prefix [und; colon; und] (c :: x) = None).
  { cbn [strip_prefix]. destruct (Ascii.eqb und c); auto. destruct x as [|c' x]; auto.
    inversion Hx as [|? ? Hc' _]; subst. destruct (Ascii.eqb_spec colon c'); congruence. }
  rewrite E, IH. reflexivity.
Qed.

Lemma split_at_und (x r : text) : Forall (fun c => c <> und) x -> split_at (lit "_") (x ++ lit "_" ++ r) = (x, Some r).
Proof.
  induction x as [|c x IH]; intros H; [reflexivity|].
  inversion H as [|? ? Hc Hx]; subst. specialize (IH Hx).
  cbn [app split_at]. change (lit "_") with [und] in *. cbn [strip_prefix].
  destruct (Ascii.eqb_spec und c); [congruence|]. now rewrite IH.
Qed.
Lemma split_at_und_none (x : text) : Forall (fun c => c <> und) x -> split_at (lit "_") x = (x, None).
Proof.
  induction x as [|c x IH]; intros H; [reflexivity|].
  inversion H as [|? ? Hc Hx]; subst. specialize (IH Hx).
  cbn [split_at]. change (lit "_") with [und] in *. cbn [strip_prefix].
  destruct (Ascii.eqb_spec und c); [congruence|]. now rewrite IH.
Qed.

Lemma usize_num z : (0 <= z)%Z -> Forall num_char (usize_to_string z).
Proof. intros H. eapply Forall_impl; [|now apply usize_digits]. intros; now right. Qed.

Lemma get_line_pair_line fs i j : get_line_from (pair_line (concat (map field fs)) i j) = Some (join fs, (i, j)).
Proof.
  assert (Hi := usize_num (Z.of_nat i) ltac:(lia)). assert (Hj := usize_num (Z.of_nat j) ltac:(lia)).
  rewrite pair_line_join. unfold get_line_from. rewrite split_at_colon by apply join_colon. cbn [bind].
  rewrite split_at_none.
  2:{ apply Forall_app; split; [eapply Forall_impl; [|exact Hi]; apply num_char_colon|].
      apply Forall_app; split; [repeat constructor; discriminate|].
      eapply Forall_impl; [|exact Hj]; apply num_char_colon. }
  rewrite split_at_und by (eapply Forall_impl; [|exact Hi]; apply num_char_und).
  rewrite parse_usize_to_string by lia. cbn [bind].
  rewrite split_at_und_none by (eapply Forall_impl; [|exact Hj]; apply num_char_und).
  rewrite parse_usize_to_string by lia. cbn [bind]. now rewrite !Nat2Z.id.
Qed.

(* ---- sequences ---- *)

Lemma sequence_text s : pm1 s -> exists l, sequence_to_string s = Some l /\ string_to_sequence l = Some s.
Proof.
  unfold sequence_to_string, string_to_sequence. intros H.
  induction H as [|x s [->| ->] _ (l & E1 & E2)].
  - exists []. auto.
  - exists ("+"%char :: l). cbn. rewrite E1. cbn. now rewrite E2.
  - exists ("-"%char :: l). cbn. rewrite E1. cbn. now rewrite E2.
Qed.

(* ---- the bytewise order ---- *)

Lemma text_eqb_eq x y : text_eqb x y = true <-> x = y.
Proof.
  revert y. induction x as [|a x IH]; intros [|b y]; cbn; try (split; congruence).
  rewrite andb_true_iff, IH, Ascii.eqb_eq. split; [intros [-> ->]; auto|intros E; injection E; auto].
Qed.
Lemma text_eqb_refl x : text_eqb x x = true. Proof. now apply text_eqb_eq. Qed.
Lemma text_eqb_neq x y : text_eqb x y = false <-> x <> y.
Proof. rewrite <- text_eqb_eq. destruct (text_eqb x y); split; congruence. Qed.

Lemma code_inj a b : nat_of_ascii a = nat_of_ascii b -> a = b.
Proof. intros E. rewrite <- (ascii_nat_embedding a), E. apply ascii_nat_embedding. Qed.

Lemma text_ltb_cons a b x y : text_ltb (a :: x) (b :: y) = true <->
  nat_of_ascii a < nat_of_ascii b \/ a = b /\ text_ltb x y = true.
Proof.
  cbn [text_ltb]. destruct (Nat.ltb_spec (nat_of_ascii a) (nat_of_ascii b)); [intuition|].
  destruct (Nat.ltb_spec (nat_of_ascii b) (nat_of_ascii a)).
  - split; [discriminate|]. intros [|[-> _]]; lia.
  - assert (a = b) by (apply code_inj; lia). subst. intuition lia.
Qed.

Lemma text_ltb_irrefl x : text_ltb x x = false.
Proof. induction x; cbn [text_ltb]; auto. now rewrite Nat.ltb_irrefl. Qed.
Lemma text_ltb_trans x y z : text_ltb x y = true -> text_ltb y z = true -> text_ltb x z = true.
Proof.
  revert y z. induction x as [|a x IH]; intros [|b y] [|c z]; try (cbn; congruence).
  rewrite !text_ltb_cons. intros [H|[-> H]] [H'|[<- H']]; try (left; lia); auto. right; eauto.
Qed.
Lemma text_ltb_total x y : text_ltb x y = false -> x = y \/ text_ltb y x = true.
Proof.
  revert y. induction x as [|a x IH]; intros [|b y]; try (cbn; auto; congruence).
  intros H. rewrite text_ltb_cons.
  destruct (lt_eq_lt_dec (nat_of_ascii a) (nat_of_ascii b)) as [[L|E]|L]; auto.
  - assert (text_ltb (a :: x) (b :: y) = true) by (apply text_ltb_cons; auto). congruence.
  - apply code_inj in E. subst b. destruct (IH y) as [->|T]; auto.
    destruct (text_ltb x y) eqn:E; auto. assert (text_ltb (a :: x) (a :: y) = true) by (apply text_ltb_cons; auto). congruence.
Qed.
Lemma text_ltb_asym x y : text_ltb x y = true -> text_ltb y x = false.
Proof.
  intros H. destruct (text_ltb y x) eqn:E; auto. pose proof (text_ltb_trans _ _ _ H E) as C.
  now rewrite text_ltb_irrefl in C.
Qed.

(* y does not come before x *)
Definition text_le (x y : text) : Prop := text_ltb y x = false.
Lemma text_le_trans x y z : text_le x y -> text_le y z -> text_le x z.
Proof.
  unfold text_le. intros H1 H2. destruct (text_ltb z x) eqn:E; auto.
  destruct (text_ltb_total _ _ H1) as [->|L]; [congruence|].
  pose proof (text_ltb_trans _ _ _ E L). congruence.
Qed.
Lemma text_le_total x y : text_le x y \/ text_le y x.
Proof. unfold text_le. destruct (text_ltb y x) eqn:E; auto. right. now apply text_ltb_asym. Qed.

Definition sorted (l : Lines) : Prop := StronglySorted text_le l.

Lemma insert_line_perm x l : Permutation (insert_line x l) (x :: l).
Proof.
  induction l as [|y l IH]; cbn; auto. destruct (text_ltb y x); auto.
  rewrite IH. apply perm_swap.
Qed.
Lemma sort_lines_perm l : Permutation (sort_lines l) l.
Proof. induction l; cbn; auto. rewrite insert_line_perm. now constructor. Qed.
Lemma insert_line_sorted x l : sorted l -> sorted (insert_line x l).
Proof.
  induction l as [|y l IH]; intros H; cbn; [repeat constructor|].
  inversion H as [|? ? Hl Hy]; subst. destruct (text_ltb y x) eqn:E.
  - constructor; [now apply IH|]. apply (Permutation_Forall (Permutation_sym (insert_line_perm x l))).
    constructor; auto. unfold text_le. now apply text_ltb_asym.
  - constructor; auto. constructor; auto.
    eapply Forall_impl; [|exact Hy]. intros z. apply text_le_trans. exact E.
Qed.
Lemma sort_lines_sorted l : sorted (sort_lines l).
Proof. induction l; cbn; [constructor|]. now apply insert_line_sorted. Qed.

(* ---- prefixes ---- *)

Definition prefix (x y : text) : Prop := exists r, y = x ++ r.

Lemma text_ltb_app x y u v : ~ prefix x y -> ~ prefix y x -> text_ltb (x ++ u) (y ++ v) = text_ltb x y.
Proof.
  revert y. induction x as [|a x IH]; intros y H1 H2.
  - exfalso. apply H1. exists y. reflexivity.
  - destruct y as [|b y]; [exfalso; apply H2; exists (a :: x); reflexivity|].
    cbn [text_ltb app]. destruct (nat_of_ascii a <? nat_of_ascii b) eqn:E1; auto.
    destruct (nat_of_ascii b <? nat_of_ascii a) eqn:E2; auto.
    apply Nat.ltb_ge in E1, E2. assert (a = b) by (apply code_inj; lia). subst b. apply IH.
    + intros [r ->]. apply H1. now exists r.
    + intros [r ->]. apply H2. now exists r.
Qed.

(* what lies between two texts with a common prefix has this prefix *)
Lemma between_prefix p u v w : text_le (p ++ u) w -> text_le w (p ++ v) -> prefix p w.
Proof.
  revert w. induction p as [|a p IH]; intros w H1 H2; [now exists w|].
  destruct w as [|b w]; [exfalso; unfold text_le in H1; cbn in H1; discriminate|].
  assert (a = b /\ text_le (p ++ u) w /\ text_le w (p ++ v)) as (<- & A & B).
  { unfold text_le in *. cbn [text_ltb app] in H1, H2.
    destruct (Nat.ltb_spec (nat_of_ascii b) (nat_of_ascii a)); [discriminate|].
    destruct (Nat.ltb_spec (nat_of_ascii a) (nat_of_ascii b)); [discriminate|].
    split; auto. apply code_inj. lia. }
  destruct (IH w A B) as [r ->]. now exists r.
Qed.
