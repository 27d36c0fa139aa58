(* Searching for patterns in the lines of a log. *)
From Coq Require Import Ascii String List ZArith Bool Arith Lia.
From Verif Require Import Base BaseFacts ModelRowsum ModelMatching ModelWrite TextFacts ModelMain ModelLog.
Import ListNotations.
Open Scope nat_scope.
Notation length := List.length.

Fixpoint prefixb (p s : text) : bool :=
  match p, s with
  | [], _ => true
  | a :: p, b :: s => Ascii.eqb a b && prefixb p s
  | _ :: _, [] => false
  end.
Fixpoint has (p s : text) : bool :=
  prefixb p s || match s with [] => false | _ :: r => has p r end.

Lemma prefixb_app p s : prefixb p s = true <-> exists r, s = p ++ r.
Proof.
  revert s. induction p as [|a p IH]; intros s; cbn [prefixb].
  - split; [exists s; reflexivity|auto].
  - destruct s as [|b s]; [split; [discriminate|intros (r & [=])]|]. rewrite andb_true_iff, Ascii.eqb_eq, IH. split.
    + intros (-> & r & ->). now exists r.
    + intros (r & [= -> ->]). eauto.
Qed.
Lemma has_infix p s : has p s = true <-> exists a b, s = a ++ p ++ b.
Proof.
  induction s as [|c s IH]; cbn [has].
  - rewrite orb_false_r, prefixb_app. split; [intros (r & ->); now exists [], r|].
    intros (a & b & E). destruct a; [now exists b|discriminate].
  - rewrite orb_true_iff, prefixb_app, IH. split.
    + intros [(r & E)|(a & b & ->)]; [now exists [], r|now exists (c :: a), b].
    + intros ([|x a] & b & E); [left; now exists b|]. injection E as -> ->. right. eauto.
Qed.

(* a character that does not occur in p separates *)
Lemma cut (c : ascii) p : ~ In c p -> forall a b x y, a ++ c :: b = x ++ p ++ y -> (exists z, a = x ++ p ++ z) \/ (exists z, b = z ++ p ++ y).
Proof.
  intros Hc. assert (K : forall p b y a, ~ In c p -> a ++ c :: b = p ++ y -> exists z, a = p ++ z).
  { clear. induction p as [|d p IH]; intros b y a Hc E; [now exists a|].
    destruct a as [|e a]; [injection E as -> _; destruct Hc; now left|]. injection E as -> E.
    apply IH in E as (z & ->); [now exists z|]. intros H. apply Hc. now right. }
  induction a as [|e a IH]; intros b x y E.
  - destruct x as [|d x].
    + left. apply (K p b y []) in E as (z & E); auto. destruct p; [exists []; reflexivity|discriminate].
    + injection E as -> E. right. now exists x.
  - destruct x as [|d x].
    + left. apply (K p b y (e :: a)) in E as (z & E); auto. exists z. exact E.
    + injection E as -> E. apply IH in E as [(z & ->)|(z & ->)]; [left; now exists z|right; now exists z].
Qed.
Lemma has_cut c p a b : ~ In c p -> has p (a ++ c :: b) = has p a || has p b.
Proof.
  intros Hc. apply eq_true_iff_eq. rewrite orb_true_iff, !has_infix. split.
  - intros (x & y & E). apply cut in E as [(z & ->)|(z & ->)]; eauto.
  - intros [(x & y & ->)|(x & y & ->)].
    + exists x, (y ++ c :: b). now rewrite <- !app_assoc.
    + exists (a ++ c :: x), y. now rewrite <- !app_assoc.
Qed.

(* texts made of these characters separate as well *)
Definition plain_chars : text := lit "0123456789-.()_[]/+" ++ [ascii_of_nat 34].
Definition plain (k : text) : Prop := k <> [] /\ Forall (fun c => In c plain_chars) k.
Definition clear (p : text) : bool := negb (length p =? 0) && forallb (fun c => negb (existsb (Ascii.eqb c) plain_chars)) p.
Lemma clear_char p c : clear p = true -> In c plain_chars -> ~ In c p.
Proof.
  unfold clear. rewrite andb_true_iff, forallb_forall. intros (_ & H) Hc Hp. specialize (H c Hp).
  rewrite negb_true_iff in H. apply not_true_iff_false in H. apply H. apply existsb_exists. exists c. split; auto. apply Ascii.eqb_refl.
Qed.
Lemma has_nil p : clear p = true -> has p [] = false.
Proof. destruct p; [discriminate|reflexivity]. Qed.
Lemma has_plain p a k b : clear p = true -> plain k -> has p (a ++ k ++ b) = has p a || has p b.
Proof.
  intros Hp (Hk & F). revert a. induction k as [|c k IH]; [congruence|]. intros a. inversion F as [|? ? Hc F']; subst.
  cbn [app]. rewrite has_cut by now apply clear_char. destruct k as [|c' k]; [reflexivity|].
  assert (E : has p ((c' :: k) ++ b) = has p b).
  { rewrite <- (app_nil_l ((c' :: k) ++ b)). rewrite IH by (auto; discriminate). rewrite has_nil by auto. reflexivity. }
  now rewrite E.
Qed.
Lemma hush p a k b : plain k -> clear p = true -> has p a = false -> has p b = false -> has p (a ++ k ++ b) = false.
Proof. intros H1 H2 H3 H4. rewrite has_plain by auto. now rewrite H3, H4. Qed.
Lemma hush_end p a k : plain k -> clear p = true -> has p a = false -> has p (a ++ k) = false.
Proof. intros H1 H2 H3. rewrite <- (app_nil_r k). apply hush; auto. now apply has_nil. Qed.
Lemma hush_start p k b : plain k -> clear p = true -> has p b = false -> has p (k ++ b) = false.
Proof. intros H1 H2 H3. apply (hush p []); auto. now apply has_nil. Qed.
Lemma hush_only p k : plain k -> clear p = true -> has p k = false.
Proof. intros H1 H2. apply (hush_end p []); auto. now apply has_nil. Qed.

Lemma plain_app k l : plain k -> plain l -> plain (k ++ l).
Proof. intros (H1 & F1) (H2 & F2). split; [destruct k; [congruence|discriminate]|]. now apply Forall_app. Qed.
Lemma digit_plain c : TextFacts.is_digit c -> In c plain_chars.
Proof.
  unfold TextFacts.is_digit. intros H. rewrite <- (ascii_nat_embedding c). set (n := nat_of_ascii c) in *. clearbody n.
  destruct H as [H1 H2]. do 48 (destruct n as [|n]; [lia|]). do 10 (destruct n as [|n]; [vm_compute; tauto|]). lia.
Qed.
Lemma usize_plain z : (0 <= z)%Z -> plain (usize_to_string z).
Proof. intros H. split; [apply usize_nonempty|]. eapply Forall_impl; [|now apply usize_digits]. apply digit_plain. Qed.
Lemma isize_plain z : plain (isize_to_string z).
Proof.
  split; [apply isize_nonempty|]. eapply Forall_impl; [|apply isize_chars].
  intros c [->|H]; [vm_compute; tauto|now apply digit_plain].
Qed.
Lemma count_plain n : plain (count n). Proof. apply usize_plain. lia. Qed.
Lemma two_digits z : (0 <= z)%Z -> TextFacts.is_digit (digit (z / 10 mod 10)) /\ TextFacts.is_digit (digit (z mod 10)).
Proof.
  intros H. pose proof (Z.mod_pos_bound z 10 ltac:(lia)). pose proof (Z.mod_pos_bound (z / 10) 10 ltac:(lia)).
  split; apply digit_is_digit; lia.
Qed.
Lemma seconds_plain z : (0 <= z)%Z -> plain (seconds z).
Proof.
  intros H. unfold seconds. apply plain_app; [apply usize_plain, Z.div_pos; lia|]. destruct (two_digits z H).
  split; [discriminate|]. cbn [lit list_ascii_of_string app].
  constructor; [vm_compute; tauto|]. constructor; [now apply digit_plain|]. constructor; [now apply digit_plain|constructor].
Qed.

(* ---- patterns ---- *)

Lemma strip_iff p s r : strip_prefix p s = Some r <-> s = p ++ r.
Proof.
  revert s. induction p as [|a p IH]; intros s; cbn [strip_prefix app]; [split; congruence|].
  destruct s as [|b s]; [split; discriminate|]. destruct (Ascii.eqb_spec a b) as [->|N].
  - rewrite IH. split; congruence.
  - split; [discriminate|congruence].
Qed.
Lemma digits_at_app s d r : digits_at s = Some (d, r) -> s = d ++ r.
Proof.
  unfold digits_at. assert (K : let '(d, r) := span_digits s in s = d ++ r).
  { induction s as [|c s IH]; [reflexivity|]. cbn [span_digits]. destruct (is_digit c); [|reflexivity]. destruct (span_digits s). cbn [app]. congruence. }
  destruct (span_digits s) as [d' r']. destruct (negb _); cbn [guard]; congruence.
Qed.
Lemma digit_bool c : TextFacts.is_digit c -> is_digit c = true.
Proof.
  unfold TextFacts.is_digit, is_digit, digit_value. intros H.
  rewrite (proj2 (Nat.leb_le _ _)), (proj2 (Nat.leb_le _ _)) by lia. reflexivity.
Qed.
Lemma span_exact d c r : Forall TextFacts.is_digit d -> is_digit c = false -> span_digits (d ++ c :: r) = (d, c :: r).
Proof.
  intros F Hc. induction F as [|x d Hx F IH]; cbn [app span_digits]; [now rewrite Hc|].
  rewrite (digit_bool x Hx), IH. reflexivity.
Qed.
Lemma digits_exact d c r : Forall TextFacts.is_digit d -> d <> [] -> is_digit c = false -> digits_at (d ++ c :: r) = Some (d, c :: r).
Proof. intros F N Hc. unfold digits_at. rewrite span_exact by auto. destruct d; [congruence|reflexivity]. Qed.

Lemma search_none {A} (m : text -> option A) p s : (forall s a, m s = Some a -> has p s = true) -> has p s = false -> search m s = None.
Proof.
  intros H. induction s as [|c s IH]; cbn [search]; intros E.
  - destruct (m []) eqn:M; auto. apply H in M. congruence.
  - destruct (m (c :: s)) eqn:M; [apply H in M; congruence|]. apply IH. cbn [has] in E. now apply orb_false_iff in E as [_ E].
Qed.
Lemma search_start {A} (m : text -> option A) s a : m s = Some a -> search m s = Some a.
Proof. intros H. destruct s; cbn [search]; now rewrite H. Qed.
Lemma search_skip {A} (m : text -> option A) a s : (forall c r, In c a -> m (c :: r) = None) -> search m (a ++ s) = search m s.
Proof.
  induction a as [|c a IH]; intros H; [reflexivity|]. cbn [app search]. rewrite H by now left. apply IH. intros d r Hd. apply H. now right.
Qed.
Lemma infix_has p s a b : s = a ++ p ++ b -> has p s = true. Proof. intros H. apply has_infix. eauto. Qed.
Lemma number_has pre post s z : number_pattern pre post s = Some z -> has pre s = true /\ has post s = true.
Proof.
  unfold number_pattern. intros H. destruct (strip_prefix pre s) as [s1|] eqn:E1; [|discriminate]. cbn [bind] in H.
  destruct (digits_at s1) as [[d s2]|] eqn:E2; [|discriminate]. cbn [bind] in H.
  destruct (strip_prefix post s2) as [s3|] eqn:E3; [|discriminate].
  apply strip_iff in E1, E3. apply digits_at_app in E2. subst. split.
  - now apply (infix_has _ _ [] (d ++ post ++ s3)).
  - apply (infix_has _ _ (pre ++ d) s3). now rewrite <- !app_assoc.
Qed.
Lemma runtime_has s x : runtime_pattern s = Some x -> has (lit ": ") s = true /\ has (lit " seconds") s = true.
Proof.
  unfold runtime_pattern. intros H. destruct (strip_prefix (lit ": ") s) as [s1|] eqn:E1; [|discriminate]. cbn [bind] in H.
  destruct (digits_at s1) as [[d s2]|] eqn:E2; [|discriminate]. cbn [bind] in H.
  destruct (strip_prefix (lit ".") s2) as [s3|] eqn:E3; [|discriminate]. cbn [bind] in H.
  destruct s3 as [|a [|b s4]]; try discriminate. destruct (is_digit a && is_digit b); [|discriminate]. cbn [guard] in H.
  destruct (strip_prefix (lit " seconds") s4) as [s5|] eqn:E5; [|discriminate].
  apply strip_iff in E1, E3, E5. apply digits_at_app in E2. subst. split.
  - now apply (infix_has _ _ [] (d ++ lit "." ++ a :: b :: lit " seconds" ++ s5)).
  - apply (infix_has _ _ (lit ": " ++ d ++ lit "." ++ [a; b]) s5). now rewrite <- !app_assoc.
Qed.
Lemma took_has pre s x : took_pattern pre s = Some x -> has pre s = true.
Proof.
  unfold took_pattern. intros H. destruct (strip_prefix pre s) as [s1|] eqn:E1; [|discriminate].
  apply strip_iff in E1. subst. now apply (infix_has _ _ [] s1).
Qed.

Lemma number_line pre post z r : (0 <= z)%Z -> match post with c :: _ => is_digit c = false | [] => False end ->
  search (number_pattern pre post) (pre ++ usize_to_string z ++ post ++ r) = Some z.
Proof.
  intros Hz Hp. apply search_start. unfold number_pattern. rewrite (proj2 (strip_iff _ _ (usize_to_string z ++ post ++ r)) eq_refl). cbn [bind].
  destruct post as [|c post]; [contradiction|]. cbn [app]. rewrite digits_exact by (auto using usize_digits, usize_nonempty). cbn [bind].
  rewrite (proj2 (strip_iff (c :: post) (c :: post ++ r) r) eq_refl). cbn [bind]. now apply parse_usize_digits.
Qed.
Lemma runtime_line a z r : (0 <= z)%Z -> ~ In ":"%char a -> search runtime_pattern (a ++ lit ": " ++ seconds z ++ lit " seconds" ++ r) = Some (seconds z).
Proof.
  intros Hz Ha. rewrite search_skip.
  2:{ intros c s Hc. unfold runtime_pattern. destruct (strip_prefix (lit ": ") (c :: s)) as [s1|] eqn:E; [|reflexivity].
      apply strip_iff in E. injection E as -> _. contradiction. }
  apply search_start. unfold runtime_pattern. rewrite (proj2 (strip_iff _ _ (seconds z ++ lit " seconds" ++ r)) eq_refl). cbn [bind].
  unfold seconds. rewrite <- !app_assoc. destruct (two_digits z Hz) as [D1 D2].
  change (lit "." ++ [digit (z / 10 mod 10); digit (z mod 10)] ++ lit " seconds" ++ r) with ("."%char :: digit (z / 10 mod 10) :: digit (z mod 10) :: lit " seconds" ++ r).
  rewrite digits_exact; [|apply usize_digits, Z.div_pos; lia|apply usize_nonempty|reflexivity]. cbn [bind].
  rewrite (proj2 (strip_iff (lit ".") ("."%char :: digit (z / 10 mod 10) :: digit (z mod 10) :: lit " seconds" ++ r) (digit (z / 10 mod 10) :: digit (z mod 10) :: lit " seconds" ++ r)) eq_refl). cbn [bind].
  rewrite (digit_bool _ D1), (digit_bool _ D2). cbn [andb guard].
  rewrite (proj2 (strip_iff (lit " seconds") _ r) eq_refl). reflexivity.
Qed.
Lemma took_line pre z r : (0 <= z)%Z -> search (took_pattern pre) (pre ++ seconds z ++ lit " seconds" ++ r) = Some (seconds z).
Proof.
  intros Hz. apply search_start. unfold took_pattern. rewrite (proj2 (strip_iff _ _ (seconds z ++ lit " seconds" ++ r)) eq_refl). cbn [bind].
  unfold seconds. rewrite <- !app_assoc. destruct (two_digits z Hz) as [D1 D2].
  change (lit "." ++ [digit (z / 10 mod 10); digit (z mod 10)] ++ lit " seconds" ++ r) with ("."%char :: [digit (z / 10 mod 10); digit (z mod 10)] ++ lit " seconds" ++ r).
  rewrite digits_exact; [|apply usize_digits, Z.div_pos; lia|apply usize_nonempty|reflexivity]. cbn [bind].
  rewrite (proj2 (strip_iff (lit ".") ("."%char :: [digit (z / 10 mod 10); digit (z mod 10)] ++ lit " seconds" ++ r) ([digit (z / 10 mod 10); digit (z mod 10)] ++ lit " seconds" ++ r)) eq_refl). cbn [bind].
  change (lit " seconds" ++ r) with (" "%char :: lit "seconds" ++ r).
  rewrite digits_exact; [|constructor; [exact D1|constructor; [exact D2|constructor]]|discriminate|reflexivity]. cbn [bind].
  change (" "%char :: lit "seconds" ++ r) with (lit " seconds" ++ r).
  rewrite (proj2 (strip_iff (lit " seconds") _ r) eq_refl). reflexivity.
Qed.

(* ---- lines that match no pattern ---- *)

Definition p_wts : text := lit " wts after reducing to equivalence".
Definition p_qts : text := lit " qts after reducing to equivalence".
Definition p_pairs : text := lit " total pairs".
Definition p_red : text := lit "Reducing to equivalence took ".
Definition p_hm : text := lit "Converting to matrices up to Hadamard equivalence took ".
Definition quiet (s : text) : Prop :=
  has p_wts s = false /\ has p_qts s = false /\ has p_pairs s = false /\ has p_red s = false /\ has p_hm s = false /\
  (has (lit ": ") s = false \/ has (lit " seconds") s = false).

Definition m_wts := number_pattern (lit "Found ") (lit " " ++ lit "wts" ++ lit " after reducing to equivalence").
Definition m_qts := number_pattern (lit "Found ") (lit " " ++ lit "qts" ++ lit " after reducing to equivalence").
Definition m_pairs := number_pattern (lit "Generated ") (lit " total pairs").
Definition m_red := took_pattern p_red.
Definition m_hm := took_pattern p_hm.

Lemma number_none pre post s : has post s = false -> search (number_pattern pre post) s = None.
Proof. apply search_none. intros x a H. now apply number_has in H. Qed.
Lemma took_none pre s : has pre s = false -> search (took_pattern pre) s = None.
Proof. apply search_none. intros x a H. now apply took_has in H. Qed.
Lemma runtime_none s : has (lit ": ") s = false \/ has (lit " seconds") s = false -> search runtime_pattern s = None.
Proof. intros [H|H]; revert H; apply search_none; intros x a E; now apply runtime_has in E. Qed.

Lemma first_app {A} (m : text -> option A) l r : first_match m (l ++ r) = match first_match m l with Some a => Some a | None => first_match m r end.
Proof. induction l as [|s l IH]; [reflexivity|]. cbn [app first_match]. destruct (search m s); auto. Qed.
Lemma first_none {A} (m : text -> option A) l : Forall (fun s => search m s = None) l -> first_match m l = None.
Proof. intros F. induction F as [|s l H F IH]; [reflexivity|]. cbn [first_match]. now rewrite H. Qed.
Lemma runtimes_app l r : runtimes (l ++ r) = runtimes l ++ runtimes r.
Proof. apply flat_map_app. Qed.
Lemma runtimes_none l : Forall (fun s => search runtime_pattern s = None) l -> runtimes l = [].
Proof. intros F. induction F as [|s l H F IH]; [reflexivity|]. cbn. now rewrite H. Qed.

(* the six readings of a part of a log *)
Record Reading := mkReading { rd_wts : option Z; rd_qts : option Z; rd_pairs : option Z; rd_times : list text; rd_red : option text; rd_hm : option text }.
Definition reading (l : Lines) : Reading :=
  mkReading (first_match m_wts l) (first_match m_qts l) (first_match m_pairs l) (runtimes l) (first_match m_red l) (first_match m_hm l).
Definition first {A} (a b : option A) : option A := match a with Some _ => a | None => b end.
Definition then_read (a b : Reading) : Reading :=
  mkReading (first (rd_wts a) (rd_wts b)) (first (rd_qts a) (rd_qts b)) (first (rd_pairs a) (rd_pairs b)) (rd_times a ++ rd_times b)
    (first (rd_red a) (rd_red b)) (first (rd_hm a) (rd_hm b)).
Definition nothing : Reading := mkReading None None None [] None None.
Lemma reading_app l r : reading (l ++ r) = then_read (reading l) (reading r).
Proof. unfold reading, then_read. cbn [rd_wts rd_qts rd_pairs rd_times rd_red rd_hm]. rewrite !first_app, runtimes_app. unfold first. f_equal; match goal with |- match ?x with _ => _ end = _ => now destruct x end. Qed.
Lemma reading_quiet l : Forall quiet l -> reading l = nothing.
Proof.
  intros F. unfold reading, nothing. f_equal; [apply first_none|apply first_none|apply first_none|apply runtimes_none|apply first_none|apply first_none];
    (eapply Forall_impl; [|exact F]); intros s (H1 & H2 & H3 & H4 & H5 & H6).
  - now apply number_none.
  - now apply number_none.
  - now apply number_none.
  - now apply runtime_none.
  - now apply took_none.
  - now apply took_none.
Qed.
Lemma reading_nil : reading [] = nothing. Proof. reflexivity. Qed.
Lemma then_nothing a : then_read nothing a = a. Proof. destruct a. reflexivity. Qed.
Lemma nothing_then a : then_read a nothing = a.
Proof. destruct a. unfold then_read, first. cbn. rewrite app_nil_r. f_equal; match goal with |- match ?x with _ => _ end = _ => now destruct x end. Qed.
