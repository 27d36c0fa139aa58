(* Property theorems C89-C92: searches with computed spectra. *)
From Coq Require Import Ascii String List ZArith Znumtheory Lia Arith Bool Reals Lra Permutation Relations.
From Verif Require Import Base ModelSequence ModelWilliamson ModelEquivalence SpecEquiv EquivFacts ModelFourier SpecFourier MatchFacts ModelMatching ModelRowsum SpecRowsum
  ModelWrite WriteFacts SpecSearch EquivThms RowsumFacts ModelNoise SpecNoise NoiseThms NoiseTies NoiseWarn PrimeThms PropSequences PropEquivalence PropMatching PropSearch Spec.
Import ListNotations.
Notation length := List.length.
Open Scope R_scope.

(* C89: the files of pairs.  With correlations a bound on the errors suffices that is easy to meet *)
Theorem C89_correlation_file : forall n e A t a b bo side l1 l2 rs d, (1 <= n)%nat -> 0 <= e -> 100 * INR n * e <= 1 -> accurate n e A ->
  three_types t -> tag_sign (a, b) = Some bo -> seqs_ok n l1 -> seqs_ok n l2 ->
  (forall s, In s l1 -> total s = rowsum_of_tag rs a) -> (forall s, In s l2 -> total s = rowsum_of_tag rs b) ->
  exists file, write_seq_pairs_f A n l1 l2 (a, b) t rs n d side CORRELATION = Some (put d (pair_file a b) file, Z.of_nat (length file)) /\
    (forall line, In line file -> exists i s1 j s2, nth_error l1 i = Some s1 /\ nth_error l2 j = Some s2 /\
       line = correlation_line n t side bo i s1 j s2 /\ listed n t s1 s2 /\ pair_below n (- (20 * INR n * e)) s1 s2) /\
    (forall i s1 j s2, nth_error l1 i = Some s1 -> nth_error l2 j = Some s2 -> listed n t s1 s2 -> pair_below n (20 * INR n * e) s1 s2 ->
       In (correlation_line n t side bo i s1 j s2) file).
Proof. exact correlation_file. Qed.
Print Assumptions C89_correlation_file.
(* with either option the files are those of exact arithmetic, but for pairs that reach the bound *)
Theorem C89_computed_file : forall n, (1 <= n)%nat -> exists e, 0 < e /\ forall A, accurate n e A ->
  forall t m a b bo side l1 l2 rs d, three_types t -> tag_sign (a, b) = Some bo -> seqs_ok n l1 -> seqs_ok n l2 ->
  (forall s, In s l1 -> total s = rowsum_of_tag rs a) -> (forall s, In s l2 -> total s = rowsum_of_tag rs b) ->
  exists exact file,
    write_seq_pairs n l1 l2 (a, b) t rs n d side m = Some (put d (pair_file a b) exact, Z.of_nat (length exact)) /\
    write_seq_pairs_f A n l1 l2 (a, b) t rs n d side m = Some (put d (pair_file a b) file, Z.of_nat (length file)) /\
    (forall k i j, has_line file k i j -> has_line exact k i j) /\
    (forall k i s1 j s2, nth_error l1 i = Some s1 -> nth_error l2 j = Some s2 -> ~ pair_tie n s1 s2 ->
       has_line exact k i j -> has_line file k i j) /\
    ((forall s1 s2, In s1 l1 -> In s2 l2 -> ~ pair_tie n s1 s2) -> file = exact).
Proof. exact computed_file. Qed.
Print Assumptions C89_computed_file.
(* without rounding errors the functions are those of the exact model *)
Theorem C89_exact : forall fuel n t m p f, write_pairs_f exact_arith fuel n t m p f = write_pairs fuel n t m p f.
Proof. exact exact_write_pairs. Qed.
Print Assumptions C89_exact.

Lemma cos_third : fourier_sum [1;1;1]%Z cos 1 = 0.
Proof.
  unfold fourier_sum. cbn [length seq map fold_right nth Nat.mul Nat.add INR]. replace (2 * PI * 0 / (1 + 1 + 1)) with 0 by field.
  replace (2 * PI * 1 / (1 + 1 + 1)) with (2 * (PI / 3)) by field. replace (2 * PI * (1 + 1) / (1 + 1 + 1)) with (2 * (2 * (PI / 3))) by field.
  rewrite (cos_2a_cos (2 * (PI / 3))), cos_0, cos_2PI3. lra.
Qed.
Lemma sin_third : fourier_sum [1;1;1]%Z sin 1 = 0.
Proof.
  unfold fourier_sum. cbn [length seq map fold_right nth Nat.mul Nat.add INR]. replace (2 * PI * 0 / (1 + 1 + 1)) with 0 by field.
  replace (2 * PI * 1 / (1 + 1 + 1)) with (2 * (PI / 3)) by field. replace (2 * PI * (1 + 1) / (1 + 1 + 1)) with (2 * (2 * (PI / 3))) by field.
  rewrite (sin_2a (2 * (PI / 3))), sin_0, cos_2PI3. lra.
Qed.
(* a solution of length 3 with normalised row sums, and a rounding arithmetic *)
Definition n3 : QuadSeq := mkQuad 3 [-1;1;1]%Z [-1;1;1]%Z [-1;1;1]%Z [1;1;1]%Z.
Lemma n3_pm : pm_quad 3 n3.
Proof. repeat split; unfold pm1, n3; cbn [q_a q_b q_c q_d]; repeat (constructor; auto). Qed.
Lemma n3_type t : three_types t -> is_type t n3 /\ normal_rowsums t (totals n3).
Proof.
  intros H. split; [|unfold normal_rowsums, totals, total; cbn; lia]. apply (verify_type 3); [exact n3_pm|lia|].
  destruct H as [->|[->| ->]]; vm_compute; reflexivity.
Qed.
Lemma n3_psd : psd [1;1;1]%Z 1 = 0 /\ psd [-1;1;1]%Z 1 = 4.
Proof.
  assert (Z : psd [1;1;1]%Z 1 = 0) by (unfold psd; rewrite cos_third, sin_third; lra). split; auto.
  pose proof (psd_complementary 3 n3 1 ltac:(lia) n3_pm) as H. cbn [n3 q_a q_b q_c q_d] in H. cbn [INR] in H.
  assert (C : complementary n3) by (apply (type_WT 3 n3 Williamson n3_pm ltac:(lia)), (n3_type Williamson); unfold three_types; auto).
  specialize (H C). lra.
Qed.
Example C89_instance : accurate 3 (/ 1000) (with_add (up_add 3 (/ 1000))) /\ 100 * INR 3 * / 1000 <= 1 /\
  tag_sign (TW, TX) = Some true /\ seqs_ok 3 [[-1;1;1]; [1;-1;1]]%Z /\
  (forall s, In s [[-1;1;1]; [1;-1;1]]%Z -> total s = rowsum_of_tag (totals n3) TW /\ total s = rowsum_of_tag (totals n3) TX) /\
  pair_below 3 (20 * INR 3 * / 1000) [-1;1;1]%Z [-1;1;1]%Z /\ ~ pair_tie 3 [-1;1;1]%Z [-1;1;1]%Z.
Proof.
  destruct n3_psd as [_ P]. split; [|split; [|split; [|split; [|split; [|split]]]]].
  - apply accurate_add; [lia|lra|]. intros. apply up_close. lra.
  - cbn; lra.
  - reflexivity.
  - intros s [<-|[<-|[]]]; split; auto; repeat (constructor; auto).
  - intros s [<-|[<-|[]]]; split; reflexivity.
  - intros k Hk. change (3 / 2)%nat with 1%nat in Hk. replace k with 1%nat by lia. rewrite P. cbn; lra.
  - intros (k & Hk & E). change (3 / 2)%nat with 1%nat in Hk. replace k with 1%nat in E by lia. rewrite P in E. cbn in E; lra.
Qed.

(* C90: the values of the option PSD that are rounded to integers are never halves *)
Theorem C90_never_half : forall n s1 s2 k z, (1 <= n)%nat -> length s1 = n -> length s2 = n ->
  (forall side, power_value n side s1 s2 k <> IZR z + 1 / 2) /\ (forall b, cross_value b s1 s2 k <> IZR z + 1 / 2).
Proof. exact never_half. Qed.
Print Assumptions C90_never_half.
(* when no warning is printed the fields of the power spectra are those of exact arithmetic, and so are the
   fields of the cross spectra that are not negative *)
Theorem C90_no_warning : forall n e A t a b bo side l1 l2 rs d w, (1 <= n)%nat -> 0 <= e -> 21 * INR n * e < / 2 ^ 26 -> accurate n e A ->
  three_types t -> tag_sign (a, b) = Some bo -> seqs_ok n l1 -> seqs_ok n l2 ->
  (forall s, In s l1 -> total s = rowsum_of_tag rs a) -> (forall s, In s l2 -> total s = rowsum_of_tag rs b) ->
  warnings A n l1 l2 (a, b) t n side = Some (false, w) ->
  exists file, write_seq_pairs_f A n l1 l2 (a, b) t rs n d side PSD = Some (put d (pair_file a b) file, Z.of_nat (length file)) /\
  forall line, In line file -> exists i s1 j s2 zs, nth_error l1 i = Some s1 /\ nth_error l2 j = Some s2 /\
    line = pair_line (concat (map field (map (fun k => roundR (power_value n side s1 s2 k)) (seq 1 (n / 2)) ++ zs))) i j /\
    (t <> QuaternionType -> zs = []) /\
    (t = QuaternionType -> length zs = (n / 2)%nat /\
       (w = false -> forall k, (1 <= k <= n / 2)%nat -> 20 * INR n * e <= cross_value bo s1 s2 k ->
          nth (k - 1) zs 0%Z = signed side (roundR (cross_value bo s1 s2 k)))).
Proof. exact no_warning. Qed.
Print Assumptions C90_no_warning.
(* the second warning is silent about negative values, however close to a half they are *)
Theorem C90_negative_never_warns : forall n e A a b bo t side l1 l2, (1 <= n)%nat -> 0 <= e -> 100 * INR n * e <= 1 -> accurate n e A ->
  tag_sign (a, b) = Some bo -> seqs_ok n l1 -> seqs_ok n l2 ->
  (forall s1 s2 k, In s1 l1 -> In s2 l2 -> (1 <= k <= n / 2)%nat -> cross_value bo s1 s2 k < - (20 * INR n * e)) ->
  exists w, warnings A n l1 l2 (a, b) t n side = Some (w, false).
Proof. exact negative_never_warns. Qed.
Print Assumptions C90_negative_never_warns.

Lemma n3_fourier : fourier_sum [-1;1;1]%Z cos 1 = -2 /\ fourier_sum [-1;1;1]%Z sin 1 = 0 /\
  fourier_sum [1;-1;1]%Z cos 1 = 1 /\ fourier_sum [1;-1;1]%Z sin 1 = - sqrt 3.
Proof.
  unfold fourier_sum. cbn [length seq map fold_right nth Nat.mul Nat.add INR]. replace (2 * PI * 0 / (1 + 1 + 1)) with 0 by field.
  replace (2 * PI * 1 / (1 + 1 + 1)) with (2 * (PI / 3)) by field. replace (2 * PI * (1 + 1) / (1 + 1 + 1)) with (2 * (2 * (PI / 3))) by field.
  rewrite (cos_2a_cos (2 * (PI / 3))), (sin_2a (2 * (PI / 3))), cos_0, sin_0, cos_2PI3, sin_2PI3. repeat split; lra.
Qed.
Example C90_instance :
  (* no warning *)
  accurate 3 0 exact_arith /\ 21 * INR 3 * 0 < / 2 ^ 26 /\
  (forall t, warnings exact_arith 3 [[-1;1;1]]%Z [[-1;1;1]; [-1;1;1]]%Z (TW, TX) t 3 LEFT = Some (false, false)) /\
  (* a negative value, -4 sqrt 3, and arithmetic with errors *)
  accurate 3 (/ 1000) (with_add (up_add 3 (/ 1000))) /\ 100 * INR 3 * / 1000 <= 1 /\ tag_sign (TX, TW) = Some false /\
  cross_value false [-1;1;1]%Z [1;-1;1]%Z 1 = - (4 * sqrt 3) /\ cross_value false [-1;1;1]%Z [1;-1;1]%Z 1 < - (20 * INR 3 * / 1000).
Proof.
  destruct n3_fourier as (F1 & F2 & F3 & F4).
  assert (V : cross_value false [-1;1;1]%Z [1;-1;1]%Z 1 = - (4 * sqrt 3)) by (unfold cross_value, cross_im; rewrite F1, F2, F3, F4; ring).
  split; [apply accurate_exact; [lia|lra]|]. split; [rewrite Rmult_0_r; apply Rinv_0_lt_compat, pow_lt; lra|]. split.
  { intros t. apply (integers_quiet 3 TW TX true); auto; try lia.
    { intros s [<-|[]]; split; auto; repeat (constructor; auto). }
    { intros s [<-|[<-|[]]]; split; auto; repeat (constructor; auto). }
    intros s1 s2 k I1 I2 Hk. change (3 / 2)%nat with 1%nat in Hk. replace k with 1%nat by lia.
    assert (s1 = [-1;1;1]%Z /\ s2 = [-1;1;1]%Z) as [-> ->] by (cbn in I1, I2; intuition congruence). split.
    - exists 8%Z. unfold power_value. rewrite (proj2 n3_psd). lra.
    - exists 0%Z. unfold cross_value. ring. }
  split; [apply accurate_add; [lia|lra|]; intros; apply up_close; lra|]. split; [cbn; lra|]. split; [reflexivity|]. split; auto.
  rewrite V. pose proof (sqrt_lt_1 1 3 ltac:(lra) ltac:(lra) ltac:(lra)) as S. rewrite sqrt_1 in S. cbn [INR]. lra.
Qed.

(* C91: the whole search, with correlations, for errors that are easy to meet: what is found is a solution, and every
   normalised solution is found whose pairs stay below the bound by the margin *)
Theorem C91_correlation_search : forall n e A t p ls, (1 <= n)%nat -> (Z.of_nat n < 2 ^ 62)%Z -> 0 <= e -> 100 * INR n * e <= 1 -> accurate n e A ->
  three_types t -> any_listing ls ->
  exists fuel0, forall fuel, (fuel0 <= fuel)%nat -> exists f c r,
    write_pairs_f A fuel n t CORRELATION p [] = Some (f, c) /\ match_pairs ls t (sortpairs f) = Some r /\
    (forall q, In q r -> pm_quad n q /\ is_type t q /\ normal_rowsums t (totals q)) /\
    (forall q, pm_quad n q -> is_type t q -> normal_rowsums t (totals q) -> below n p (20 * INR n * e) q -> In q r).
Proof. exact correlation_search. Qed.
Print Assumptions C91_correlation_search.
(* with either option and small enough errors: every normalised solution without ties is found *)
Theorem C91_computed_search : forall n, (1 <= n)%nat -> (Z.of_nat n < 2 ^ 62)%Z -> exists e, 0 < e /\ forall A, accurate n e A ->
  forall t m p ls, three_types t -> any_listing ls ->
  exists fuel0, forall fuel, (fuel0 <= fuel)%nat -> exists f c r,
    write_pairs_f A fuel n t m p [] = Some (f, c) /\ match_pairs ls t (sortpairs f) = Some r /\
    (forall q, In q r -> pm_quad n q /\ is_type t q /\ normal_rowsums t (totals q)) /\
    (forall q, pm_quad n q -> is_type t q -> normal_rowsums t (totals q) -> ~ tie n p q -> In q r).
Proof. exact computed_search. Qed.
Print Assumptions C91_computed_search.
(* and the result has one representative of every class with such a member *)
Theorem C91_classes : forall n, (1 <= n <= 31)%nat -> exists e, 0 < e /\ forall A, accurate n e A ->
  forall t m p ls ord, t = QuaternionType \/ t = WilliamsonType -> any_listing ls -> ord_ok ord ->
  (exists q, pm_quad n q /\ verify q t = Some true /\ normal_rowsums t (totals q) /\ ~ tie n p q) ->
  exists fuel0, forall fuel path, (fuel0 <= fuel)%nat -> exists f c r, write_pairs_f A fuel n t m p [] = Some (f, c) /\
    join_pairs fuel ord path ls t (sortpairs f) = Some r /\ NoDup r /\
    (forall x, In x r -> pm_quad n x /\ verify x t = Some true /\ least (reach (type_ops t) x) x) /\
    (forall q q', pm_quad n q -> verify q t = Some true -> reach (type_ops t) q q' -> normal_rowsums t (totals q') -> ~ tie n p q' ->
       exists x, In x r /\ reach (type_ops t) q x /\ forall x', In x' r -> reach (type_ops t) q x' -> x' = x).
Proof. exact computed_classes. Qed.
Print Assumptions C91_classes.
(* however small the errors, all solutions with ties can be lost *)
Theorem C91_ties_lost : forall n e, (1 <= n)%nat -> (Z.of_nat n < 2 ^ 62)%Z -> 0 < e -> exists A, accurate n e A /\
  forall t m p ls, three_types t -> any_listing ls ->
  exists fuel0, forall fuel, (fuel0 <= fuel)%nat -> exists f c r,
    write_pairs_f A fuel n t m p [] = Some (f, c) /\ match_pairs ls t (sortpairs f) = Some r /\
    (forall q, In q r <-> pm_quad n q /\ is_type t q /\ normal_rowsums t (totals q) /\ ~ tie n p q).
Proof. exact ties_lost. Qed.
Print Assumptions C91_ties_lost.
(* so a search with errors can find nothing where there are solutions: length 2, pairing (W,X) *)
Theorem C91_all_found_refuted : forall e, 0 < e -> exists A, accurate 2 e A /\ forall t m ls, three_types t -> any_listing ls ->
  (exists q, pm_quad 2 q /\ is_type t q /\ normal_rowsums t (totals q)) /\
  exists fuel0, forall fuel, (fuel0 <= fuel)%nat -> exists f c,
    write_pairs_f A fuel 2 t m (Some WX) [] = Some (f, c) /\ match_pairs ls t (sortpairs f) = Some [] /\
    forall ord path, join_pairs fuel ord path ls t (sortpairs f) = None.
Proof. exact length_two_lost. Qed.
Print Assumptions C91_all_found_refuted.
Lemma prime_3 : prime (Z.of_nat 3). Proof. exact prime_3. Qed.
Example C91_instance : (forall e, 0 < e -> accurate 3 e (with_add (up_add 3 e))) /\ any_listing ls_rev /\ ord_ok ord_mix /\
  pm_quad 3 n3 /\ (forall t, three_types t -> is_type t n3 /\ normal_rowsums t (totals n3)) /\
  verify n3 QuaternionType = Some true /\ verify n3 WilliamsonType = Some true /\
  (forall p, ~ tie 3 p n3) /\ (forall p, below 3 p (20 * INR 3 * / 1000) n3).
Proof.
  split; [intros e He; apply accurate_add; [lia|lra|]; intros; apply up_close; lra|]. split; [exact ls_rev_ok|]. split; [exact ord_mix_ok|].
  split; [exact n3_pm|]. split; [exact n3_type|]. split; [vm_compute; reflexivity|]. split; [vm_compute; reflexivity|]. split.
  - intros p. apply no_tie; [exact prime_3|lia|exact n3_pm|]. apply (type_WT 3 n3 Williamson n3_pm ltac:(lia)), (n3_type Williamson); unfold three_types; auto.
  - intros p a b k Hp Hk. change (3 / 2)%nat with 1%nat in Hk. replace k with 1%nat by lia. destruct n3_psd as [P1 P2].
    destruct a, b; cbn [sequence n3 q_a q_b q_c q_d]; rewrite ?P1, ?P2; cbn [INR]; lra.
Qed.

(* C92: a solution whose length is an odd prime has no ties *)
Theorem C92_no_ties : forall n p q, prime (Z.of_nat n) -> (3 <= n)%nat -> pm_quad n q -> complementary q -> ~ tie n p q.
Proof. exact no_tie. Qed.
Print Assumptions C92_no_ties.
(* a spectrum of prime length vanishes somewhere only for the constant sequences *)
Theorem C92_vanishing : forall n s k, prime (Z.of_nat n) -> (3 <= n)%nat -> length s = n -> pm1 s -> psd s k = 0 ->
  forall x y, In x s -> In y s -> x = y.
Proof. exact prime_nonzero. Qed.
Print Assumptions C92_vanishing.
(* so the search with small errors finds what the search without errors finds *)
Theorem C92_search : forall n, prime (Z.of_nat n) -> (3 <= n)%nat -> (Z.of_nat n < 2 ^ 62)%Z -> exists e, 0 < e /\ forall A, accurate n e A ->
  forall t m p ls, three_types t -> any_listing ls ->
  exists fuel0, forall fuel, (fuel0 <= fuel)%nat -> exists f c r,
    write_pairs_f A fuel n t m p [] = Some (f, c) /\ match_pairs ls t (sortpairs f) = Some r /\
    (forall q, In q r <-> pm_quad n q /\ is_type t q /\ normal_rowsums t (totals q)).
Proof. exact prime_search. Qed.
Print Assumptions C92_search.
Theorem C92_classes : forall n, prime (Z.of_nat n) -> (3 <= n <= 31)%nat -> exists e, 0 < e /\ forall A, accurate n e A ->
  forall t m p ls ord, t = QuaternionType \/ t = WilliamsonType -> any_listing ls -> ord_ok ord ->
  (exists q, pm_quad n q /\ verify q t = Some true) ->
  exists fuel0, forall fuel path, (fuel0 <= fuel)%nat -> exists f c r, write_pairs_f A fuel n t m p [] = Some (f, c) /\
    join_pairs fuel ord path ls t (sortpairs f) = Some r /\ NoDup r /\
    (forall x, In x r -> pm_quad n x /\ verify x t = Some true /\ least (reach (type_ops t) x) x) /\
    (forall q, pm_quad n q -> verify q t = Some true ->
       exists x, In x r /\ reach (type_ops t) q x /\ forall x', In x' r -> reach (type_ops t) q x' -> x' = x).
Proof. exact prime_classes. Qed.
Print Assumptions C92_classes.
Example C92_instance : prime (Z.of_nat 3) /\ pm_quad 3 n3 /\ (forall t, three_types t -> is_type t n3 /\ normal_rowsums t (totals n3)) /\
  psd [1;1;1]%Z 1 = 0 /\ psd [-1;1;1]%Z 1 = 4.
Proof. split; [exact prime_3|]. split; [exact n3_pm|]. split; [exact n3_type|]. exact n3_psd. Qed.
