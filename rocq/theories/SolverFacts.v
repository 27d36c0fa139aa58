(* Proofs about the files of equations. *)
From Coq Require Import Ascii String List ZArith Arith Bool Lia Reals Lra Permutation.
From Verif Require Import Base BaseFacts Sums ModelSequence ModelWilliamson ModelEquivalence ModelRowsum ModelFourier ModelMatching ModelWrite
  ModelEquations ModelSolver TextFacts SeqFacts RowsumFacts FourierFacts ArgFacts MainThms SplitFacts EquationText SystemFacts
  SpecRowsum SpecPrint SpecMain SpecEquations Spec SpecSolver.
Import ListNotations.
Notation length := List.length.
Open Scope nat_scope.

(* ---- numerals ---- *)

Lemma usize_canonical n : canonical_numeral (usize_to_string (Z.of_nat n)) n.
Proof.
  split.
  - apply parse_digits_iff; [apply usize_nonempty|]. apply parse_usize_digits. lia.
  - destruct n as [|n]; [now left|]. right. intros r E. unfold usize_to_string in E.
    destruct (digits_head (S (Z.to_nat (Z.log2 (Z.of_nat (S n))))) (Z.of_nat (S n))) as (c & r' & E' & H).
    + split; [lia|]. apply log2_fuel. lia.
    + rewrite E' in E. injection E as -> _. auto.
Qed.
Lemma isize_signed z : signed_numeral (isize_to_string z) z.
Proof.
  unfold isize_to_string, signed_numeral. destruct (Z.ltb_spec z 0).
  - right. split; auto. eexists. split; [reflexivity|]. rewrite <- (Z2Nat.id (- z)) at 1 by lia. apply usize_canonical.
  - left. split; auto. rewrite <- (Z2Nat.id z) at 1 by lia. apply usize_canonical.
Qed.
Lemma signed_isize y z : signed_numeral y z -> y = isize_to_string z.
Proof.
  unfold isize_to_string. intros [[H C]|(H & y' & -> & C)]; apply numeral_string in C; rewrite Z2Nat.id in C by lia.
  - destruct (Z.ltb_spec z 0); [lia|auto].
  - destruct (Z.ltb_spec z 0); [now f_equal|lia].
Qed.
Lemma isize_nat z : (0 <= z)%Z -> isize_to_string z = usize_to_string z.
Proof. unfold isize_to_string. destruct (Z.ltb_spec z 0); auto. lia. Qed.

(* ---- the two best ---- *)

Definition pos (t : Tag) : nat := match t with TW => 0 | TX => 1 | TY => 2 | TZ => 3 end.
Lemma two_best r : normal_rowsums QuaternionType r ->
  get_two_best r = let '((t1, r1), (t2, r2)) := best_two r in ((r1, pos t1), (r2, pos t2)).
Proof.
  destruct r as [[[a b] c] d]. intros (H1 & H2 & H3). unfold get_two_best, best_two, best_positions.
  assert (M : (MIN < 0)%Z) by reflexivity. set (m := MIN) in *. clearbody m. cbn [fst snd].
  assert (H3' : (0 <= d \/ d < 0 /\ 0 < a < b /\ b < c < - d)%Z) by (destruct (Z.lt_ge_cases d 0); [right; tauto|now left]). clear H3.
  destruct (Z.ltb_spec d 0);
  repeat (match goal with
    | |- context [Z.ltb ?x ?y] => is_var x; is_var y; destruct (Z.ltb_spec x y)
    | |- context [Z.leb ?x ?y] => is_var x; is_var y; destruct (Z.leb_spec x y)
    end; cbn [fst snd Nat.eqb negb andb Nat.ltb Nat.leb pos of_tag]; try lia);
  repeat (f_equal; try lia).
Qed.
Lemma best_nonneg r t1 r1 t2 r2 : normal_rowsums QuaternionType r -> best_two r = ((t1, r1), (t2, r2)) -> (0 <= r1 /\ 0 <= r2)%Z.
Proof.
  destruct r as [[[a b] c] d]. intros (H1 & H2 & H3). unfold best_two, best_positions.
  repeat (match goal with |- context [Z.ltb ?x ?y] => destruct (Z.ltb_spec x y) end);
  intros [= <- <- <- <-]; cbn; lia.
Qed.
Lemma best_bound n r t1 r1 t2 r2 : (Z.of_nat n < 2 ^ 62)%Z -> feasible n r -> best_two r = ((t1, r1), (t2, r2)) ->
  (Z.abs r1 < 2 ^ 62 /\ Z.abs r2 < 2 ^ 62)%Z.
Proof.
  intros Hn. destruct r as [[[a b] c] d]. intros (H & _).
  assert (K : forall x y, (x * x <= y -> y < 2 ^ 64 -> Z.abs x < 2 ^ 62)%Z).
  { intros x y G1 G2. replace (x * x)%Z with (Z.abs x * Z.abs x)%Z in G1 by (destruct (Z.abs_eq_or_opp x) as [-> | ->]; ring).
    destruct (Z.lt_ge_cases (Z.abs x) (2 ^ 62)) as [|G]; auto. exfalso.
    assert (2 ^ 62 * 2 ^ 62 <= Z.abs x * Z.abs x)%Z by (apply Z.mul_le_mono_nonneg; lia).
    assert (2 ^ 64 < 2 ^ 62 * 2 ^ 62)%Z by reflexivity. lia. }
  assert (B : forall t, (Z.abs (of_tag (a, b, c, d) t) < 2 ^ 62)%Z).
  { assert (E64 : (2 ^ 64 = 4 * 2 ^ 62)%Z) by reflexivity.
    pose proof (Z.square_nonneg a). pose proof (Z.square_nonneg b). pose proof (Z.square_nonneg c). pose proof (Z.square_nonneg d).
    intros []; cbn [of_tag]; apply (K _ (4 * Z.of_nat n)%Z); lia. }
  unfold best_two. destruct (best_positions _) as [u1 u2]. intros E. injection E as <- <- <- <-. split; apply B.
Qed.
Lemma best_missing r t1 r1 t2 r2 : best_two r = ((t1, r1), (t2, r2)) -> exists u1 u2, missing t1 t2 = Some (u1, u2).
Proof.
  destruct r as [[[a b] c] d]. unfold best_two, best_positions.
  repeat (match goal with |- context [Z.ltb ?x ?y] => destruct (Z.ltb_spec x y) end);
  intros [= <- <- <- <-]; cbn; eauto.
Qed.

(* ---- the filter keeps everything ---- *)

Lemma sum_bound n (f : nat -> R) : (forall j, (j < n)%nat -> (Rabs (f j) <= 1)%R) -> (Rabs (sumR n f) <= INR n)%R.
Proof.
  unfold sumR. intros H. rewrite <- (seq_length n 0) at 2.
  assert (H' : forall j, In j (seq 0 n) -> (Rabs (f j) <= 1)%R) by (intros j Hj; apply H; apply in_seq in Hj; lia).
  clear H. induction (seq 0 n) as [|j l IH]; cbn [map fold_right length].
  - rewrite Rabs_R0. cbn. lra.
  - rewrite S_INR. eapply Rle_trans; [apply Rabs_triang|].
    pose proof (H' j (or_introl eq_refl)). specialize (IH (fun i Hi => H' i (or_intror Hi))). lra.
Qed.
Lemma entry_abs s j : pm1 s -> j < length s -> Rabs (IZR (entry s (Z.of_nat j))) = 1%R.
Proof.
  intros P H. rewrite entry_nat by auto. unfold pm1 in P. rewrite Forall_forall in P.
  destruct (P (nth j s 0%Z)) as [-> | ->]; [now apply nth_In| |]; unfold Rabs; destruct (Rcase_abs _); lra.
Qed.
Lemma square_le x y : (Rabs x <= y -> x * x <= y * y)%R.
Proof. intros H. pose proof (Rabs_pos x). replace (x * x)%R with (Rabs x * Rabs x)%R; [nra|]. rewrite <- Rabs_mult. apply Rabs_pos_eq. nra. Qed.
Lemma norm_bound s k : pm1 s -> (norm_sqr (dft_at s k) <= (4 * INR (length s)) * (4 * INR (length s)))%R.
Proof.
  intros P. unfold norm_sqr, dft_at. cbn [fst snd].
  assert (B1 : (Rabs (dft_re s (Z.of_nat k)) <= INR (length s))%R).
  { apply sum_bound. intros j Hj. rewrite Rabs_mult, entry_abs by auto. rewrite Rmult_1_l. unfold cosn. apply Rabs_le. apply COS_bound. }
  assert (B2 : (Rabs (dft_im s (Z.of_nat k)) <= INR (length s))%R).
  { unfold dft_im. rewrite Rabs_Ropp. apply sum_bound. intros j Hj. rewrite Rabs_mult, entry_abs by auto. rewrite Rmult_1_l. unfold sinn. apply Rabs_le. apply SIN_bound. }
  apply square_le in B1, B2. pose proof (pos_INR (length s)). nra.
Qed.
Lemma filtered_all n l : 1 <= n -> (forall s, In s l -> length s = n /\ pm1 s) -> iter_over_filtered_dft n l (4 * INR n)%R = Some l.
Proof.
  intros Hn H. unfold iter_over_filtered_dft. induction l as [|s l IH]; [reflexivity|]. cbn [filter_m].
  destruct (H s (or_introl eq_refl)) as [L P]. rewrite <- L at 1. rewrite dft_sequence_spec by lia. cbn [bind].
  rewrite IH by (intros; apply H; now right). cbn [bind].
  rewrite (proj2 (forallb_forall _ _)); [reflexivity|]. intros x Hx. apply in_map_iff in Hx as (k & <- & _).
  pose proof (norm_bound s k P) as B. rewrite L in B. unfold gtR. destruct (Rlt_dec _ _); auto. lra.
Qed.

(* ---- names ---- *)

Definition dir_of (r : Z * Z * Z * Z) : list ascii :=
  let '((t1, r1), (t2, r2)) := best_two r in equations_dir (r1, pos t1) (r2, pos t2).
Lemma split_sep {A} (c : A) x1 y1 x2 y2 : Forall (fun a => a <> c) x1 -> Forall (fun a => a <> c) x2 ->
  x1 ++ c :: y1 = x2 ++ c :: y2 -> x1 = x2 /\ y1 = y2.
Proof.
  intros H1. revert x2. induction H1 as [|a x Ha Hx IH]; intros x2 H2 E.
  - destruct H2 as [|b x2 Hb _]; cbn in E; injection E; auto. intros _ ?. congruence.
  - destruct H2 as [|b x2 Hb H2]; cbn in E; injection E as E1 E2; [congruence|].
    destruct (IH x2 H2 E2) as [-> ->]. subst. auto.
Qed.
Lemma digits_no z c : (0 <= z)%Z -> ~ is_digit c -> Forall (fun a => a <> c) (isize_to_string z).
Proof. intros H N. rewrite isize_nat by auto. eapply Forall_impl; [|now apply usize_digits]. intros a Ha ->. auto. Qed.
Lemma pos_digit t : num (pos t) = [position_digit t].
Proof. destruct t; reflexivity. Qed.
Lemma dir_inj r r' : normal_rowsums QuaternionType r -> normal_rowsums QuaternionType r' ->
  dir_of r = dir_of r' -> best_two r = best_two r'.
Proof.
  intros H H'. unfold dir_of. destruct (best_two r) as [[t1 r1] [t2 r2]] eqn:E, (best_two r') as [[t1' r1'] [t2' r2']] eqn:E'.
  destruct (best_nonneg _ _ _ _ _ H E) as [P1 P2]. destruct (best_nonneg _ _ _ _ _ H' E') as [P1' P2'].
  unfold equations_dir. cbn [fst snd]. rewrite !pos_digit. intros G. apply app_inv_head in G.
  assert (N1 : ~ is_digit "-"%char) by (unfold is_digit; cbn; lia).
  assert (N2 : ~ is_digit "_"%char) by (unfold is_digit; cbn; lia).
  change (isize_to_string r1 ++ "-"%char :: (isize_to_string r2 ++ "_"%char :: (lit "at_" ++ position_digit t1 :: "-"%char :: [position_digit t2])) =
    isize_to_string r1' ++ "-"%char :: (isize_to_string r2' ++ "_"%char :: (lit "at_" ++ position_digit t1' :: "-"%char :: [position_digit t2']))) in G.
  apply split_sep in G as [G1 G]; try (apply digits_no; auto). apply split_sep in G as [G2 G]; try (apply digits_no; auto).
  apply isize_inj in G1, G2. subst. cbn in G. injection G as G1 G2.
  f_equal; f_equal; [destruct t1, t1'|destruct t2, t2']; try reflexivity; discriminate.
Qed.
Lemma dir_spec r : normal_rowsums QuaternionType r -> equation_dir r (dir_of r).
Proof.
  intros H. unfold dir_of, equation_dir. destruct (best_two r) as [[t1 r1] [t2 r2]] eqn:E.
  destruct (best_nonneg _ _ _ _ _ H E) as [P1 P2].
  exists (usize_to_string r1), (usize_to_string r2).
  pose proof (usize_canonical (Z.to_nat r1)) as C1. pose proof (usize_canonical (Z.to_nat r2)) as C2.
  rewrite Z2Nat.id in C1, C2 by auto. do 2 (split; auto).
  unfold equations_dir. cbn [fst snd]. rewrite !pos_digit, !isize_nat by auto. reflexivity.
Qed.
Lemma dir_unique r name : normal_rowsums QuaternionType r -> equation_dir r name -> name = dir_of r.
Proof.
  intros H. unfold dir_of, equation_dir. destruct (best_two r) as [[t1 r1] [t2 r2]] eqn:E.
  destruct (best_nonneg _ _ _ _ _ H E) as [P1 P2]. intros (x & y & Cx & Cy & ->).
  apply numeral_string in Cx, Cy. rewrite Z2Nat.id in Cx, Cy by auto. subst.
  unfold equations_dir. cbn [fst snd]. rewrite !pos_digit, !isize_nat by auto. reflexivity.
Qed.
Lemma file_spec k : equation_file k (equations_file k).
Proof. exists (usize_to_string (Z.of_nat k)). split; [apply usize_canonical|reflexivity]. Qed.
Lemma file_unique k name : equation_file k name -> name = equations_file k.
Proof. intros (x & C & ->). apply numeral_string in C. now subst. Qed.
Lemma file_inj k k' : equations_file k = equations_file k' -> k = k'.
Proof.
  unfold equations_file, num. intros E. apply app_inv_head in E. apply app_inv_tail in E.
  rewrite <- !isize_nat in E by lia. apply isize_inj in E. lia.
Qed.

(* ---- the text of a file ---- *)

Lemma sequence_chars s : pm1 s -> sequence_to_string s = Some (map sign_char s).
Proof.
  unfold sequence_to_string. induction 1 as [|x s [->| ->] _ IH]; [reflexivity| |]; cbn; rewrite IH; reflexivity.
Qed.
Lemma tag_chars t : tag_to_string t = [tag_letter t].
Proof. destruct t; reflexivity. Qed.
Lemma arm_start n t1 t2 c1 c2 q x y r : arm n t1 t2 c1 c2 q x y = Some r -> exists e, r = line_break :: e.
Proof.
  unfold arm. destruct c1; [|discriminate]. destruct c2; [|discriminate]. destruct q; [|discriminate]. cbn [bind].
  destruct (equations_rowsum n x y); [|discriminate]. intros [= <-]. eexists. reflexivity.
Qed.
Lemma equations_start n s1 s2 t1 t2 u1 u2 rs : 1 <= n -> length s1 = n -> length s2 = n -> pm1 s1 -> pm1 s2 ->
  missing t1 t2 = Some (u1, u2) -> exists eqs, generate_equations s1 t1 s2 t2 QuaternionType rs = Some (line_break :: eqs).
Proof.
  intros Hn L1 L2 P1 P2 Hm. destruct (system_linear n s1 s2 t1 t2 u1 u2 rs Hn L1 L2 P1 P2 Hm) as (txt & _ & _ & _ & _ & E & _).
  rewrite E. revert E. destruct rs as [[[a b] c] d]. cbn [generate_equations]. unfold equations_williamson_type.
  destruct t1, t2; try discriminate Hm;
  (match goal with |- context [arm ?n ?a ?b ?c ?d ?e ?x ?y] => destruct (arm n a b c d e x y) eqn:G end; [|discriminate]; cbn [bind];
   apply arm_start in G as (e & ->); destruct (equations_autocorrelation s1 s2); [|discriminate]; intros [= <-]; eexists; reflexivity).
Qed.
Lemma rowsum_line_text a b c d :
  rowsum_line (a, b, c, d) (lit "* rowsum: (" ++ isize_to_string a ++ lit "," ++ isize_to_string b ++ lit "," ++ isize_to_string c ++ lit "," ++ isize_to_string d ++ lit ")").
Proof. do 4 eexists. do 4 (split; [apply isize_signed|]). reflexivity. Qed.

Definition pairs_of (n : nat) (r : Z * Z * Z * Z) (pairs : list (list Z * list Z)) : Prop :=
  NoDup pairs /\ forall s1 s2, In (s1, s2) pairs <-> given n r s1 s2.

Lemma step_text n r t1 r1 t2 r2 s1 s2 d k : 1 <= n -> best_two r = ((t1, r1), (t2, r2)) -> given n r s1 s2 ->
  exists f, equations_step t1 t2 QuaternionType r (d, k) (s1, s2) = Some (put d (equations_file k) f, k + 1) /\ equation_text r s1 s2 f.
Proof.
  intros Hn E. unfold given, equation_text. rewrite E. intros (L1 & P1 & _ & L2 & P2 & _).
  destruct (best_missing _ _ _ _ _ E) as (u1 & u2 & Hm).
  destruct (equations_start n s1 s2 t1 t2 u1 u2 r Hn L1 L2 P1 P2 Hm) as (eqs & Ee).
  unfold equations_step. rewrite Ee. cbn [bind length Nat.eqb]. unfold generate_comment. rewrite !sequence_chars by auto.
  destruct r as [[[a b] c] e]. cbn [bind]. eexists. split; [reflexivity|].
  eexists _, _. split; [apply rowsum_line_text|]. split; [reflexivity|].
  rewrite !tag_chars. rewrite <- !app_assoc. reflexivity.
Qed.
Lemma steps_text n r t1 r1 t2 r2 : 1 <= n -> best_two r = ((t1, r1), (t2, r2)) -> forall pairs d k,
  (forall s1 s2, In (s1, s2) pairs -> given n r s1 s2) ->
  exists d', fold_m (equations_step t1 t2 QuaternionType r) pairs (d, k) = Some (d', k + length pairs) /\
    (forall i s1 s2, nth_error pairs i = Some (s1, s2) -> exists f, get d' (equations_file (k + i)) = Some f /\ equation_text r s1 s2 f) /\
    (forall name, (forall i, i < length pairs -> name <> equations_file (k + i)) -> get d' name = get d name).
Proof.
  intros Hn E. induction pairs as [|[s1 s2] pairs IH]; intros d k H.
  - exists d. cbn. rewrite Nat.add_0_r. split; auto. split; auto. intros [|i]; discriminate.
  - destruct (step_text n r t1 r1 t2 r2 s1 s2 d k Hn E (H _ _ (or_introl eq_refl))) as (f & Ef & Hf).
    cbn [fold_m]. rewrite Ef. cbn [bind].
    destruct (IH (put d (equations_file k) f) (k + 1)) as (d' & Ed & H1 & H2); [intros; apply H; now right|].
    exists d'. split; [etransitivity; [exact Ed|]; cbn [length]; do 2 f_equal; lia|]. split.
    + intros [|i] x1 x2; cbn [nth_error].
      * intros [= <- <-]. exists f. split; auto. rewrite H2.
        -- rewrite get_put, Nat.add_0_r, text_eqb_refl. reflexivity.
        -- intros i _ Ei. apply file_inj in Ei. lia.
      * intros Hi. replace (k + S i) with (k + 1 + i) by lia. now apply H1.
    + intros name Hname. rewrite H2.
      * rewrite get_put. rewrite text_eqb_neq; auto. specialize (Hname 0). rewrite Nat.add_0_r in Hname. apply Hname. cbn. lia.
      * intros i Hi. specialize (Hname (S i)). replace (k + 1 + i) with (k + S i) by lia. apply Hname. cbn. lia.
Qed.

(* ---- the pairs of sequences ---- *)

Lemma NoDup_prod {A B} (l : list A) (m : list B) : NoDup l -> NoDup m -> NoDup (list_prod l m).
Proof.
  intros Hl Hm. induction Hl as [|x l Hx Hl IH]; cbn [list_prod]; [constructor|]. apply SearchFacts.NoDup_app; auto.
  - apply FinFun.Injective_map_NoDup; auto. intros a b [= ->]. auto.
  - intros [a b] H1 H2. apply in_map_iff in H1 as (y & [= <- <-] & _). apply in_prod_iff in H2 as [H2 _]. auto.
Qed.
Lemma pairs_same n r r' l l' : best_two r = best_two r' -> pairs_of n r l -> pairs_of n r' l' -> length l = length l'.
Proof.
  intros E [N H] [N' H']. apply Permutation_length. apply NoDup_Permutation; auto. intros [s1 s2]. rewrite H, H'.
  unfold given. now rewrite E.
Qed.

Definition lookup (tree : Tree) (name fname : text) : option text := let* d := get tree name in get d fname.
Lemma lookup_put tree name d name' fname :
  lookup (put tree name d) name' fname = if text_eqb name' name then get d fname else lookup tree name' fname.
Proof. unfold lookup. rewrite get_put. destruct (text_eqb name' name); reflexivity. Qed.

Lemma rowsum_step_spec n r tree : 1 <= n -> (Z.of_nat n < 2 ^ 62)%Z -> feasible n r -> normal_rowsums QuaternionType r ->
  exists tree' pairs, equations_rowsum_step n QuaternionType tree r = Some tree' /\ pairs_of n r pairs /\
    (forall i s1 s2, nth_error pairs i = Some (s1, s2) ->
       exists f, lookup tree' (dir_of r) (equations_file i) = Some f /\ equation_text r s1 s2 f) /\
    (forall fname, (forall i, i < length pairs -> fname <> equations_file i) -> lookup tree' (dir_of r) fname = lookup tree (dir_of r) fname) /\
    (forall name fname, name <> dir_of r -> lookup tree' name fname = lookup tree name fname).
Proof.
  intros Hn Hp F N. unfold equations_rowsum_step. rewrite two_best by auto.
  destruct (best_two r) as [[t1 r1] [t2 r2]] eqn:E. cbn [fst snd].
  assert (I : forall t, index_to_tag (pos t) = Some t) by (intros []; reflexivity). rewrite !I. cbn [bind].
  destruct (best_bound n r t1 r1 t2 r2 Hp F E) as [B1 B2].
  destruct (generate_sequences_spec r1 n B1 Hp) as (l1 & -> & N1 & H1).
  destruct (generate_sequences_spec r2 n B2 Hp) as (l2 & -> & N2 & H2). cbn [bind].
  rewrite !filtered_all; auto; [|intros s Hs; apply H2 in Hs; tauto|intros s Hs; apply H1 in Hs; tauto]. cbn [bind].
  assert (P : pairs_of n r (list_prod l1 l2)).
  { split; [now apply NoDup_prod|]. intros s1 s2. unfold given. rewrite E, in_prod_iff, H1, H2. tauto. }
  assert (D : dir_of r = equations_dir (r1, pos t1) (r2, pos t2)) by (unfold dir_of; now rewrite E). rewrite <- D.
  set (d := match get tree (dir_of r) with Some d => d | None => [] end).
  destruct (steps_text n r t1 r1 t2 r2 Hn E (list_prod l1 l2) d 0) as (d' & Ed & K1 & K2); [intros s1 s2 Hs; now apply P|].
  exists (put tree (dir_of r) d'), (list_prod l1 l2). split.
  { match goal with |- bind ?x _ = _ => assert (G : x = Some (d', 0 + length (list_prod l1 l2))) by exact Ed end. rewrite G. reflexivity. }
  split; auto. split; [|split].
  - intros i s1 s2 Hi. rewrite lookup_put, text_eqb_refl. exact (K1 i s1 s2 Hi).
  - intros fname Hf. rewrite lookup_put, text_eqb_refl, K2; auto. unfold d, lookup. destruct (get tree (dir_of r)); reflexivity.
  - intros name fname Hne. rewrite lookup_put, text_eqb_neq; auto.
Qed.

(* ---- the tree ---- *)

Definition lists_files (n : nat) (tree : Tree) (r : Z * Z * Z * Z) (pairs : list (list Z * list Z)) : Prop :=
  forall i s1 s2, nth_error pairs i = Some (s1, s2) -> exists f, lookup tree (dir_of r) (equations_file i) = Some f /\ equation_text r s1 s2 f.
Lemma not_overwritten_snoc l r r0 : not_overwritten (l ++ [r]) r0 -> r0 = r \/ not_overwritten l r0 /\ best_two r <> best_two r0.
Proof.
  intros (before & after & E & H). destruct after as [|x after _] using rev_ind.
  - apply app_inj_tail in E as [_ E]. now left.
  - change (before ++ r0 :: after ++ [x]) with (before ++ (r0 :: after) ++ [x]) in E. rewrite app_assoc in E.
    apply app_inj_tail in E as [-> ->]. right. split.
    + exists before, after. split; auto. intros r' Hr. apply H. apply in_or_app. now left.
    + apply H. apply in_or_app. right. now left.
Qed.
Lemma not_overwritten_more l r r0 : not_overwritten l r0 -> best_two r <> best_two r0 -> not_overwritten (l ++ [r]) r0.
Proof.
  intros (before & after & -> & H) N. exists before, (after ++ [r]). split; [now rewrite <- app_assoc|].
  intros r' Hr. apply in_app_or in Hr as [Hr|[<-|[]]]; auto.
Qed.
Lemma not_overwritten_in l r : not_overwritten l r -> In r l.
Proof. intros (b & a & -> & _). apply in_or_app. right. now left. Qed.

Lemma tree_spec n tree : 1 <= n -> (Z.of_nat n < 2 ^ 62)%Z -> forall rows,
  (forall r, In r rows -> feasible n r /\ normal_rowsums QuaternionType r) ->
  exists tree', fold_m (equations_rowsum_step n QuaternionType) rows tree = Some tree' /\
    (forall r, not_overwritten rows r -> exists pairs, pairs_of n r pairs /\ lists_files n tree' r pairs) /\
    (forall name fname f, lookup tree' name fname = Some f ->
       lookup tree name fname = Some f \/
       exists r i s1 s2 pairs, not_overwritten rows r /\ name = dir_of r /\ fname = equations_file i /\ pairs_of n r pairs /\
         nth_error pairs i = Some (s1, s2) /\ equation_text r s1 s2 f) /\
    (forall name fname, (forall r, In r rows -> name <> dir_of r) -> lookup tree' name fname = lookup tree name fname).
Proof.
  intros Hn Hp. induction rows as [|r rows IH] using rev_ind; intros Hr.
  - exists tree. split; [reflexivity|]. split; [|split]; auto. intros r H. apply not_overwritten_in in H as [].
  - destruct IH as (tree1 & E1 & A1 & B1 & C1); [intros; apply Hr, in_or_app; now left|].
    destruct (Hr r) as [F N]; [apply in_or_app; right; now left|].
    destruct (rowsum_step_spec n r tree1 Hn Hp F N) as (tree2 & pairs & E2 & P & L & K1 & K2).
    exists tree2. rewrite fold_m_app, E1. cbn [bind fold_m]. rewrite E2. split; [reflexivity|]. split; [|split].
    + intros r0 H. apply not_overwritten_snoc in H as [->|[H Hne]]; [exists pairs; now split|].
      destruct (A1 r0 H) as (pairs0 & P0 & L0). exists pairs0. split; auto.
      intros i s1 s2 Hi. destruct (L0 i s1 s2 Hi) as (f & Ef & Hf). exists f. split; auto. rewrite <- Ef. apply K2.
      intros G. symmetry in G. apply dir_inj in G; auto. apply Hr, in_or_app. left. now apply not_overwritten_in.
    + intros name fname f Hf. destruct (list_eq_dec ascii_dec name (dir_of r)) as [->|Ne].
      * assert (D : (exists i, i < length pairs /\ fname = equations_file i) \/ forall i, i < length pairs -> fname <> equations_file i).
        { clear. induction (length pairs) as [|k [(i & Hi & ->)|IH]]; [right; lia|left; exists i; split; [lia|auto]|].
          destruct (list_eq_dec ascii_dec fname (equations_file k)) as [->|Ne]; [left; exists k; auto with arith|].
          right. intros i Hi. destruct (Nat.eq_dec i k) as [->|]; auto. apply IH. lia. }
        destruct D as [(i & Hi & ->)|D].
        -- right. destruct (nth_error pairs i) as [[s1 s2]|] eqn:Ei; [|apply nth_error_None in Ei; lia].
           destruct (L i s1 s2 Ei) as (f' & Ef & Hf'). rewrite Ef in Hf. injection Hf as ->.
           exists r, i, s1, s2, pairs. split; [|auto 6]. exists rows, []. split; auto.
        -- rewrite (K1 _ D) in Hf. destruct (B1 _ _ _ Hf) as [|(r0 & i & s1 & s2 & pairs0 & H0 & En & -> & P0 & Ei & Ht)]; [auto|].
           exfalso. apply dir_inj in En; auto; [|apply Hr, in_or_app; left; now apply not_overwritten_in].
           apply (D i); auto. rewrite (pairs_same n r r0 pairs pairs0) by auto. apply nth_error_Some. congruence.
      * rewrite (K2 _ _ Ne) in Hf. destruct (B1 _ _ _ Hf) as [|(r0 & i & s1 & s2 & pairs0 & H0 & En & H)]; [auto|].
        right. exists r0, i, s1, s2, pairs0. split; [|auto]. apply not_overwritten_more; auto.
        intros G. apply Ne. rewrite En. unfold dir_of. now rewrite G.
    + intros name fname H. rewrite K2, C1; auto; [|apply H, in_or_app; right; now left].
      intros r0 H0. apply H, in_or_app. now left.
Qed.
