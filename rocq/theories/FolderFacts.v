(* The search in the folder of row sum directories. *)
From Coq Require Import Ascii String List ZArith Lia Arith Bool Reals Lra Permutation.
From Verif Require Import Base BaseFacts Sums ModelSequence ModelWilliamson ModelEquivalence ModelFourier ModelMatching
  ModelRowsum SeqFacts FourierFacts SpecFourier MatchFacts SpecRowsum RowsumFacts QtWt GraphFacts Convert ModelWrite TextFacts
  JoinFacts WriteFacts DirFacts Spec.
Import ListNotations.
Notation length := List.length.
Open Scope nat_scope.

(* ---- the candidate sequences ---- *)

Lemma file_symmetric_spec s : 1 <= length s -> exists b, ModelWrite.symmetric s = Some b /\ (b = true <-> symmetric s).
Proof.
  intros Hn. unfold ModelWrite.symmetric.
  rewrite (all_m_forallb _ (fun k => (nth k s 0 =? nth (length s - k) s 0)%Z)).
  - eexists. split; [reflexivity|]. rewrite forallb_forall, (symmetric_iff (length s)) by auto. split; intros H k Hk.
    + apply Z.eqb_eq, H, in_range_incl. lia.
    + apply Z.eqb_eq, H. apply in_range_incl in Hk. lia.
  - intros k Hk. apply in_range_incl in Hk. pose proof (half_lt (length s) k Hn ltac:(lia)).
    rewrite !(vget_nth _ _ 0%Z) by lia. reflexivity.
Qed.

Lemma seqtype_dec (t u : SequenceType) : {t = u} + {t <> u}.
Proof. decide equality. Qed.

Lemma candidates_spec t r n : 1 <= n -> (Z.abs r < 2 ^ 62)%Z -> (Z.of_nat n < 2 ^ 62)%Z ->
  exists l, candidates t r n = Some l /\ NoDup l /\
  forall s, In s l <-> length s = n /\ pm1 s /\ total s = r /\ (t = Williamson -> symmetric s).
Proof.
  intros Hn Hr Hn2. destruct (generate_sequences_spec r n Hr Hn2) as (l & E & Nd & Hl). unfold candidates. rewrite E. cbn [bind].
  destruct (seqtype_dec t Williamson) as [->|N].
  - set (g := fun s => match ModelWrite.symmetric s with Some b => b | None => false end).
    assert (Hs : forall s, In s l -> ModelWrite.symmetric s = Some (g s) /\ (g s = true <-> symmetric s)).
    { intros s Hs. apply Hl in Hs as (Ls & _). destruct (file_symmetric_spec s) as (b & Eb & Hb); [lia|].
      unfold g. rewrite Eb. auto. }
    exists (filter g l). split; [apply filter_m_filter; intros; now apply Hs|]. split; [now apply NoDup_filter|].
    intros s. rewrite filter_In. split.
    + intros [Hi Hg]. pose proof (proj1 (Hl s) Hi) as (A & B & C). repeat split; auto. intros _. now apply Hs.
    + intros (A & B & C & D). assert (In s l) by (apply Hl; auto). split; auto. apply Hs; auto.
  - exists l. split; [destruct t; auto; congruence|]. split; auto. intros s. rewrite Hl. split; intros H; repeat split; try apply H. congruence.
Qed.

Lemma feasible_bound n r : (Z.of_nat n < 2 ^ 62)%Z -> feasible n r -> forall tg, (Z.abs (rowsum_of_tag r tg) < 2 ^ 62)%Z.
Proof.
  destruct r as [[[a b] c] d]. intros Hn (H & _) tg. change (2 ^ 62)%Z with (4611686018427387904)%Z in *.
  assert (B : forall x : Z, (x * x <= 4 * Z.of_nat n -> Z.abs x < 4611686018427387904)%Z).
  { intros x Hx. destruct (Z_lt_le_dec (Z.abs x) 4611686018427387904) as [|L]; auto. exfalso.
    assert (4611686018427387904 * 4611686018427387904 <= Z.abs x * Z.abs x)%Z by (apply Z.mul_le_mono_nonneg; lia).
    rewrite Z.abs_square in *. lia. }
  pose proof (Z.square_nonneg a). pose proof (Z.square_nonneg b). pose proof (Z.square_nonneg c). pose proof (Z.square_nonneg d).
  destruct tg; cbn [rowsum_of_tag]; apply B; lia.
Qed.

(* ---- names ---- *)

Lemma rowsum_dir_inj r s : rowsum_dir r = rowsum_dir s -> r = s.
Proof.
  destruct r as [[[a b] c] d], s as [[[a' b'] c'] d']. unfold rowsum_dir. intros E. apply app_inv_head in E.
  assert (J : forall a b c d, isize_to_string a ++ lit "_" ++ isize_to_string b ++ lit "_" ++ isize_to_string c ++ lit "_" ++ isize_to_string d = join [a; b; c; d]) by reflexivity.
  rewrite !J in E. apply join_inj in E. congruence.
Qed.

Lemma put_fresh {A} (d : list (text * A)) name v : Forall (fun e => fst e <> name) d -> put d name v = d ++ [(name, v)].
Proof.
  intros H. unfold put. f_equal. induction H as [|e d He Hd IH]; cbn; auto.
  rewrite (proj2 (text_eqb_neq _ _) He). cbn. now rewrite IH.
Qed.
Lemma open_fresh (f : Folder) name : Forall (fun e => fst e <> name) f -> open_dir f name = [].
Proof.
  intros H. unfold open_dir, get. induction H as [|e d He Hd IH]; cbn [find option_map]; auto. now rewrite (proj2 (text_eqb_neq _ _) He).
Qed.

(* ---- joining the two files of a directory ---- *)

Lemma join_condition_spec n q t : searchable t -> 1 <= n -> pm_quad n q ->
  exists b, join_condition t q = Some b /\ (b = true <-> is_type t q).
Proof.
  intros Ht Hn Hq. destruct (verify_spec n q t Hq Hn) as (b & E & H). exists b. split; auto.
  destruct Ht as [->|[->| ->]]; auto. destruct (QT_verify_perfect n q Hq Hn) as (s & b' & Es & Eb & Ep).
  cbn [join_condition]. rewrite Es. cbn [bind]. congruence.
Qed.

Definition orders : list (Tag * Tag * Tag * Tag) :=
  [(TW, TX, TY, TZ); (TY, TZ, TW, TX); (TW, TY, TX, TZ); (TX, TZ, TW, TY); (TW, TZ, TX, TY); (TX, TY, TW, TZ)].

Lemma quad_at_spec (L : Tag -> list (list Z)) a b c d i j k l s1 s2 s3 s4 : In (a, b, c, d) orders ->
  nth_error (L a) i = Some s1 -> nth_error (L b) j = Some s2 -> nth_error (L c) k = Some s3 -> nth_error (L d) l = Some s4 ->
  exists q, quad_at (a, b, c, d) (L TW, L TX, L TY, L TZ) (i, j) (k, l) = Some q /\ q_size q = length (q_a q) /\
    sequence q a = s1 /\ sequence q b = s2 /\ sequence q c = s3 /\ sequence q d = s4.
Proof.
  intros Ho A B C D. cbn [orders In] in Ho.
  repeat (destruct Ho as [Ho|Ho]; [injection Ho as <- <- <- <-;
    unfold quad_at, get_sequences, get_sequence_aux, vget; cbn [tag_eqb fst snd bind]; rewrite A, B, C, D; cbn [bind];
    eexists; repeat split|]). contradiction.
Qed.

(* the quadruples a directory stands for *)
Definition valid (t : SequenceType) (n : nat) (rs : Quad) (q : QuadSeq) : Prop := pm_quad n q /\ is_type t q /\ totals q = rs.

Lemma order_all (P : Tag -> Prop) a b c d : In (a, b, c, d) orders -> P a -> P b -> P c -> P d -> forall tg, P tg.
Proof.
  intros Ho A B C D tg. cbn [orders In] in Ho.
  repeat (destruct Ho as [Ho|Ho]; [injection Ho as <- <- <- <-; destruct tg; assumption|]). contradiction.
Qed.
Lemma quad_ext q q' : q_size q = q_size q' -> (forall tg, sequence q tg = sequence q' tg) -> q = q'.
Proof.
  intros S H. pose proof (H TW). pose proof (H TX). pose proof (H TY). pose proof (H TZ). destruct q, q'. cbn in *. congruence.
Qed.
Lemma totals_tag q r : totals q = r <-> forall tg, total (sequence q tg) = rowsum_of_tag r tg.
Proof.
  destruct r as [[[a b] c] d]. unfold totals. split.
  - intros E tg. injection E as <- <- <- <-. now destruct tg.
  - intros H. pose proof (H TW). pose proof (H TX). pose proof (H TY). pose proof (H TZ). cbn [sequence rowsum_of_tag] in *. congruence.
Qed.

Section Directory.
Context (t : SequenceType) (m : MatchOption) (n : nat) (rs : Quad) (L : Tag -> list (list Z)).
Context (Ht : searchable t).
Context (Hn : 1 <= n).
Context (HL : forall tg s, In s (L tg) <-> length s = n /\ pm1 s /\ total s = rowsum_of_tag rs tg /\ (t = Williamson -> symmetric s)).

Lemma valid_listed q tg : valid t n rs q -> In (sequence q tg) (L tg).
Proof.
  intros (Hq & Hty & Hr). apply HL. split; [now apply seq_len|]. split; [now apply (seq_pm n)|].
  split; [now apply totals_tag|]. intros ->. cbn in Hty. destruct Hty as (_ & Ha & Hb & Hc & Hd). now destruct tg.
Qed.

Lemma listed_valid q : q_size q = length (q_a q) -> (forall tg, In (sequence q tg) (L tg)) -> pm_quad n q /\ totals q = rs.
Proof.
  intros S H. assert (A : forall tg, length (sequence q tg) = n /\ pm1 (sequence q tg) /\ total (sequence q tg) = rowsum_of_tag rs tg).
  { intros tg. specialize (H tg). apply HL in H. tauto. }
  split.
  - pose proof (A TW). pose proof (A TX). pose proof (A TY). pose proof (A TZ). cbn [sequence] in *. unfold pm_quad, wf.
    repeat split; try tauto. rewrite S. tauto.
  - apply totals_tag. intros tg. apply A.
Qed.

Context (a b c d : Tag) (sa sb : EquationSide) (ba bb : bool).
Context (Ho : In (a, b, c, d) orders).
Let F1 := pair_lines t m sa ba n (L a) (L b).
Let F2 := pair_lines t m sb bb n (L c) (L d).
Let S := (L TW, L TX, L TY, L TZ).

Lemma line_parsed sd bo i s1 j s2 x ij : parsed (line_of t m sd bo i s1 j s2) x ij -> x = join (key_fields t m sd bo s1 s2) /\ ij = (i, j).
Proof. unfold parsed, line_of. rewrite get_line_pair_line. intros E. injection E as <- <-. auto. Qed.
Lemma lines_ok sd bo l1 l2 : ok_lines (sort_lines (pair_lines t m sd bo n l1 l2)).
Proof.
  apply Forall_forall. intros line Hl. rewrite sort_lines_perm in Hl. apply in_pair_lines in Hl as (i & j & s1 & s2 & _ & _ & _ & _ & ->).
  do 2 eexists. apply get_line_pair_line.
Qed.
Lemma in_sorted_lines sd bo l1 l2 line x ij : In line (sort_lines (pair_lines t m sd bo n l1 l2)) -> parsed line x ij ->
  exists s1 s2, nth_error l1 (fst ij) = Some s1 /\ nth_error l2 (snd ij) = Some s2 /\ x = join (key_fields t m sd bo s1 s2).
Proof.
  intros Hl Hp. rewrite sort_lines_perm in Hl. apply in_pair_lines in Hl as (i & j & s1 & s2 & H1 & H2 & _ & _ & ->).
  apply line_parsed in Hp as [-> ->]. exists s1, s2. auto.
Qed.

Lemma seqs_listed q :
  In (sequence q a) (L a) -> In (sequence q b) (L b) -> In (sequence q c) (L c) -> In (sequence q d) (L d) -> forall tg, In (sequence q tg) (L tg).
Proof. intros. apply (order_all (fun tg => In (sequence q tg) (L tg)) a b c d); auto. Qed.

Lemma quad_found ij kl s1 s2 s3 s4 :
  nth_error (L a) (fst ij) = Some s1 -> nth_error (L b) (snd ij) = Some s2 ->
  nth_error (L c) (fst kl) = Some s3 -> nth_error (L d) (snd kl) = Some s4 ->
  exists q, quad_at (a, b, c, d) S ij kl = Some q /\ pm_quad n q /\ totals q = rs /\
    sequence q a = s1 /\ sequence q b = s2 /\ sequence q c = s3 /\ sequence q d = s4.
Proof.
  intros A B C D. destruct ij as [i j], kl as [k l].
  destruct (quad_at_spec L a b c d i j k l s1 s2 s3 s4) as (q & Eq & Sz & Ea & Eb & Ec & Ed); auto.
  exists q. split; auto. destruct (listed_valid q) as [P T]; auto.
  - apply seqs_listed; auto; subst; eapply nth_error_In; eauto.
  - repeat split; auto; try apply P.
Qed.

Lemma join_directory :
  exists r, join_pairs_files (sort_lines F1) (sort_lines F2) t (a, b, c, d) S = Some r /\
    (forall q, In q r -> valid t n rs q) /\
    (forall q, valid t n rs q ->
      a <> b -> c <> d ->
      key_fields t m sa ba (sequence q a) (sequence q b) = key_fields t m sb bb (sequence q c) (sequence q d) ->
      (forall s1 s2, In s1 (L a) -> In s2 (L b) -> unrelated (join (key_fields t m sa ba (sequence q a) (sequence q b))) (join (key_fields t m sa ba s1 s2))) ->
      (forall s3 s4, In s3 (L c) -> In s4 (L d) -> unrelated (join (key_fields t m sa ba (sequence q a) (sequence q b))) (join (key_fields t m sb bb s3 s4))) ->
      In q r).
Proof.
  destruct (join_files_spec t (a, b, c, d) S (sort_lines F1) (sort_lines F2)) as (r & E & Snd & Cmp);
    try apply sort_lines_sorted; try apply lines_ok.
  - intros l1 l2 x ij kl H1 H2 P1 P2.
    destruct (in_sorted_lines _ _ _ _ _ _ _ H1 P1) as (s1 & s2 & A & B & _).
    destruct (in_sorted_lines _ _ _ _ _ _ _ H2 P2) as (s3 & s4 & C & D & _).
    destruct (quad_found ij kl s1 s2 s3 s4) as (q & Eq & Pq & _); auto.
    destruct (join_condition_spec n q t Ht Hn Pq) as (v & Ev & _). eauto.
  - exists r. split; auto. split.
    + intros q Hq. destruct (Snd q Hq) as (x & l1 & l2 & ij & kl & H1 & H2 & P1 & P2 & Eq & Ec).
      destruct (in_sorted_lines _ _ _ _ _ _ _ H1 P1) as (s1 & s2 & A & B & _).
      destruct (in_sorted_lines _ _ _ _ _ _ _ H2 P2) as (s3 & s4 & C & D & _).
      destruct (quad_found ij kl s1 s2 s3 s4) as (q' & Eq' & Pq & Tq & _); auto.
      rewrite Eq in Eq'. injection Eq' as <-. destruct (join_condition_spec n q t Ht Hn Pq) as (v & Ev & Hv).
      split; auto. split; auto. apply Hv. congruence.
    + intros q Vq Nab Ncd K U1 U2. pose proof Vq as (Pq & Tyq & Tq).
      pose proof (type_WT n q t Pq Hn Tyq) as WT.
      destruct (In_nth_error _ _ (valid_listed q a Vq)) as (i & Hi). destruct (In_nth_error _ _ (valid_listed q b Vq)) as (j & Hj).
      destruct (In_nth_error _ _ (valid_listed q c Vq)) as (k & Hk). destruct (In_nth_error _ _ (valid_listed q d Vq)) as (l & Hl).
      apply (Cmp (join (key_fields t m sa ba (sequence q a) (sequence q b)))).
      * intros line x ij Hin Hp. destruct (in_sorted_lines _ _ _ _ _ _ _ Hin Hp) as (s1 & s2 & A & B & ->).
        apply U1; eapply nth_error_In; eauto.
      * intros line x ij Hin Hp. destruct (in_sorted_lines _ _ _ _ _ _ _ Hin Hp) as (s1 & s2 & A & B & ->).
        apply U2; eapply nth_error_In; eauto.
      * exists (line_of t m sa ba i (sequence q a) j (sequence q b)), (line_of t m sb bb k (sequence q c) l (sequence q d)), (i, j), (k, l).
        destruct (quad_found (i, j) (k, l) (sequence q a) (sequence q b) (sequence q c) (sequence q d)) as (q' & Eq & Pq' & _ & Ea & Eb & Ec & Ed); auto.
        assert (q' = q).
        { apply quad_ext; [destruct Pq as ((-> & _) & _), Pq' as ((-> & _) & _); reflexivity|].
          apply (order_all (fun tg => sequence q' tg = sequence q tg) a b c d); auto. }
        subst q'. split; [|split; [|split; [|split; [|split]]]].
        -- rewrite sort_lines_perm. apply in_pair_lines. exists i, j, (sequence q a), (sequence q b). repeat split; auto.
           ++ apply within_valid; auto. apply WT.
           ++ apply kept_amicable; [rewrite !(seq_len n) by auto; auto|rewrite (seq_len n) by auto; auto|now apply WT_amicable].
        -- rewrite sort_lines_perm. apply in_pair_lines. exists k, l, (sequence q c), (sequence q d). repeat split; auto.
           ++ apply within_valid; auto. apply WT.
           ++ apply kept_amicable; [rewrite !(seq_len n) by auto; auto|rewrite (seq_len n) by auto; auto|now apply WT_amicable].
        -- apply get_line_pair_line.
        -- rewrite K. apply get_line_pair_line.
        -- exact Eq.
        -- destruct (join_condition_spec n q t Ht Hn Pq) as (v & -> & Hv). f_equal. now apply Hv.
Qed.
End Directory.

Definition is_list (t : SequenceType) (n : nat) (rs : Quad) (L : Tag -> list (list Z)) : Prop :=
  forall tg s, In s (L tg) <-> length s = n /\ pm1 s /\ total s = rowsum_of_tag rs tg /\ (t = Williamson -> symmetric s).

Lemma op_total t n rs q a b c d : 1 <= n -> valid t n rs q -> In (a, b, c, d) orders ->
  let u x := rowsum_of_tag rs x in
  (u a * u a + u b * u b - 2 * Z.of_nat n = - (u c * u c + u d * u d - 2 * Z.of_nat n))%Z.
Proof.
  intros Hn (Pq & Tq & <-) Ho. pose proof (complementary_rowsums n q Pq Hn) as F.
  pose proof (type_WT n q t Pq Hn Tq) as WT. specialize (F (proj1 WT)). unfold feasible, totals in F.
  destruct F as [F _]. cbn zeta. cbn [orders In] in Ho. unfold totals.
  repeat (destruct Ho as [Ho|Ho]; [injection Ho as <- <- <- <-; cbn [rowsum_of_tag]; lia|]). contradiction.
Qed.

Lemma keys_clear t m n rs L q a b c d sa sb ba bb s1 s2 : 1 <= n -> is_list t n rs L ->
  valid t n rs q -> a <> b -> In s1 (L c) -> In s2 (L d) ->
  (sa = sb /\ a = c /\ b = d) \/ (sa <> sb /\ In (a, b, c, d) orders) ->
  unrelated (join (key_fields t m sa ba (sequence q a) (sequence q b))) (join (key_fields t m sb bb s1 s2)).
Proof.
  intros Hn HL Vq Nab H1 H2 Hs. pose proof Vq as (Pq & Tq & Rq). apply HL in H1 as (L1 & P1 & T1 & _). apply HL in H2 as (L2 & P2 & T2 & _).
  pose proof (type_WT n q t Pq Hn Tq) as WT.
  destruct (seqtype_dec t QuaternionType) as [->|N].
  - apply clear_QT.
    + now rewrite !(seq_len n).
    + now rewrite !(seq_len n).
    + now rewrite (seq_len n).
    + now apply WT_amicable.
  - apply (clear_keys t m n); auto using (seq_len n), (seq_pm n).
    rewrite (proj1 (totals_tag q rs) Rq a), (proj1 (totals_tag q rs) Rq b), T1, T2.
    destruct Hs as [(-> & -> & ->)|(Ns & Ho)]; [reflexivity|].
    pose proof (op_total t n rs q a b c d Hn Vq Ho) as E. cbv zeta in E. destruct sa, sb; try congruence; cbn [op_side]; rewrite E; lia.
Qed.

Definition order_of (p : option RowsumPairing) : Tag * Tag * Tag * Tag := let '((a, b), (c, d)) := pairing_tags p in (a, b, c, d).
Definition swapped (o : Tag * Tag * Tag * Tag) : Tag * Tag * Tag * Tag := let '(a, b, c, d) := o in (c, d, a, b).
Definition signs (p : option RowsumPairing) : bool * bool :=
  match p with Some WX => (true, false) | Some WY => (false, false) | Some WZ | None => (false, true) end.
Lemma signs_spec p : let '((a, b), (c, d)) := pairing_tags p in tag_sign (a, b) = Some (fst (signs p)) /\ tag_sign (c, d) = Some (snd (signs p)).
Proof. now destruct p as [[| |]|]. Qed.

Definition left_lines (t : SequenceType) (m : MatchOption) (n : nat) (p : option RowsumPairing) (L : Tag -> list (list Z)) : Lines :=
  pair_lines t m LEFT (fst (signs p)) n (L (fst (fst (pairing_tags p)))) (L (snd (fst (pairing_tags p)))).
Definition right_lines (t : SequenceType) (m : MatchOption) (n : nat) (p : option RowsumPairing) (L : Tag -> list (list Z)) : Lines :=
  pair_lines t m RIGHT (snd (signs p)) n (L (fst (snd (pairing_tags p)))) (L (snd (snd (pairing_tags p)))).

Lemma join_pairing t m n rs L p : searchable t -> 1 <= n -> is_list t n rs L ->
  let S := (L TW, L TX, L TY, L TZ) in
  let good r := (forall q, In q r -> valid t n rs q) /\ (forall q, valid t n rs q -> In q r) in
  (exists r, join_pairs_files (sort_lines (left_lines t m n p L)) (sort_lines (right_lines t m n p L)) t (order_of p) S = Some r /\ good r) /\
  (exists r, join_pairs_files (sort_lines (right_lines t m n p L)) (sort_lines (left_lines t m n p L)) t (swapped (order_of p)) S = Some r /\ good r).
Proof.
  intros Ht Hn HL. cbv zeta. unfold left_lines, right_lines, order_of, swapped.
  pose proof (fun q Hq Ty => key_match n q t m p Hn Hq Ty Ht) as KM.
  assert (Ho : let '((a, b), (c, d)) := pairing_tags p in In (a, b, c, d) orders /\ In (c, d, a, b) orders /\ a <> b /\ c <> d).
  { destruct p as [[| |]|]; cbn [pairing_tags]; (split; [cbn; tauto|split; [cbn; tauto|split; discriminate]]). }
  destruct (pairing_tags p) as [[a b] [c d]]. cbn [fst snd]. destruct Ho as (Ho & Ho' & Nab & Ncd). split.
  - destruct (join_directory t m n rs L Ht Hn HL a b c d LEFT RIGHT (fst (signs p)) (snd (signs p)) Ho) as (r & E & Snd & Cmp).
    exists r. split; auto. split; auto. intros q Vq. apply Cmp; auto.
    + apply KM; apply Vq.
    + intros s1 s2 H1 H2. apply (keys_clear t m n rs L q a b a b LEFT LEFT); auto.
    + intros s1 s2 H1 H2. apply (keys_clear t m n rs L q a b c d LEFT RIGHT); auto. right. split; [discriminate|auto].
  - destruct (join_directory t m n rs L Ht Hn HL c d a b RIGHT LEFT (snd (signs p)) (fst (signs p)) Ho') as (r & E & Snd & Cmp).
    exists r. split; auto. split; auto. intros q Vq. apply Cmp; auto.
    + symmetry. apply KM; apply Vq.
    + intros s1 s2 H1 H2. apply (keys_clear t m n rs L q c d c d RIGHT RIGHT); auto.
    + intros s1 s2 H1 H2. apply (keys_clear t m n rs L q c d a b RIGHT LEFT); auto. right. split; [discriminate|auto].
Qed.

(* ---- the files of a directory ---- *)

Definition dir_of (p : option RowsumPairing) (W : Tag -> Lines) (FL FR : Lines) : Dir :=
  let '((a, b), (c, d)) := pairing_tags p in
  [(seq_file TW, W TW); (seq_file TX, W TX); (seq_file TY, W TY); (seq_file TZ, W TZ); (pair_file a b, FL); (pair_file c d, FR)].
Definition sorted_dir_of (p : option RowsumPairing) (W : Tag -> Lines) (FL FR : Lines) : Dir :=
  let '((a, b), (c, d)) := pairing_tags p in
  [(seq_file TW, W TW); (seq_file TX, W TX); (seq_file TY, W TY); (seq_file TZ, W TZ);
   (pair_file a b ++ lit ".sorted", sort_lines FL); (pair_file c d ++ lit ".sorted", sort_lines FR)].

Lemma sort_dir_of p W FL FR : sort_dir (dir_of p W FL FR) = sorted_dir_of p W FL FR.
Proof. destruct p as [[| |]|]; reflexivity. Qed.

Definition comp (S : Sequences) (tg : Tag) : list (list Z) :=
  let '(w, x, y, z) := S in match tg with TW => w | TX => x | TY => y | TZ => z end.

Lemma read_sequences p W L FL FR d : (forall tg, file_to_sequences (W tg) = Some (L tg)) ->
  Permutation d (sorted_dir_of p W FL FR) -> get_sequences_from_dir d = Some (L TW, L TX, L TY, L TZ).
Proof.
  intros HW HP. unfold get_sequences_from_dir.
  match goal with |- fold_m ?g _ _ = _ => set (f := g) end.
  assert (G : forall l s, incl l (sorted_dir_of p W FL FR) -> exists s', fold_m f l s = Some s' /\
    forall tg, comp s tg = L tg \/ In (seq_file tg, W tg) l -> comp s' tg = L tg).
  { induction l as [|e l IH]; intros s Hl.
    - exists s. split; auto. intros tg [H|[]]. exact H.
    - assert (He : exists s1, f s e = Some s1 /\ forall tg, comp s tg = L tg \/ e = (seq_file tg, W tg) -> comp s1 tg = L tg).
      { specialize (Hl e ltac:(now left)). destruct s as [[[w x] y] z].
        assert (Hc : (exists tg, e = (seq_file tg, W tg)) \/ (exists nm v, e = (nm, v) /\ ends_with nm (lit ".seq") = false)).
        { unfold sorted_dir_of in Hl. destruct (pairing_tags p) as [[a b] [c d']] eqn:Ep.
          destruct Hl as [<-|[<-|[<-|[<-|[<-|[<-|[]]]]]]]; [left; eexists; reflexivity..| |];
            right; do 2 eexists; (split; [reflexivity|]); destruct p as [[| |]|]; injection Ep as <- <- <- <-; reflexivity. }
        destruct Hc as [[tg ->]|(nm & v & -> & En)].
        - destruct tg.
          + exists (L TW, x, y, z). split; [unfold f; cbn -[file_to_sequences]; now rewrite HW|].
            intros [] [H|H]; cbn [comp] in *; auto; discriminate H.
          + exists (w, L TX, y, z). split; [unfold f; cbn -[file_to_sequences]; now rewrite HW|].
            intros [] [H|H]; cbn [comp] in *; auto; discriminate H.
          + exists (w, x, L TY, z). split; [unfold f; cbn -[file_to_sequences]; now rewrite HW|].
            intros [] [H|H]; cbn [comp] in *; auto; discriminate H.
          + exists (w, x, y, L TZ). split; [unfold f; cbn -[file_to_sequences]; now rewrite HW|].
            intros [] [H|H]; cbn [comp] in *; auto; discriminate H.
        - exists (w, x, y, z). split; [unfold f; now rewrite En|]. intros tg [H|H]; auto. injection H as -> ->. destruct tg; discriminate En. }
      destruct He as (s1 & E1 & H1). cbn [fold_m]. rewrite E1. cbn [bind].
      destruct (IH s1) as (s' & E' & H'). { intros x Hx. apply Hl. now right. }
      exists s'. split; auto. intros tg [H|[H|H]]; apply H'; auto. }
  destruct (G d ([], [], [], [])) as (s' & E & H).
  { intros x Hx. now apply (Permutation_in _ HP). }
  rewrite E. f_equal.
  assert (A : forall tg, comp s' tg = L tg).
  { intros tg. apply H. right. apply (Permutation_in _ (Permutation_sym HP)). unfold sorted_dir_of.
    destruct (pairing_tags p) as [[a b] [c d']]. destruct tg; cbn; auto. }
  destruct s' as [[[w x] y] z]. pose proof (A TW). pose proof (A TX). pose proof (A TY). pose proof (A TZ). cbn [comp] in *. congruence.
Qed.

Lemma Permutation_filter' {A} (f : A -> bool) l l' : Permutation l l' -> Permutation (filter f l) (filter f l').
Proof.
  induction 1; cbn; auto.
  - destruct (f x); auto.
  - destruct (f x), (f y); auto. constructor.
  - etransitivity; eauto.
Qed.

Lemma read_order p W FL FR d : Permutation d (sorted_dir_of p W FL FR) ->
  get_order_from_dir d = Some ((sort_lines FL, sort_lines FR), order_of p) \/
  get_order_from_dir d = Some ((sort_lines FR, sort_lines FL), swapped (order_of p)).
Proof.
  intros HP. apply (Permutation_filter' (fun e => ends_with (fst e) (lit ".pair.sorted"))) in HP.
  assert (E : filter (fun e => ends_with (fst e) (lit ".pair.sorted")) (sorted_dir_of p W FL FR) =
    let '((a, b), (c, d)) := pairing_tags p in
    [(pair_file a b ++ lit ".sorted", sort_lines FL); (pair_file c d ++ lit ".sorted", sort_lines FR)]).
  { destruct p as [[| |]|]; reflexivity. }
  unfold get_order_from_dir. rewrite E in HP. unfold order_of. destruct (pairing_tags p) as [[a b] [c d']].
  apply Permutation_sym, Permutation_length_2_inv in HP as [-> | ->]; [left|right]; destruct a, b, c, d'; reflexivity.
Qed.

(* ---- writing ---- *)

Definition entry_of (t : SequenceType) (m : MatchOption) (n : nat) (p : option RowsumPairing) (rs : Quad) (e : text * Dir) : Prop :=
  exists L W, is_list t n rs L /\ (forall tg, file_to_sequences (W tg) = Some (L tg)) /\
    e = (rowsum_dir rs, dir_of p W (left_lines t m n p L) (right_lines t m n p L)).

Lemma write_lines l : (forall s, In s l -> pm1 s) -> exists w, traverse sequence_to_string l = Some w /\ file_to_sequences w = Some l.
Proof.
  induction l as [|s l IH]; intros H; [exists []; auto|].
  destruct (sequence_text s) as (x & E1 & E2); [apply H; now left|].
  destruct IH as (w & E3 & E4); [intros; apply H; now right|].
  exists (x :: w). split.
  - cbn [traverse]. rewrite E1. cbn [bind]. rewrite E3. reflexivity.
  - unfold file_to_sequences in *. cbn [traverse]. rewrite E2. cbn [bind]. rewrite E4. reflexivity.
Qed.

Lemma tag_choice {A} (P : Tag -> A -> Prop) : (forall tg, exists x, P tg x) -> exists f, forall tg, P tg (f tg).
Proof.
  intros H. destruct (H TW) as [w Hw], (H TX) as [x Hx], (H TY) as [y Hy], (H TZ) as [z Hz].
  exists (fun tg => match tg with TW => w | TX => x | TY => y | TZ => z end). intros []; auto.
Qed.

Lemma seqtype_round t : str_to_seqtype (seqtype_to_string t) = Some t.
Proof. now destruct t. Qed.

Lemma write_sequences_some l w d tg : traverse sequence_to_string l = Some w -> write_sequences l d tg = Some (put d (seq_file tg) w).
Proof. intros E. unfold write_sequences. now rewrite E. Qed.

Lemma write_rowsum t m n p rs f : searchable t -> 1 <= n -> (Z.of_nat n < 2 ^ 62)%Z -> feasible n rs ->
  Forall (fun e => fst e <> rowsum_dir rs) f ->
  exists e c, write_pairs_rowsum n (seqtype_to_string t) rs n m p f = Some (f ++ [e], c) /\ entry_of t m n p rs e.
Proof.
  intros Ht Hn Hn2 Hf Fresh.
  destruct (tag_choice (fun tg l => candidates t (rowsum_of_tag rs tg) n = Some l /\
      forall s, In s l <-> length s = n /\ pm1 s /\ total s = rowsum_of_tag rs tg /\ (t = Williamson -> symmetric s))) as (L & HL).
  { intros tg. destruct (candidates_spec t (rowsum_of_tag rs tg) n Hn) as (l & E & _ & H); eauto. now apply (feasible_bound n). }
  assert (IL : is_list t n rs L) by (intros tg s; apply HL).
  destruct (tag_choice (fun tg w => traverse sequence_to_string (L tg) = Some w /\ file_to_sequences w = Some (L tg))) as (W & HW).
  { intros tg. apply write_lines. intros s Hs. apply IL in Hs. tauto. }
  exists (rowsum_dir rs, dir_of p W (left_lines t m n p L) (right_lines t m n p L)).
  assert (Len : forall tg, all_len n (L tg)).
  { intros tg s Hs. apply IL in Hs. tauto. }
  assert (Sum : forall tg s, In s (L tg) -> total s = rowsum_of_tag rs tg).
  { intros tg s Hs. apply IL in Hs. tauto. }
  assert (WS : forall a b bo sd d, tag_sign (a, b) = Some bo -> write_seq_pairs n (L a) (L b) (a, b) t rs n d sd m =
    Some (put d (pair_file a b) (pair_lines t m sd bo n (L a) (L b)), Z.of_nat (length (pair_lines t m sd bo n (L a) (L b))))).
  { intros a b bo sd d Hb. rewrite (write_seq_pairs_spec n (a, b) bo) by (auto; apply Sum). reflexivity. }
  exists (Z.of_nat (length (left_lines t m n p L)) + Z.of_nat (length (right_lines t m n p L)))%Z.
  split; [|exists L, W; split; [exact IL|split; [intros tg; apply HW|reflexivity]]].
  - unfold write_pairs_rowsum. rewrite seqtype_round. cbn [bind]. rewrite (open_fresh f) by auto.
    rewrite !(proj1 (HL _)). cbn [bind].
    do 4 (rewrite (write_sequences_some _ _ _ _ (proj1 (HW _))); cbn [bind]).
    pose proof (signs_spec p) as Sg. unfold left_lines, right_lines, dir_of.
    destruct p as [[| |]|]; cbn [pairing_tags fst snd] in *; destruct Sg as [S1 S2];
      rewrite (WS _ _ _ LEFT _ S1); cbn [bind]; rewrite (WS _ _ _ RIGHT _ S2); cbn [bind];
      rewrite (put_fresh f) by auto; cbn [put filter seq_file fst]; reflexivity.
Qed.

Lemma write_folder t m n p rss f c : searchable t -> 1 <= n -> (Z.of_nat n < 2 ^ 62)%Z -> Forall (feasible n) rss -> NoDup rss ->
  Forall (fun e => forall rs, In rs rss -> fst e <> rowsum_dir rs) f ->
  exists f' c', fold_m (fun '(f, counter) rs =>
      let* (f, c) := write_pairs_rowsum n (seqtype_to_string t) rs n m p f in Some (f, (counter + c)%Z)) rss (f, c) = Some (f ++ f', c') /\
    Forall2 (entry_of t m n p) rss f'.
Proof.
  intros Ht Hn Hn2. revert f c. induction rss as [|rs rss IH]; intros f c Fe Nd Fr.
  - exists [], c. split; [cbn; now rewrite app_nil_r|constructor].
  - inversion Fe as [|? ? F1 F2]; subst. inversion Nd as [|? ? N1 N2]; subst. cbn [fold_m].
    destruct (write_rowsum t m n p rs f Ht Hn Hn2 F1) as (e & k & E & He).
    { eapply Forall_impl; [|exact Fr]. intros e0 H. apply H. now left. }
    rewrite E. cbn [bind]. destruct (IH (f ++ [e]) (c + k)%Z F2 N2) as (f' & c' & E' & Hf').
    + apply Forall_app. split.
      * eapply Forall_impl; [|exact Fr]. intros e0 H r Hr. apply H. now right.
      * constructor; [|constructor]. intros r Hr. destruct He as (L & W & _ & _ & ->). cbn [fst]. intros C.
        apply rowsum_dir_inj in C. congruence.
    + exists (e :: f'), c'. split; [|now constructor]. refine (eq_trans E' _). now rewrite <- app_assoc.
Qed.

(* ---- reading ---- *)

(* read_dir lists every entry exactly once *)
Definition listing_ok (ls : Listing) : Prop :=
  (forall f, Permutation (ls_folder ls f) f) /\ (forall name d, Permutation (ls_seq ls name d) d) /\
  (forall name d, Permutation (ls_pair ls name d) d).

Lemma match_entry t m n p rs e ls : searchable t -> 1 <= n -> listing_ok ls -> entry_of t m n p rs e ->
  exists r, (let d := sort_dir (snd e) in
      let* sequences := get_sequences_from_dir (ls_seq ls (fst e) d) in
      let* (files, order) := get_order_from_dir (ls_pair ls (fst e) d) in
      join_pairs_files (fst files) (snd files) t order sequences) = Some r /\
    (forall q, In q r -> valid t n rs q) /\ (forall q, valid t n rs q -> In q r).
Proof.
  intros Ht Hn (_ & Ls & Lp) (L & W & HL & HW & ->). cbn [fst snd]. cbv zeta. rewrite sort_dir_of.
  rewrite (read_sequences p W L _ _ _ HW (Ls _ _)). cbn [bind].
  destruct (join_pairing t m n rs L p Ht Hn HL) as [(r & E & G) (r' & E' & G')].
  destruct (read_order p W (left_lines t m n p L) (right_lines t m n p L) _ (Lp (rowsum_dir rs) _)) as [O|O].
  - exists r. split; auto. refine (eq_trans (f_equal (fun o => let* (files, order) := o in _) O) _). exact E.
  - exists r'. split; auto. refine (eq_trans (f_equal (fun o => let* (files, order) := o in _) O) _). exact E'.
Qed.

Lemma match_fold t m n p rss f ls : searchable t -> 1 <= n -> listing_ok ls -> Forall2 (entry_of t m n p) rss f ->
  exists r, match_pairs ls t (sortpairs f) = Some r /\
    (forall q, In q r -> exists rs, In rs rss /\ valid t n rs q) /\
    (forall rs q, In rs rss -> valid t n rs q -> In q r).
Proof.
  intros Ht Hn Hls F2. unfold match_pairs.
  set (step := fun (result : list QuadSeq) '((name, d) : text * Dir) => _).
  assert (G : forall l res, (forall e, In e l -> exists rs e0, In rs rss /\ entry_of t m n p rs e0 /\ e = (fst e0, sort_dir (snd e0))) ->
    exists r, fold_m step l res = Some r /\
      (forall q, In q r -> In q res \/ exists rs, In rs rss /\ valid t n rs q) /\
      (forall q, In q res -> In q r) /\
      (forall rs e0 q, entry_of t m n p rs e0 -> In (fst e0, sort_dir (snd e0)) l -> valid t n rs q -> In q r)).
  { induction l as [|e l IH]; intros res Hl.
    - exists res. split; auto. split; [auto|]. split; auto. intros rs e0 q _ [].
    - destruct (Hl e) as (rs & e0 & Hrs & He & ->); [now left|].
      destruct (match_entry t m n p rs e0 ls Ht Hn Hls He) as (r0 & E0 & S0 & C0). cbv zeta in E0.
      assert (E1 : step res (fst e0, sort_dir (snd e0)) = Some (res ++ r0)).
      { unfold step. destruct (get_sequences_from_dir _) as [sq|] in *; [|discriminate]. cbn [bind] in *.
        destruct (get_order_from_dir _) as [[fl o]|] in *; [|discriminate]. cbn [bind] in *. rewrite E0. reflexivity. }
      cbn [fold_m]. rewrite E1. cbn [bind].
      destruct (IH (res ++ r0)) as (r & E & S & K & C). { intros x Hx. apply Hl. now right. }
      exists r. split; auto. split; [|split].
      + intros q Hq. destruct (S q Hq) as [H|H]; auto. apply in_app_iff in H as [H|H]; auto. right. exists rs. auto.
      + intros q Hq. apply K, in_app_iff. auto.
      + intros rs' e' q He' [H|H] Vq.
        * apply K, in_app_iff. right. apply C0; auto.
          destruct He as (L & W & _ & _ & ->), He' as (L' & W' & _ & _ & ->). injection H as H _.
          apply rowsum_dir_inj in H. now subst.
        * apply (C rs' e'); auto. }
  assert (HP : Permutation (ls_folder ls (sortpairs f)) (sortpairs f)) by apply Hls.
  assert (Fl : forall rs, In rs rss -> exists e0, In e0 f /\ entry_of t m n p rs e0).
  { clear -F2. induction F2 as [|rs e0 rss f H _ IH]; intros r [].
    - subst. exists e0. split; auto. now left.
    - destruct (IH r) as (e & A & B); auto. exists e. split; auto. now right. }
  assert (Fr : forall e0, In e0 f -> exists rs, In rs rss /\ entry_of t m n p rs e0).
  { clear -F2. induction F2 as [|rs e0 rss f H _ IH]; intros e [].
    - subst. exists rs. split; auto. now left.
    - destruct (IH e) as (r & A & B); auto. exists r. split; auto. now right. }
  destruct (G (ls_folder ls (sortpairs f)) []) as (r & E & S & _ & C).
  { intros e He. apply (Permutation_in _ HP) in He. apply in_map_iff in He as ([nm d] & <- & He).
    destruct (Fr _ He) as (rs & A & B). exists rs, (nm, d). auto. }
  exists r. split; auto. split.
  - intros q Hq. destruct (S q Hq) as [[]|H]; auto.
  - intros rs q Hrs Vq. destruct (Fl rs Hrs) as (e0 & He0 & Ee0). apply (C rs e0); auto.
    apply (Permutation_in _ (Permutation_sym HP)). apply in_map_iff. exists e0. destruct e0. auto.
Qed.

(* the matching part of the search: every quadruple of the type whose row sums are normal *)
Theorem search_spec n t m p ls : 1 <= n -> (Z.of_nat n < 2 ^ 62)%Z -> searchable t -> listing_ok ls ->
  exists fuel0, forall fuel, fuel0 <= fuel -> exists f c r,
    write_pairs fuel n t m p [] = Some (f, c) /\ match_pairs ls t (sortpairs f) = Some r /\
    (forall q, In q r -> pm_quad n q /\ is_type t q /\ normal_rowsums t (totals q)) /\
    (forall q, pm_quad n q -> is_type t q -> normal_rowsums t (totals q) -> In q r).
Proof.
  intros Hn Hn2 Ht Hls. destruct (generate_rowsums_spec n t) as (f0 & H). exists f0. intros fuel Hf.
  destruct (H fuel Hf) as (rss & E & Nd & Hin).
  destruct (write_folder t m n p rss [] 0%Z Ht Hn Hn2) as (f & c & Ew & F2); auto.
  { apply Forall_forall. intros r Hr. apply Hin in Hr. apply Hr. }
  destruct (match_fold t m n p rss f ls Ht Hn Hls F2) as (r & Er & S & C).
  exists f, c, r. split; [unfold write_pairs; rewrite E; exact Ew|]. split; auto. split.
  - intros q Hq. destruct (S q Hq) as (rs & Hrs & Pq & Tq & Rq). subst rs. apply Hin in Hrs. tauto.
  - intros q Pq Tq Nq. apply (C (totals q)); [|split; auto]. apply Hin. split; auto.
    apply complementary_rowsums; auto. now apply (type_WT n q t).
Qed.
