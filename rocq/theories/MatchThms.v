(* The filter keeps valid quadruples and the keys of their halves agree: the statements about lists
   of sequences and about files. *)
From Coq Require Import Ascii String List ZArith Lia Arith Bool Reals Lra Permutation.
From Verif Require Import Base BaseFacts Sums ModelSequence ModelWilliamson ModelEquivalence ModelFourier ModelMatching
  ModelRowsum SeqFacts FourierFacts SpecFourier MatchFacts SpecRowsum RowsumFacts ModelWrite TextFacts
  JoinFacts WriteFacts DirFacts FolderFacts SpecSearch Spec.
Import ListNotations.
Notation length := List.length.
Open Scope nat_scope.

Lemma psd_filter_spec n l1 l2 bound : 1 <= n -> all_len n l1 -> all_len n l2 ->
  exists ps, iter_over_enumerate_filtered_couples_psds n l1 l2 bound = Some ps /\
    forall i s1 j s2, (exists d, In d ps /\ seq_enum1 d = (i, s1) /\ seq_enum2 d = (j, s2)) <->
      nth_error l1 i = Some s1 /\ nth_error l2 j = Some s2 /\
      forall k, 1 <= k <= n / 2 -> (psd s1 k + psd s2 k <= bound)%R.
Proof.
  intros Hn H1 H2. rewrite iter_psds_spec by auto. eexists. split; [reflexivity|]. intros i s1 j s2. split.
  - intros (d & Hd & E1 & E2). apply in_filtered_pairs in Hd as (i' & j' & t1 & t2 & A & B & W & ->). cbn in E1, E2.
    injection E1 as -> ->. injection E2 as -> ->. split; auto. split; auto. rewrite within_iff in W.
    rewrite (H1 s1) in W; auto. eapply nth_error_In; eauto.
  - intros (A & B & W). exists (pair_of i s1 j s2). split; [|auto]. apply in_filtered_pairs. exists i, j, s1, s2.
    repeat split; auto. apply within_iff. rewrite (H1 s1); auto. eapply nth_error_In; eauto.
Qed.

Lemma couple_filter_spec n l1 l2 bound : 1 <= n -> all_len n l1 -> all_len n l2 ->
  exists ps, iter_over_filtered_couples n l1 l2 bound = Some ps /\
    forall s1 s2, In (s1, s2) ps <-> In s1 l1 /\ In s2 l2 /\ forall k, k <= n / 2 -> (psd s1 k + psd s2 k <= bound)%R.
Proof.
  intros Hn H1 H2. unfold iter_over_filtered_couples.
  set (g := fun '(x, y) => match couple_within n bound x y with Some v => v | None => false end).
  rewrite (filter_m_filter _ g).
  - eexists. split; [reflexivity|]. intros s1 s2. rewrite filter_In. unfold iproduct. rewrite in_prod_iff. unfold g. split.
    + intros ((A & B) & E). split; auto. split; auto.
      destruct (couple_within_spec n bound s1 s2 Hn (H1 _ A) (H2 _ B)) as (v & Ev & Hv). rewrite Ev in E. now apply Hv.
    + intros (A & B & W). split; auto.
      destruct (couple_within_spec n bound s1 s2 Hn (H1 _ A) (H2 _ B)) as (v & Ev & Hv). rewrite Ev. now apply Hv.
  - intros [x y] Hin. apply in_prod_iff in Hin as [A B]. unfold g.
    destruct (couple_within_spec n bound x y Hn (H1 _ A) (H2 _ B)) as (v & -> & _). reflexivity.
Qed.

Lemma psd_filter_valid n l1 l2 q a b i j : 1 <= n -> all_len n l1 -> all_len n l2 ->
  pm_quad n q -> complementary q -> a <> b ->
  nth_error l1 i = Some (sequence q a) -> nth_error l2 j = Some (sequence q b) ->
  exists ps d, iter_over_enumerate_filtered_couples_psds n l1 l2 (4 * INR n) = Some ps /\ In d ps /\
    seq_enum1 d = (i, sequence q a) /\ seq_enum2 d = (j, sequence q b).
Proof.
  intros Hn H1 H2 P C D A B. destruct (psd_filter_spec n l1 l2 (4 * INR n) Hn H1 H2) as (ps & E & H).
  destruct (proj2 (H i (sequence q a) j (sequence q b))) as (d & Hd); [|exists ps, d; tauto].
  split; auto. split; auto. intros k _. now apply (psd_two n).
Qed.

Lemma couple_filter_valid n l1 l2 q a b : 1 <= n -> all_len n l1 -> all_len n l2 ->
  pm_quad n q -> complementary q -> a <> b -> In (sequence q a) l1 -> In (sequence q b) l2 ->
  exists ps, iter_over_filtered_couples n l1 l2 (4 * INR n) = Some ps /\ In (sequence q a, sequence q b) ps.
Proof.
  intros Hn H1 H2 P C D A B. destruct (couple_filter_spec n l1 l2 (4 * INR n) Hn H1 H2) as (ps & E & H).
  exists ps. split; auto. apply H. split; auto. split; auto. intros k _. now apply (psd_two n).
Qed.

Lemma get_put {A} (d : list (text * A)) name v : get (put d name v) name = Some v.
Proof.
  unfold get, put. induction d as [|[nm x] d IH]; cbn [filter find app fst].
  - now rewrite text_eqb_refl.
  - destruct (text_eqb nm name) eqn:E; cbn [negb]; [exact IH|]. cbn [app find fst]. rewrite E. exact IH.
Qed.

Theorem keys_in_files n q t m a b c d (L : Tag -> list (list Z)) (ix : Tag -> nat) dir : 1 <= n -> three_types t ->
  pm_quad n q -> is_type t q -> In ((a, b), (c, d)) pairings ->
  (forall tg s, In s (L tg) -> length s = n /\ total s = total (sequence q tg)) ->
  (forall tg, nth_error (L tg) (ix tg) = Some (sequence q tg)) ->
  exists dl cl fl dr cr fr k left right,
    write_seq_pairs n (L a) (L b) (a, b) t (totals q) n dir LEFT m = Some (dl, cl) /\
    write_seq_pairs n (L c) (L d) (c, d) t (totals q) n dir RIGHT m = Some (dr, cr) /\
    get dl (pair_file a b) = Some fl /\ get dr (pair_file c d) = Some fr /\
    In left fl /\ In right fr /\
    get_line_from left = Some (k, (ix a, ix b)) /\ get_line_from right = Some (k, (ix c, ix d)).
Proof.
  intros Hn Ht Pq Tq Hp HL Hix.
  assert (Ex : exists p, pairing_tags p = ((a, b), (c, d))).
  { cbn in Hp. destruct Hp as [E|[E|[E|[]]]]; [exists (Some WX)|exists (Some WY)|exists (Some WZ)]; exact E. }
  destruct Ex as (p & Ep).
  assert (Ts : forall tg, rowsum_of_tag (totals q) tg = total (sequence q tg)) by (intros []; reflexivity).
  assert (AL : forall tg, all_len n (L tg)) by (intros tg s Hs; exact (proj1 (HL _ _ Hs))).
  pose proof (signs_spec p) as S. rewrite Ep in S. destruct S as [S1 S2].
  pose proof (key_match n q t m p Hn Pq Tq Ht) as K. rewrite Ep in K.
  assert (D : a <> b /\ c <> d) by (cbn in Hp; destruct Hp as [E|[E|[E|[]]]]; injection E as <- <- <- <-; split; discriminate).
  pose proof (type_WT n q t Pq Hn Tq) as WT.
  rewrite (write_seq_pairs_spec n (a, b) (fst (signs p))); auto;
    [|intros s Hs; cbn [fst]; rewrite Ts; exact (proj2 (HL _ _ Hs))|intros s Hs; cbn [snd]; rewrite Ts; exact (proj2 (HL _ _ Hs))].
  rewrite (write_seq_pairs_spec n (c, d) (snd (signs p))); auto;
    [|intros s Hs; cbn [fst]; rewrite Ts; exact (proj2 (HL _ _ Hs))|intros s Hs; cbn [snd]; rewrite Ts; exact (proj2 (HL _ _ Hs))].
  cbn [fst snd].
  eexists _, _, _, _, _, _, (join (key_fields t m LEFT (fst (signs p)) (sequence q a) (sequence q b))),
    (line_of t m LEFT (fst (signs p)) (ix a) (sequence q a) (ix b) (sequence q b)),
    (line_of t m RIGHT (snd (signs p)) (ix c) (sequence q c) (ix d) (sequence q d)).
  split; [reflexivity|]. split; [reflexivity|]. split; [apply get_put|]. split; [apply get_put|].
  assert (Len : forall x y, length (sequence q x) = length (sequence q y)) by (intros; now rewrite !(seq_len n)).
  assert (Len1 : forall x, 1 <= length (sequence q x)) by (intros; now rewrite (seq_len n)).
  split; [|split; [|split]].
  - apply in_pair_lines. exists (ix a), (ix b), (sequence q a), (sequence q b). repeat split; auto.
    + apply (within_valid n); auto; try tauto. apply WT.
    + apply kept_amicable; auto. apply WT_amicable; tauto.
  - apply in_pair_lines. exists (ix c), (ix d), (sequence q c), (sequence q d). repeat split; auto.
    + apply (within_valid n); auto; try tauto. apply WT.
    + apply kept_amicable; auto. apply WT_amicable; tauto.
  - apply get_line_pair_line.
  - unfold line_of. rewrite <- (K (fst (signs p)) (snd (signs p))). apply get_line_pair_line.
Qed.

(* lines *)
Theorem line_round_trip fs gs i j i' j' : exists k k',
  get_line_from (pair_line (concat (map field fs)) i j) = Some (k, (i, j)) /\
  get_line_from (pair_line (concat (map field gs)) i' j') = Some (k', (i', j')) /\ (k = k' <-> fs = gs).
Proof.
  exists (join fs), (join gs). split; [apply get_line_pair_line|]. split; [apply get_line_pair_line|].
  split; [apply join_inj|now intros ->].
Qed.

Theorem sequence_file_round_trip l : (forall s, In s l -> pm1 s) ->
  exists lines, traverse sequence_to_string l = Some lines /\ file_to_sequences lines = Some l /\
    forall d tg, write_sequences l d tg = Some (put d (seq_file tg) lines).
Proof.
  intros H. destruct (write_lines l H) as (w & E & F). exists w. split; auto. split; auto. intros. now apply write_sequences_some.
Qed.

(* the data of the in-memory table *)
Theorem match_data_spec n s1 s2 tags b : 1 <= n -> length s1 = n -> length s2 = n -> pm1 s1 -> pm1 s2 -> tag_sign tags = Some b ->
  MatchData_from s1 s2 tags =
  Some (map (fun k => (paf s1 (Z.of_nat k) + paf s2 (Z.of_nat k))%Z) (seq 1 (n / 2)),
        map (fun k => if b then (ccf s1 s2 (Z.of_nat k) - ccf s2 s1 (Z.of_nat k))%Z
                      else (ccf s2 s1 (Z.of_nat k) - ccf s1 s2 (Z.of_nat k))%Z) (seq 1 (n / 2))).
Proof.
  intros Hn L1 L2 P1 P2 Hb. unfold MatchData_from. rewrite (auto_pair_direct _ _ n) by auto. cbn [bind].
  rewrite (cross_direct tags b _ _ n) by auto. cbn [bind]. unfold range_incl. replace (S (n / 2) - 1) with (n / 2) by lia. reflexivity.
Qed.
