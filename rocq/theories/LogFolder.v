(* The folder written by the command pairs: names, and the number of pairs. *)
From Coq Require Import Ascii String List ZArith Lia Arith Bool Reals Lra Permutation.
From Verif Require Import Base BaseFacts Sums ModelSequence ModelWilliamson ModelEquivalence ModelFourier ModelMatching
  ModelRowsum SeqFacts FourierFacts SpecFourier MatchFacts SpecRowsum RowsumFacts QtWt GraphFacts Convert ModelWrite TextFacts
  JoinFacts WriteFacts DirFacts FolderFacts ModelMain ModelLog MainThms Spec.
Import ListNotations.
Notation length := List.length.
Open Scope nat_scope.

(* ---- the shape of the folder and the number of pairs ---- *)

Definition shaped (p : option RowsumPairing) (e : text * Dir) : Prop := exists rs W FL FR, e = (rowsum_dir rs, dir_of p W FL FR).
Definition sorted_entry (p : option RowsumPairing) (e : text * Dir) : Prop := exists rs W FL FR, e = (rowsum_dir rs, sorted_dir_of p W FL FR).
Definition dir_pairs (d : Dir) : nat := list_sum (map (fun g : text * Lines => length (snd g)) (filter (fun g => ends_with (fst g) (lit ".sorted")) d)).
Lemma dir_pairs_of p W FL FR : dir_pairs (sort_dir (dir_of p W FL FR)) = length FL + length FR.
Proof.
  rewrite sort_dir_of. assert (E : dir_pairs (sorted_dir_of p W FL FR) = length (sort_lines FL) + (length (sort_lines FR) + 0)) by (destruct p as [[| |]|]; reflexivity).
  rewrite E. rewrite !(Permutation_length (sort_lines_perm _)). lia.
Qed.
Lemma write_rowsum_count t m n p rs f f' c : searchable t -> 1 <= n -> (Z.of_nat n < 2 ^ 62)%Z -> feasible n rs ->
  Forall (fun e => fst e <> rowsum_dir rs) f -> write_pairs_rowsum n (seqtype_to_string t) rs n m p f = Some (f', c) ->
  exists W FL FR, f' = f ++ [(rowsum_dir rs, dir_of p W FL FR)] /\ c = Z.of_nat (length FL + length FR).
Proof.
  intros Ht Hn Hn2 Hf Fresh E.
  destruct (tag_choice (fun tg l => candidates t (rowsum_of_tag rs tg) n = Some l /\
      forall s, In s l <-> length s = n /\ pm1 s /\ total s = rowsum_of_tag rs tg /\ (t = Williamson -> symmetric s))) as (L & HL).
  { intros tg. destruct (candidates_spec t (rowsum_of_tag rs tg) n Hn) as (l & El & _ & H); eauto. now apply (feasible_bound n). }
  assert (IL : is_list t n rs L) by (intros tg s; apply HL).
  destruct (tag_choice (fun tg w => traverse sequence_to_string (L tg) = Some w /\ file_to_sequences w = Some (L tg))) as (W & HW).
  { intros tg. apply write_lines. intros s Hs. apply IL in Hs. tauto. }
  assert (Len : forall tg, all_len n (L tg)).
  { intros tg s Hs. apply IL in Hs. tauto. }
  assert (Sum : forall tg s, In s (L tg) -> total s = rowsum_of_tag rs tg).
  { intros tg s Hs. apply IL in Hs. tauto. }
  assert (WS : forall a b bo sd d, tag_sign (a, b) = Some bo -> write_seq_pairs n (L a) (L b) (a, b) t rs n d sd m =
    Some (put d (pair_file a b) (pair_lines t m sd bo n (L a) (L b)), Z.of_nat (length (pair_lines t m sd bo n (L a) (L b))))).
  { intros a b bo sd d Hb. rewrite (write_seq_pairs_spec n (a, b) bo) by (auto; apply Sum). reflexivity. }
  exists W, (left_lines t m n p L), (right_lines t m n p L). rewrite Nat2Z.inj_add.
  cut (Some (f', c) = Some (f ++ [(rowsum_dir rs, dir_of p W (left_lines t m n p L) (right_lines t m n p L))],
    (Z.of_nat (length (left_lines t m n p L)) + Z.of_nat (length (right_lines t m n p L)))%Z)).
  { intros G. injection G as -> ->. split; reflexivity. }
  rewrite <- E.
  unfold write_pairs_rowsum. rewrite seqtype_round. cbn [bind]. rewrite (open_fresh f) by auto.
  rewrite !(proj1 (HL _)). cbn [bind].
  do 4 (rewrite (write_sequences_some _ _ _ _ (proj1 (HW _))); cbn [bind]).
  pose proof (signs_spec p) as Sg. unfold left_lines, right_lines, dir_of.
  destruct p as [[| |]|]; cbn [pairing_tags fst snd] in *; destruct Sg as [S1 S2];
    rewrite (WS _ _ _ LEFT _ S1); cbn [bind]; rewrite (WS _ _ _ RIGHT _ S2); cbn [bind];
    rewrite (put_fresh f) by auto; cbn [put filter seq_file fst]; reflexivity.
Qed.
Lemma countpairs_app f g : countpairs (f ++ g) = countpairs f + countpairs g.
Proof. unfold countpairs. now rewrite map_app, list_sum_app. Qed.
Lemma folder_shape fuel n t m p f c : 1 <= n -> (Z.of_nat n < 2 ^ 62)%Z -> searchable t -> write_pairs fuel n t m p [] = Some (f, c) ->
  Forall (shaped p) f /\ c = Z.of_nat (countpairs (sortpairs f)).
Proof.
  intros Hn Hn2 Ht E. unfold write_pairs in E. apply bind_some in E as (rss & Er & E).
  destruct (generate_rowsums_spec n t) as (f0 & G). destruct (G (max f0 fuel) ltac:(lia)) as (rss' & Er' & Nd & Hin).
  assert (rss' = rss) as -> by (apply (generate_rowsums_mono fuel (max f0 fuel)) in Er; [congruence|lia]).
  assert (Fe : Forall (feasible n) rss) by (apply Forall_forall; intros r Hr; apply Hin in Hr; apply Hr).
  assert (K : forall f k f' c, NoDup rss -> Forall (feasible n) rss -> Forall (fun e => forall rs, In rs rss -> fst e <> rowsum_dir rs) f ->
    Forall (shaped p) f -> k = Z.of_nat (countpairs (sortpairs f)) ->
    fold_m (fun '(f, counter) rs => let* (f, c) := write_pairs_rowsum n (seqtype_to_string t) rs n m p f in Some (f, (counter + c)%Z)) rss (f, k) = Some (f', c) ->
    Forall (shaped p) f' /\ c = Z.of_nat (countpairs (sortpairs f'))).
  { clear -Ht Hn Hn2. induction rss as [|rs rss IH]; intros f k f' c Nd Fe Fr Sh Hk E; cbn [fold_m] in E.
    - injection E as <- <-. auto.
    - inversion Fe as [|? ? F1 F2]; subst. inversion Nd as [|? ? N1 N2]; subst.
      apply bind_some in E as ([f1 k1] & E1 & E). apply bind_some in E1 as ([f2 k2] & E2 & E1). injection E1 as <- <-.
      apply write_rowsum_count in E2 as (W & FL & FR & -> & ->); auto.
      2:{ eapply Forall_impl; [|exact Fr]. intros e0 H. apply H. now left. }
      apply (IH _ _ _ _ N2 F2) in E; auto.
      + apply Forall_app. split.
        * eapply Forall_impl; [|exact Fr]. intros e0 H r Hr. apply H. now right.
        * constructor; [|constructor]. intros r Hr. cbn [fst]. intros C. apply rowsum_dir_inj in C. congruence.
      + apply Forall_app. split; auto. constructor; [|constructor]. exists rs, W, FL, FR. reflexivity.
      + unfold sortpairs. rewrite map_app. cbn [map]. fold (sortpairs f). rewrite countpairs_app.
        assert (X : countpairs [(rowsum_dir rs, sort_dir (dir_of p W FL FR))] = dir_pairs (sort_dir (dir_of p W FL FR)) + 0) by reflexivity.
        rewrite X, dir_pairs_of. lia. }
  apply (K [] 0%Z f c Nd Fe) in E; auto.
Qed.
Lemma sorted_shape p f : Forall (shaped p) f -> Forall (sorted_entry p) (sortpairs f).
Proof.
  intros F. unfold sortpairs. apply Forall_forall. intros e He. apply in_map_iff in He as ([nm d] & <- & He).
  rewrite Forall_forall in F. destruct (F _ He) as (rs & W & FL & FR & [= -> ->]). exists rs, W, FL, FR. now rewrite sort_dir_of.
Qed.

