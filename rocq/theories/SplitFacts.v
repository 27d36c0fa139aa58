(* A search split over several jobs: the files they leave, and joining them. *)
From Coq Require Import Ascii String List ZArith Lia Arith Bool Reals Lra Permutation.
From Verif Require Import Base BaseFacts Sums ModelSequence ModelWilliamson ModelEquivalence ModelFourier ModelMatching
  ModelRowsum SeqFacts FourierFacts SpecFourier MatchFacts SpecRowsum RowsumFacts QtWt GraphFacts Convert SearchFacts ModelWrite TextFacts
  JoinFacts WriteFacts DirFacts FolderFacts SingleFacts SpecFiles Spec.
Import ListNotations.
Notation length := List.length.
Open Scope nat_scope.

(* ---- association lists ---- *)

Lemma text_eqb_refl s : text_eqb s s = true. Proof. now apply text_eqb_eq. Qed.
Lemma text_eqb_neq s u : s <> u -> text_eqb s u = false.
Proof. intros H. apply not_true_iff_false. now rewrite text_eqb_eq. Qed.
Lemma text_dec (s u : text) : {s = u} + {s <> u}.
Proof. unfold text. apply (list_eq_dec ascii_dec). Qed.

Section Assoc.
Context {A : Type}.
Implicit Types d : list (text * A).
Lemma get_app d d' k : get (d ++ d') k = match get d k with Some v => Some v | None => get d' k end.
Proof.
  unfold get. induction d as [|[n v] d IH]; cbn [app find fst]; auto. destruct (text_eqb n k); auto.
Qed.
Lemma get_filter d k k' : get (filter (fun e => negb (text_eqb (fst e) k)) d) k' = if text_eqb k' k then None else get d k'.
Proof.
  unfold get. induction d as [|[n v] d IH]; cbn [filter find fst]; [now destruct (text_eqb k' k)|].
  destruct (text_dec n k) as [->|N].
  - rewrite text_eqb_refl. cbn [negb]. rewrite IH. destruct (text_dec k' k) as [->|N']; [now rewrite text_eqb_refl|].
    rewrite (text_eqb_neq k' k), (text_eqb_neq k k') by congruence. reflexivity.
  - rewrite (text_eqb_neq n k N). cbn [negb find fst]. destruct (text_dec n k') as [->|N'].
    + rewrite text_eqb_refl, (text_eqb_neq k' k N). reflexivity.
    + rewrite (text_eqb_neq n k' N'). apply IH.
Qed.
Lemma get_put d k v k' : get (put d k v) k' = if text_eqb k' k then Some v else get d k'.
Proof.
  unfold put. rewrite get_app, get_filter. destruct (text_dec k' k) as [->|N].
  - rewrite text_eqb_refl. unfold get. cbn [find fst]. now rewrite text_eqb_refl.
  - rewrite (text_eqb_neq k' k N). destruct (get d k'); auto. unfold get. cbn [find fst]. now rewrite (text_eqb_neq k k') by congruence.
Qed.
Lemma names_put d k v : NoDup (map fst d) -> NoDup (map fst (put d k v)).
Proof.
  intros H. unfold put. rewrite map_app. cbn [map fst].
  assert (F : NoDup (map fst (filter (fun e : text * A => negb (text_eqb (fst e) k)) d)) /\ forall x, In x (map fst (filter (fun e : text * A => negb (text_eqb (fst e) k)) d)) -> In x (map fst d) /\ x <> k).
  { clear v. induction d as [|[n v] d IH]; cbn [filter map fst]; [split; [constructor|intros ? []]|]. inversion H as [|? ? H1 H2]; subst.
    destruct (IH H2) as [I1 I2]. destruct (text_dec n k) as [->|N].
    - rewrite text_eqb_refl. cbn [negb]. split; auto. intros x Hx. destruct (I2 x Hx). split; auto. now right.
    - rewrite (text_eqb_neq n k N). cbn [negb map fst]. split.
      + constructor; auto. intros C. destruct (I2 _ C). auto.
      + intros x [<-|Hx]; [split; auto; now left|]. destruct (I2 x Hx). split; auto. now right. }
  destruct F as [F1 F2]. apply NoDup_app; auto.
  - repeat constructor. intros [].
  - intros x Hx [<-|[]]. destruct (F2 _ Hx). congruence.
Qed.
Lemma get_in d k v : NoDup (map fst d) -> (get d k = Some v <-> In (k, v) d).
Proof.
  unfold get. induction d as [|[n u] d IH]; cbn [find fst map].
  - intros _. split; [discriminate|intros []].
  - intros H. inversion H as [|? ? H1 H2]; subst. destruct (text_dec n k) as [->|N].
    + rewrite text_eqb_refl. cbn [snd]. split.
      * intros E. injection E as ->. now left.
      * intros [E|E]; [now injection E as ->|]. exfalso. apply H1. change k with (fst (k, v)). now apply in_map.
    + rewrite (text_eqb_neq n k N). rewrite (IH H2). split; [now right|]. intros [E|E]; auto. injection E as E _. now destruct (N E).
Qed.
Lemma get_names d k : get d k <> None <-> In k (map fst d).
Proof.
  unfold get. induction d as [|[n u] d IH]; cbn [find fst map In].
  - split; [intros H; now destruct H|intros []].
  - destruct (text_dec n k) as [->|N].
    + rewrite text_eqb_refl. cbn. split; auto. discriminate.
    + rewrite (text_eqb_neq n k N), IH. split; [now right|]. intros [E|E]; auto. now destruct (N E).
Qed.
Lemma perm_get d d' : NoDup (map fst d) -> NoDup (map fst d') -> (forall k, get d k = get d' k) -> Permutation d d'.
Proof.
  intros N N' H. apply NoDup_Permutation; [eapply NoDup_map_inv; eauto|eapply NoDup_map_inv; eauto|].
  intros [k v]. now rewrite <- !get_in, H.
Qed.
Lemma get_perm d d' k : NoDup (map fst d) -> Permutation d d' -> get d k = get d' k.
Proof.
  intros N P. assert (N' : NoDup (map fst d')) by (eapply Permutation_NoDup; [apply Permutation_map; exact P|auto]).
  destruct (get d k) as [v|] eqn:E.
  - symmetry. apply get_in; auto. apply get_in in E; auto. now apply (Permutation_in _ P).
  - destruct (get d' k) as [v|] eqn:E'; auto. apply get_in in E'; auto. apply (Permutation_in _ (Permutation_sym P)) in E'. apply get_in in E'; auto. congruence.
Qed.
End Assoc.
Lemma open_get (f : Folder) name : open_dir f name = match get f name with Some d => d | None => [] end.
Proof. reflexivity. Qed.

(* ---- the files of a job ---- *)

From Verif Require Import ModelMain SpecMain SpecSearch SpecSplit.

Definition part_files (pr : RowsumPairing) (h : Part) : list text :=
  let '((a, b), (c, d)) := pairing_tags (Some pr) in
  match h with
  | Both => [seq_file TW; seq_file TX; seq_file TY; seq_file TZ; pair_file a b; pair_file c d]
  | First => [seq_file a; seq_file b; pair_file a b]
  | Second => [seq_file c; seq_file d; pair_file c d]
  end.
Definition memb (k : text) (l : list text) : bool := existsb (text_eqb k) l.
Definition job_folder (t : SequenceType) (m : MatchOption) (n : nat) (pr : RowsumPairing) (job : Quad * Part) (f : Folder) : option Folder :=
  match snd job with
  | Both => option_map fst (write_pairs_rowsum n (seqtype_to_string t) (fst job) n m (Some pr) f)
  | First => write_pair_single_rowsum n (seqtype_to_string t) (fst job) n m (Some pr) 1 f
  | Second => write_pair_single_rowsum n (seqtype_to_string t) (fst job) n m (Some pr) 2 f
  end.
Definition full_dir (t : SequenceType) (m : MatchOption) (n : nat) (pr : RowsumPairing) (r : Quad) : Dir :=
  match write_pairs_rowsum n (seqtype_to_string t) r n m (Some pr) [] with Some ([(_, d)], _) => d | _ => [] end.

Lemma put_over {A} (d0 d1 d : list (text * A)) name v : (forall k, get d1 k = match get d0 k with Some v => Some v | None => get d k end) ->
  forall k, get (put d1 name v) k = match get (put d0 name v) k with Some v => Some v | None => get d k end.
Proof. intros H k. rewrite !get_put, H. now destruct (text_eqb k name). Qed.

Section Job.
Variables (t : SequenceType) (m : MatchOption) (n : nat) (pr : RowsumPairing).
Hypothesis Ht : searchable t.
Hypothesis Hn : 1 <= n.
Hypothesis Hn2 : (Z.of_nat n < 2 ^ 62)%Z.

Lemma dir_names W FL FR : NoDup (map fst (dir_of (Some pr) W FL FR)).
Proof. destruct pr; cbn; repeat constructor; cbn; intuition discriminate. Qed.

Lemma job_effect rs : feasible n rs ->
  let D := full_dir t m n pr rs in
  entry_of t m n (Some pr) rs (rowsum_dir rs, D) /\ NoDup (map fst D) /\
  (forall f, no_dir f (rowsum_dir rs) -> exists c, write_pairs_rowsum n (seqtype_to_string t) rs n m (Some pr) f = Some (f ++ [(rowsum_dir rs, D)], c)) /\
  (forall h f, exists d', job_folder t m n pr (rs, h) f = Some (put f (rowsum_dir rs) d') /\
     (NoDup (map fst (open_dir f (rowsum_dir rs))) -> NoDup (map fst d')) /\
     forall k, get d' k = if memb k (part_files pr h) then get D k else get (open_dir f (rowsum_dir rs)) k).
Proof.
  intros Hf.
  destruct (tag_choice (fun tg l => candidates t (rowsum_of_tag rs tg) n = Some l /\
      forall s, In s l <-> length s = n /\ pm1 s /\ total s = rowsum_of_tag rs tg /\ (t = Williamson -> symmetric s))) as (L & HL).
  { intros tg. destruct (candidates_spec t (rowsum_of_tag rs tg) n Hn) as (l & E & _ & H); eauto. now apply (feasible_bound n). }
  assert (IL : is_list t n rs L) by (intros tg s; apply HL).
  destruct (tag_choice (fun tg w => traverse sequence_to_string (L tg) = Some w /\ file_to_sequences w = Some (L tg))) as (W & HW).
  { intros tg. apply write_lines. intros s Hs. apply IL in Hs. tauto. }
  assert (Len : forall tg, all_len n (L tg)).
  { intros tg s Hs. apply IL in Hs. tauto. }
  assert (Sum : forall tg s, In s (L tg) -> total s = rowsum_of_tag rs tg).
  { intros tg s Hs. apply IL in Hs. tauto. }
  assert (WS : forall a b bo sd d, tag_sign (a, b) = Some bo -> write_seq_pairs n (L a) (L b) (a, b) t rs n d sd m =
    Some (put d (pair_file a b) (pair_lines t m sd bo n (L a) (L b)), Z.of_nat (length (pair_lines t m sd bo n (L a) (L b))))).
  { intros a b bo sd d Hb. rewrite (write_seq_pairs_spec n (a, b) bo) by (auto; apply Sum). reflexivity. }
  set (FL := left_lines t m n (Some pr) L). set (FR := right_lines t m n (Some pr) L).
  set (puts := fun (h : Part) (d : Dir) => let '((a, b), (c, e)) := pairing_tags (Some pr) in
      match h with
      | Both => put (put (put (put (put (put d (seq_file TW) (W TW)) (seq_file TX) (W TX)) (seq_file TY) (W TY)) (seq_file TZ) (W TZ)) (pair_file a b) FL) (pair_file c e) FR
      | First => put (put (put d (seq_file a) (W a)) (seq_file b) (W b)) (pair_file a b) FL
      | Second => put (put (put d (seq_file c) (W c)) (seq_file e) (W e)) (pair_file c e) FR
      end).
  assert (EB : forall f, exists c, write_pairs_rowsum n (seqtype_to_string t) rs n m (Some pr) f = Some (put f (rowsum_dir rs) (puts Both (open_dir f (rowsum_dir rs))), c)).
  { intros f. exists (Z.of_nat (length FL) + Z.of_nat (length FR))%Z. unfold write_pairs_rowsum. rewrite seqtype_round. cbn [bind].
    rewrite !(proj1 (HL _)). cbn [bind].
    do 4 (rewrite (write_sequences_some _ _ _ _ (proj1 (HW _))); cbn [bind]).
    pose proof (signs_spec (Some pr)) as Sg. unfold FL, FR, left_lines, right_lines, puts.
    destruct pr; cbn [pairing_tags fst snd] in *; destruct Sg as [S1 S2];
      rewrite (WS _ _ _ LEFT _ S1); cbn [bind]; rewrite (WS _ _ _ RIGHT _ S2); cbn [bind]; reflexivity. }
  assert (E12 : forall h f, h <> Both -> job_folder t m n pr (rs, h) f = Some (put f (rowsum_dir rs) (puts h (open_dir f (rowsum_dir rs))))).
  { intros h f Hh. destruct h; [congruence| |]; unfold job_folder; cbn [fst snd]; unfold write_pair_single_rowsum; rewrite seqtype_round; cbn [bind];
    pose proof (signs_spec (Some pr)) as Sg; unfold FL, FR, left_lines, right_lines, puts;
    destruct pr; cbn [get_indices index_to_tag bind pairing_tags fst snd] in *;
      rewrite !(proj1 (HL _)); cbn [bind];
      do 2 (rewrite (write_sequences_some _ _ _ _ (proj1 (HW _))); cbn [bind]);
      destruct Sg as [S1 S2]; first [rewrite (WS _ _ _ _ _ S1)|rewrite (WS _ _ _ _ _ S2)]; reflexivity. }
  assert (ED : full_dir t m n pr rs = dir_of (Some pr) W FL FR).
  { unfold full_dir. destruct (EB []) as (c & ->). cbn [open_dir get find put filter app]. unfold puts. destruct pr; reflexivity. }
  assert (PB : puts Both [] = dir_of (Some pr) W FL FR) by (unfold puts; destruct pr; reflexivity).
  cbv zeta. split; [|split; [|split]].
  - rewrite ED. exists L, W. split; [exact IL|split; [intros tg; apply HW|reflexivity]].
  - rewrite ED. apply dir_names.
  - intros f Fr. destruct (EB f) as (c & E). exists c. rewrite E. rewrite (open_fresh f) by now apply fresh_forall. rewrite put_fresh by now apply fresh_forall.
    now rewrite PB, ED.
  - intros h f. exists (puts h (open_dir f (rowsum_dir rs))). split; [|split].
    + destruct h; [|apply E12; discriminate|apply E12; discriminate]. unfold job_folder. cbn [fst snd]. destruct (EB f) as (c & ->). reflexivity.
    + intros Nd. unfold puts. destruct (pairing_tags (Some pr)) as [[a b] [c e]]. destruct h; repeat apply names_put; auto.
    + intros k. rewrite ED. set (d := open_dir f (rowsum_dir rs)).
      assert (G : get (puts h d) k = match get (puts h []) k with Some v => Some v | None => get d k end).
      { unfold puts. destruct (pairing_tags (Some pr)) as [[a b] [c e]]. destruct h; revert k; repeat apply put_over; reflexivity. }
      rewrite G. clear G. unfold puts, memb, part_files. destruct pr, h; cbn [pairing_tags dir_of existsb];
        unfold dir_of; cbn [pairing_tags]; unfold get at 3; rewrite !get_put; cbn [get find fst];
        repeat match goal with |- context [text_eqb k ?x] => destruct (text_dec k x) as [->|]; [rewrite ?text_eqb_refl; try reflexivity|rewrite (text_eqb_neq k x) by assumption] end;
        cbn [orb]; try reflexivity.
Qed.
End Job.

Section Jobs.
Variables (t : SequenceType) (m : MatchOption) (n : nat) (pr : RowsumPairing).
Hypothesis Ht : searchable t.
Hypothesis Hn : 1 <= n.
Hypothesis Hn2 : (Z.of_nat n < 2 ^ 62)%Z.
Let D := full_dir t m n pr.

(* the state of the folder after some jobs *)
Definition after (past : list (Quad * Part)) (f : Folder) : Prop :=
  NoDup (map fst f) /\
  (forall name d, get f name = Some d -> NoDup (map fst d) /\ exists r h, In (r, h) past /\ name = rowsum_dir r) /\
  (forall r d k v, get f (rowsum_dir r) = Some d -> get d k = Some v -> get (D r) k = Some v) /\
  (forall r h k, In (r, h) past -> In k (part_files pr h) -> exists d, get f (rowsum_dir r) = Some d /\ get d k = get (D r) k).

Lemma memb_in k l : memb k l = true <-> In k l.
Proof.
  unfold memb. rewrite existsb_exists. split.
  - intros (x & H & E). apply text_eqb_eq in E. now subst.
  - intros H. exists k. split; auto. apply text_eqb_refl.
Qed.

Lemma job_after past r h f : feasible n r -> after past f -> exists f', job_folder t m n pr (r, h) f = Some f' /\ after (past ++ [(r, h)]) f'.
Proof.
  intros Hf (N & A & B & C). destruct (job_effect t m n pr Ht Hn Hn2 r Hf) as (_ & ND & _ & J). destruct (J h f) as (d' & E & Nd' & G). fold (D r) in *.
  exists (put f (rowsum_dir r) d'). split; auto. split; [now apply names_put|].
  assert (O : NoDup (map fst (open_dir f (rowsum_dir r)))).
  { rewrite open_get. destruct (get f (rowsum_dir r)) as [d|] eqn:Eg; [now apply A in Eg|constructor]. }
  split; [|split].
  - intros name d. rewrite get_put. destruct (text_dec name (rowsum_dir r)) as [->|Ne].
    + rewrite text_eqb_refl. intros X. injection X as <-. split; auto. exists r, h. split; auto. apply in_app_iff. right. now left.
    + rewrite (text_eqb_neq _ _ Ne). intros X. destruct (A _ _ X) as (Y & r0 & h0 & I & Z). split; auto. exists r0, h0. split; auto. apply in_app_iff. now left.
  - intros r0 d k v. rewrite get_put. destruct (text_dec (rowsum_dir r0) (rowsum_dir r)) as [Ee|Ne].
    + rewrite Ee, text_eqb_refl. apply rowsum_dir_inj in Ee. subst r0. intros X. injection X as <-. rewrite G. destruct (memb k (part_files pr h)); auto.
      rewrite open_get. destruct (get f (rowsum_dir r)) as [d|] eqn:Eg; [|discriminate]. intros X. now apply (B r d).
    + rewrite (text_eqb_neq _ _ Ne). apply B.
  - intros r0 h0 k I K. rewrite get_put. apply in_app_iff in I. destruct (text_dec (rowsum_dir r0) (rowsum_dir r)) as [Ee|Ne].
    + rewrite Ee, text_eqb_refl. apply rowsum_dir_inj in Ee. subst r0. exists d'. split; auto. rewrite G. destruct (memb k (part_files pr h)) eqn:M; auto.
      destruct I as [I|[I|[]]].
      * destruct (C r h0 k I K) as (d & E1 & E2). rewrite open_get. rewrite E1. exact E2.
      * injection I as <-. apply not_true_iff_false in M. destruct M. now apply memb_in.
    + rewrite (text_eqb_neq _ _ Ne). destruct I as [I|[I|[]]]; [now apply (C r0 h0)|]. injection I as -> _. congruence.
Qed.
Lemma jobs_after jobs past f : (forall r h, In (r, h) jobs -> feasible n r) -> after past f ->
  exists f', fold_m (fun f j => job_folder t m n pr j f) jobs f = Some f' /\ after (past ++ jobs) f'.
Proof.
  revert past f. induction jobs as [|[r h] jobs IH]; intros past f Hf H.
  - exists f. rewrite app_nil_r. auto.
  - destruct (job_after past r h f) as (f1 & E1 & H1); auto. { apply (Hf r h). now left. }
    destruct (IH (past ++ [(r, h)]) f1) as (f2 & E2 & H2); auto. { intros r0 h0 I. apply (Hf r0 h0). now right. }
    exists f2. cbn [fold_m]. rewrite E1. cbn [bind]. split; auto. now rewrite <- app_assoc in H2.
Qed.
Lemma after_nil : after [] [].
Proof.
  split; [constructor|]. split; [|split].
  - intros name d E. discriminate E.
  - intros r d k v E. discriminate E.
  - intros r h k [].
Qed.

Lemma part_cover W FL FR k v : get (dir_of (Some pr) W FL FR) k = Some v -> In k (part_files pr Both) /\ (In k (part_files pr First) \/ In k (part_files pr Second)).
Proof.
  intros E. apply get_in in E; [|apply dir_names]. destruct pr; cbn in E; cbn; repeat (destruct E as [E|E]; [injection E as <- _; intuition|]); contradiction.
Qed.
Lemma after_done jobs f r : feasible n r -> after jobs f -> done jobs r -> exists d, get f (rowsum_dir r) = Some d /\ same_files (D r) d.
Proof.
  intros Hf (N & A & B & C) Hd. destruct (job_effect t m n pr Ht Hn Hn2 r Hf) as ((L & W & _ & _ & E) & ND & _). injection E as E. fold (D r) in *.
  assert (X : exists d, get f (rowsum_dir r) = Some d).
  { destruct Hd as [I|[I _]].
    - destruct (C r Both (seq_file TW) I) as (d & Ed & _); eauto. destruct pr; cbn; auto.
    - destruct (part_files pr First) as [|k l] eqn:P; [destruct pr; discriminate P|]. destruct (C r First k I) as (d & Ed & _); eauto. rewrite P. now left. }
  destruct X as (d & Ed). exists d. split; auto. split; auto. apply perm_get; auto; [now apply A in Ed|].
  intros k. destruct (get (D r) k) as [v|] eqn:Ev.
  - assert (Y : exists h, In (r, h) jobs /\ In k (part_files pr h)).
    { rewrite E in Ev. apply part_cover in Ev as [P1 P2]. destruct Hd as [I|[I1 I2]]; eauto. destruct P2; eauto. }
    destruct Y as (h & I & K). destruct (C r h k I K) as (d1 & E1 & E2). rewrite Ed in E1. injection E1 as <-. congruence.
  - destruct (get d k) as [v|] eqn:Ek; auto. apply (B r d k v Ed) in Ek. congruence.
Qed.

(* the same directories in the order of a list of row sums *)
Definition folder_of (rss : list Quad) : Folder := map (fun r => (rowsum_dir r, D r)) rss.
Lemma names_of rss : NoDup rss -> NoDup (map fst (folder_of rss)).
Proof.
  intros H. unfold folder_of. rewrite map_map. cbn [fst]. apply FinFun.Injective_map_NoDup; auto. intros r s. apply rowsum_dir_inj.
Qed.
Lemma jobs_same rss jobs f : NoDup rss -> Forall (feasible n) rss -> (forall r, In r rss <-> done jobs r) -> (forall r h, In (r, h) jobs -> done jobs r) ->
  after jobs f -> same_dirs (folder_of rss) f.
Proof.
  intros Nr Fr Hr Hj H. assert (H' := H). destruct H' as (N & A & _). split; [now apply names_of|]. split; auto.
  assert (K : forall r, In r rss -> exists d, get f (rowsum_dir r) = Some d /\ same_files (D r) d).
  { intros r I. apply (after_done jobs); auto; [|now apply Hr]. eapply Forall_forall; eauto. }
  split.
  - intros name. split.
    + intros I. unfold folder_of in I. rewrite map_map in I. apply in_map_iff in I as (r & <- & I). cbn [fst]. apply get_names. destruct (K r I) as (d & -> & _). discriminate.
    + intros I. apply get_names in I. destruct (get f name) as [d|] eqn:E; [|congruence]. destruct (A _ _ E) as (_ & r & h & J & ->).
      unfold folder_of. rewrite map_map. cbn [fst]. apply in_map_iff. exists r. split; auto. apply Hr. eauto.
  - intros name d d' I I'. unfold folder_of in I. apply in_map_iff in I as (r & E & I). injection E as <- <-.
    apply get_in in I'; auto. destruct (K r I) as (d1 & E1 & S). rewrite E1 in I'. now injection I' as <-.
Qed.
Lemma folder_entries rss : Forall (feasible n) rss -> Forall2 (entry_of t m n (Some pr)) rss (folder_of rss).
Proof.
  induction rss as [|r rss IH]; intros H; constructor; inversion H; subst; auto. now apply job_effect.
Qed.
Lemma write_folder_of rss f c : Forall (feasible n) rss -> NoDup rss -> (forall r, In r rss -> no_dir f (rowsum_dir r)) ->
  exists c', fold_m (fun '(f, counter) rs =>
      let* (f, c) := write_pairs_rowsum n (seqtype_to_string t) rs n m (Some pr) f in Some (f, (counter + c)%Z)) rss (f, c) = Some (f ++ folder_of rss, c').
Proof.
  revert f c. induction rss as [|r rss IH]; intros f c Fe Nd Fr.
  - exists c. cbn. now rewrite app_nil_r.
  - inversion Fe as [|? ? F1 F2]; subst. inversion Nd as [|? ? N1 N2]; subst. cbn [fold_m].
    destruct (job_effect t m n pr Ht Hn Hn2 r F1) as (_ & _ & E & _). destruct (E f) as (k & Ek). { apply Fr. now left. }
    rewrite Ek. cbn [bind]. fold (D r). destruct (IH (f ++ [(rowsum_dir r, D r)]) (c + k)%Z F2 N2) as (c' & E').
    + intros s Hs C. rewrite map_app, in_app_iff in C. destruct C as [C|[C|[]]]; [now apply (Fr s); [right|]|]. cbn [fst] in C. apply rowsum_dir_inj in C. congruence.
    + exists c'. refine (eq_trans E' _). now rewrite <- app_assoc.
Qed.
End Jobs.

(* ---- sorting and joining ---- *)

Lemma same_dirs_sorted f f' : same_dirs f f' ->
  (forall name d, In (name, d) f -> NoDup (map fst (sort_dir d)) /\ forall e, In e d -> ends_with (fst e) (lit ".pair.sorted") = false) ->
  same_dirs (sortpairs f) (sortpairs f').
Proof.
  intros (N & N' & I & S) H.
  assert (M : forall g : Folder, map fst (sortpairs g) = map fst g).
  { intros g. unfold sortpairs. rewrite map_map. apply map_ext. now intros []. }
  unfold same_dirs. rewrite !M. split; auto. split; auto. split; auto.
  intros name d d' J J'. apply in_map_iff in J as ([nm x] & E & J). injection E as <- <-. apply in_map_iff in J' as ([nm' x'] & E & J'). injection E as -> <-.
  destruct (H _ _ J) as [Nd Hs]. destruct (S _ _ _ J J') as [Nx P]. split; auto.
  etransitivity; [apply sort_dir_spec; auto|]. etransitivity; [apply Permutation_map; exact P|]. symmetry. apply sort_dir_spec.
  - eapply Permutation_NoDup; [apply Permutation_map; exact P|auto].
  - intros e He. apply Hs. now apply (Permutation_in _ (Permutation_sym P)).
Qed.

Definition folder_dec (f g : Folder) : {f = g} + {f <> g}.
Proof. unfold Folder, Dir, Lines, text. repeat (apply list_eq_dec; intros [? ?] [? ?]; decide equality || idtac); repeat decide equality. Defined.
Definition dir_dec (f g : Dir) : {f = g} + {f <> g}.
Proof. unfold Dir, Lines, text. repeat decide equality. Defined.

Lemma get_names_none {A} (d : list (text * A)) k : get d k = None <-> ~ In k (map fst d).
Proof. rewrite <- get_names. destruct (get d k); split; auto; try congruence. intros H. exfalso. apply H. discriminate. Qed.
Lemma same_open f f' name : same_dirs f f' -> Permutation (open_dir f' name) (open_dir f name).
Proof.
  intros (N & N' & I & S). rewrite !open_get. destruct (get f name) as [d|] eqn:E, (get f' name) as [d'|] eqn:E'; auto.
  - apply get_in in E, E'; auto. apply Permutation_sym. now apply (S name).
  - apply get_names_none in E'. exfalso. apply E'. apply I. apply get_names. congruence.
  - apply get_names_none in E. exfalso. apply E. apply I. apply get_names. congruence.
Qed.
Definition renamed (F : Folder) (l : Folder) : Folder := map (fun e => (fst e, open_dir F (fst e))) l.
Lemma renamed_self F : NoDup (map fst F) -> renamed F F = F.
Proof.
  intros N. unfold renamed. rewrite <- map_id. apply map_ext_in. intros [nm d] H. cbn [fst]. f_equal. rewrite open_get.
  apply get_in in H; auto. now rewrite H.
Qed.
Lemma renamed_perm F F' : same_dirs F F' -> Permutation (renamed F F') F.
Proof.
  intros H. assert (HH := H). destruct HH as (N & N' & I & _).
  assert (E : forall l, renamed F l = map (fun nm => (nm, open_dir F nm)) (map fst l)) by (intros l; unfold renamed; now rewrite map_map).
  rewrite <- (renamed_self F N) at 2. rewrite !E. apply Permutation_map. apply NoDup_Permutation; auto. intros x. symmetry. apply I.
Qed.
Definition relist (ls : Listing) (F F' : Folder) : Listing :=
  mkListing (fun g => if folder_dec g F then renamed F (ls_folder ls F') else g)
    (fun nm d => if dir_dec d (open_dir F nm) then ls_seq ls nm (open_dir F' nm) else d)
    (fun nm d => if dir_dec d (open_dir F nm) then ls_pair ls nm (open_dir F' nm) else d).
Lemma relist_ok ls F F' : listing_ok ls -> same_dirs F F' -> listing_ok (relist ls F F').
Proof.
  intros (A & B & C) H. split; [|split]; cbn [relist ls_folder ls_seq ls_pair].
  - intros g. destruct (folder_dec g F) as [->|]; auto. etransitivity; [|apply (renamed_perm F F' H)]. apply Permutation_map, A.
  - intros nm d. destruct (dir_dec d (open_dir F nm)) as [->|]; auto. etransitivity; [apply B|now apply same_open].
  - intros nm d. destruct (dir_dec d (open_dir F nm)) as [->|]; auto. etransitivity; [apply C|now apply same_open].
Qed.
Lemma fold_m_ext_in {A B} (f g : A -> B -> option A) l a : (forall a x, In x l -> f a x = g a x) -> fold_m f l a = fold_m g l a.
Proof.
  revert a. induction l as [|x l IH]; intros a H; auto. cbn [fold_m]. rewrite H by now left. destruct (g a x); cbn [bind]; auto. apply IH. intros; apply H; now right.
Qed.
Lemma fold_m_map {A B C} (f : A -> B -> option A) (h : C -> B) l a : fold_m f (map h l) a = fold_m (fun a x => f a (h x)) l a.
Proof. revert a. induction l as [|x l IH]; intros a; auto. cbn [map fold_m]. destruct (f a (h x)); cbn [bind]; auto. Qed.
Lemma relist_match ls t F F' : listing_ok ls -> NoDup (map fst F') -> match_pairs (relist ls F F') t F = match_pairs ls t F'.
Proof.
  intros (A & _) N'. unfold match_pairs. cbn [relist ls_folder]. destruct (folder_dec F F) as [_|]; [|congruence].
  unfold renamed. rewrite fold_m_map. apply fold_m_ext_in. intros res [nm d] H. cbn [fst]. cbn [relist ls_seq ls_pair].
  destruct (dir_dec (open_dir F nm) (open_dir F nm)) as [_|]; [|congruence].
  apply (Permutation_in _ (A F')) in H. apply get_in in H; auto. rewrite (open_get F'), H. reflexivity.
Qed.
