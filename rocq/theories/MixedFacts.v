(* Jobs whose match option and pairing depend on the row sums: the search is still exhaustive. *)
From Coq Require Import Ascii String List ZArith Lia Arith Bool Permutation Relations.
From Verif Require Import Base BaseFacts Quat ModelSequence ModelWilliamson ModelEquivalence SpecEquiv EquivFacts EquivThms ModelRowsum SpecRowsum RowsumFacts ModelMatching ModelWrite TextFacts WriteFacts JoinFacts FolderFacts DriverFacts SingleFacts ModelMain SpecPrint SpecMain ArgFacts MainFacts MainThms DriverMain
  ModelScripts SpecFiles SpecSearch SearchThms SpecOutputs SpecSplit SpecScripts SplitFacts SplitThms SpecMixed MixedThms Spec.
Import ListNotations.
Notation length := List.length.
Open Scope nat_scope.

Section Options.
Variables (t : SequenceType) (n : nat) (om : Quad -> MatchOption) (op : Quad -> RowsumPairing).
Hypothesis Ht : searchable t.
Hypothesis Hn : 1 <= n.
Hypothesis Hn2 : (Z.of_nat n < 2 ^ 62)%Z.
Definition od (r : Quad) : Dir := full_dir t (om r) n (op r) r.

Definition oafter (past : list (Quad * Part)) (f : Folder) : Prop :=
  NoDup (map fst f) /\
  (forall name d, get f name = Some d -> NoDup (map fst d) /\ exists r h, In (r, h) past /\ name = rowsum_dir r) /\
  (forall r d k v, get f (rowsum_dir r) = Some d -> get d k = Some v -> get (od r) k = Some v) /\
  (forall r h k, In (r, h) past -> In k (part_files (op r) h) -> exists d, get f (rowsum_dir r) = Some d /\ get d k = get (od r) k).


Lemma ojob_after past r h f : feasible n r -> oafter past f -> exists f', job_folder t (om r) n (op r) (r, h) f = Some f' /\ oafter (past ++ [(r, h)]) f'.
Proof.
  intros Hf (N & A & B & C). destruct (job_effect t (om r) n (op r) Ht Hn Hn2 r Hf) as (_ & ND & _ & J). destruct (J h f) as (d' & E & Nd' & G). change (full_dir t (om r) n (op r) r) with (od r) in *.
  exists (put f (rowsum_dir r) d'). split; auto. split; [now apply names_put|].
  assert (O : NoDup (map fst (open_dir f (rowsum_dir r)))).
  { rewrite open_get. destruct (get f (rowsum_dir r)) as [d|] eqn:Eg; [now apply A in Eg|constructor]. }
  split; [|split].
  - intros name d. rewrite get_put. destruct (text_dec name (rowsum_dir r)) as [->|Ne].
    + rewrite text_eqb_refl. intros X. injection X as <-. split; auto. exists r, h. split; auto. apply in_app_iff. right. now left.
    + rewrite (text_eqb_neq _ _ Ne). intros X. destruct (A _ _ X) as (Y & r0 & h0 & I & Z). split; auto. exists r0, h0. split; auto. apply in_app_iff. now left.
  - intros r0 d k v. rewrite get_put. destruct (text_dec (rowsum_dir r0) (rowsum_dir r)) as [Ee|Ne].
    + rewrite Ee, text_eqb_refl. apply rowsum_dir_inj in Ee. subst r0. intros X. injection X as <-. rewrite G. destruct (memb k (part_files (op r) h)); auto.
      rewrite open_get. destruct (get f (rowsum_dir r)) as [d|] eqn:Eg; [|discriminate]. intros X. now apply (B r d).
    + rewrite (text_eqb_neq _ _ Ne). apply B.
  - intros r0 h0 k I K. rewrite get_put. apply in_app_iff in I. destruct (text_dec (rowsum_dir r0) (rowsum_dir r)) as [Ee|Ne].
    + rewrite Ee, text_eqb_refl. apply rowsum_dir_inj in Ee. subst r0. exists d'. split; auto. rewrite G. destruct (memb k (part_files (op r) h)) eqn:M; auto.
      destruct I as [I|[I|[]]].
      * destruct (C r h0 k I K) as (d & E1 & E2). rewrite open_get. rewrite E1. exact E2.
      * injection I as <-. apply not_true_iff_false in M. destruct M. now apply memb_in.
    + rewrite (text_eqb_neq _ _ Ne). destruct I as [I|[I|[]]]; [now apply (C r0 h0)|]. injection I as -> _. congruence.
Qed.
Lemma ojobs_after jobs past f : (forall r h, In (r, h) jobs -> feasible n r) -> oafter past f ->
  exists f', fold_m (fun f j => job_folder t (om (fst j)) n (op (fst j)) j f) jobs f = Some f' /\ oafter (past ++ jobs) f'.
Proof.
  revert past f. induction jobs as [|[r h] jobs IH]; intros past f Hf H.
  - exists f. rewrite app_nil_r. auto.
  - destruct (ojob_after past r h f) as (f1 & E1 & H1); auto. { apply (Hf r h). now left. }
    destruct (IH (past ++ [(r, h)]) f1) as (f2 & E2 & H2); auto. { intros r0 h0 I. apply (Hf r0 h0). now right. }
    exists f2. cbn [fold_m fst]. rewrite E1. cbn [bind]. split; auto. now rewrite <- app_assoc in H2.
Qed.
Lemma oafter_nil : oafter [] [].
Proof.
  split; [constructor|]. split; [|split].
  - intros name d E. discriminate E.
  - intros r d k v E. discriminate E.
  - intros r h k [].
Qed.

Lemma oafter_done jobs f r : feasible n r -> oafter jobs f -> done jobs r -> exists d, get f (rowsum_dir r) = Some d /\ same_files (od r) d.
Proof.
  intros Hf (N & A & B & C) Hd. destruct (job_effect t (om r) n (op r) Ht Hn Hn2 r Hf) as ((L & W & _ & _ & E) & ND & _). injection E as E. change (full_dir t (om r) n (op r) r) with (od r) in *.
  assert (X : exists d, get f (rowsum_dir r) = Some d).
  { destruct Hd as [I|[I _]].
    - destruct (C r Both (seq_file TW) I) as (d & Ed & _); eauto. destruct (op r); cbn; auto 10.
    - destruct (part_files (op r) First) as [|k l] eqn:P; [destruct (op r); discriminate P|]. destruct (C r First k I) as (d & Ed & _); eauto. rewrite P. now left. }
  destruct X as (d & Ed). exists d. split; auto. split; auto. apply perm_get; auto; [now apply A in Ed|].
  intros k. destruct (get (od r) k) as [v|] eqn:Ev.
  - assert (Y : exists h, In (r, h) jobs /\ In k (part_files (op r) h)).
    { rewrite E in Ev. apply (part_cover t (om r) n) in Ev as [P1 P2]. destruct Hd as [I|[I1 I2]]; eauto. destruct P2; eauto. }
    destruct Y as (h & I & K). destruct (C r h k I K) as (d1 & E1 & E2). rewrite Ed in E1. injection E1 as <-. congruence.
  - destruct (get d k) as [v|] eqn:Ek; auto. apply (B r d k v Ed) in Ek. congruence.
Qed.

(* the same directories in the order of a list of row sums *)
Definition ofolder_of (rss : list Quad) : Folder := map (fun r => (rowsum_dir r, od r)) rss.
Lemma onames_of rss : NoDup rss -> NoDup (map fst (ofolder_of rss)).
Proof.
  intros H. unfold ofolder_of. rewrite map_map. cbn [fst]. apply FinFun.Injective_map_NoDup; auto. intros r s. apply rowsum_dir_inj.
Qed.
Lemma ojobs_same rss jobs f : NoDup rss -> Forall (feasible n) rss -> (forall r, In r rss <-> done jobs r) -> (forall r h, In (r, h) jobs -> done jobs r) ->
  oafter jobs f -> same_dirs (ofolder_of rss) f.
Proof.
  intros Nr Fr Hr Hj H. assert (H' := H). destruct H' as (N & A & _). split; [now apply onames_of|]. split; auto.
  assert (K : forall r, In r rss -> exists d, get f (rowsum_dir r) = Some d /\ same_files (od r) d).
  { intros r I. apply (oafter_done jobs); auto; [|now apply Hr]. eapply Forall_forall; eauto. }
  split.
  - intros name. split.
    + intros I. unfold ofolder_of in I. rewrite map_map in I. apply in_map_iff in I as (r & <- & I). cbn [fst]. apply get_names. destruct (K r I) as (d & -> & _). discriminate.
    + intros I. apply get_names in I. destruct (get f name) as [d|] eqn:E; [|congruence]. destruct (A _ _ E) as (_ & r & h & J & ->).
      unfold ofolder_of. rewrite map_map. cbn [fst]. apply in_map_iff. exists r. split; auto. apply Hr. eauto.
  - intros name d d' I I'. unfold ofolder_of in I. apply in_map_iff in I as (r & E & I). injection E as <- <-.
    apply get_in in I'; auto. destruct (K r I) as (d1 & E1 & S). rewrite E1 in I'. now injection I' as <-.
Qed.
Lemma ofolder_entries rss : Forall (feasible n) rss -> Forall2 (fun r => entry_of t (om r) n (Some (op r)) r) rss (ofolder_of rss).
Proof.
  induction rss as [|r rss IH]; intros H; constructor; inversion H; subst; auto. now apply job_effect.
Qed.
Lemma omatch_fold rss f ls : listing_ok ls -> Forall2 (fun r => entry_of t (om r) n (Some (op r)) r) rss f ->
  exists r, match_pairs ls t (sortpairs f) = Some r /\
    (forall q, In q r -> exists rs, In rs rss /\ valid t n rs q) /\
    (forall rs q, In rs rss -> valid t n rs q -> In q r).
Proof.
  intros Hls F2. unfold match_pairs.
  set (step := fun (result : list QuadSeq) '((name, d) : text * Dir) => _).
  assert (G : forall l res, (forall e, In e l -> exists rs e0, In rs rss /\ entry_of t (om rs) n (Some (op rs)) rs e0 /\ e = (fst e0, sort_dir (snd e0))) ->
    exists r, fold_m step l res = Some r /\
      (forall q, In q r -> In q res \/ exists rs, In rs rss /\ valid t n rs q) /\
      (forall q, In q res -> In q r) /\
      (forall rs e0 q, entry_of t (om rs) n (Some (op rs)) rs e0 -> In (fst e0, sort_dir (snd e0)) l -> valid t n rs q -> In q r)).
  { induction l as [|e l IH]; intros res Hl.
    - exists res. split; auto. split; [auto|]. split; auto. intros rs e0 q _ [].
    - destruct (Hl e) as (rs & e0 & Hrs & He & ->); [now left|].
      destruct (match_entry t (om rs) n (Some (op rs)) rs e0 ls Ht Hn Hls He) as (r0 & E0 & S0 & C0). cbv zeta in E0.
      assert (E1 : step res (fst e0, sort_dir (snd e0)) = Some (res ++ r0)).
      { unfold step. destruct (get_sequences_from_dir _) as [sq|] in *; [|discriminate]. cbn [bind] in *.
        destruct (get_order_from_dir _) as [[fl o]|] in *; [|discriminate]. cbn [bind] in *. rewrite E0. reflexivity. }
      cbn [fold_m]. rewrite E1. cbn [bind].
      destruct (IH (res ++ r0)) as (r & E & S & K & C). { intros x Hx. apply Hl. now right. }
      exists r. split; auto. split; [|split].
      + intros q Hq. destruct (S q Hq) as [H|H]; auto. apply in_app_iff in H as [H|H]; auto. right. exists rs. auto.
      + intros q Hq. apply K, in_app_iff. auto.
      + intros rs' e' q He' [H|H] Vq.
        * apply K, in_app_iff. right. apply C0; auto.
          destruct He as (L & W & _ & _ & ->), He' as (L' & W' & _ & _ & ->). injection H as H _.
          apply rowsum_dir_inj in H. now subst.
        * apply (C rs' e'); auto. }
  assert (HP : Permutation (ls_folder ls (sortpairs f)) (sortpairs f)) by apply Hls.
  assert (Fl : forall rs, In rs rss -> exists e0, In e0 f /\ entry_of t (om rs) n (Some (op rs)) rs e0).
  { clear -F2. induction F2 as [|rs e0 rss f H _ IH]; intros r [].
    - subst. exists e0. split; auto. now left.
    - destruct (IH r) as (e & A & B); auto. exists e. split; auto. now right. }
  assert (Fr : forall e0, In e0 f -> exists rs, In rs rss /\ entry_of t (om rs) n (Some (op rs)) rs e0).
  { clear -F2. induction F2 as [|rs e0 rss f H _ IH]; intros e [].
    - subst. exists rs. split; auto. now left.
    - destruct (IH e) as (r & A & B); auto. exists r. split; auto. now right. }
  destruct (G (ls_folder ls (sortpairs f)) []) as (r & E & S & _ & C).
  { intros e He. apply (Permutation_in _ HP) in He. apply in_map_iff in He as ([nm d] & <- & He).
    destruct (Fr _ He) as (rs & A & B). exists rs, (nm, d). auto. }
  exists r. split; auto. split.
  - intros q Hq. destruct (S q Hq) as [[]|H]; auto.
  - intros rs q Hrs Vq. destruct (Fl rs Hrs) as (e0 & He0 & Ee0). apply (C rs e0); auto.
    apply (Permutation_in _ (Permutation_sym HP)). apply in_map_iff. exists e0. destruct e0. auto.
Qed.

Lemma ojobs_folder jobs : complete_jobs n jobs -> exists f, fold_m (fun f j => job_folder t (om (fst j)) n (op (fst j)) j f) jobs [] = Some f /\
  same_dirs (ofolder_of (rows jobs)) f.
Proof.
  intros H. destruct (ojobs_after jobs [] []) as (f & E & A); [intros r h I; now apply (H r h)|apply oafter_nil|].
  cbn [app] in A. exists f. split; auto. apply (ojobs_same (rows jobs) jobs f); auto.
  - apply NoDup_nodup.
  - now apply (rows_feasible n).
  - now apply (rows_done n).
  - intros r h I. now apply (H r h).
Qed.
Lemma ofull_sorted r : feasible n r -> exists W FL FR, od r = dir_of (Some (op r)) W FL FR.
Proof.
  intros Hf. destruct (job_effect t (om r) n (op r) Ht Hn Hn2 r Hf) as ((K & W & _ & _ & E) & _). injection E as E. eauto.
Qed.
Lemma ojobs_sorted jobs f : complete_jobs n jobs -> same_dirs (ofolder_of (rows jobs)) f ->
  same_dirs (sortpairs (ofolder_of (rows jobs))) (sortpairs f) /\ map (fun '(name, d) => (name, sort_dir_sh d)) f = sortpairs f.
Proof.
  intros H S. split.
  - apply same_dirs_sorted; auto. intros name d I. unfold ofolder_of in I. apply in_map_iff in I as (r & E & I). injection E as <- <-.
    assert (Hf := (rows_feasible n) jobs H). rewrite Forall_forall in Hf. destruct (ofull_sorted r (Hf r I)) as (W & FL & FR & ->).
    rewrite sort_dir_of. destruct (op r); split; try (repeat constructor; cbn; intuition discriminate); intros e He; cbn in He;
      repeat (destruct He as [<-|He]; [reflexivity|]); contradiction.
  - unfold sortpairs. apply map_ext_in. intros [name d] I. f_equal. unfold sort_dir_sh.
    replace (existsb _ d) with true; auto. symmetry. apply existsb_exists.
    destruct S as (_ & _ & N & S). assert (J : In name (map fst (ofolder_of (rows jobs)))) by (apply N; apply in_map_iff; exists (name, d); auto).
    apply in_map_iff in J as ([nm d0] & E & J). cbn [fst] in E. subst nm. destruct (S _ _ _ J I) as [_ P].
    unfold ofolder_of in J. apply in_map_iff in J as (r & E & J). injection E as _ <-.
    assert (Hf := (rows_feasible n) jobs H). rewrite Forall_forall in Hf. destruct (ofull_sorted r (Hf r J)) as (W & FL & FR & E). rewrite E in P.
    destruct (op r); (eexists; split; [eapply Permutation_in; [exact P|]|]; [do 4 right; left; reflexivity|reflexivity]).
Qed.
Lemma ojobs_match jobs f ls : complete_jobs n jobs -> same_dirs (ofolder_of (rows jobs)) f -> listing_ok ls ->
  exists r, match_pairs ls t (sortpairs f) = Some r /\ forall q, In q r <-> pm_quad n q /\ is_type t q /\ done jobs (totals q).
Proof.
  intros H S Hls. destruct (ojobs_sorted jobs f H S) as [S' _]. assert (N' : NoDup (map fst (sortpairs f))) by apply S'.
  destruct (omatch_fold (rows jobs) (ofolder_of (rows jobs)) (relist ls (sortpairs (ofolder_of (rows jobs))) (sortpairs f))) as (r & E & A & B); auto.
  - now apply relist_ok.
  - apply ofolder_entries; auto. now apply (rows_feasible n).
  - exists r. rewrite relist_match in E by auto. split; auto. intros q. split.
    + intros I. destruct (A q I) as (rs & J & P & T & <-). split; auto. split; auto. now apply (rows_done n).
    + intros (P & T & D). apply (B (totals q)); [now apply (rows_done n)|]. split; auto.
Qed.
End Options.
