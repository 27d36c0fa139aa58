(* A split search whose jobs do not use the same pairing. *)
From Coq Require Import Ascii String List ZArith Lia Arith Bool Permutation.
From Verif Require Import Base BaseFacts Quat ModelSequence ModelWilliamson ModelEquivalence SpecEquiv EquivFacts EquivThms ModelRowsum SpecRowsum RowsumFacts ModelMatching ModelWrite TextFacts WriteFacts JoinFacts FolderFacts DriverFacts SingleFacts ModelMain SpecPrint SpecMain ArgFacts MainFacts MainThms DriverMain
  ModelScripts SpecFiles SpecSearch SearchThms SpecSplit SplitFacts SplitThms SpecMixed Spec.
Import ListNotations.
Notation length := List.length.
Open Scope nat_scope.

Definition pname (p : Tag * Tag) : text := pair_file (fst p) (snd p).
Definition six : list (Tag * Tag) := [(TW, TX); (TY, TZ); (TW, TY); (TX, TZ); (TW, TZ); (TX, TY)].
Lemma pairs_six pr h p : In p (pairs_of pr h) -> In p six.
Proof. destruct pr, h; cbn; intuition. Qed.
Lemma pname_inj p p' : pname p = pname p' -> p = p'.
Proof. destruct p as [a b], p' as [c d]. destruct a, b, c, d; intros E; try reflexivity; discriminate E. Qed.
Lemma part_kinds pr h k : In k (part_files pr h) -> (exists tg, k = seq_file tg) \/ exists p, In p (pairs_of pr h) /\ k = pname p.
Proof.
  destruct pr, h; cbn; intros H; repeat (destruct H as [<-|H]); try contradiction;
  first [left; (now exists TW) || (now exists TX) || (now exists TY) || (now exists TZ) | right; eexists; split; [now left|reflexivity] | right; eexists; split; [right; now left|reflexivity]].
Qed.
Lemma part_pairs pr h p : In (pname p) (part_files pr h) <-> In p (pairs_of pr h).
Proof.
  split.
  - intros H. apply part_kinds in H as [(tg & E)|(p' & I & E)]; [destruct p as [[] []], tg; discriminate E|]. apply pname_inj in E. now subst.
  - destruct pr, h; cbn; intros H; repeat (destruct H as [<-|H]); try contradiction; auto 10.
Qed.
Lemma part_some pr h : exists p, In p (pairs_of pr h).
Proof. destruct pr, h; eexists; now left. Qed.

Section Mixed.
Context {L : Type} (e : Env L) (n : nat) (t : SequenceType) (y : list ascii).
Hypothesis Hn : 1 <= n.
Hypothesis Hn2 : (Z.of_nat n < 2 ^ 62)%Z.
Hypothesis Ht : searchable t.
Hypothesis Hy : canonical_numeral y n.
Let x := type_word t.

Definition sums (r : Quad) (tg : Tag) (l : Lines) : Prop := exists ss, file_to_sequences l = Some ss /\ forall s, In s ss -> length s = n /\ pm1 s /\ total s = rowsum_of_tag r tg.
Record holds_jobs (jobs : list MixedJob) (f : Folder) : Prop := {
  hj_names : NoDup (map fst f);
  hj_dirs : forall name d, get f name = Some d -> exists r h mp, name = rowsum_dir r /\ In ((r, h), mp) jobs /\ NoDup (map fst d) /\
    (forall k, get d k <> None <-> exists h m pr, In ((r, h), (m, pr)) jobs /\ In k (part_files pr h)) /\ (forall tg l, get d (seq_file tg) = Some l -> sums r tg l);
  hj_all : forall r h mp, In ((r, h), mp) jobs -> exists d, get f (rowsum_dir r) = Some d
}.

Lemma job_step jobs f r h m pr : feasible n r -> holds_jobs jobs f -> exists f', job_folder t m n pr (r, h) f = Some f' /\ holds_jobs (jobs ++ [((r, h), (m, pr))]) f'.
Proof.
  intros Hf [N A B]. destruct (job_effect t m n pr Ht Hn Hn2 r Hf) as ((Ls & W & IL & HW & E) & ND & _ & J). injection E as E. destruct (J h f) as (d' & Ej & Nd' & G).
  exists (put f (rowsum_dir r) d'). split; auto.
  assert (O : NoDup (map fst (open_dir f (rowsum_dir r)))).
  { rewrite open_get. destruct (get f (rowsum_dir r)) as [d|] eqn:Eg; [|constructor]. destruct (A _ _ Eg) as (? & ? & ? & _ & _ & X & _). exact X. }
  assert (Old : forall d, get f (rowsum_dir r) = Some d -> (forall k, get d k <> None <-> exists h m pr, In ((r, h), (m, pr)) jobs /\ In k (part_files pr h)) /\ (forall tg l, get d (seq_file tg) = Some l -> sums r tg l)).
  { intros d Eg. destruct (A _ _ Eg) as (r0 & ? & ? & Er & _ & _ & X & Y). apply rowsum_dir_inj in Er. subst r0. auto. }
  assert (Fresh : get f (rowsum_dir r) = None -> forall h' mp, ~ In ((r, h'), mp) jobs).
  { intros Z h' mp I. destruct (B _ _ _ I) as (d & Ed). congruence. }
  assert (Full : forall k, In k (part_files pr h) -> get (full_dir t m n pr r) k <> None).
  { intros k I. rewrite E. apply get_names. destruct pr, h; cbn in I |- *; intuition. }
  assert (Sums : forall tg l, get (full_dir t m n pr r) (seq_file tg) = Some l -> sums r tg l).
  { intros tg l X. rewrite E in X. assert (l = W tg) as -> by (destruct pr, tg; cbn in X; congruence). exists (Ls tg). split; [apply HW|]. intros s Is. apply IL in Is. tauto. }
  split.
  - now apply names_put.
  - intros name d. rewrite get_put. destruct (text_dec name (rowsum_dir r)) as [->|Ne].
    + rewrite text_eqb_refl. intros X. injection X as <-. exists r, h, (m, pr). split; auto. split; [apply in_app_iff; right; now left|]. split; auto. split.
      * intros k. rewrite G. destruct (memb k (part_files pr h)) eqn:M.
        -- apply memb_in in M. split; [intros _; exists h, m, pr; split; auto; apply in_app_iff; right; now left|]. intros _. now apply Full.
        -- rewrite open_get. destruct (get f (rowsum_dir r)) as [d|] eqn:Eg.
           ++ destruct (Old d eq_refl) as [X _]. rewrite X. split.
              ** intros (h0 & m0 & pr0 & I & K). exists h0, m0, pr0. split; auto. apply in_app_iff. now left.
              ** intros (h0 & m0 & pr0 & I & K). exists h0, m0, pr0. split; auto. apply in_app_iff in I as [I|[I|[]]]; auto. injection I as <- <- <-. apply memb_in in K. congruence.
           ++ cbn. split; [intros Z; now elim Z|]. intros (h0 & m0 & pr0 & I & K). apply in_app_iff in I as [I|[I|[]]]; [now apply (Fresh eq_refl) in I|]. injection I as <- <- <-. apply memb_in in K. congruence.
      * intros tg l. rewrite G. destruct (memb (seq_file tg) (part_files pr h)); [apply Sums|]. rewrite open_get. destruct (get f (rowsum_dir r)) as [d|] eqn:Eg; [|discriminate]. apply (Old d eq_refl).
    + rewrite (text_eqb_neq _ _ Ne). intros X. destruct (A _ _ X) as (r0 & h0 & mp & Er & I & Nd & K & S). exists r0, h0, mp. split; auto. split; [apply in_app_iff; now left|]. split; auto. split; auto.
      intros k. rewrite K. split; intros (h1 & m1 & pr1 & I1 & K1); exists h1, m1, pr1; (split; [|exact K1]); [apply in_app_iff; now left|].
      apply in_app_iff in I1 as [I1|[I1|[]]]; auto. injection I1 as <- <- <- <-. now elim Ne.
  - intros r0 h0 mp I. rewrite get_put. destruct (text_dec (rowsum_dir r0) (rowsum_dir r)) as [Ee|Ne]; [rewrite Ee, text_eqb_refl; eauto|]. rewrite (text_eqb_neq _ _ Ne).
    apply in_app_iff in I as [I|[I|[]]]; [eauto|]. injection I as <- <- <-. now elim Ne.
Qed.

Lemma mixed_runs jobs lines : Forall2 (mixed_line t y) jobs lines -> (forall j, In j jobs -> feasible n (fst (fst j))) -> forall don w, holds_jobs don (pl_dirs (place_of w x y)) ->
  exists w', (forall fuel, runs fuel e lines w w') /\ only w w' x y /\ holds_jobs (don ++ jobs) (pl_dirs (place_of w' x y)) /\ (jobs <> [] -> w' x y <> None).
Proof.
  intros F. induction F as [|j args jobs lines J F IH]; intros Hf don w H.
  - exists w. split; [intros; constructor|]. split; [apply only_refl|]. rewrite app_nil_r. split; [exact H|congruence].
  - destruct j as [[r h] [m pr]]. unfold mixed_line in J. cbn [fst snd] in J. destruct (job_step don (pl_dirs (place_of w x y)) r h m pr) as (f' & E & H'); [apply (Hf ((r, h), (m, pr))); now left|exact H|].
    set (w1 := write w x y (set_dirs (place_of w x y) f')). assert (P1 : place_of w1 x y = set_dirs (place_of w x y) f') by (unfold place_of at 1, w1; now rewrite write_same).
    destruct (IH (fun j I => Hf j (or_intror I)) (don ++ [((r, h), (m, pr))]) w1) as (w' & R & O & H2 & S). { rewrite P1. exact H'. }
    exists w'. split; [intros fuel; econstructor; [exact (run_job n t y m pr Hn Hn2 Hy fuel e (r, h) args w f' J E)|apply R]|]. split; [eapply only_trans; [apply write_only|exact O]|].
    rewrite <- app_assoc in H2. split; [exact H2|]. intros _. destruct jobs; [|apply S; discriminate]. inversion F; subst. specialize (R 0). inversion R; subst. unfold w1. rewrite write_same. discriminate.
Qed.

(* ---- a directory of the folder ---- *)
Lemma dir_pair_names jobs r (d : list (text * Lines)) : (forall k, get d k <> None <-> exists h m pr, In ((r, h), (m, pr)) jobs /\ In k (part_files pr h)) ->
  (forall p, get d (pname p) <> None <-> wrote jobs r p) /\ (forall ee, In ee d -> ends_with (fst ee) (lit ".pair.sorted") = false) /\
  (forall ee, In ee d -> ends_with (fst ee) (lit ".pair") = true -> exists p, In p six /\ wrote jobs r p /\ fst ee = pname p).
Proof.
  intros K. assert (X : forall ee, In ee d -> (exists tg, fst ee = seq_file tg) \/ exists p, In p six /\ wrote jobs r p /\ fst ee = pname p).
  { intros ee I. assert (Z : get d (fst ee) <> None) by (apply get_names; now apply in_map). apply K in Z as (h & m & pr & I1 & I2). apply part_kinds in I2 as [H|(p & Ip & Ep)]; auto.
    right. exists p. split; [now apply pairs_six in Ip|]. split; auto. exists h, m, pr. auto. }
  split; [|split].
  - intros p. rewrite K. unfold wrote. split; intros (h & m & pr & I1 & I2); exists h, m, pr; (split; [exact I1|]); now apply part_pairs.
  - intros ee I. destruct (X ee I) as [(tg & ->)|(p & _ & _ & ->)]; [destruct tg; reflexivity|destruct p as [[] []]; reflexivity].
  - intros ee I Ee. destruct (X ee I) as [(tg & Es)|H]; auto. rewrite Es in Ee. destruct tg; discriminate Ee.
Qed.
Lemma count_pairs jobs r (d : list (text * Lines)) : NoDup (map fst d) -> (forall k, get d k <> None <-> exists h m pr, In ((r, h), (m, pr)) jobs /\ In k (part_files pr h)) ->
  pairs_written jobs r (length (filter (fun ee => ends_with (fst ee) (lit ".pair")) d)).
Proof.
  intros Nd K. destruct (dir_pair_names jobs r d K) as (P1 & _ & P3).
  set (l := filter (fun p => match get d (pname p) with Some _ => true | None => false end) six).
  assert (Hl : forall p, In p l <-> wrote jobs r p).
  { intros p. unfold l. rewrite filter_In, <- P1. destruct (get d (pname p)) as [v|] eqn:Eg.
    - split; [discriminate|]. intros _. split; auto. assert (Z : get d (pname p) <> None) by congruence. apply P1 in Z as (h & m & pr & _ & I). now apply pairs_six in I.
    - split; [intros [_ Z]; discriminate|intros Z; now elim Z]. }
  assert (Nl : NoDup l) by (unfold l; apply NoDup_filter; repeat constructor; cbn; intuition discriminate).
  exists l. split; auto. split; auto. rewrite <- (map_length pname l), <- (map_length fst (filter _ d)). apply Permutation_length. apply NoDup_Permutation.
  - apply FinFun.Injective_map_NoDup; auto. intros a b. apply pname_inj.
  - clear -Nd. induction d as [|[k v] d IH]; cbn [filter map]; [constructor|]. cbn [map fst] in Nd. inversion Nd as [|? ? N1 N2]; subst. destruct (ends_with (fst (k, v)) (lit ".pair")); auto. cbn [map fst]. constructor; auto.
    intros I. apply N1. apply in_map_iff in I as (ee & Ee & I). apply filter_In in I as [I _]. rewrite <- Ee. now apply in_map.
  - intros k. split.
    + intros I. apply in_map_iff in I as (p & <- & I). apply Hl, P1 in I. apply get_names in I. apply in_map_iff in I as (ee & Ee & I). apply in_map_iff. exists ee. split; auto. apply filter_In. split; auto. rewrite Ee. destruct p as [[] []]; reflexivity.
    + intros I. apply in_map_iff in I as (ee & <- & I). apply filter_In in I as [I Ee]. destruct (P3 ee I Ee) as (p & _ & Wp & ->). apply in_map. now apply Hl.
Qed.
Lemma count_unique jobs r k k' : pairs_written jobs r k -> pairs_written jobs r k' -> k = k'.
Proof.
  intros (l & N & H & <-) (l' & N' & H' & <-). apply Permutation_length, NoDup_Permutation; auto. intros p. rewrite H, H'. reflexivity.
Qed.

Lemma sorted_by jobs f : holds_jobs jobs f -> map (fun '(name, d) => (name, sort_dir_sh d)) f = sortpairs f.
Proof.
  intros [N A B]. unfold sortpairs. apply map_ext_in. intros [name d] I. f_equal. unfold sort_dir_sh. apply get_in in I; auto. destruct (A _ _ I) as (r & h & [m pr] & _ & Ij & _ & K & _).
  replace (existsb (fun ee : text * Lines => ends_with (fst ee) (lit ".pair")) d) with true; auto. symmetry. apply existsb_exists. destruct (part_some pr h) as (p & Ip).
  assert (Z : get d (pname p) <> None) by (apply K; exists h, m, pr; split; auto; now apply part_pairs). apply get_names in Z. apply in_map_iff in Z as (ee & Ee & Z). exists ee. split; auto. rewrite Ee. destruct p as [[] []]; reflexivity.
Qed.
Lemma wrong_count jobs f r h mp k ls : holds_jobs jobs f -> listing_ok ls -> In ((r, h), mp) jobs -> pairs_written jobs r k -> k <> 2 -> match_pairs ls t (sortpairs f) = None.
Proof.
  intros H Ls I Pk Hk. destruct (hj_all _ _ H r h mp I) as (d & Ed). destruct (hj_dirs _ _ H _ _ Ed) as (r0 & h0 & mp0 & Er & _ & Nd & K & _). apply rowsum_dir_inj in Er. subst r0.
  apply (join_panics ls t f (rowsum_dir r) d); auto.
  - apply get_in; auto. apply (hj_names _ _ H).
  - now apply (dir_pair_names jobs r d K).
  - intros Z. apply Hk. rewrite <- Z. apply (count_unique jobs r); auto. now apply count_pairs.
Qed.

Lemma seqs_comp d S : get_sequences_from_dir d = Some S -> forall tg s, In s (comp S tg) -> exists l ss, In (seq_file tg, l) d /\ file_to_sequences l = Some ss /\ In s ss.
Proof.
  unfold get_sequences_from_dir. match goal with |- fold_m ?g _ _ = _ -> _ => set (f := g) end.
  assert (G : forall d0 S0 S1, (forall ee, In ee d0 -> In ee d) -> (forall tg s, In s (comp S0 tg) -> exists l ss, In (seq_file tg, l) d /\ file_to_sequences l = Some ss /\ In s ss) -> fold_m f d0 S0 = Some S1 ->
    forall tg s, In s (comp S1 tg) -> exists l ss, In (seq_file tg, l) d /\ file_to_sequences l = Some ss /\ In s ss).
  { induction d0 as [|[name lines] d0 IH]; cbn [fold_m]; intros S0 S1 Sub Ok E; [injection E as <-; auto|].
    apply bind_some in E as (S2 & E2 & E). apply (IH S2 S1); auto; [intros; apply Sub; now right|].
    destruct S0 as [[[w x0] y0] z]. unfold f in E2. destruct (ends_with name (lit ".seq")) eqn:En; [|injection E2 as <-; auto].
    assert (Inn := Sub _ (or_introl eq_refl)).
    pose proof (Ok TW) as OW. pose proof (Ok TX) as OX. pose proof (Ok TY) as OY. pose proof (Ok TZ) as OZ. cbn [comp] in *.
    destruct (text_eqb name (lit "seq_W.seq")) eqn:E0; [apply text_eqb_eq in E0; subst name; apply bind_some in E2 as (l & El & E2); injection E2 as <-; intros []; cbn [comp]; auto; intros s Is; exists lines, l; auto|].
    destruct (text_eqb name (lit "seq_X.seq")) eqn:E1; [apply text_eqb_eq in E1; subst name; apply bind_some in E2 as (l & El & E2); injection E2 as <-; intros []; cbn [comp]; auto; intros s Is; exists lines, l; auto|].
    destruct (text_eqb name (lit "seq_Y.seq")) eqn:E3; [apply text_eqb_eq in E3; subst name; apply bind_some in E2 as (l & El & E2); injection E2 as <-; intros []; cbn [comp]; auto; intros s Is; exists lines, l; auto|].
    destruct (text_eqb name (lit "seq_Z.seq")) eqn:E4; [apply text_eqb_eq in E4; subst name; apply bind_some in E2 as (l & El & E2); injection E2 as <-; intros []; cbn [comp]; auto; intros s Is; exists lines, l; auto|].
    discriminate. }
  intros E. refine (G d _ _ (fun ee I => I) _ E). intros [] s [].
Qed.
Lemma aux_comp S o idx tg s : get_sequence_aux S o idx tg = Some s -> In s (comp S tg) /\ let '(t1, t2, t3, t4) := o in tg = t1 \/ tg = t2 \/ tg = t3 \/ tg = t4.
Proof.
  intros E. destruct S as [[[w x0] y0] z], o as [[[t1 t2] t3] t4], idx as [[[i1 i2] i3] i4]. unfold get_sequence_aux in E. apply bind_some in E as (i & Ei & E). split.
  - destruct tg; cbn [comp]; unfold vget in E; eapply nth_error_In; eauto.
  - destruct (tag_eqb tg t1) eqn:A1; [left; destruct tg, t1; auto; discriminate|]. destruct (tag_eqb tg t2) eqn:A2; [right; left; destruct tg, t2; auto; discriminate|].
    destruct (tag_eqb tg t3) eqn:A3; [right; right; left; destruct tg, t3; auto; discriminate|]. destruct (tag_eqb tg t4) eqn:A4; [right; right; right; destruct tg, t4; auto; discriminate|discriminate].
Qed.
(* two pairs with all four tags are those of one pairing *)
Lemma two_pairs p p' : In p six -> In p' six -> (forall tg, tg = fst p \/ tg = snd p \/ tg = fst p' \/ tg = snd p') -> exists pr, forall q, In q (pairs_of pr Both) <-> q = p \/ q = p'.
Proof.
  intros I I' C. assert (CW := C TW). assert (CX := C TX). assert (CY := C TY). assert (CZ := C TZ). clear C.
  assert (Fin : forall pr, pairs_of pr Both = [p; p'] \/ pairs_of pr Both = [p'; p] -> exists pr, forall q, In q (pairs_of pr Both) <-> q = p \/ q = p').
  { intros pr H. exists pr. intros q. destruct H as [-> | ->]; cbn; intuition. }
  repeat (destruct I as [<-|I]; [repeat (destruct I' as [<-|I']; [cbn [fst snd] in *; first [exfalso; intuition discriminate|apply (Fin WX); cbn; tauto|apply (Fin WY); cbn; tauto|apply (Fin WZ); cbn; tauto]|]); contradiction|]). contradiction.
Qed.
Lemma match_in ls f res q : match_pairs ls t f = Some res -> In q res -> exists name d S files order, In (name, d) (ls_folder ls f) /\
  get_sequences_from_dir (ls_seq ls name d) = Some S /\ get_order_from_dir (ls_pair ls name d) = Some (files, order) /\ produced t order S q.
Proof.
  unfold match_pairs. match goal with |- fold_m ?g _ _ = _ -> _ => set (g0 := g) end.
  assert (G : forall l r0 r1, fold_m g0 l r0 = Some r1 -> In q r1 -> In q r0 \/ exists name d S files order, In (name, d) l /\
    get_sequences_from_dir (ls_seq ls name d) = Some S /\ get_order_from_dir (ls_pair ls name d) = Some (files, order) /\ produced t order S q).
  { induction l as [|[name d] l IH]; cbn [fold_m]; intros r0 r1 E Hq; [injection E as <-; auto|].
    apply bind_some in E as (r2 & E2 & E). destruct (IH r2 r1 E Hq) as [Hq2|(name' & d' & S & files & order & I & X)]; [|right; exists name', d', S, files, order; split; [now right|auto]].
    unfold g0 in E2. apply bind_some in E2 as (S & Es & E2). apply bind_some in E2 as ([files order] & Eo & E2). apply bind_some in E2 as (r3 & Er & E2). injection E2 as <-.
    apply in_app_iff in Hq2 as [Hq2|Hq2]; auto. right. exists name, d, S, files, order. split; [now left|]. split; auto. split; auto. eapply join_files_sound; eauto. }
  intros E Hq. destruct (G _ _ _ E Hq) as [[]|H]. exact H.
Qed.
Lemma mixed_match jobs f ls res q : holds_jobs jobs f -> listing_ok ls -> match_pairs ls t (sortpairs f) = Some res -> In q res -> pm_quad n q /\ is_type t q /\ one_pairing jobs (totals q).
Proof.
  intros H Ls E Hq. destruct (match_in ls _ res q E Hq) as (name & d0 & S & files & order & I & Es & Eo & Pq). assert (Pq' := Pq). destruct Pq' as (_ & idx & w & x0 & y0 & z & Eg & Eq). destruct Ls as (Lf & Lsq & Lp).
  apply (Permutation_in _ (Lf _)) in I. unfold sortpairs in I. apply in_map_iff in I as ([name' d] & Z & I). injection Z as -> <-.
  apply get_in in I; [|apply (hj_names _ _ H)]. destruct (hj_dirs _ _ H _ _ I) as (r & h & mp & -> & Ij & Nd & K & Sm). destruct (dir_pair_names jobs r d K) as (P1 & P2 & P3).
  assert (Ps := sort_dir_spec d Nd P2).
  assert (Back : forall k l, In (k, l) (sort_dir d) -> In (k, l) d /\ ends_with k (lit ".pair") = false \/ exists l0 p, In (pname p, l0) d /\ In p six /\ wrote jobs r p /\ k = pname p ++ lit ".sorted").
  { intros k l J. apply (Permutation_in _ Ps) in J. apply in_map_iff in J as ([k0 l0] & Z & J). unfold sorted_entry in Z. cbn [fst snd] in Z. destruct (ends_with k0 (lit ".pair")) eqn:Ek.
    - injection Z as <- _. destruct (P3 _ J Ek) as (p & I6 & Wp & Ep). cbn [fst] in Ep. right. exists l0, p. rewrite <- Ep. auto.
    - injection Z as -> ->. left. auto. }
  unfold get_sequences in Eg. apply bind_some in Eg as (w' & Ew & Eg). apply bind_some in Eg as (x' & Ex & Eg). apply bind_some in Eg as (y' & Ey & Eg). apply bind_some in Eg as (z' & Ez & Eg). injection Eg as -> -> -> ->.
  apply aux_comp in Ew as [Cw Tw]. apply aux_comp in Ex as [Cx Tx]. apply aux_comp in Ey as [Cy Ty]. apply aux_comp in Ez as [Cz Tz].
  assert (Tot0 : forall tg s, In s (comp S tg) -> length s = n /\ pm1 s /\ total s = rowsum_of_tag r tg).
  { intros tg s Is. destruct (seqs_comp _ S Es tg s Is) as (l & ss & J & Ef & Iss). apply (Permutation_in _ (Lsq _ _)) in J. apply Back in J as [[J _]|(l0 & p & _ & _ & _ & Z)].
    - apply get_in in J; auto. destruct (Sm tg l J) as (ss' & Ef' & Hs). rewrite Ef in Ef'. injection Ef' as <-. now apply Hs.
    - destruct p as [[] []], tg; discriminate Z. }
  assert (Tot : forall tg s, In s (comp S tg) -> total s = rowsum_of_tag r tg) by (intros tg s Is; now apply Tot0).
  assert (Co : comps_ok n S) by (intros tg s Is; destruct (Tot0 tg s Is) as (? & ? & _); auto).
  destruct (produced_valid n t order S q Hn Co Pq) as [Vq Vt]. split; [exact Vq|]. split; [exact Vt|]. clear Vq Vt Co Tot0 Pq.
  assert (Tq : totals q = r).
  { rewrite Eq. unfold totals. cbn [set_all_values q_a q_b q_c q_d]. rewrite (Tot TW w Cw), (Tot TX x0 Cx), (Tot TY y0 Cy), (Tot TZ z Cz). destruct r as [[[? ?] ?] ?]. reflexivity. }
  rewrite Tq. clear Eq Tq Tot Cw Cx Cy Cz Es.
  unfold get_order_from_dir in Eo. destruct (filter (fun ee => ends_with (fst ee) (lit ".pair.sorted")) (ls_pair ls (rowsum_dir r) (sort_dir d))) as [|[n0 l0] [|[n1 l1] [|? ?]]] eqn:Fl; try discriminate.
  assert (Name : forall k l, In (k, l) [(n0, l0); (n1, l1)] -> exists p, In p six /\ wrote jobs r p /\ k = pname p ++ lit ".sorted").
  { intros k l J. rewrite <- Fl in J. apply filter_In in J as [J Ek]. cbn [fst] in Ek. apply (Permutation_in _ (Lp _ _)) in J. apply Back in J as [[J _]|(l2 & p & _ & I6 & Wp & Z)]; [|eauto].
    rewrite (P2 _ J : ends_with k _ = false) in Ek. discriminate. }
  destruct (Name n0 l0 ltac:(now left)) as (p & I6 & Wp & ->). destruct (Name n1 l1 ltac:(right; now left)) as (p' & I6' & Wp' & ->).
  assert (Ta : forall p0, get_tag_from_filename (pname p0 ++ lit ".sorted") = Some p0) by (intros [[] []]; reflexivity). rewrite !Ta in Eo. cbn [bind] in Eo. destruct p as [a b], p' as [c d']. cbn [bind] in Eo. injection Eo as _ <-.
  destruct (two_pairs (a, b) (c, d') I6 I6') as (pr & Hpr). { intros []; assumption. }
  exists pr. intros p. rewrite Hpr. split; [|intros [-> | ->]; assumption].
  intros Wq. assert (Z : get d (pname p) <> None) by now apply P1. apply get_names in Z. apply in_map_iff in Z as ([k v] & Ek & Z). cbn [fst] in Ek. subst k.
  assert (J : In (sorted_entry (pname p, v)) (ls_pair ls (rowsum_dir r) (sort_dir d))).
  { apply (Permutation_in _ (Permutation_sym (Lp _ _))), (Permutation_in _ (Permutation_sym Ps)). now apply in_map. }
  assert (Ef : ends_with (fst (sorted_entry (pname p, v))) (lit ".pair.sorted") = true) by (destruct p as [[] []]; reflexivity).
  assert (J2 := proj2 (filter_In (fun ee => ends_with (fst ee) (lit ".pair.sorted")) (sorted_entry (pname p, v)) _) (conj J Ef)). rewrite Fl in J2.
  assert (En : fst (sorted_entry (pname p, v)) = pname p ++ lit ".sorted") by (destruct p as [[] []]; reflexivity).
  destruct J2 as [J2|[J2|[]]]; rewrite <- J2 in En; cbn [fst] in En; apply app_inv_tail in En; apply pname_inj in En; auto.
Qed.

(* ---- the command ---- *)
Lemma join_fails fuel w pl : env_ok e -> w x y = Some pl -> match_pairs (e_ls e) t (pl_dirs pl) = None \/ match_pairs (e_ls e) t (pl_dirs pl) = Some [] ->
  run_main fuel e [chars "rust"; chars "join"; x; y] w = None.
Proof.
  intros He E H. assert (C := cl_join (chars "rust") t y _ (numeral_length_arg y n Hy ltac:(lia))). apply parse_args_iff in C. unfold run_main. fold x in C. rewrite C. cbn [bind exec].
  rewrite type_word_string, <- (numeral_string y n Hy). fold x. rewrite E. cbn [bind]. unfold find_write_place. assert (J : join_pairs fuel (e_ord e) (0 :: e_path e) (e_ls e) t (pl_dirs pl) = None).
  { destruct H as [H|H]; [unfold join_pairs; now rewrite H|]. now apply (no_match_panics fuel (e_ord e) (0 :: e_path e) (e_ls e) 0 t (pl_dirs pl)). }
  rewrite J. reflexivity.
Qed.
Lemma mixed_place jobs lines w : Forall2 (mixed_line t y) jobs lines -> (forall j, In j jobs -> feasible n (fst (fst j))) -> pl_dirs (place_of w x y) = [] -> jobs <> [] ->
  exists w1 f pl, (forall fuel, runs fuel e lines w w1) /\ only w w1 x y /\ holds_jobs jobs f /\ sort_sh x y w1 x y = Some (set_dirs pl (sortpairs f)).
Proof.
  intros F Hf Hd Hj. destruct (mixed_runs jobs lines F Hf [] w) as (w1 & R & O & H & S).
  { rewrite Hd. split; [constructor|intros name d Z; discriminate Z|intros r h mp []]. }
  cbn [app] in H. specialize (S Hj). exists w1, (pl_dirs (place_of w1 x y)), (place_of w1 x y). split; auto. split; auto. split; auto.
  unfold sort_sh, place_of in *. destruct (w1 x y) as [pl|] eqn:E1; [|now elim S]. rewrite write_same. now rewrite (sorted_by jobs (pl_dirs pl) H).
Qed.
Lemma join_writes fuel w pl w3 : class_fuel n <= fuel -> n <= 31 -> t = QuaternionType \/ t = WilliamsonType -> env_ok e -> w x y = Some pl -> run_main fuel e [chars "rust"; chars "join"; x; y] w = Some w3 ->
  (forall res q, match_pairs (e_ls e) t (pl_dirs pl) = Some res -> In q res -> pm_quad n q /\ is_type t q) ->
  exists res r, match_pairs (e_ls e) t (pl_dirs pl) = Some res /\ lists_quads (pl_seq (place_of w3 x y)) (pl_qseq (place_of w3 x y)) r /\ NoDup r /\
    (forall z, In z r -> pm_quad n z /\ is_type t z /\ least (reach (type_ops t) z) z /\ exists q, In q res /\ reach (type_ops t) q z) /\
    (forall q, In q res -> exists z, In z r /\ reach (type_ops t) q z /\ forall z', In z' r -> reach (type_ops t) q z' -> z' = z).
Proof.
  intros Hfu H31 Ht2 He Ew E V. assert (C := cl_join (chars "rust") t y _ (numeral_length_arg y n Hy ltac:(lia))). apply parse_args_iff in C. unfold run_main in E. fold x in C. rewrite C in E. cbn [bind exec] in E.
  rewrite type_word_string, <- (numeral_string y n Hy) in E. fold x in E. rewrite Ew in E. cbn [bind] in E. apply bind_some in E as (pl' & Ef & E). injection E as <-.
  assert (Pp : place_of (write w x y pl') x y = pl') by (unfold place_of; now rewrite write_same). rewrite Pp. clear Pp.
  unfold find_write_place in Ef. apply bind_some in Ef as (r & Ej & Ef).
  destruct (match_pairs (e_ls e) t (pl_dirs pl)) as [res|] eqn:Em; [|unfold join_pairs in Ej; rewrite Em in Ej; discriminate Ej].
  assert (Hne : res <> []). { intros ->. destruct (no_match_panics fuel (e_ord e) (0 :: e_path e) (e_ls e) 0 t (pl_dirs pl) Ht Em) as [Z _]. congruence. }
  destruct (join_of n (e_ls e) (e_ord e) t (pl_dirs pl) res) with (fuel := fuel) (path := 0 :: e_path e) as (r' & Ej' & Nd & A & B); auto; [apply He|intros q Hq; now apply (V res q)|].
  rewrite Ej in Ej'. injection Ej' as <-. exists res, r. split; auto. split; [|split; [exact Nd|split; [exact A|exact B]]].
  apply bind_some in Ef as (am & _ & Ef). apply bind_some in Ef as (out & Eo & Ef). apply bind_some in Ef as (qout & Eq & Ef).
  destruct (seq_lines_spec n r) as (out' & Eo' & Fo); [intros z Hz; now apply A|]. rewrite Eo in Eo'. injection Eo' as <-.
  assert (Eq' : qseq_text r = Some (stacked (map quad_text r))) by (apply (qseq_text_spec n); intros z Hz; now apply A). rewrite Eq in Eq'. injection Eq' as ->.
  assert (G : pl_seq pl' = Some out /\ pl_qseq pl' = Some (stacked (map quad_text r))).
  { destruct Ht2 as [-> | ->]; cbn beta iota in Ef.
    - injection Ef as <-. split; reflexivity.
    - apply bind_some in Ef as (l & _ & Ef). apply bind_some in Ef as (qr & _ & Ef). apply bind_some in Ef as (o1 & _ & Ef). apply bind_some in Ef as (o2 & _ & Ef). injection Ef as <-. split; reflexivity. }
  destruct G as [-> ->]. exists out. auto.
Qed.
Theorem mixed jobs lines w : env_ok e -> Forall2 (mixed_line t y) jobs lines -> (forall j, In j jobs -> feasible n (fst (fst j))) -> pl_dirs (place_of w x y) = [] -> jobs <> [] ->
  exists w1, (forall fuel, runs fuel e lines w w1) /\ only w w1 x y /\ let w2 := sort_sh x y w1 in
    (forall r h mp k fuel, In ((r, h), mp) jobs -> pairs_written jobs r k -> k <> 2 -> run_main fuel e [chars "rust"; chars "join"; x; y] w2 = None) /\
    ((forall r, ~ one_pairing jobs r) -> forall fuel, run_main fuel e [chars "rust"; chars "join"; x; y] w2 = None) /\
    (forall fuel w3, n <= 31 -> t = QuaternionType \/ t = WilliamsonType -> class_fuel n <= fuel -> run_main fuel e [chars "rust"; chars "join"; x; y] w2 = Some w3 ->
      exists r, lists_quads (pl_seq (place_of w3 x y)) (pl_qseq (place_of w3 x y)) r /\ NoDup r /\
        forall z, In z r -> pm_quad n z /\ is_type t z /\ least (reach (type_ops t) z) z /\ exists q, pm_quad n q /\ is_type t q /\ reach (type_ops t) q z /\ one_pairing jobs (totals q)).
Proof.
  intros He F Hf Hd Hj. assert (Hl : listing_ok (e_ls e)) by apply He. destruct (mixed_place jobs lines w F Hf Hd Hj) as (w1 & f & pl & R & O & H & P2).
  exists w1. split; auto. split; auto. intros w2. fold w2 in P2.
  assert (M : forall res q, match_pairs (e_ls e) t (sortpairs f) = Some res -> In q res -> pm_quad n q /\ is_type t q /\ one_pairing jobs (totals q)) by (intros res q; now apply mixed_match).
  split; [|split].
  - intros r h mp k fuel I Pk Hk. apply (join_fails fuel w2 _ He P2). left. cbn [set_dirs pl_dirs]. now apply (wrong_count jobs _ r h mp k).
  - intros No fuel. apply (join_fails fuel w2 _ He P2). cbn [set_dirs pl_dirs]. destruct (match_pairs (e_ls e) t (sortpairs f)) as [[|q res]|] eqn:E; auto. exfalso. apply (No (totals q)). apply (M (q :: res) q eq_refl). now left.
  - intros fuel w3 H31 Ht2 Hfu E. destruct (join_writes fuel w2 _ w3 Hfu H31 Ht2 He P2 E) as (res & r & Em & LQ & Nd & A & _).
    { cbn [set_dirs pl_dirs]. intros res q Em Hq. destruct (M res q Em Hq) as (? & ? & _). auto. }
    exists r. split; auto. split; auto. intros z Hz. destruct (A z Hz) as (Pz & Tz & Lz & q & Hq & Rq). split; auto. split; auto. split; auto.
    cbn [set_dirs pl_dirs] in Em. destruct (M res q Em Hq) as (Pq & Tq & Oq). exists q. auto.
Qed.
End Mixed.
