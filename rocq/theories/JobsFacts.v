(* Interleavings of programs that write the same contents. *)
From Coq Require Import Ascii String List ZArith Lia Arith Bool.
From Verif Require Import Base BaseFacts ModelWrite TextFacts ModelMain ModelJobs SpecJobs SplitFacts.
Import ListNotations.
Notation length := List.length.
Open Scope nat_scope.

(* ---- one file ---- *)
Lemma nth_error_firstn' {A} (l : list A) o i : i < o -> nth_error (firstn o l) i = nth_error l i.
Proof. revert o i. induction l as [|x l IH]; intros [|o] [|i] H; cbn; auto; try lia. apply IH. lia. Qed.
Lemma nth_error_skipn' {A} (l : list A) o i : nth_error (skipn o l) i = nth_error l (o + i).
Proof. revert o. induction l as [|x l IH]; intros [|o]; cbn; auto. now destruct i. Qed.
Lemma nth_write_at b o s i : s <> [] -> nth_error (write_at b o s) i =
  if i <? o then (if i <? length b then nth_error b i else Some Ascii.zero)
  else if i <? o + length s then nth_error s (i - o) else nth_error b i.
Proof.
  intros Hs. unfold write_at. destruct s as [|c s]; [congruence|]. set (u := c :: s) in *. clearbody u.
  destruct (Nat.ltb_spec i o) as [H|H].
  - destruct (Nat.ltb_spec i (length b)) as [H1|H1].
    + rewrite nth_error_app1 by (rewrite firstn_length; lia). now rewrite nth_error_firstn' by lia.
    + rewrite nth_error_app2 by (rewrite firstn_length; lia). rewrite nth_error_app1 by (rewrite repeat_length, firstn_length; lia).
      rewrite firstn_length. rewrite nth_error_repeat; auto. lia.
  - rewrite app_assoc. rewrite nth_error_app2 by (rewrite app_length, repeat_length, firstn_length; lia).
    rewrite app_length, repeat_length, firstn_length. replace (Nat.min o (length b) + (o - length b)) with o by lia.
    destruct (Nat.ltb_spec i (o + length u)) as [H1|H1].
    + apply nth_error_app1. lia.
    + rewrite nth_error_app2 by lia. rewrite nth_error_skipn'. f_equal. lia.
Qed.

Lemma length_write_at b o s : s <> [] -> length (write_at b o s) = Nat.max (length b) (o + length s).
Proof.
  intros Hs. unfold write_at. destruct s as [|c s]; [congruence|]. set (u := c :: s) in *. clearbody u.
  rewrite !app_length, repeat_length, firstn_length, skipn_length. lia.
Qed.
Lemma nth_error_eq {A} (l l' : list A) : length l <= length l' -> (forall i, i < length l' -> nth_error l i = nth_error l' i) -> l = l'.
Proof.
  revert l'. induction l as [|x l IH]; intros [|y l'] H E; cbn in *; try lia; auto.
  - specialize (E 0 ltac:(lia)). discriminate.
  - pose proof (E 0 ltac:(lia)) as E0. injection E0 as ->. f_equal. apply IH; [lia|]. intros i Hi. apply (E (S i)). lia.
Qed.

(* ---- the store ---- *)
Definition hasdir (st : Store) (d : text) : Prop := st d <> None.
Definition file (st : Store) (d f : text) : option text := match st d with Some files => files f | None => None end.
Definition hasfile (st : Store) (d f : text) : Prop := file st d f <> None.

Lemma upd_same {A} (g : text -> A) k v : upd g k v k = v.
Proof. unfold upd. now rewrite text_eqb_refl. Qed.
Lemma upd_other {A} (g : text -> A) k v k' : k' <> k -> upd g k v k' = g k'.
Proof. intros H. unfold upd. now rewrite (text_eqb_neq _ _ H). Qed.

Lemma act_dir st d : exists st', act st (MakeDir d) = Some st' /\ (forall d', hasdir st' d' <-> d' = d \/ hasdir st d') /\ forall d' f', file st' d' f' = file st d' f'.
Proof.
  unfold act, hasdir, file. eexists. split; [reflexivity|]. destruct (st d) as [fs|] eqn:E.
  - split; [|reflexivity]. intros d'. split; [now right|]. intros [->|H]; auto. congruence.
  - split; [intros d'|intros d' f']; (destruct (text_dec d' d) as [->|N]; [rewrite upd_same|rewrite (upd_other _ _ _ _ N)]).
    + split; [now left|discriminate].
    + split; [now right|intros [H|H]; [contradiction|auto]].
    + now rewrite E.
    + reflexivity.
Qed.
Definition put_file (st : Store) (d f : text) (b : text) (st' : Store) : Prop :=
  (forall d', hasdir st' d' <-> hasdir st d') /\ file st' d f = Some b /\ forall d' f', d' <> d \/ f' <> f -> file st' d' f' = file st d' f'.
Lemma upd_file st d files f b : st d = Some files -> put_file st d f b (upd st d (Some (upd files f (Some b)))).
Proof.
  intros E. unfold put_file, hasdir, file. split; [|split].
  - intros d'. destruct (text_dec d' d) as [->|N]; [rewrite upd_same|rewrite (upd_other _ _ _ _ N)]; [|reflexivity]. rewrite E. split; discriminate.
  - now rewrite !upd_same.
  - intros d' f' H. destruct (text_dec d' d) as [->|N]; [rewrite upd_same|now rewrite (upd_other _ _ _ _ N)]. rewrite E.
    destruct H as [H|H]; [contradiction|]. now rewrite (upd_other _ _ _ _ H).
Qed.
Lemma act_file st d f : hasdir st d -> exists st', act st (MakeFile d f) = Some st' /\ put_file st d f [] st'.
Proof.
  unfold hasdir. destruct (st d) as [files|] eqn:E; [|congruence]. intros _. cbn [act]. rewrite E. cbn [bind]. eexists. split; [reflexivity|]. now apply upd_file.
Qed.
Lemma act_write st d f b o s : file st d f = Some b -> exists st', act st (WriteAt d f o s) = Some st' /\ put_file st d f (write_at b o s) st'.
Proof.
  unfold file. destruct (st d) as [files|] eqn:E; [|congruence]. intros H. cbn [act]. rewrite E. cbn [bind]. rewrite H. cbn [bind]. eexists. split; [reflexivity|]. now apply upd_file.
Qed.

(* ---- interleavings ---- *)
Definition covers (l : list Action) (d f : text) (i : nat) : Prop := exists o s, In (WriteAt d f o s) l /\ o <= i < o + length s.

Section Interleaving.
Variable C : text -> text -> text.
Variable T : text -> text -> Prop.

(* a program that can go on, and writes parts of C, all of it after creating a file *)
Fixpoint ready (dirs : text -> Prop) (files : text -> text -> Prop) (l : list Action) : Prop :=
  match l with
  | [] => True
  | MakeDir d :: r => ready (fun d' => d' = d \/ dirs d') files r
  | MakeFile d f :: r => dirs d /\ T d f /\ (forall i, i < length (C d f) -> covers r d f i) /\ ready dirs (fun d' f' => (d' = d /\ f' = f) \/ files d' f') r
  | WriteAt d f o s :: r => files d f /\ T d f /\ (forall j, j < length s -> nth_error (C d f) (o + j) = nth_error s j) /\ ready dirs files r
  end.
Lemma ready_mono l : forall (D D' : text -> Prop) (F F' : text -> text -> Prop), (forall d, D d -> D' d) -> (forall d f, F d f -> F' d f) -> ready D F l -> ready D' F' l.
Proof.
  induction l as [|[d|d f|d f o s] l IH]; intros D D' F F' HD HF; cbn [ready]; auto.
  - apply IH; auto. intros d' [->|H]; auto.
  - intros (H1 & H2 & H3 & H4). split; auto. split; auto. split; auto. revert H4. apply IH; auto. intros d' f' [H|H]; auto.
  - intros (H1 & H2 & H3 & H4). split; auto. split; auto. split; auto. revert H4. now apply IH.
Qed.

Definition settled (st : Store) (rems : list (list Action)) (d f : text) : Prop :=
  (exists p, In p rems /\ In (MakeFile d f) p) \/
  (exists b, file st d f = Some b /\ length b <= length (C d f) /\
     forall i, i < length (C d f) -> nth_error b i = nth_error (C d f) i \/ exists p, In p rems /\ covers p d f i).

Lemma interleave tr : forall rems st, interleaved rems tr -> Forall (ready (hasdir st) (hasfile st)) rems -> (forall d f, T d f -> settled st rems d f) ->
  exists st', perform tr st = Some st' /\ (forall d f, T d f -> file st' d f = Some (C d f)) /\ (forall d f, ~ T d f -> file st' d f = file st d f) /\
    forall d, hasdir st' d <-> hasdir st d \/ exists p, In p rems /\ In (MakeDir d) p.
Proof.
  induction tr as [|a tr IH]; intros rems st I R S.
  - inversion I as [? E|]; subst. rewrite Forall_forall in E. exists st. split; [reflexivity|]. split; [|split; [reflexivity|]].
    + intros d f Td. destruct (S d f Td) as [(p & Hp & H)|(b & Eb & Lb & Hb)]; [rewrite (E p Hp) in H; destruct H|].
      rewrite Eb. f_equal. apply nth_error_eq; auto. intros i Hi. destruct (Hb i Hi) as [H|(p & Hp & o & s & H & _)]; auto. rewrite (E p Hp) in H. destruct H.
    + intros d. split; [now left|]. intros [H|(p & Hp & H)]; auto. rewrite (E p Hp) in H. destruct H.
  - inversion I as [|before ? p after ? I']; subst. apply Forall_app in R as [Rb R]. inversion R as [|? ? Rp Ra]; subst.
    assert (Old : forall (Q : list Action -> Prop), (forall l, Q l -> l = a :: p -> Q p) -> (exists l, In l (before ++ (a :: p) :: after) /\ Q l) -> exists l, In l (before ++ p :: after) /\ Q l).
    { intros Q HQ (l & Hl & Ql). apply in_app_iff in Hl as [Hl|[Hl|Hl]].
      - exists l. split; auto. apply in_app_iff. now left.
      - exists p. split; [apply in_app_iff; right; now left|]. now apply (HQ l).
      - exists l. split; auto. apply in_app_iff. right. now right. }
    assert (New : forall (Q : list Action -> Prop), (Q p -> Q (a :: p)) -> (exists l, In l (before ++ p :: after) /\ Q l) -> exists l, In l (before ++ (a :: p) :: after) /\ Q l).
    { intros Q HQ (l & Hl & Ql). apply in_app_iff in Hl as [Hl|[Hl|Hl]].
      - exists l. split; auto. apply in_app_iff. now left.
      - exists (a :: p). split; [apply in_app_iff; right; now left|]. subst l. auto.
      - exists l. split; auto. apply in_app_iff. right. now right. }
    assert (HereP : In p (before ++ p :: after)) by (apply in_app_iff; right; now left).
    destruct a as [d|d f|d f o s]; cbn [ready] in Rp.
    + destruct (act_dir st d) as (st1 & E & HD & HF). destruct (IH (before ++ p :: after) st1 I') as (st' & P & A1 & A2 & A3).
      * assert (M : forall l, ready (hasdir st) (hasfile st) l -> ready (hasdir st1) (hasfile st1) l).
        { intros l. apply ready_mono; [intros; apply HD; now right|]. intros d' f'. unfold hasfile. now rewrite HF. }
        apply Forall_app. split; [now apply (Forall_impl _ M)|]. constructor; [|now apply (Forall_impl _ M)].
        revert Rp. apply ready_mono; [intros d'; apply HD|]. intros d' f'. unfold hasfile. now rewrite HF.
      * intros d' f' Td. destruct (S d' f' Td) as [H|(b & Eb & Lb & Hb)].
        -- left. revert H. apply Old. intros l Q ->. destruct Q as [Q|Q]; [discriminate|exact Q].
        -- right. exists b. rewrite HF. split; auto. split; auto. intros i Hi. destruct (Hb i Hi) as [H|H]; [now left|]. right. revert H. apply Old.
           intros l (o & s & Q & B) ->. destruct Q as [Q|Q]; [discriminate|]. now exists o, s.
      * exists st'. split; [cbn [perform fold_m]; unfold perform in *; cbn [fold_m]; rewrite E; exact P|]. split; auto. split.
        -- intros d' f' N. rewrite (A2 _ _ N). apply HF.
        -- intros d'. rewrite A3, HD. split.
           ++ intros [[->|H]|H]; [|now left|].
              ** right. exists (MakeDir d :: p). split; [apply in_app_iff; right; now left|now left].
              ** right. revert H. apply New. intros Q. now right.
           ++ intros [H|(l & Hl & Q)]; [now (left; right)|]. apply in_app_iff in Hl as [Hl|[<-|Hl]].
              ** right. exists l. split; auto. apply in_app_iff. now left.
              ** destruct Q as [Q|Q]; [injection Q as ->; now (left; left)|]. right. now exists p.
              ** right. exists l. split; auto. apply in_app_iff. right. now right.
    + destruct Rp as (Dd & Td & Cov & Rp). destruct (act_file st d f Dd) as (st1 & E & HD & HF & HO).
      assert (Mono : forall d' f', hasfile st d' f' -> hasfile st1 d' f').
      { intros d' f' H. unfold hasfile. destruct (text_dec d' d) as [->|N]; [destruct (text_dec f' f) as [->|N]|]; [rewrite HF; discriminate| |]; rewrite HO by auto; exact H. }
      destruct (IH (before ++ p :: after) st1 I') as (st' & P & A1 & A2 & A3).
      * assert (M : forall l, ready (hasdir st) (hasfile st) l -> ready (hasdir st1) (hasfile st1) l).
        { intros l. apply ready_mono; auto. intros; now apply HD. }
        apply Forall_app. split; [now apply (Forall_impl _ M)|]. constructor; [|now apply (Forall_impl _ M)].
        revert Rp. apply ready_mono; [intros d'; apply HD|]. intros d' f' [[-> ->]|H]; auto. unfold hasfile. rewrite HF. discriminate.
      * intros d' f' Td'. assert (K : (d' = d /\ f' = f) \/ (d' <> d \/ f' <> f)) by (destruct (text_dec d' d); [destruct (text_dec f' f)|]; auto).
        destruct K as [[-> ->]|K].
        -- right. exists []. split; auto. split; [cbn; lia|]. intros i Hi. right. exists p. auto.
        -- destruct (S d' f' Td') as [H|(b & Eb & Lb & Hb)].
           ++ left. revert H. apply Old. intros l Q ->. destruct Q as [Q|Q]; [injection Q as -> ->; tauto|exact Q].
           ++ right. exists b. rewrite HO by auto. split; auto. split; auto. intros i Hi. destruct (Hb i Hi) as [H|H]; [now left|]. right. revert H. apply Old.
              intros l (o & s & Q & B) ->. destruct Q as [Q|Q]; [discriminate|]. now exists o, s.
      * exists st'. split; [unfold perform in *; cbn [fold_m]; rewrite E; exact P|]. split; auto. split.
        -- intros d' f' N. rewrite (A2 _ _ N). apply HO. destruct (text_dec d' d) as [->|]; [|auto]. destruct (text_dec f' f) as [->|]; [contradiction|auto].
        -- intros d'. rewrite A3, HD. apply or_iff_compat_l. split; [apply New; intros Q; now right|apply Old].
           intros l Q ->. destruct Q as [Q|Q]; [discriminate|exact Q].
    + destruct Rp as (Fd & Td & Sl & Rp). unfold hasfile in Fd. destruct (file st d f) as [b0|] eqn:Eb0; [clear Fd|congruence].
      destruct (act_write st d f b0 o s Eb0) as (st1 & E & HD & HF & HO).
      assert (Mono : forall d' f', hasfile st d' f' -> hasfile st1 d' f').
      { intros d' f' H. unfold hasfile. destruct (text_dec d' d) as [->|N]; [destruct (text_dec f' f) as [->|N]|]; [rewrite HF; discriminate| |]; rewrite HO by auto; exact H. }
      assert (M : forall l, ready (hasdir st) (hasfile st) l -> ready (hasdir st1) (hasfile st1) l).
      { intros l. apply ready_mono; auto. intros; now apply HD. }
      destruct (IH (before ++ p :: after) st1 I') as (st' & P & A1 & A2 & A3).
      * apply Forall_app. split; [now apply (Forall_impl _ M)|]. constructor; [now apply M|now apply (Forall_impl _ M)].
      * intros d' f' Td'. destruct (S d' f' Td') as [H|(b & Eb & Lb & Hb)].
        { left. revert H. apply Old. intros l Q ->. destruct Q as [Q|Q]; [discriminate|exact Q]. }
        right. assert (K : (d' = d /\ f' = f) \/ (d' <> d \/ f' <> f)) by (destruct (text_dec d' d); [destruct (text_dec f' f)|]; auto).
        destruct K as [[-> ->]|K].
        -- rewrite Eb0 in Eb. injection Eb as ->. exists (write_at b o s). split; auto.
           destruct (list_eq_dec ascii_dec s []) as [->|Ns].
           ++ cbn [write_at]. split; auto. intros i Hi. destruct (Hb i Hi) as [H|H]; [now left|]. right. revert H. apply Old.
              intros l (o' & s' & Q & B) ->. destruct Q as [Q|Q]; [injection Q as <- <-; cbn in B; lia|]. now exists o', s'.
           ++ assert (Ls : o + length s <= length (C d f)).
              { assert (N : nth_error (C d f) (o + (length s - 1)) <> None).
                { rewrite Sl by (destruct s; [congruence|cbn; lia]). apply nth_error_Some. destruct s; [congruence|cbn; lia]. }
                apply nth_error_Some in N. lia. }
              rewrite length_write_at by auto. split; [lia|]. intros i Hi. rewrite nth_write_at by auto.
              destruct (Nat.ltb_spec i o) as [H1|H1]; [|destruct (Nat.ltb_spec i (o + length s)) as [H2|H2]].
              ** destruct (Hb i Hi) as [H|H].
                 --- left. destruct (Nat.ltb_spec i (length b)) as [H3|H3]; auto. exfalso.
                     apply nth_error_None in H3. rewrite H3 in H. symmetry in H. apply nth_error_None in H. lia.
                 --- right. revert H. apply Old. intros l (o' & s' & Q & B) ->. destruct Q as [Q|Q]; [injection Q as <- <-; lia|]. now exists o', s'.
              ** left. rewrite <- Sl by lia. f_equal. lia.
              ** destruct (Hb i Hi) as [H|H]; [now left|]. right. revert H. apply Old. intros l (o' & s' & Q & B) ->.
                 destruct Q as [Q|Q]; [injection Q as <- <-; lia|]. now exists o', s'.
        -- exists b. rewrite HO by auto. split; auto. split; auto. intros i Hi. destruct (Hb i Hi) as [H|H]; [now left|]. right. revert H. apply Old.
           intros l (o' & s' & Q & B) ->. destruct Q as [Q|Q]; [injection Q as <- <- <- <-; tauto|]. now exists o', s'.
      * exists st'. split; [unfold perform in *; cbn [fold_m]; rewrite E; exact P|]. split; auto. split.
        -- intros d' f' N. rewrite (A2 _ _ N). apply HO. destruct (text_dec d' d) as [->|]; [|auto]. destruct (text_dec f' f) as [->|]; [contradiction|auto].
        -- intros d'. rewrite A3, HD. apply or_iff_compat_l. split; [apply New; intros Q; now right|apply Old].
           intros l Q ->. destruct Q as [Q|Q]; [discriminate|exact Q].
Qed.
End Interleaving.
