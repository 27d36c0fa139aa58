(* Interleavings of programs, some of them killed. *)
From Coq Require Import Ascii String List ZArith Lia Arith Bool.
From Verif Require Import Base BaseFacts ModelWrite TextFacts ModelMain ModelJobs SpecJobs SpecKilled SplitFacts JobsFacts JobsThms.
Import ListNotations.
Notation length := List.length.
Open Scope nat_scope.

Section Interleaving.
Variable C : text -> text -> text.
Variables T U : text -> text -> Prop.

(* as before, with the files of T followed and the other files of U written anyhow *)
Fixpoint steady (dirs : text -> Prop) (files : text -> text -> Prop) (l : list Action) : Prop :=
  match l with
  | [] => True
  | MakeDir d :: r => steady (fun d' => d' = d \/ dirs d') files r
  | MakeFile d f :: r => dirs d /\ U d f /\ (T d f -> forall i, i < length (C d f) -> covers r d f i) /\ steady dirs (fun d' f' => (d' = d /\ f' = f) \/ files d' f') r
  | WriteAt d f o s :: r => files d f /\ U d f /\ (T d f -> forall j, j < length s -> nth_error (C d f) (o + j) = nth_error s j) /\ steady dirs files r
  end.
Lemma steady_mono l : forall (D D' : text -> Prop) (F F' : text -> text -> Prop), (forall d, D d -> D' d) -> (forall d f, F d f -> F' d f) -> steady D F l -> steady D' F' l.
Proof.
  induction l as [|[d|d f|d f o s] l IH]; intros D D' F F' HD HF; cbn [steady]; auto.
  - apply IH; auto. intros d' [->|H]; auto.
  - intros (H1 & H2 & H3 & H4). split; auto. split; auto. split; auto. revert H4. apply IH; auto. intros d' f' [H|H]; auto.
  - intros (H1 & H2 & H3 & H4). split; auto. split; auto. split; auto. revert H4. now apply IH.
Qed.

Definition settled2 (st : Store) (rems : list (list Action)) (d f : text) : Prop :=
  (exists p, In p rems /\ In (MakeFile d f) p) \/
  (exists b, file st d f = Some b /\ length b <= length (C d f) /\
     forall i, i < length (C d f) -> nth_error b i = nth_error (C d f) i \/ exists p, In p rems /\ covers p d f i).

Lemma interleave2 tr : forall rems st, interleaved rems tr -> Forall (steady (hasdir st) (hasfile st)) rems -> (forall d f, T d f -> settled2 st rems d f) ->
  exists st', perform tr st = Some st' /\ (forall d f, T d f -> file st' d f = Some (C d f)) /\ (forall d f, ~ U d f -> file st' d f = file st d f) /\
    forall d, hasdir st' d <-> hasdir st d \/ exists p, In p rems /\ In (MakeDir d) p.
Proof.
  induction tr as [|a tr IH]; intros rems st I R S.
  - inversion I as [? E|]; subst. rewrite Forall_forall in E. exists st. split; [reflexivity|]. split; [|split; [reflexivity|]].
    + intros d f Td. destruct (S d f Td) as [(p & Hp & H)|(b & Eb & Lb & Hb)]; [rewrite (E p Hp) in H; destruct H|].
      rewrite Eb. f_equal. apply nth_error_eq; auto. intros i Hi. destruct (Hb i Hi) as [H|(p & Hp & o & s & H & _)]; auto. rewrite (E p Hp) in H. destruct H.
    + intros d. split; [now left|]. intros [H|(p & Hp & H)]; auto. rewrite (E p Hp) in H. destruct H.
  - inversion I as [|before ? p after ? I']; subst. apply Forall_app in R as [Rb R]. inversion R as [|? ? Rp Ra]; subst.
    assert (Old : forall (Q : list Action -> Prop), (forall l, Q l -> l = a :: p -> Q p) -> (exists l, In l (before ++ (a :: p) :: after) /\ Q l) -> exists l, In l (before ++ p :: after) /\ Q l).
    { intros Q HQ (l & Hl & Ql). apply in_app_iff in Hl as [Hl|[Hl|Hl]].
      - exists l. split; auto. apply in_app_iff. now left.
      - exists p. split; [apply in_app_iff; right; now left|]. now apply (HQ l).
      - exists l. split; auto. apply in_app_iff. right. now right. }
    assert (New : forall (Q : list Action -> Prop), (Q p -> Q (a :: p)) -> (exists l, In l (before ++ p :: after) /\ Q l) -> exists l, In l (before ++ (a :: p) :: after) /\ Q l).
    { intros Q HQ (l & Hl & Ql). apply in_app_iff in Hl as [Hl|[Hl|Hl]].
      - exists l. split; auto. apply in_app_iff. now left.
      - exists (a :: p). split; [apply in_app_iff; right; now left|]. subst l. auto.
      - exists l. split; auto. apply in_app_iff. right. now right. }
    assert (HereP : In p (before ++ p :: after)) by (apply in_app_iff; right; now left).
    destruct a as [d|d f|d f o s]; cbn [steady] in Rp.
    + destruct (act_dir st d) as (st1 & E & HD & HF). destruct (IH (before ++ p :: after) st1 I') as (st' & P & A1 & A2 & A3).
      * assert (M : forall l, steady (hasdir st) (hasfile st) l -> steady (hasdir st1) (hasfile st1) l).
        { intros l. apply steady_mono; [intros; apply HD; now right|]. intros d' f'. unfold hasfile. now rewrite HF. }
        apply Forall_app. split; [now apply (Forall_impl _ M)|]. constructor; [|now apply (Forall_impl _ M)].
        revert Rp. apply steady_mono; [intros d'; apply HD|]. intros d' f'. unfold hasfile. now rewrite HF.
      * intros d' f' Td. destruct (S d' f' Td) as [H|(b & Eb & Lb & Hb)].
        -- left. revert H. apply Old. intros l Q ->. destruct Q as [Q|Q]; [discriminate|exact Q].
        -- right. exists b. rewrite HF. split; auto. split; auto. intros i Hi. destruct (Hb i Hi) as [H|H]; [now left|]. right. revert H. apply Old.
           intros l (o & s & Q & B) ->. destruct Q as [Q|Q]; [discriminate|]. now exists o, s.
      * exists st'. split; [cbn [perform fold_m]; unfold perform in *; cbn [fold_m]; rewrite E; exact P|]. split; auto. split.
        -- intros d' f' N. rewrite (A2 _ _ N). apply HF.
        -- intros d'. rewrite A3, HD. split.
           ++ intros [[->|H]|H]; [|now left|].
              ** right. exists (MakeDir d :: p). split; [apply in_app_iff; right; now left|now left].
              ** right. revert H. apply New. intros Q. now right.
           ++ intros [H|(l & Hl & Q)]; [now (left; right)|]. apply in_app_iff in Hl as [Hl|[<-|Hl]].
              ** right. exists l. split; auto. apply in_app_iff. now left.
              ** destruct Q as [Q|Q]; [injection Q as ->; now (left; left)|]. right. now exists p.
              ** right. exists l. split; auto. apply in_app_iff. right. now right.
    + destruct Rp as (Dd & Td & Cov & Rp). destruct (act_file st d f Dd) as (st1 & E & HD & HF & HO).
      assert (Mono : forall d' f', hasfile st d' f' -> hasfile st1 d' f').
      { intros d' f' H. unfold hasfile. destruct (text_dec d' d) as [->|N]; [destruct (text_dec f' f) as [->|N]|]; [rewrite HF; discriminate| |]; rewrite HO by auto; exact H. }
      destruct (IH (before ++ p :: after) st1 I') as (st' & P & A1 & A2 & A3).
      * assert (M : forall l, steady (hasdir st) (hasfile st) l -> steady (hasdir st1) (hasfile st1) l).
        { intros l. apply steady_mono; auto. intros; now apply HD. }
        apply Forall_app. split; [now apply (Forall_impl _ M)|]. constructor; [|now apply (Forall_impl _ M)].
        revert Rp. apply steady_mono; [intros d'; apply HD|]. intros d' f' [[-> ->]|H]; auto. unfold hasfile. rewrite HF. discriminate.
      * intros d' f' Td'. assert (K : (d' = d /\ f' = f) \/ (d' <> d \/ f' <> f)) by (destruct (text_dec d' d); [destruct (text_dec f' f)|]; auto).
        destruct K as [[-> ->]|K].
        -- right. exists []. split; auto. split; [cbn; lia|]. intros i Hi. right. exists p. auto.
        -- destruct (S d' f' Td') as [H|(b & Eb & Lb & Hb)].
           ++ left. revert H. apply Old. intros l Q ->. destruct Q as [Q|Q]; [injection Q as -> ->; tauto|exact Q].
           ++ right. exists b. rewrite HO by auto. split; auto. split; auto. intros i Hi. destruct (Hb i Hi) as [H|H]; [now left|]. right. revert H. apply Old.
              intros l (o & s & Q & B) ->. destruct Q as [Q|Q]; [discriminate|]. now exists o, s.
      * exists st'. split; [unfold perform in *; cbn [fold_m]; rewrite E; exact P|]. split; auto. split.
        -- intros d' f' N. rewrite (A2 _ _ N). apply HO. destruct (text_dec d' d) as [->|]; [|auto]. destruct (text_dec f' f) as [->|]; [contradiction|auto].
        -- intros d'. rewrite A3, HD. apply or_iff_compat_l. split; [apply New; intros Q; now right|apply Old].
           intros l Q ->. destruct Q as [Q|Q]; [discriminate|exact Q].
    + destruct Rp as (Fd & Td & Sl & Rp). unfold hasfile in Fd. destruct (file st d f) as [b0|] eqn:Eb0; [clear Fd|congruence].
      destruct (act_write st d f b0 o s Eb0) as (st1 & E & HD & HF & HO).
      assert (Mono : forall d' f', hasfile st d' f' -> hasfile st1 d' f').
      { intros d' f' H. unfold hasfile. destruct (text_dec d' d) as [->|N]; [destruct (text_dec f' f) as [->|N]|]; [rewrite HF; discriminate| |]; rewrite HO by auto; exact H. }
      assert (M : forall l, steady (hasdir st) (hasfile st) l -> steady (hasdir st1) (hasfile st1) l).
      { intros l. apply steady_mono; auto. intros; now apply HD. }
      destruct (IH (before ++ p :: after) st1 I') as (st' & P & A1 & A2 & A3).
      * apply Forall_app. split; [now apply (Forall_impl _ M)|]. constructor; [now apply M|now apply (Forall_impl _ M)].
      * intros d' f' Td'. destruct (S d' f' Td') as [H|(b & Eb & Lb & Hb)].
        { left. revert H. apply Old. intros l Q ->. destruct Q as [Q|Q]; [discriminate|exact Q]. }
        right. assert (K : (d' = d /\ f' = f) \/ (d' <> d \/ f' <> f)) by (destruct (text_dec d' d); [destruct (text_dec f' f)|]; auto).
        destruct K as [[-> ->]|K].
        -- rewrite Eb0 in Eb. injection Eb as ->. exists (write_at b o s). split; auto.
           destruct (list_eq_dec ascii_dec s []) as [->|Ns].
           ++ cbn [write_at]. split; auto. intros i Hi. destruct (Hb i Hi) as [H|H]; [now left|]. right. revert H. apply Old.
              intros l (o' & s' & Q & B) ->. destruct Q as [Q|Q]; [injection Q as <- <-; cbn in B; lia|]. now exists o', s'.
           ++ assert (Ls : o + length s <= length (C d f)).
              { assert (N : nth_error (C d f) (o + (length s - 1)) <> None).
                { rewrite (Sl Td') by (destruct s; [congruence|cbn; lia]). apply nth_error_Some. destruct s; [congruence|cbn; lia]. }
                apply nth_error_Some in N. lia. }
              rewrite length_write_at by auto. split; [lia|]. intros i Hi. rewrite nth_write_at by auto.
              destruct (Nat.ltb_spec i o) as [H1|H1]; [|destruct (Nat.ltb_spec i (o + length s)) as [H2|H2]].
              ** destruct (Hb i Hi) as [H|H].
                 --- left. destruct (Nat.ltb_spec i (length b)) as [H3|H3]; auto. exfalso.
                     apply nth_error_None in H3. rewrite H3 in H. symmetry in H. apply nth_error_None in H. lia.
                 --- right. revert H. apply Old. intros l (o' & s' & Q & B) ->. destruct Q as [Q|Q]; [injection Q as <- <-; lia|]. now exists o', s'.
              ** left. rewrite <- (Sl Td') by lia. f_equal. lia.
              ** destruct (Hb i Hi) as [H|H]; [now left|]. right. revert H. apply Old. intros l (o' & s' & Q & B) ->.
                 destruct Q as [Q|Q]; [injection Q as <- <-; lia|]. now exists o', s'.
        -- exists b. rewrite HO by auto. split; auto. split; auto. intros i Hi. destruct (Hb i Hi) as [H|H]; [now left|]. right. revert H. apply Old.
           intros l (o' & s' & Q & B) ->. destruct Q as [Q|Q]; [injection Q as <- <- <- <-; tauto|]. now exists o', s'.
      * exists st'. split; [unfold perform in *; cbn [fold_m]; rewrite E; exact P|]. split; auto. split.
        -- intros d' f' N. rewrite (A2 _ _ N). apply HO. destruct (text_dec d' d) as [->|]; [|auto]. destruct (text_dec f' f) as [->|]; [contradiction|auto].
        -- intros d'. rewrite A3, HD. apply or_iff_compat_l. split; [apply New; intros Q; now right|apply Old].
           intros l Q ->. destruct Q as [Q|Q]; [discriminate|exact Q].
Qed.
End Interleaving.

(* ---- killed programs ---- *)
Lemma ready_steady C T U a : forall D F, ready C U D F a -> steady C T U D F a.
Proof.
  induction a as [|[d|d f|d f o s] a IH]; intros D F; cbn [ready steady]; auto.
  - intros (H1 & H2 & H3 & H4). repeat split; auto.
  - intros (H1 & H2 & H3 & H4). repeat split; auto.
Qed.
Lemma cut_steady C T U k a : cut_short k a -> forall D F, (forall d f, In (MakeFile d f) a -> ~ T d f) -> ready C U D F a -> steady C T U D F k.
Proof.
  induction 1 as [l|d f o s s' l|a k l H IH]; intros D F N; [now cbn [steady]|cbn [ready steady]|].
  - intros (H1 & H2 & H3 & H4). repeat split; auto. intros _ j Hj. rewrite H3 by (rewrite app_length; lia). now apply nth_error_app1.
  - assert (N' : forall d f, In (MakeFile d f) l -> ~ T d f) by (intros; apply N; now right).
    destruct a as [d|d f|d f o s]; cbn [ready steady].
    + now apply IH.
    + intros (H1 & H2 & H3 & H4). split; auto. split; auto. split; [|now apply IH]. intros X. exfalso. now apply (N d f (or_introl eq_refl)).
    + intros (H1 & H2 & H3 & H4). repeat split; auto.
Qed.
Lemma cut_dirs k a d : cut_short k a -> In (MakeDir d) k -> In (MakeDir d) a.
Proof. induction 1 as [l|d' f o s s' l|b k l H IH]; [intros []|intros [X|[]]; discriminate|]. intros [->|I]; [now left|right; auto]. Qed.

(* programs that end, others that are killed, and then those again *)
Lemma killed_again C U (acts1 acts2 killed : list (list Action)) tr1 tr2 st :
  (forall d f, U d f <-> In (MakeFile d f) (concat (acts1 ++ acts2))) ->
  (forall a, In a (acts1 ++ acts2) -> ready C U (fun _ => False) (fun _ _ => False) a) ->
  (forall a, In a acts2 -> ready C (fun d f => In (MakeFile d f) (concat acts2)) (fun _ => False) (fun _ _ => False) a) ->
  Forall (fun k => exists a, In a acts2 /\ cut_short k a) killed -> interleaved (acts1 ++ killed) tr1 -> interleaved acts2 tr2 ->
  exists st', perform (tr1 ++ tr2) st = Some st' /\ (forall d f, U d f -> file st' d f = Some (C d f)) /\ (forall d f, ~ U d f -> file st' d f = file st d f) /\
    forall d, hasdir st' d <-> hasdir st d \/ exists p, In p (acts1 ++ acts2) /\ In (MakeDir d) p.
Proof.
  intros HU R R2 K I1 I2. rewrite Forall_forall in K.
  set (T1 := fun d f => In (MakeFile d f) (concat acts1) /\ ~ In (MakeFile d f) (concat acts2)).
  destruct (interleave2 C T1 U tr1 (acts1 ++ killed) st I1) as (st1 & P1 & A1 & B1 & D1).
  { apply Forall_forall. intros p Hp. apply in_app_iff in Hp as [Hp|Hp].
    - apply ready_steady. refine (ready_mono C U p _ _ _ _ (fun _ x => False_ind _ x) (fun _ _ x => False_ind _ x) (R p _)). apply in_app_iff. now left.
    - destruct (K p Hp) as (a & Ha & Ca). apply (cut_steady C T1 U p a Ca).
      + intros d f Hm [_ X]. apply X. apply in_concat. now exists a.
      + refine (ready_mono C U a _ _ _ _ (fun _ x => False_ind _ x) (fun _ _ x => False_ind _ x) (R a _)). apply in_app_iff. now right. }
  { intros d f [X _]. left. apply in_concat in X as (p & Hp & X). exists p. split; auto. apply in_app_iff. now left. }
  destruct (interleave C (fun d f => In (MakeFile d f) (concat acts2)) tr2 acts2 st1 I2) as (st2 & P2 & A2 & B2 & D2).
  { apply Forall_forall. intros a Ha. exact (ready_mono C _ a _ _ _ _ (fun _ x => False_ind _ x) (fun _ _ x => False_ind _ x) (R2 a Ha)). }
  { intros d f X. left. apply in_concat in X as (p & Hp & X). now exists p. }
  exists st2. split; [now rewrite perform_app, P1|]. split; [|split].
  - intros d f X. apply HU in X. destruct (in_dec act_eq_dec (MakeFile d f) (concat acts2)) as [Y|Y]; [now apply A2|].
    rewrite (B2 d f Y). apply A1. split; auto. rewrite concat_app in X. apply in_app_iff in X as [X|X]; [exact X|contradiction].
  - intros d f X. rewrite B2; [now apply B1|]. intros Y. apply X, HU. rewrite concat_app. apply in_app_iff. now right.
  - intros d. rewrite D2, D1. split.
    + intros [[H|(p & Hp & H)]|(p & Hp & H)]; auto; right; [|exists p; rewrite in_app_iff; auto].
      apply in_app_iff in Hp as [Hp|Hp]; [exists p; rewrite in_app_iff; auto|]. destruct (K p Hp) as (a & Ha & Ca). exists a. rewrite in_app_iff. split; auto. now apply (cut_dirs p).
    + intros [H|(p & Hp & H)]; auto. apply in_app_iff in Hp as [Hp|Hp]; [left; right; exists p; rewrite in_app_iff; auto|right; now exists p].
Qed.
