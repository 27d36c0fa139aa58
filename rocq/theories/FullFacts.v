(* Runs on a disk that fills up. *)
From Coq Require Import Ascii String List ZArith Lia Arith Bool.
From Verif Require Import Base BaseFacts ModelWrite TextFacts ModelMain ModelJobs SpecJobs SplitFacts JobsFacts JobsThms ModelFull SpecFull.
Import ListNotations.
Notation length := List.length.
Open Scope nat_scope.

(* programs that write through one handle at a time *)
Fixpoint sequential (cur : option (text * text)) (pos : nat) (l : list Action) : Prop :=
  match l with
  | [] => True
  | MakeDir _ :: r => sequential cur pos r
  | MakeFile d f :: r => sequential (Some (d, f)) 0 r
  | WriteAt d f o s :: r => cur = Some (d, f) /\ o = pos /\ sequential cur (pos + length s) r
  end.
Fixpoint made (l : list Action) : list (text * text) :=
  match l with
  | [] => []
  | MakeFile d f :: r => (d, f) :: made r
  | _ :: r => made r
  end.
Lemma made_in l d f : In (d, f) (made l) <-> In (MakeFile d f) l.
Proof.
  induction l as [|[d0|d0 f0|d0 f0 o s] l IH]; cbn [made In]; [tauto| | |]; rewrite IH.
  - split; [now right|intros [H|H]; [discriminate|auto]].
  - split; (intros [H|H]; [left; congruence|now right]).
  - split; [now right|intros [H|H]; [discriminate|auto]].
Qed.
Lemma made_app l l' : made (l ++ l') = made l ++ made l'.
Proof. induction l as [|[d|d f|d f o s] l IH]; cbn [made app]; auto. now rewrite IH. Qed.
Lemma bytes_app l l' : bytes_written (l ++ l') = bytes_written l + bytes_written l'.
Proof. induction l as [|[d|d f|d f o s] l IH]; cbn [bytes_written app]; auto. rewrite IH. lia. Qed.
Lemma run_app l l' k : run_full (l ++ l') k = let '(k', b) := run_full l k in if b then run_full l' k' else (k', false).
Proof. revert k. induction l as [|a l IH]; intros k; cbn [app run_full]; auto. destruct (act_full k a); auto. Qed.
Lemma length_file st d f : file_length st d f = match file st d f with Some b => length b | None => 0 end.
Proof. unfold file_length, file. now destruct (st d). Qed.
Lemma sequential_writes dir f c : forall pos r, sequential (Some (dir, f)) (pos + length (concat c)) r -> sequential (Some (dir, f)) pos (writes dir f pos c ++ r).
Proof.
  induction c as [|s c IH]; intros pos r H; cbn [writes app sequential concat] in *; [now rewrite Nat.add_0_r in H|]. split; auto. split; auto. apply IH.
  rewrite app_length in H. now rewrite <- Nat.add_assoc.
Qed.
Lemma sequential_files dir fl : forall cur pos, sequential cur pos (files_acts dir fl).
Proof.
  unfold files_acts. induction fl as [|[[k l] c] fl IH]; intros cur pos; cbn [map concat]; [exact I|]. unfold put_acts. cbn [app sequential]. apply sequential_writes. apply IH.
Qed.
Lemma made_writes dir f c : forall o, made (writes dir f o c) = [].
Proof. induction c as [|s c IH]; intros o; cbn [writes made]; auto. Qed.
Lemma made_files dir fl : made (files_acts dir fl) = map (fun e => (dir, fst (fst e))) fl.
Proof.
  unfold files_acts. induction fl as [|[[k l] c] fl IH]; cbn [map concat fst]; auto. rewrite made_app, IH. unfold put_acts. cbn [made app]. now rewrite made_writes.
Qed.

(* ---- enough space ---- *)
Lemma act_same_free st d f o s st' : act st (WriteAt d f o s) = Some st' -> exists b, file st d f = Some b /\ file_length st d f = length b /\ put_file st d f (write_at b o s) st'.
Proof.
  intros E. cbn [act] in E. unfold file, file_length. destruct (st d) as [files|] eqn:Ed; [|discriminate]. cbn [bind] in E. destruct (files f) as [b|] eqn:Ef; [|discriminate]. cbn [bind] in E. injection E as <-.
  exists b. split; auto. split; auto. now apply upd_file.
Qed.
Lemma short_enough free len pos s : length s <= free -> short_write free len pos s = Some s.
Proof.
  intros H. unfold short_write. destruct s as [|c s]; auto. cbn [length] in H. destruct (Nat.eqb_spec (free + (len - pos)) 0); [lia|]. rewrite firstn_all2; auto. cbn [length]. lia.
Qed.
Definition open_at (cur : option (text * text)) (pos : nat) (st : Store) : Prop := match cur with Some (d, f) => exists b, file st d f = Some b /\ length b = pos | None => True end.
Lemma open_step st a st1 cur pos : act st a = Some st1 -> open_at cur pos st ->
  match a with
  | MakeDir _ => open_at cur pos st1
  | MakeFile d f => open_at (Some (d, f)) 0 st1
  | WriteAt d f o s => cur = Some (d, f) -> o = pos -> open_at cur (pos + length s) st1
  end.
Proof.
  intros E1 Op. destruct a as [d|d f|d f o s].
  - destruct (act_dir st d) as (st2 & E2 & _ & F). rewrite E2 in E1. injection E1 as <-. unfold open_at in *. destruct cur as [[d' f']|]; auto. now rewrite F.
  - assert (Hd : hasdir st d) by (unfold hasdir; cbn [act] in E1; destruct (st d); [discriminate|discriminate E1]).
    destruct (act_file st d f Hd) as (st2 & E2 & _ & F & _). rewrite E2 in E1. injection E1 as ->. exists []. auto.
  - intros -> ->. destruct (act_same_free _ _ _ _ _ _ E1) as (b & Eb & _ & _ & Ef & _). destruct Op as (b' & Eb' & Lb). rewrite Eb in Eb'. injection Eb' as <-. rewrite <- Lb, write_end in Ef.
    exists (b ++ s). split; auto. rewrite app_length. lia.
Qed.
Lemma run_enough l : forall cur pos st free st', sequential cur pos l -> open_at cur pos st -> bytes_written l <= free -> perform l st = Some st' ->
  exists free' pos', run_full l (mkDisk st free pos) = (mkDisk st' free' pos', true) /\ free <= free' + bytes_written l.
Proof.
  induction l as [|a l IH]; intros cur pos st free st' Sq Op Hb P.
  - injection P as <-. eexists _, _. split; [reflexivity|cbn; lia].
  - unfold perform in P. cbn [fold_m] in P. destruct (act st a) as [st1|] eqn:Ea; [|discriminate]. cbn [bind] in P. change (perform l st1 = Some st') in P. cbn [run_full].
    assert (Op1 := open_step st a st1 cur pos Ea Op).
    destruct a as [d|d f|d f o s]; cbn [sequential bytes_written] in *.
    + cbn [act_full d_store d_free d_pos]. rewrite Ea. cbn [bind]. now apply (IH cur).
    + cbn [act_full d_store d_free d_pos]. rewrite Ea. cbn [bind]. destruct (IH (Some (d, f)) 0 st1 (free + file_length st d f) st') as (f' & p' & E & L); auto; [lia|].
      exists f', p'. split; auto. lia.
    + destruct Sq as (-> & -> & Sq). destruct Op as (b & Eb & Lb). cbn [act_full d_store d_free d_pos]. rewrite short_enough by lia. cbn [bind]. rewrite Ea. cbn [bind].
      rewrite length_file, Eb, Lb. destruct (IH (Some (d, f)) (pos + length s) st1 (free - (pos + length s - pos)) st') as (f' & p' & E & L); auto; [lia|].
      exists f', p'. split; auto. lia.
Qed.

(* ---- a program that makes new files only ---- *)
Definition apart (cur : option (text * text)) (l : list Action) (st : Store) : Prop :=
  NoDup (made l) /\ forall d f, In (d, f) (made l) -> file st d f = None.
Lemma apart_step a l st st' cur : act st a = Some st' -> apart cur (a :: l) st -> apart cur l st'.
Proof.
  intros E [N A]. destruct a as [d|d f|d f o s]; cbn [made] in *.
  - split; auto. intros d' f' I. destruct (act_dir st d) as (st1 & E1 & _ & F). rewrite E1 in E. injection E as <-. rewrite F. auto.
  - inversion N as [|? ? N1 N2]; subst. split; auto. intros d' f' I. assert (Hd : hasdir st d) by (unfold hasdir; cbn [act] in E; destruct (st d); [discriminate|discriminate E]).
    destruct (act_file st d f Hd) as (st1 & E1 & _ & _ & F). rewrite E1 in E. injection E as <-. rewrite F; [apply A; now right|].
    destruct (text_dec d' d) as [->|]; [|now left]. right. intros ->. contradiction.
  - split; auto. intros d' f' I. destruct (act_same_free _ _ _ _ _ _ E) as (b & Eb & _ & _ & _ & F). rewrite F; auto.
    destruct (text_dec d' d) as [->|]; [|now left]. right. intros ->. rewrite (A d f I) in Eb. discriminate.
Qed.
(* no space left *)
Lemma stuck l : forall cur pos st pos0 k, sequential cur pos0 l -> open_at cur pos st -> apart cur l st -> run_full l (mkDisk st 0 pos) = (k, true) ->
  idle l /\ d_free k = 0 /\ perform l st = Some (d_store k).
Proof.
  induction l as [|a l IH]; intros cur pos st pos0 k Sq Op Ap R; cbn [run_full] in R.
  - injection R as <-. split; [intros d f o s []|]. split; reflexivity.
  - destruct (act_full (mkDisk st 0 pos) a) as [k1|] eqn:E; [|discriminate]. destruct a as [d|d f|d f o s]; cbn [act_full d_store d_free d_pos sequential] in *.
    + destruct (act st (MakeDir d)) as [st1|] eqn:Ea; [|discriminate]. cbn [bind] in E. injection E as <-.
      destruct (IH cur pos st1 pos0 k Sq) as (A & B & C); auto.
      * destruct (act_dir st d) as (st2 & E2 & _ & F). rewrite E2 in Ea. injection Ea as <-. unfold open_at in *. destruct cur as [[d' f']|]; auto. now rewrite F.
      * now apply (apart_step (MakeDir d) l st st1).
      * split; [|split; auto]. { intros d' f' o' s' [I|I]; [discriminate|]. now apply A in I. } unfold perform. cbn [fold_m]. rewrite Ea. exact C.
    + destruct (act st (MakeFile d f)) as [st1|] eqn:Ea; [|discriminate]. cbn [bind] in E.
      assert (Z : file_length st d f = 0) by (rewrite length_file; rewrite (proj2 Ap d f); auto; cbn [made]; now left). rewrite Z in E. cbn [Nat.add] in E. injection E as <-.
      assert (Hd : hasdir st d) by (unfold hasdir; cbn [act] in Ea; destruct (st d); [discriminate|discriminate Ea]).
      destruct (act_file st d f Hd) as (st2 & E2 & _ & F & _). rewrite E2 in Ea. injection Ea as ->.
      destruct (IH (Some (d, f)) 0 st1 0 k Sq) as (A & B & C); auto.
      * exists []. auto.
      * exact (apart_step (MakeFile d f) l st st1 cur E2 Ap).
      * split; [|split; auto]. { intros d' f' o' s' [I|I]; [discriminate|]. now apply A in I. } unfold perform. cbn [fold_m]. rewrite E2. exact C.
    + destruct Sq as (-> & -> & Sq). destruct Op as (b & Eb & Lb). rewrite length_file, Eb, Lb in E. unfold short_write in E. rewrite Nat.sub_diag in E. cbn [Nat.add Nat.eqb] in E.
      destruct s as [|ch s]; [|discriminate]. cbn [bind length] in E. destruct (act st (WriteAt d f pos [])) as [st1|] eqn:Ea; [|discriminate]. cbn [bind] in E. injection E as <-.
      rewrite Nat.add_0_r in R. cbn [length] in Sq. rewrite Nat.add_0_r in Sq.
      destruct (act_same_free _ _ _ _ _ _ Ea) as (b' & Eb' & _ & _ & Ef & _). rewrite Eb in Eb'. injection Eb' as <-. cbn [write_at] in Ef.
      destruct (IH (Some (d, f)) pos st1 pos0 k Sq) as (A & B & C); auto.
      * exists b. auto.
      * exact (apart_step (WriteAt d f pos []) l st st1 (Some (d, f)) Ea Ap).
      * split; [|split; auto]. { intros d' f' o' s' I. apply in_inv in I. destruct I as [I|I]; [|now apply A in I]. assert (X : s' = []) by congruence. exact X. }
        unfold perform. cbn [fold_m]. change (act st (WriteAt d f pos0 [])) with (act st (WriteAt d f pos [])). rewrite Ea. exact C.
Qed.
(* a run on too little space that ends without a panic *)
Lemma cut_run l : forall cur pos st free k, sequential cur pos l -> open_at cur pos st -> apart cur l st -> free < bytes_written l -> run_full l (mkDisk st free pos) = (k, true) ->
  exists pre d f o s lost post, l = pre ++ WriteAt d f o (s ++ lost) :: post /\ s <> [] /\ lost <> [] /\ idle post /\ length lost + free = bytes_written l /\
    perform (pre ++ WriteAt d f o s :: post) st = Some (d_store k).
Proof.
  induction l as [|a l IH]; intros cur pos st free k Sq Op Ap Hb R; cbn [run_full bytes_written] in *; [lia|].
  destruct (act_full (mkDisk st free pos) a) as [k1|] eqn:E; [|discriminate].
  assert (Fin : forall st1, act st a = Some st1 -> (exists pre d f o s lost post, l = pre ++ WriteAt d f o (s ++ lost) :: post /\ s <> [] /\ lost <> [] /\ idle post /\
      length lost + free = bytes_written (a :: l) /\ perform (pre ++ WriteAt d f o s :: post) st1 = Some (d_store k)) ->
    exists pre d f o s lost post, a :: l = pre ++ WriteAt d f o (s ++ lost) :: post /\ s <> [] /\ lost <> [] /\ idle post /\ length lost + free = bytes_written (a :: l) /\
      perform (pre ++ WriteAt d f o s :: post) st = Some (d_store k)).
  { intros st1 E1 (pre & d & f & o & s & lost & post & -> & H1 & H2 & H3 & H4 & H5). exists (a :: pre), d, f, o, s, lost, post. split; auto. split; auto. split; auto. split; auto. split; auto.
    unfold perform. cbn [app fold_m]. rewrite E1. exact H5. }
  destruct a as [d|d f|d f o s]; cbn [act_full d_store d_free d_pos sequential] in *.
  - destruct (act st (MakeDir d)) as [st1|] eqn:Ea; [|discriminate]. cbn [bind] in E. injection E as <-. apply (Fin st1 eq_refl). apply (IH cur pos st1 free k Sq); auto.
    + destruct (act_dir st d) as (st2 & E2 & _ & F). rewrite E2 in Ea. injection Ea as <-. unfold open_at in *. destruct cur as [[d' f']|]; auto. now rewrite F.
    + now apply (apart_step (MakeDir d) l st st1).
  - destruct (act st (MakeFile d f)) as [st1|] eqn:Ea; [|discriminate]. cbn [bind] in E.
    assert (Z : file_length st d f = 0) by (rewrite length_file; rewrite (proj2 Ap d f); auto; cbn [made]; now left). rewrite Z, Nat.add_0_r in E. injection E as <-. apply (Fin st1 eq_refl).
    assert (Hd : hasdir st d) by (unfold hasdir; cbn [act] in Ea; destruct (st d); [discriminate|discriminate Ea]).
    destruct (act_file st d f Hd) as (st2 & E2 & _ & F & _). rewrite E2 in Ea. injection Ea as ->. apply (IH (Some (d, f)) 0 st1 free k Sq); auto.
    + exists []. auto.
    + exact (apart_step (MakeFile d f) l st st1 cur E2 Ap).
  - destruct Sq as (-> & -> & Sq). destruct Op as (b & Eb & Lb). rewrite length_file, Eb, Lb in E.
    destruct (Nat.le_gt_cases (length s) free) as [Hs|Hs].
    + rewrite short_enough in E by auto. cbn [bind] in E. destruct (act st (WriteAt d f pos s)) as [st1|] eqn:Ea; [|discriminate]. cbn [bind] in E. injection E as <-.
      destruct (act_same_free _ _ _ _ _ _ Ea) as (b' & Eb' & _ & _ & Ef & _). rewrite Eb in Eb'. injection Eb' as <-. rewrite <- Lb, write_end in Ef.
      replace (free - (pos + length s - pos)) with (free - length s) in R by lia.
      destruct (IH (Some (d, f)) (pos + length s) st1 (free - length s) k Sq) as (pre & d' & f' & o' & s' & lost & post & H); auto.
      * exists (b ++ s). split; auto. rewrite app_length. lia.
      * exact (apart_step (WriteAt d f pos s) l st st1 (Some (d, f)) Ea Ap).
      * lia.
      * apply (Fin st1 eq_refl). exists pre, d', f', o', s', lost, post. cbn [bytes_written]. destruct H as (H1 & H2 & H3 & H4 & H5 & H6). split; auto. split; auto. split; auto. split; auto. split; auto. lia.
    + unfold short_write in E. rewrite Nat.sub_diag, Nat.add_0_r in E. destruct s as [|ch s]; [cbn in Hs; lia|]. destruct (Nat.eqb_spec free 0) as [|Hf]; [discriminate|]. cbn [bind] in E.
      set (s0 := firstn free (ch :: s)) in *. assert (Ls : length s0 = free) by (unfold s0; rewrite firstn_length; lia).
      destruct (act st (WriteAt d f pos s0)) as [st1|] eqn:Ea; [|discriminate]. cbn [bind] in E. rewrite Ls in E. replace (free - (pos + free - pos)) with 0 in E by lia. injection E as <-.
      destruct (act_same_free _ _ _ _ _ _ Ea) as (b' & Eb' & _ & _ & Ef & _). rewrite Eb in Eb'. injection Eb' as <-. rewrite <- Lb, write_end in Ef.
      destruct (stuck l (Some (d, f)) (pos + free) st1 _ k Sq) as (A & B & C); auto.
      * exists (b ++ s0). split; auto. rewrite app_length. lia.
      * exact (apart_step (WriteAt d f pos s0) l st st1 (Some (d, f)) Ea Ap).
      * assert (Bi : bytes_written l = 0).
        { clear -A. induction l as [|[d0|d0 f0|d0 f0 o0 s1] l IH]; cbn [bytes_written]; auto; [apply IH|apply IH|]; try (intros d' f' o' s' I; apply (A d' f' o' s'); now right).
          rewrite (A d0 f0 o0 s1) by now left. cbn. apply IH. intros d' f' o' s' I. apply (A d' f' o' s'). now right. }
        exists [], d, f, pos, s0, (skipn free (ch :: s)), l. unfold s0. rewrite firstn_skipn. split; auto. split; [fold s0; intros Z; rewrite Z in Ls; cbn in Ls; lia|].
        split; [intros Z; apply (f_equal (@length ascii)) in Z; rewrite skipn_length in Z; cbn [List.length] in *; lia|]. split; auto. split; [rewrite skipn_length, Bi; cbn [length] in *; lia|].
        unfold perform. cbn [app fold_m]. fold s0. rewrite Ea. exact C.
Qed.
(* and that happens as soon as the space ends within the last write *)
Lemma idle_runs l : forall cur pos st pos0 st', sequential cur pos0 l -> idle l -> apart cur l st -> perform l st = Some st' -> exists k, run_full l (mkDisk st 0 pos) = (k, true) /\ d_store k = st'.
Proof.
  induction l as [|a l IH]; intros cur pos st pos0 st' Sq Id Ap P.
  - injection P as <-. eexists. split; reflexivity.
  - unfold perform in P. cbn [fold_m] in P. destruct (act st a) as [st1|] eqn:Ea; [|discriminate]. cbn [bind] in P. change (perform l st1 = Some st') in P.
    assert (Id' : idle l) by (intros d f o s I; apply (Id d f o s); now right). assert (Ap' := apart_step a l st st1 cur Ea Ap). cbn [run_full].
    destruct a as [d|d f|d f o s]; cbn [act_full d_store d_free d_pos sequential] in *.
    + rewrite Ea. cbn [bind]. now apply (IH cur pos st1 pos0).
    + rewrite Ea. cbn [bind]. assert (Z : file_length st d f = 0) by (rewrite length_file; rewrite (proj2 Ap d f); auto; cbn [made]; now left). rewrite Z. cbn [Nat.add].
      now apply (IH (Some (d, f)) 0 st1 0).
    + destruct Sq as (-> & -> & Sq). rewrite (Id d f pos0 s) in * by now left. cbn [short_write bind length].
      change (act st (WriteAt d f pos [])) with (act st (WriteAt d f pos0 [])). rewrite Ea. cbn [bind]. rewrite !Nat.add_0_r in *. now apply (IH (Some (d, f)) pos st1 pos0).
Qed.
Lemma sequential_tail pre r : forall cur pos, sequential cur pos (pre ++ r) -> exists cur' pos', sequential cur' pos' r /\
  forall st st', perform pre st = Some st' -> open_at cur pos st -> open_at cur' pos' st'.
Proof.
  induction pre as [|a pre IH]; intros cur pos Sq; [exists cur, pos; split; auto; intros st st' P; now injection P as <-|]. 
  assert (St : forall st st', perform (a :: pre) st = Some st' -> exists st1, act st a = Some st1 /\ perform pre st1 = Some st').
  { intros st st' P. unfold perform in P. cbn [fold_m] in P. destruct (act st a) as [st1|] eqn:Ea; [|discriminate]. exists st1. auto. }
  destruct a as [d|d f|d f o s]; cbn [app sequential] in Sq.
  - destruct (IH cur pos Sq) as (c' & p' & A & B). exists c', p'. split; auto. intros st st' P Op. destruct (St st st' P) as (st1 & E1 & P1). apply (B st1); auto.
    destruct (act_dir st d) as (st2 & E2 & _ & F). rewrite E2 in E1. injection E1 as <-. unfold open_at in *. destruct cur as [[d' f']|]; auto. now rewrite F.
  - destruct (IH (Some (d, f)) 0 Sq) as (c' & p' & A & B). exists c', p'. split; auto. intros st st' P Op. destruct (St st st' P) as (st1 & E1 & P1). apply (B st1); auto.
    assert (Hd : hasdir st d) by (unfold hasdir; cbn [act] in E1; destruct (st d); [discriminate|discriminate E1]).
    destruct (act_file st d f Hd) as (st2 & E2 & _ & F & _). rewrite E2 in E1. injection E1 as ->. exists []. auto.
  - destruct Sq as (-> & -> & Sq). destruct (IH (Some (d, f)) (pos + length s) Sq) as (c' & p' & A & B). exists c', p'. split; auto. intros st st' P Op. destruct (St st st' P) as (st1 & E1 & P1). apply (B st1); auto.
    destruct (act_same_free _ _ _ _ _ _ E1) as (b & Eb & _ & _ & Ef & _). destruct Op as (b' & Eb' & Lb). rewrite Eb in Eb'. injection Eb' as <-. rewrite <- Lb, write_end in Ef.
    exists (b ++ s). split; auto. rewrite app_length. lia.
Qed.
