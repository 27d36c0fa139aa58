(* The programs of a split search on a disk that fills up. *)
From Coq Require Import Ascii String List ZArith Lia Arith Bool.
From Verif Require Import Base BaseFacts ModelWrite TextFacts ModelMain ModelJobs SpecJobs SplitFacts JobsFacts JobsThms ModelFull SpecFull FullFacts.
Import ListNotations.
Notation length := List.length.
Open Scope nat_scope.

(* the calls of a program *)
Lemma calls args x y acts : run_actions args = Some (x, y, acts) -> exists dir fl, NoDup (map (fun e : text * Lines * list text => fst (fst e)) fl) /\ acts = MakeDir dir :: files_acts dir fl.
Proof.
  unfold run_actions. destruct (parse_args args) as [c|]; cbn [bind]; [|discriminate]. intros E. destruct c; try discriminate.
  all: match type of E with
  | bind (pairs_rowsum_acts ?a ?b ?c ?d ?e ?g) _ = _ => destruct (both_structured a b c d e g) as [(fl & _ & N & A & _)|[A _]]
  | bind (pair_single_acts ?a ?b ?c ?d ?e ?g ?h) _ = _ => destruct (single_structured a b c d e g h) as [(fl & _ & N & A & _)|[A _]]
  end; rewrite A in E; [|discriminate]; cbn [bind] in E; injection E as <- <- <-; eexists _, fl; split; [exact N|reflexivity].
Qed.
Lemma perform_all dir fl : forall st, hasdir st dir -> exists st', perform (files_acts dir fl) st = Some st'.
Proof.
  unfold files_acts. induction fl as [|[[k l] c] fl IH]; intros st H; cbn [map concat]; [exists st; reflexivity|].
  destruct (perform_put dir k c st H) as (st1 & E1 & H1 & _). destruct (IH st1) as (st2 & E2); [now apply H1|]. exists st2. rewrite perform_app, E1. exact E2.
Qed.
Definition proper (acts : list Action) : Prop := sequential None 0 acts /\ NoDup (made acts) /\ (forall st, exists st', perform acts st = Some st').
Lemma calls_proper args x y acts : run_actions args = Some (x, y, acts) -> proper acts.
Proof.
  intros E. destruct (calls args x y acts E) as (dir & fl & N & ->). split; [apply sequential_files|]. split.
  - cbn [made]. rewrite made_files. rewrite <- (map_map (fun e : text * Lines * list text => fst (fst e)) (fun k => (dir, k))). apply FinFun.Injective_map_NoDup; auto. intros a b Z. now injection Z.
  - intros st. destruct (act_dir st dir) as (st1 & E1 & H1 & _). destruct (perform_all dir fl st1) as (st2 & E2); [apply H1; tauto|]. exists st2. unfold perform in *. cbn [fold_m]. rewrite E1. exact E2.
Qed.

Lemma contents_file st d f : contents st d f = file st d f.
Proof. reflexivity. Qed.
Lemma fresh_apart acts st : proper acts -> fresh acts st -> apart None acts st.
Proof. intros (_ & N & _) F. split; auto. intros d f I. apply made_in in I. exact (F d f I). Qed.

Theorem enough_space acts : proper acts -> forall st free pos, bytes_written acts <= free ->
  exists k, run_full acts (mkDisk st free pos) = (k, true) /\ perform acts st = Some (d_store k).
Proof.
  intros (Sq & _ & P) st free pos H. destruct (P st) as (st' & E).
  assert (Sq' : sequential None pos acts).
  { clear -Sq. assert (G : forall l p p', sequential None p l -> sequential None p' l).
    { induction l as [|[d|d f|d f o s] l IH]; intros p p' S; cbn [sequential] in *; auto; [now apply (IH p)|destruct S as [S _]; discriminate S]. }
    now apply (G acts 0). }
  destruct (run_enough acts None pos st free st' Sq' I H E) as (f' & p' & R & _). exists (mkDisk st' f' p'). split; auto.
Qed.

(* the last write *)
Lemma idle_bytes l : idle l <-> bytes_written l = 0.
Proof.
  unfold idle. induction l as [|[d|d f|d f o s] l IH]; cbn [bytes_written In].
  - split; auto. intros _ d f o s [].
  - rewrite <- IH. split; intros H d' f' o' s'; [intros I; apply (H d' f' o' s'); now right|intros [Z|I]; [discriminate|now apply (H d' f' o' s')]].
  - rewrite <- IH. split; intros H d' f' o' s'; [intros I; apply (H d' f' o' s'); now right|intros [Z|I]; [discriminate|now apply (H d' f' o' s')]].
  - split.
    + intros H. rewrite (H d f o s) by now left. cbn. apply IH. intros d' f' o' s' I. apply (H d' f' o' s'). now right.
    + intros H. assert (Hs : length s = 0) by lia. assert (Hl : bytes_written l = 0) by lia. intros d' f' o' s' [Z|I]; [injection Z as _ _ _ <-; now destruct s|]. now apply (proj2 IH Hl d' f' o').
Qed.
Lemma last_write pre d f o s post pre' d' f' o' s' post' : pre ++ WriteAt d f o s :: post = pre' ++ WriteAt d' f' o' s' :: post' -> s <> [] -> s' <> [] -> idle post -> idle post' ->
  pre = pre' /\ d = d' /\ f = f' /\ o = o' /\ s = s' /\ post = post'.
Proof.
  revert pre'. induction pre as [|a pre IH]; intros [|a' pre'] E H H' I I'; cbn [app] in E.
  - injection E as -> -> -> -> ->. tauto.
  - injection E as <- ->. exfalso. apply H'. apply (I d' f' o'). apply in_app_iff. right. now left.
  - injection E as -> <-. exfalso. apply H. apply (I' d f o). apply in_app_iff. right. now left.
  - injection E as -> E. destruct (IH pre' E H H' I I') as (-> & R). tauto.
Qed.
Lemma in_made l cur pos d f o s r : sequential cur pos (l ++ WriteAt d f o s :: r) -> cur = Some (d, f) \/ In (d, f) (made l).
Proof.
  revert cur pos. induction l as [|[d0|d0 f0|d0 f0 o0 s0] l IH]; intros cur pos H; cbn [app sequential made] in *.
  - now left.
  - now apply (IH cur pos).
  - right. destruct (IH (Some (d0, f0)) 0 H) as [Z|I]; [left; now injection Z as -> ->|now right].
  - destruct H as (E & _ & H). destruct (IH cur _ H) as [Z|I]; auto.
Qed.
Lemma idle_files l : forall st st', idle l -> perform l st = Some st' -> forall d f, ~ In (d, f) (made l) -> file st' d f = file st d f.
Proof.
  induction l as [|a l IH]; intros st st' Id P d f N; [now injection P as <-|].
  unfold perform in P. cbn [fold_m] in P. destruct (act st a) as [st1|] eqn:Ea; [|discriminate]. cbn [bind] in P. change (perform l st1 = Some st') in P.
  assert (Id' : idle l) by (intros d' f' o s I; apply (Id d' f' o s); now right).
  assert (N' : ~ In (d, f) (made l)) by (intros I; apply N; destruct a; cbn [made]; auto; now right).
  rewrite (IH st1 st' Id' P d f N'). destruct a as [d0|d0 f0|d0 f0 o s].
  - destruct (act_dir st d0) as (st2 & E2 & _ & F). rewrite E2 in Ea. injection Ea as <-. apply F.
  - assert (Hd : hasdir st d0) by (unfold hasdir; cbn [act] in Ea; destruct (st d0); [discriminate|discriminate Ea]).
    destruct (act_file st d0 f0 Hd) as (st2 & E2 & _ & _ & F). rewrite E2 in Ea. injection Ea as <-. apply F.
    destruct (text_dec d d0) as [->|]; [|now left]. right. intros ->. apply N. cbn [made]. now left.
  - destruct (act_same_free _ _ _ _ _ _ Ea) as (b & Eb & _ & _ & Eb' & F). assert (Es : s = []) by (apply (Id d0 f0 o s); now left). subst s. cbn [write_at] in Eb'.
    destruct (text_dec d d0) as [->|]; [|apply F; now left]. destruct (text_dec f f0) as [->|]; [|apply F; now right]. now rewrite Eb, Eb'.
Qed.
(* files of idle calls: the same after stores that agree *)
Lemma idle_same l : forall st1 st2 st1' st2', idle l -> perform l st1 = Some st1' -> perform l st2 = Some st2' -> forall d f, file st1 d f = file st2 d f -> file st1' d f = file st2' d f.
Proof.
  induction l as [|a l IH]; intros st1 st2 st1' st2' Id P1 P2 d f E; [injection P1 as <-; injection P2 as <-; exact E|].
  unfold perform in P1, P2. cbn [fold_m] in P1, P2. destruct (act st1 a) as [t1|] eqn:E1; [|discriminate]. destruct (act st2 a) as [t2|] eqn:E2; [|discriminate]. cbn [bind] in P1, P2.
  assert (Id' : idle l) by (intros d' f' o s I; apply (Id d' f' o s); now right). apply (IH t1 t2 st1' st2' Id' P1 P2).
  destruct a as [d0|d0 f0|d0 f0 o s].
  - destruct (act_dir st1 d0) as (u1 & X1 & _ & F1), (act_dir st2 d0) as (u2 & X2 & _ & F2). rewrite X1 in E1. rewrite X2 in E2. injection E1 as <-. injection E2 as <-. now rewrite F1, F2.
  - assert (H1 : hasdir st1 d0) by (unfold hasdir; cbn [act] in E1; destruct (st1 d0); [discriminate|discriminate E1]).
    assert (H2 : hasdir st2 d0) by (unfold hasdir; cbn [act] in E2; destruct (st2 d0); [discriminate|discriminate E2]).
    destruct (act_file st1 d0 f0 H1) as (u1 & X1 & _ & Y1 & F1), (act_file st2 d0 f0 H2) as (u2 & X2 & _ & Y2 & F2). rewrite X1 in E1. rewrite X2 in E2. injection E1 as <-. injection E2 as <-.
    destruct (text_dec d d0) as [->|]; [destruct (text_dec f f0) as [->|]|]; [now rewrite Y1, Y2|rewrite F1, F2; auto|rewrite F1, F2; auto].
  - assert (Es : s = []) by (apply (Id d0 f0 o s); now left). subst s.
    destruct (act_same_free _ _ _ _ _ _ E1) as (b1 & B1 & _ & _ & C1 & F1), (act_same_free _ _ _ _ _ _ E2) as (b2 & B2 & _ & _ & C2 & F2). cbn [write_at] in C1, C2.
    destruct (text_dec d d0) as [->|]; [destruct (text_dec f f0) as [->|]|]; [congruence|rewrite F1, F2; auto|rewrite F1, F2; auto].
Qed.
Lemma run_stays l l' k k' : run_full (l ++ l') k = (k', true) -> exists k1, run_full l k = (k1, true) /\ run_full l' k1 = (k', true).
Proof. rewrite run_app. destruct (run_full l k) as [k1 []]; [|discriminate]. intros E. exists k1. auto. Qed.

(* the space ends within the last write *)
Theorem within_last acts : proper acts -> forall pre d f o s post, acts = pre ++ WriteAt d f o s :: post -> s <> [] -> idle post ->
  forall st free pos, fresh acts st -> bytes_written pre < free < bytes_written acts -> exists k whole b kept lost,
  run_full acts (mkDisk st free pos) = (k, true) /\ perform acts st = Some whole /\ s = kept ++ lost /\ kept <> [] /\ lost <> [] /\ length lost + free = bytes_written acts /\
  contents whole d f = Some (b ++ kept ++ lost) /\ contents (d_store k) d f = Some (b ++ kept) /\
  forall d' f', (d', f') <> (d, f) -> contents (d_store k) d' f' = contents whole d' f'.
Proof.
  intros Pr pre d f o s post E Hs Id st free pos Fr Hf. assert (Ap := fresh_apart acts st Pr Fr). destruct Pr as (Sq & N & P). destruct (P st) as (whole & W).
  assert (Sq' : sequential None pos acts).
  { clear -Sq. assert (G : forall l p p', sequential None p l -> sequential None p' l).
    { induction l as [|[d|d f|d f o s] l IH]; intros p p' S; cbn [sequential] in *; auto; [now apply (IH p)|destruct S as [S _]; discriminate S]. }
    now apply (G acts 0). }
  clear Sq. subst acts. rewrite bytes_app in *. cbn [bytes_written] in *. rewrite (proj1 (idle_bytes post) Id) in *.
  assert (Wa := W). rewrite perform_app in Wa. destruct (perform pre st) as [st1|] eqn:E1; [|discriminate]. cbn [bind] in Wa.
  destruct (sequential_tail pre (WriteAt d f o s :: post) None pos Sq') as (cur & pos1 & Sq1 & Op). specialize (Op st st1 E1 I). cbn [sequential] in Sq1. destruct Sq1 as (-> & -> & Sq1). destruct Op as (b & Eb & Lb).
  (* the calls before *)
  assert (R0 : exists free1, run_full pre (mkDisk st free pos) = (mkDisk st1 free1 pos1, true) /\ free1 + bytes_written pre = free).
  { assert (G : forall l cur p st fr, sequential cur p (l ++ WriteAt d f pos1 s :: post) -> open_at cur p st -> apart cur (l ++ WriteAt d f pos1 s :: post) st -> bytes_written l <= fr ->
        perform l st = Some st1 -> exists fr1, run_full l (mkDisk st fr p) = (mkDisk st1 fr1 pos1, true) /\ fr1 + bytes_written l = fr).
    { clear -s. induction l as [|a l IH]; intros cur p st0 fr S0 O0 A0 H0 P0; cbn [app] in S0, A0.
      - injection P0 as <-. cbn [sequential] in S0. destruct S0 as (_ & <- & _). exists fr. split; [reflexivity|cbn; lia].
      - unfold perform in P0. cbn [fold_m] in P0. destruct (act st0 a) as [t1|] eqn:Ea; [|discriminate]. cbn [bind] in P0. change (perform l t1 = Some st1) in P0. cbn [run_full].
        assert (O1 := open_step st0 a t1 cur p Ea O0). assert (A1 := apart_step a _ st0 t1 cur Ea A0). destruct a as [d0|d0 f0|d0 f0 o0 s0]; cbn [sequential bytes_written act_full d_store d_free d_pos] in *.
        + rewrite Ea. cbn [bind]. now apply (IH cur).
        + rewrite Ea. cbn [bind]. assert (Z : file_length st0 d0 f0 = 0) by (rewrite length_file; rewrite (proj2 A0 d0 f0); auto; cbn [made]; now left). rewrite Z, Nat.add_0_r.
          apply (IH (Some (d0, f0))); auto.
        + destruct S0 as (-> & -> & S0). rewrite short_enough by lia. cbn [bind]. rewrite Ea. cbn [bind]. destruct O0 as (b & Eb & Lb). rewrite length_file, Eb, Lb.
          destruct (IH (Some (d0, f0)) (p + length s0) t1 (fr - (p + length s0 - p)) S0) as (fr1 & R & L); auto; [lia|]. exists fr1. split; auto. lia. }
    refine (G pre None pos st free Sq' I Ap _ E1). lia. }
  destruct R0 as (free1 & R0 & L1).
  set (kept := firstn free1 s). set (lost := skipn free1 s). assert (Ek : s = kept ++ lost) by (symmetry; apply firstn_skipn).
  assert (Lk : length kept = free1) by (unfold kept; rewrite firstn_length; lia).
  assert (Ll : length lost = length s - free1) by (unfold lost; apply skipn_length).
  (* the cut write *)
  destruct (act_write st1 d f b pos1 kept Eb) as (st2 & E2 & H2 & F2 & G2). destruct (act_write st1 d f b pos1 s Eb) as (st2' & E2' & H2' & F2' & G2'). rewrite <- Lb, write_end in F2, F2'.
  unfold perform in Wa. cbn [fold_m] in Wa. rewrite E2' in Wa. cbn [bind] in Wa. change (perform post st2' = Some whole) in Wa.
  assert (A1 : apart (Some (d, f)) post st2).
  { assert (A1 : apart None (WriteAt d f pos1 s :: post) st1).
    { clear -Ap E1. revert st Ap E1. induction pre as [|a pre IH]; intros st Ap E1; [now injection E1 as <-|].
      unfold perform in E1. cbn [fold_m] in E1. destruct (act st a) as [t1|] eqn:Ea; [|discriminate]. cbn [bind] in E1. apply (IH t1); auto. now apply (apart_step a _ st t1). }
    exact (apart_step (WriteAt d f pos1 kept) post st1 st2 (Some (d, f)) E2 A1). }
  assert (Pp : exists st3, perform post st2 = Some st3).
  { destruct (perform post st2) as [st3|] eqn:E3; [now exists st3|]. exfalso. clear -Wa E3 H2 H2' F2 F2' G2 G2'.
    assert (HD : forall x, hasdir st2 x <-> hasdir st2' x) by (intros x; rewrite H2, H2'; reflexivity).
    assert (HF : forall x y, file st2 x y = None <-> file st2' x y = None).
    { intros x y. destruct (text_dec x d) as [->|]; [destruct (text_dec y f) as [->|]|]; [rewrite F2, F2'; split; discriminate|rewrite G2, G2' by auto; tauto|rewrite G2, G2' by auto; tauto]. }
    clear H2 H2' F2 F2' G2 G2'. revert st2 st2' HD HF E3 Wa. induction post as [|a post IH]; intros st2 st2' HD HF E3 Wa; [discriminate|].
    unfold perform in E3, Wa. cbn [fold_m] in E3, Wa. destruct (act st2' a) as [u'|] eqn:Ea'; [|discriminate]. cbn [bind] in Wa.
    assert (Q : exists u, act st2 a = Some u /\ (forall x, hasdir u x <-> hasdir u' x) /\ forall x y, file u x y = None <-> file u' x y = None).
    { destruct a as [d0|d0 f0|d0 f0 o0 s0].
      - destruct (act_dir st2 d0) as (u & X & D1 & F1), (act_dir st2' d0) as (v & X' & D2 & F2). rewrite X' in Ea'. injection Ea' as <-. exists u. split; auto. split; [intros x; rewrite D1, D2, HD; reflexivity|intros x y; rewrite F1, F2; apply HF].
      - assert (H' : hasdir st2' d0) by (unfold hasdir; cbn [act] in Ea'; destruct (st2' d0); [discriminate|discriminate Ea']). assert (H : hasdir st2 d0) by now apply HD.
        destruct (act_file st2 d0 f0 H) as (u & X & D1 & Y1 & F1), (act_file st2' d0 f0 H') as (v & X' & D2 & Y2 & F2). rewrite X' in Ea'. injection Ea' as <-. exists u. split; auto. split; [intros x; rewrite D1, D2, HD; reflexivity|].
        intros x y. destruct (text_dec x d0) as [->|]; [destruct (text_dec y f0) as [->|]|]; [rewrite Y1, Y2; split; discriminate|rewrite F1, F2 by auto; apply HF|rewrite F1, F2 by auto; apply HF].
      - destruct (act_same_free _ _ _ _ _ _ Ea') as (bb & B & _ & D2 & Y2 & F2). destruct (file st2 d0 f0) as [b0|] eqn:B0; [|apply HF in B0; congruence].
        destruct (act_write st2 d0 f0 b0 o0 s0 B0) as (u & X & D1 & Y1 & F1). exists u. split; auto. split; [intros x; rewrite D1, D2, HD; reflexivity|].
        intros x y. destruct (text_dec x d0) as [->|]; [destruct (text_dec y f0) as [->|]|]; [rewrite Y1, Y2; split; discriminate|rewrite F1, F2 by auto; apply HF|rewrite F1, F2 by auto; apply HF]. }
    destruct Q as (u & Eu & D & F). rewrite Eu in E3. cbn [bind] in E3. exact (IH u u' D F E3 Wa). }
  destruct Pp as (st3 & P3).
  destruct (idle_runs post (Some (d, f)) (pos1 + free1) st2 _ st3 Sq1 Id A1 P3) as (k & Rk & Sk).
  exists k, whole, b, kept, lost. assert (Nd : ~ In (d, f) (made post)).
  { intros X. rewrite made_app in N. cbn [made] in N. destruct (in_made pre None pos d f pos1 s post Sq') as [Z|Y]; [discriminate|]. clear -N X Y. induction (made pre) as [|a l IH]; [destruct Y|]. cbn [app] in N. inversion N as [|? ? N1 N2]; subst.
    destruct Y as [->|Y]; [apply N1, in_app_iff; now right|now apply IH]. }
  split; [|split; [exact W|split; [exact Ek|split; [|split; [|split; [lia|split; [|split]]]]]]].
  - rewrite run_app, R0. cbn [run_full act_full d_store d_free d_pos]. rewrite length_file, Eb, Lb. unfold short_write. rewrite Nat.sub_diag, Nat.add_0_r. destruct s as [|c s]; [now elim Hs|].
    destruct (Nat.eqb_spec free1 0); [lia|]. cbn [bind]. fold kept. rewrite E2. cbn [bind]. rewrite Lk. replace (free1 - (pos1 + free1 - pos1)) with 0 by lia. exact Rk.
  - intros Z. rewrite Z in Lk. cbn in Lk. lia.
  - intros Z. rewrite Z in Ll. cbn in Ll. lia.
  - change (file whole d f = Some (b ++ kept ++ lost)). rewrite (idle_files post st2' whole Id Wa d f Nd), F2'. now rewrite <- Ek.
  - change (file (d_store k) d f = Some (b ++ kept)). rewrite Sk, (idle_files post st2 st3 Id P3 d f Nd). exact F2.
  - intros d' f' Ne. change (file (d_store k) d' f' = file whole d' f'). rewrite Sk. apply (idle_same post st2 st2' st3 whole Id P3 Wa).
    destruct (text_dec d' d) as [->|]; [|rewrite G2, G2' by auto; auto]. destruct (text_dec f' f) as [->|]; [congruence|rewrite G2, G2' by auto; auto].
Qed.
(* it ends before: a panic *)
Theorem before_last acts : proper acts -> forall pre d f o s post, acts = pre ++ WriteAt d f o s :: post -> s <> [] -> idle post ->
  forall st free pos k, fresh acts st -> free <= bytes_written pre -> run_full acts (mkDisk st free pos) <> (k, true).
Proof.
  intros Pr pre d f o s post E Hs Id st free pos k Fr Hf R. assert (Ap := fresh_apart acts st Pr Fr). destruct Pr as (Sq & N & P).
  assert (Sq' : sequential None pos acts).
  { clear -Sq. assert (G : forall l p p', sequential None p l -> sequential None p' l).
    { induction l as [|[d|d f|d f o s] l IH]; intros p p' S; cbn [sequential] in *; auto; [now apply (IH p)|destruct S as [S _]; discriminate S]. }
    now apply (G acts 0). }
  assert (Ls : 0 < length s) by (destruct s; [now elim Hs|cbn; lia]).
  assert (Hb : free < bytes_written acts) by (rewrite E, bytes_app; cbn [bytes_written]; lia).
  destruct (cut_run acts None pos st free k Sq' I Ap Hb R) as (pre' & d' & f' & o' & s' & lost & post' & E' & H1 & H2 & H3 & H4 & _).
  assert (E2 := eq_trans (eq_sym E) E'). apply last_write in E2 as (-> & _ & _ & _ & -> & ->); auto; [|intros Z; apply app_eq_nil in Z as [Z _]; now apply H1].
  rewrite E, bytes_app in H4. cbn [bytes_written] in H4. rewrite app_length, (proj1 (idle_bytes post') Id) in H4. assert (0 < length s') by (destruct s'; [now elim H1|cbn; lia]). lia.
Qed.

Theorem noticed_iff acts : proper acts -> forall pre d f o s post, acts = pre ++ WriteAt d f o s :: post -> s <> [] -> idle post ->
  forall st free pos, fresh acts st -> (snd (run_full acts (mkDisk st free pos)) = true <-> bytes_written pre < free).
Proof.
  intros Pr pre d f o s post E Hs Id st free pos Fr. split.
  - intros H. destruct (Nat.lt_ge_cases (bytes_written pre) free) as [|Hf]; auto. exfalso. destruct (run_full acts (mkDisk st free pos)) as [k b] eqn:R. cbn [snd] in H. subst b.
    exact (before_last acts Pr pre d f o s post E Hs Id st free pos k Fr Hf R).
  - intros H. destruct (Nat.lt_ge_cases free (bytes_written acts)) as [Hf|Hf].
    + destruct (within_last acts Pr pre d f o s post E Hs Id st free pos Fr (conj H Hf)) as (k & whole & b & kept & lost & R & _). now rewrite R.
    + destruct (enough_space acts Pr st free pos Hf) as (k & R & _). now rewrite R.
Qed.
