(* Searches for different types of one length, and different runs of one search, agree. *)
From Coq Require Import Ascii String List ZArith Lia Arith Bool Permutation Relations.
From Verif Require Import Base BaseFacts SeqFacts Sums Quat ModelSequence ModelWilliamson ModelEquivalence SpecEquiv EquivFacts EquivThms OpFacts TypeFacts OrderFacts CanonFacts QtWt ModelMatrices SpecMatrix SpecPrint QhmFacts
  ModelGraph SpecGraph GraphThms HadEquiv ModelRowsum SpecRowsum ModelMatching ModelWrite WriteFacts FolderFacts ModelMain MainFacts ArgFacts MainThms DriverMain DriverFacts SameResult DebugThms SpecMain SpecAgree SpecOutputs SpecSearch Spec.
Import ListNotations.
Notation length := List.length.
Open Scope nat_scope.

Lemma heq_sym N a b : hadamard_equivalent N a b -> hadamard_equivalent N b a.
Proof.
  intros (r & c & s & t & Pr & Pc & S & H). destruct (permutes_inv N r Pr) as (r' & Pr' & Ir). destruct (permutes_inv N c Pc) as (c' & Pc' & Ic).
  exists r', c', (fun i => s (r' i)), (fun j => t (c' j)). split; auto. split; auto. split.
  - intros i Hi. split; apply S; [now apply Pr'|now apply Pc'].
  - intros i j Hi Hj. rewrite (H (r' i) (c' j)) by (apply Pr' || apply Pc'; auto). destruct (Ir i Hi) as [_ ->]. destruct (Ic j Hj) as [_ ->].
    destruct (S (r' i) ltac:(now apply Pr')) as [[-> | ->] _]; destruct (S (c' j) ltac:(now apply Pc')) as [_ [-> | ->]]; lia.
Qed.

(* two lists with one matrix per class match up to order and equivalence *)
Lemma Forall_ex {A B} (P : A -> B -> Prop) l : (forall x, In x l -> exists y, P x y) -> exists l', Forall2 P l l'.
Proof.
  induction l as [|x l IH]; intros H; [exists []; constructor|]. destruct (H x) as (y & Hy); [now left|].
  destruct IH as (l' & F); [intros z I; apply H; now right|]. exists (y :: l'). now constructor.
Qed.
Lemma F2_nth {A B} (P : A -> B -> Prop) l l' i d d' : Forall2 P l l' -> i < length l -> P (nth i l d) (nth i l' d').
Proof. intros F. revert i. induction F; intros [|i] Hi; cbn in *; try lia; auto. apply IHF. lia. Qed.
Lemma F2_len {A B} (P : A -> B -> Prop) l l' : Forall2 P l l' -> length l = length l'.
Proof. induction 1; cbn; auto. Qed.
Lemma matrices_match n t t' equ equ' : (forall q, pm_quad n q -> (is_type t q <-> is_type t' q)) -> one_matrix_per_class n t equ -> one_matrix_per_class n t' equ' ->
  exists l, Permutation l equ' /\ Forall2 (hm_equivalent (4 * n)) equ l.
Proof.
  intros T (A & B & C) (A' & B' & C').
  assert (G : forall k, In k equ -> exists k', In k' equ' /\ hm_equivalent (4 * n) k k').
  { intros k I. destruct (A k I) as (_ & q & P & Q & E). destruct (B' q P (proj1 (T q P) Q)) as (h & k' & E' & I' & R). rewrite E in E'. injection E' as <-. eauto. }
  destruct (Forall_ex (fun k k' => In k' equ' /\ hm_equivalent (4 * n) k k') equ G) as (l & F).
  exists l. split.
  - apply NoDup_Permutation.
    + destruct equ as [|d0 equ0]; [inversion F; constructor|]. set (equ1 := d0 :: equ0) in *.
      apply (NoDup_nth l d0). intros i j Hi Hj E. pose proof (F2_len _ _ _ F) as Ln. apply (C i j d0); try lia.
      destruct (F2_nth _ _ _ i d0 d0 F ltac:(lia)) as [_ R1]. destruct (F2_nth _ _ _ j d0 d0 F ltac:(lia)) as [_ R2]. rewrite E in R1.
      eapply heq_trans; [exact R1|]. apply heq_sym. exact R2.
    + destruct equ' as [|d0 equ0]; [constructor|]. set (equ1 := d0 :: equ0) in *. apply (NoDup_nth equ1 d0). intros i j Hi Hj E. apply (C' i j d0); auto. rewrite E.
      exists (fun i => i), (fun i => i), (fun _ => 1%Z), (fun _ => 1%Z). repeat split; auto; try (now left). intros; lia.
    + intros k'. split.
      * intros I. apply In_nth with (d := k') in I as (i & Hi & <-). pose proof (F2_len _ _ _ F) as Ln. destruct equ as [|d0 equ0]; [cbn in *; lia|].
        now destruct (F2_nth _ _ _ i d0 k' F ltac:(lia)).
      * intros I. destruct (A' k' I) as (_ & q & P & Q & E). destruct (B q P (proj2 (T q P) Q)) as (h & k & E' & I' & R). rewrite E in E'. injection E' as <-.
        apply In_nth with (d := k) in I' as (i & Hi & Ei). destruct (F2_nth _ _ _ i k k' F Hi) as [I2 R2]. rewrite Ei in R2.
        pose proof (F2_len _ _ _ F) as Ln.
        assert (X : hm_equivalent (4 * n) k' (nth i l k')) by (eapply heq_trans; eauto).
        apply In_nth with (d := k') in I as (a & Ha & Ea). apply In_nth with (d := k') in I2 as (b & Hb & Eb).
        assert (a = b) as <-. { apply (C' a b k'); auto. now rewrite Ea, Eb. }
        rewrite <- Ea, Eb. apply nth_In. lia.
  - clear -F. induction F; constructor; auto. tauto.
Qed.

(* the operations of quaternion type are made of those of Williamson type *)
Lemma wact_size w q : q_size (wact w q) = q_size q.
Proof. unfold wact. revert q. induction w as [|g w IH]; intros q; cbn; auto. now rewrite IH. Qed.
Lemma ops_QT_WT x y : 1 <= q_size x -> reach (type_ops QuaternionType) x y -> reach (type_ops WilliamsonType) x y.
Proof.
  intros Hx R. apply clos_rt_rtn1 in R.
  assert (G : 1 <= q_size y /\ reach (type_ops WilliamsonType) x y); [|apply G].
  induction R as [|y z (o & Ho & Hv) _ (Hy & IH)]; [split; auto; apply rt_refl|].
  split; [destruct Hv as [->|(w & _ & ->)]; rewrite ?wact_size; auto|].
  eapply rt_trans; [exact IH|].
  assert (Hs : o = NegateSwap \/ o = DualHalfShift \/ In o (type_ops WilliamsonType)) by (cbn in *; intuition).
  destruct Hs as [->|[->|Hs]].
  - apply ns_in_WT. apply rt_step. exists NegateSwap. split; [now left|exact Hv].
  - destruct Hv as [->|(w & Hw & ->)]; [apply rt_refl|]. cbn [variants] in Hw.
    destruct (Nat.even (q_size y)) eqn:Ev; [|destruct Hw].
    destruct Hw as [<-|Hw].
    + apply rt_step. exists UniformShift. split; [cbn; tauto|]. right. exists [All (Rot (q_size y / 2))]. split; auto.
      cbn [variants]. apply in_map_iff. exists (q_size y / 2). split; auto. apply in_seq.
      apply Nat.even_spec in Ev as (k & Ek). rewrite Ek, Nat.mul_comm, Nat.div_mul by lia. lia.
    + apply in_map_iff in Hw as ([s t] & <- & _).
      apply rt_trans with (gact (At s (Rot (q_size y / 2))) y); apply rt_step.
      * exists SingleHalfShift. split; [cbn; tauto|]. right. exists [At s (Rot (q_size y / 2))]. split; auto. cbn [variants]. rewrite Ev. apply in_map_iff. exists s. split; auto. destruct s; cbn; tauto.
      * exists SingleHalfShift. split; [cbn; tauto|]. right. exists [At t (Rot (q_size y / 2))]. split; auto. cbn [variants]. change (q_size (gact _ y)) with (q_size y). rewrite Ev. apply in_map_iff. exists t. split; auto. destruct t; cbn; tauto.
  - apply rt_step. now exists o.
Qed.
(* representatives of the larger classes are representatives of the smaller ones *)
Lemma reps_WT_QT n r r' : 1 <= n -> one_per_class n WilliamsonType r -> one_per_class n QuaternionType r' -> incl r r'.
Proof.
  intros Hn (_ & A & _) (_ & A' & B') x Hx. destruct (A x Hx) as (Px & Tx & Lx).
  assert (Tx' : is_QT x) by now apply (QT_iff_WT n).
  destruct (B' x Px Tx') as (x' & I' & R' & _). destruct (A' x' I') as (Px' & _ & Lx').
  replace x with x'; auto. apply quad_le_antisym.
  - apply Lx'. apply (reach_sym n); auto using pm_i8.
  - apply Lx. apply ops_QT_WT; auto. destruct Px as ((-> & _) & _). exact Hn.
Qed.
Lemma reps_W_WT n r r' : 1 <= n -> one_per_class_W n r -> one_per_class n WilliamsonType r' -> incl r r'.
Proof.
  intros Hn (_ & A & _) (_ & A' & B') x Hx. destruct (A x Hx) as (q & Pq & Tq & Lx).
  assert (Tq' : is_WT q) by (apply (W_WT n); auto; apply Pq).
  destruct (B' q Pq Tq') as (x' & I' & R' & _). destruct (A' x' I') as (Px' & _ & Lx').
  replace x with x'; auto. symmetry. apply (least_reach_iff n (type_ops WilliamsonType) q x'); auto using pm_i8.
Qed.

Lemma lines_incl r r' o o' : Forall2 line_of_quad r o -> Forall2 line_of_quad r' o' -> incl r r' -> incl o o'.
Proof.
  intros F F' I z Hz.
  assert (exists q, In q r /\ line_of_quad q z) as (q & Iq & Lq).
  { clear -F Hz. induction F as [|q z' r o H F IH]; [destruct Hz|]. destruct Hz as [<-|Hz]; [exists q; split; auto; now left|]. destruct (IH Hz) as (q' & ? & ?). exists q'. split; auto. now right. }
  apply I in Iq. clear -F' Iq Lq. induction F' as [|q' z' r' o' H F IH]; [destruct Iq|]. destruct Iq as [->|Iq]; [left; eapply line_of_quad_fun; eauto|right; auto].
Qed.
Lemma lines_perm r r' o o' : Forall2 line_of_quad r o -> Forall2 line_of_quad r' o' -> Permutation r r' -> Permutation o o'.
Proof. intros F F' P. apply (Forall2_perm line_of_quad r r'); auto. exact line_of_quad_fun. Qed.
Lemma lines_nodup n r o : (forall x, In x r -> pm_quad n x) -> Forall2 line_of_quad r o -> NoDup r -> NoDup o.
Proof.
  intros P F. induction F as [|q z r o H F IH]; intros N; [constructor|]. inversion N as [|? ? N1 N2]; subst. constructor; [|apply IH; auto; intros; apply P; now right].
  intros I. apply N1. clear IH N N2.
  assert (exists q', In q' r /\ line_of_quad q' z) as (q' & Iq & Lq).
  { clear -F I. induction F as [|q z' r o H F IH]; [destruct I|]. destruct I as [<-|I]; [exists q; split; auto; now left|]. destruct (IH I) as (q' & ? & ?). exists q'. split; auto. now right. }
  replace q with q'; auto. destruct (line_reads n q z ltac:(apply P; now left) H) as (s & _ & E1 & E2 & _).
  destruct (line_reads n q' z ltac:(apply P; now right) Lq) as (s' & _ & E1' & E2' & _). congruence.
Qed.

(* ---- the files of driver.sh ---- *)

Theorem agree_QT_WT {L L'} (e : Env L) (e' : Env L') n y c c' pr pr' h h' d d' w w' : 1 <= n <= 31 -> env_ok e -> env_ok e' -> canonical_numeral y n ->
  d = true \/ pl_dirs (place_of w (chars "qts") y) = [] -> d' = true \/ pl_dirs (place_of w' (chars "wts") y) = [] -> (exists q, pm_quad n q /\ is_QT q) ->
  exists fuel0, forall fuel fuel', fuel0 <= fuel -> fuel0 <= fuel' -> exists pl pl' q_lines w_lines wq_lines,
    driver_flags fuel e (chars "qts") y c pr h d w (chars "qts") y = Some pl /\ driver_flags fuel' e' (chars "wts") y c' pr' h' d' w' (chars "wts") y = Some pl' /\
    pl_seq pl = Some q_lines /\ pl_seq pl' = Some w_lines /\ pl_qts pl' = Some wq_lines /\
    Permutation q_lines wq_lines /\ NoDup q_lines /\ NoDup w_lines /\ incl w_lines q_lines /\
    (h = true -> h' = true -> same_matrices (4 * n) (pl_mat pl) (pl_mat pl')).
Proof.
  intros Hn He He' Hy Hd Hd' Hq.
  assert (Hq' : exists q, pm_quad n q /\ is_WT q). { destruct Hq as (q & P & T). exists q. split; auto. apply (QT_iff_WT n); auto. lia. }
  destruct (flags_QT e n y c pr h d w Hn He Hy Hd Hq) as (f & H). destruct (flags_WT e' n y c' pr' h' d' w' Hn He' Hy Hd' Hq') as (f' & H').
  exists (max f f'). intros fuel fuel' F F'.
  destruct (H fuel ltac:(lia)) as (w1 & pl & r & equ & E & _ & W & A & (o & So & Fo & _) & M & Mt & _).
  destruct (H' fuel' ltac:(lia)) as (w1' & pl' & r' & rq & equ' & E' & _ & W' & A' & (o' & So' & Fo' & _) & Aq & (oq & Soq & Foq & _) & M' & Mt' & _).
  exists pl, pl', o, o', oq. rewrite E, E'. do 5 (split; [assumption|]).
  split; [apply (lines_perm r rq); auto; now apply (one_per_class_perm n QuaternionType)|].
  split; [apply (lines_nodup n r); auto; [intros; now apply A|apply A]|].
  split; [apply (lines_nodup n r'); auto; [intros; now apply A'|apply A']|].
  split; [apply (lines_incl r' r); auto; apply (reps_WT_QT n); auto; lia|].
  intros -> ->. destruct (matrices_match n QuaternionType WilliamsonType equ equ') as (l & P & G); auto.
  { intros q P. apply (QT_iff_WT n); auto. lia. }
  exists equ, equ', l. auto.
Qed.
Theorem agree_W_WT {L L'} (e : Env L) (e' : Env L') n y c c' pr pr' h h' d d' w w' : 1 <= n <= 31 -> env_ok e -> env_ok e' -> canonical_numeral y n ->
  d = true \/ pl_dirs (place_of w (chars "ws") y) = [] -> d' = true \/ pl_dirs (place_of w' (chars "wts") y) = [] -> (exists q, pm_quad n q /\ is_W q) ->
  exists fuel0, forall fuel fuel', fuel0 <= fuel -> fuel0 <= fuel' -> exists pl pl' s_lines w_lines,
    driver_flags fuel e (chars "ws") y c pr h d w (chars "ws") y = Some pl /\ driver_flags fuel' e' (chars "wts") y c' pr' h' d' w' (chars "wts") y = Some pl' /\
    pl_seq pl = Some s_lines /\ pl_seq pl' = Some w_lines /\ NoDup s_lines /\ incl s_lines w_lines.
Proof.
  intros Hn He He' Hy Hd Hd' Hq.
  assert (Hq' : exists q, pm_quad n q /\ is_WT q). { destruct Hq as (q & P & T). exists q. split; auto. apply (W_WT n); auto; apply P. }
  destruct (flags_W e n y c pr h d w Hn He Hy Hd Hq) as (f & H). destruct (flags_WT e' n y c' pr' h' d' w' Hn He' Hy Hd' Hq') as (f' & H').
  exists (max f f'). intros fuel fuel' F F'.
  destruct (H fuel ltac:(lia)) as (w1 & pl & r & E & _ & W & A & (o & So & Fo & _) & _).
  destruct (H' fuel' ltac:(lia)) as (w1' & pl' & r' & rq & equ' & E' & _ & W' & A' & (o' & So' & Fo' & _) & _).
  exists pl, pl', o, o'. rewrite E, E'. do 4 (split; [assumption|]).
  pose proof (reps_W_WT n r r' ltac:(lia) A A') as I.
  split; [apply (lines_nodup n r); auto; [intros; now apply A', I|apply A]|]. now apply (lines_incl r r').
Qed.
(* two searches for the same type *)
Theorem agree_runs {L L'} (e : Env L) (e' : Env L') n t y c c' pr pr' h h' d d' w w' : 1 <= n <= 31 -> three_types t -> env_ok e -> env_ok e' -> canonical_numeral y n ->
  d = true \/ pl_dirs (place_of w (type_word t) y) = [] -> d' = true \/ pl_dirs (place_of w' (type_word t) y) = [] -> (exists q, pm_quad n q /\ is_type t q) ->
  exists fuel0, forall fuel fuel', fuel0 <= fuel -> fuel0 <= fuel' -> exists pl pl' lines lines',
    driver_flags fuel e (type_word t) y c pr h d w (type_word t) y = Some pl /\ driver_flags fuel' e' (type_word t) y c' pr' h' d' w' (type_word t) y = Some pl' /\
    pl_seq pl = Some lines /\ pl_seq pl' = Some lines' /\ Permutation lines lines' /\ NoDup lines /\
    (t = WilliamsonType -> exists q_lines q_lines', pl_qts pl = Some q_lines /\ pl_qts pl' = Some q_lines' /\ Permutation q_lines q_lines' /\ NoDup q_lines) /\
    (h = true -> h' = true -> t <> Williamson -> same_matrices (4 * n) (pl_mat pl) (pl_mat pl')).
Proof.
  intros Hn Ht He He' Hy Hd Hd' Hq. destruct Ht as [->|[->| ->]].
  - destruct (flags_QT e n y c pr h d w Hn He Hy Hd Hq) as (f & H). destruct (flags_QT e' n y c' pr' h' d' w' Hn He' Hy Hd' Hq) as (f' & H').
    exists (max f f'). intros fuel fuel' F F'.
    destruct (H fuel ltac:(lia)) as (w1 & pl & r & equ & E & _ & W & A & (o & So & Fo & _) & M & Mt & _).
    destruct (H' fuel' ltac:(lia)) as (w1' & pl' & r' & equ' & E' & _ & W' & A' & (o' & So' & Fo' & _) & M' & Mt' & _).
    exists pl, pl', o, o'. change (type_word QuaternionType) with (chars "qts"). rewrite E, E'. do 4 (split; [assumption|]).
    split; [apply (lines_perm r r'); auto; now apply (one_per_class_perm n QuaternionType)|].
    split; [apply (lines_nodup n r); auto; [intros; now apply A|apply A]|]. split; [discriminate|].
    intros -> -> _. destruct (matrices_match n QuaternionType QuaternionType equ equ') as (l & P & G); auto; [tauto|]. exists equ, equ', l. auto.
  - destruct (flags_WT e n y c pr h d w Hn He Hy Hd Hq) as (f & H). destruct (flags_WT e' n y c' pr' h' d' w' Hn He' Hy Hd' Hq) as (f' & H').
    exists (max f f'). intros fuel fuel' F F'.
    destruct (H fuel ltac:(lia)) as (w1 & pl & r & rq & equ & E & _ & W & A & (o & So & Fo & _) & Aq & (oq & Soq & Foq & _) & M & Mt & _).
    destruct (H' fuel' ltac:(lia)) as (w1' & pl' & r' & rq' & equ' & E' & _ & W' & A' & (o' & So' & Fo' & _) & Aq' & (oq' & Soq' & Foq' & _) & M' & Mt' & _).
    exists pl, pl', o, o'. change (type_word WilliamsonType) with (chars "wts"). rewrite E, E'. do 4 (split; [assumption|]).
    split; [apply (lines_perm r r'); auto; now apply (one_per_class_perm n WilliamsonType)|].
    split; [apply (lines_nodup n r); auto; [intros; now apply A|apply A]|]. split.
    + intros _. exists oq, oq'. split; auto. split; auto. split; [apply (lines_perm rq rq'); auto; now apply (one_per_class_perm n QuaternionType)|].
      apply (lines_nodup n rq); auto; [intros; now apply Aq|apply Aq].
    + intros -> -> _. destruct (matrices_match n WilliamsonType WilliamsonType equ equ') as (l & P & G); auto; [tauto|]. exists equ, equ', l. auto.
  - destruct (flags_W e n y c pr h d w Hn He Hy Hd Hq) as (f & H). destruct (flags_W e' n y c' pr' h' d' w' Hn He' Hy Hd' Hq) as (f' & H').
    exists (max f f'). intros fuel fuel' F F'.
    destruct (H fuel ltac:(lia)) as (w1 & pl & r & E & _ & W & A & (o & So & Fo & _) & _).
    destruct (H' fuel' ltac:(lia)) as (w1' & pl' & r' & E' & _ & W' & A' & (o' & So' & Fo' & _) & _).
    exists pl, pl', o, o'. change (type_word Williamson) with (chars "ws"). rewrite E, E'. do 4 (split; [assumption|]).
    split; [apply (lines_perm r r'); auto; now apply (one_per_class_W_perm n)|].
    split; [apply (lines_nodup n r); auto; [|apply A]|split; [discriminate|congruence]].
    intros x Ix. destruct A as (_ & A & _). destruct (A x Ix) as (q & Pq & _ & (R & _)). now apply (CanonFacts.reach_pm n (type_ops WilliamsonType) q).
Qed.
