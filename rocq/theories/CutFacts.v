(* Matching with files of pairs that have been cut. *)
From Coq Require Import Ascii String List ZArith Bool Arith Lia Permutation Relations.
From Verif Require Import Base BaseFacts Sums Quat ModelSequence ModelWilliamson ModelEquivalence SpecEquiv OpFacts EquivFacts TypeFacts
  OrderFacts EquivThms CanonFacts ReduceFacts WsFacts QtWt Convert ModelMatrices SpecMatrix SpecPrint MatFacts QhmFacts PrintFacts HmFacts ModelGraph SpecGraph GraphThms HadEquiv
  ModelRowsum SpecRowsum RowsumFacts ModelMatching ModelWrite TextFacts JoinFacts WriteFacts FolderFacts SearchThms ExtendFacts FindQuadFacts DriverFacts ModelMain SpecMain MainFacts ArgFacts MainThms RepSymm SeqFacts DriverMain
  ModelLog LogFolder LogJoin ModelScripts DirFacts SpecFiles SingleFacts SpecSearch SpecSplit SplitFacts SplitThms ModelJobs SpecJobs JobsFacts JobsThms JobsResults SpecKilled KilledFacts KilledThms KilledSilent ClassSums
  SolverFacts SpecPrinted PrintedFacts SpecMixed SpecThinned ThinFacts ThinThms SpecCut Spec.
Import ListNotations.
Open Scope nat_scope.
Notation length := List.length.

(* ---- what a join that does not panic finds, whatever the lines are ---- *)
Lemma same_key_some x l m rest : same_key x l = Some (m, rest) -> exists pre, l = pre ++ rest /\
  Forall2 (fun line ij => parsed line x ij) pre m /\ match rest with [] => True | h :: _ => exists k ij, parsed h k ij /\ k <> x end.
Proof.
  revert m rest. induction l as [|h l IH]; intros m rest E; cbn [same_key] in E.
  - injection E as <- <-. exists []. repeat split; constructor.
  - apply bind_some in E as ([k ij] & Ek & E). destruct (text_eqb x k) eqn:X.
    + apply TextFacts.text_eqb_eq in X. subst k. apply bind_some in E as ([m' rest'] & E' & E). injection E as <- <-.
      destruct (IH _ _ E') as (pre & -> & F & R). exists (h :: pre). cbn. repeat split; auto.
    + apply TextFacts.text_eqb_neq in X. injection E as <- <-. exists []. cbn. repeat split; auto. exists k, ij. split; auto.
Qed.

Section Join.
Context (t : SequenceType) (order : Tag * Tag * Tag * Tag) (sequences : Sequences).
Notation quad_at := (JoinFacts.quad_at order sequences).
Notation matched := (JoinFacts.matched t order sequences).
Notation collect := (JoinFacts.collect t order sequences).

Lemma collect_some l res r : fold_m collect l res = Some r ->
  forall q, In q res \/ (exists p, In p l /\ quad_at (fst p) (snd p) = Some q /\ join_condition t q = Some true) -> In q r.
Proof.
  revert res. induction l as [|p l IH]; intros res E q H; cbn [fold_m] in E.
  - injection E as <-. destruct H as [|(p & [] & _)]; auto.
  - apply bind_some in E as (res' & E1 & E). apply (IH _ E). destruct H as [H|(p' & [<-|I] & A & B)]; [| |right; eauto].
    + left. destruct p as [[i1 i2] [i3 i4]]. unfold JoinFacts.collect in E1.
      apply bind_some in E1 as ([[[w x] y] z] & Eg & E1). apply bind_some in E1 as (b & Eb & E1). injection E1 as <-. destruct b; auto. apply in_app_iff. auto.
    + left. destruct p as [[i1 i2] [i3 i4]]. unfold JoinFacts.collect, JoinFacts.quad_at in *. cbn [fst snd] in *.
      destruct (get_sequences sequences order (i1, i2, i3, i4)) as [[[[w x] y] z]|]; [|discriminate]. cbn [bind] in *. injection A as <-. rewrite B in E1. cbn [bind] in E1.
      injection E1 as <-. apply in_app_iff. right. now left.
Qed.

Lemma run_join_some fuel l12 l34 res r : sorted l12 -> sorted l34 -> run fuel (join_step t order sequences) (l12, l34, res) = Some r ->
  (forall q, In q res -> In q r) /\
  (forall x q, clear_of x l12 -> clear_of x l34 -> matched l12 l34 x q -> In q r).
Proof.
  revert l12 l34 res. induction fuel as [|fuel IH]; intros l12 l34 res S12 S34 E; [discriminate|].
  rewrite run_S in E. destruct l12 as [|h12 r12].
  { injection E as <-. split; auto. intros x q _ _ (a & b & ij & kl & [] & _). }
  destruct l34 as [|h34 r34].
  { injection E as <-. split; auto. intros x q _ _ (a & b & ij & kl & _ & [] & _). }
  cbn [join_step] in E. destruct (get_line_from h12) as [[k12 ij12]|] eqn:P12; [|discriminate]. destruct (get_line_from h34) as [[k34 ij34]|] eqn:P34; [|discriminate].
  cbn [bind] in E. destruct (text_eqb k12 k34) eqn:Ek.
  - apply TextFacts.text_eqb_eq in Ek. subst k34.
    destruct (same_key k12 (h12 :: r12)) as [[m12 rest12]|] eqn:K12; [|discriminate]. cbn [bind] in E.
    destruct (same_key k12 (h34 :: r34)) as [[m34 rest34]|] eqn:K34; [|discriminate]. cbn [bind] in E.
    change (fold_m _ (ModelFourier.iproduct m12 m34) res) with (fold_m collect (ModelFourier.iproduct m12 m34) res) in E.
    destruct (fold_m collect (ModelFourier.iproduct m12 m34) res) as [res'|] eqn:Er; [|discriminate]. cbn [bind] in E.
    assert (Hr := collect_some _ _ _ Er).
    destruct (same_key_some _ _ _ _ K12) as (pre12 & L12 & F12 & R12). destruct (same_key_some _ _ _ _ K34) as (pre34 & L34 & F34 & R34).
    assert (N12 : pre12 <> []).
    { intros ->. cbn in L12. subst rest12. destruct R12 as (k & ij & Pk & Nk). unfold parsed in *. congruence. }
    assert (N34 : pre34 <> []).
    { intros ->. cbn in L34. subst rest34. destruct R34 as (k & ij & Pk & Nk). unfold parsed in *. congruence. }
    assert (MM : forall pre m x a ij, Forall2 (fun line ij => parsed line x ij) pre m -> In a pre -> parsed a x ij -> In ij m).
    { clear. intros pre m x a ij F. induction F as [|b ij' l m Hb _ IH]; intros I P; [contradiction|]. destruct I as [->|I]; [left; unfold parsed in *; congruence|right; auto]. }
    assert (I12 : forall a, In a (h12 :: r12) <-> In a pre12 \/ In a rest12).
    { intros a. rewrite L12. apply in_app_iff. }
    assert (I34 : forall a, In a (h34 :: r34) <-> In a pre34 \/ In a rest34).
    { intros a. rewrite L34. apply in_app_iff. }
    rewrite L12 in S12. rewrite L34 in S34.
    destruct (IH rest12 rest34 res') as (Inc & Cmp); [now apply sorted_app_r in S12|now apply sorted_app_r in S34|exact E|].
    split; [intros q Hq; apply Inc, Hr; auto|].
    intros x q C12 C34 (a & b & ij & kl & Ha & Hb & Pa & Pb & A & B).
    apply I12 in Ha. apply I34 in Hb.
    assert (X : forall pre m (a : text) ij, Forall2 (fun line ij => parsed line k12 ij) pre m -> In a pre -> parsed a x ij -> x = k12).
    { clear. intros pre m a ij F. induction F as [|? ? ? ? Hx _ IH]; intros I P; [contradiction|].
      destruct I as [->|I]; [unfold parsed in *; congruence|auto]. }
    assert (Y12 : In a rest12 -> x <> k12).
    { intros Hin ->. apply (rest_other k12 pre12 rest12 m12 a ij); auto. }
    assert (Y34 : In b rest34 -> x <> k12).
    { intros Hin ->. apply (rest_other k12 pre34 rest34 m34 b kl); auto. }
    destruct Ha as [Ha|Ha], Hb as [Hb|Hb].
    + apply Inc, Hr. right. exists (ij, kl). cbn [fst snd]. assert (Ex : x = k12) by exact (X _ _ _ _ F12 Ha Pa). rewrite Ex in Pa, Pb. split; auto.
      apply in_prod_iff. split; [now apply (MM pre12 m12 k12 a)|now apply (MM pre34 m34 k12 b)].
    + now destruct (Y34 Hb (X _ _ _ _ F12 Ha Pa)).
    + now destruct (Y12 Ha (X _ _ _ _ F34 Hb Pb)).
    + apply (Cmp x); [intros l k i Hl; apply C12, I12; auto|intros l k i Hl; apply C34, I34; auto|].
      exists a, b, ij, kl. auto 10.
  - apply TextFacts.text_eqb_neq in Ek. destruct (text_ltb k12 k34) eqn:Lt.
    + destruct (IH r12 (h34 :: r34) res) as (Inc & Cmp); auto.
      { now inversion S12. }
      split; auto. intros x q C12 C34 (a & b & ij & kl & Ha & Hb & Pa & Pb & H).
      destruct Ha as [<-|Ha].
      * exfalso. assert (x = k12) as -> by (unfold parsed in *; congruence).
        destruct Hb as [<-|Hb]; [unfold parsed in *; congruence|].
        assert (U : unrelated k12 k34) by (apply (C34 h34 k34 ij34); auto; now left).
        pose proof (sorted_head_le _ _ _ S34 Hb) as Le. unfold text_le in Le.
        rewrite (order_keys _ _ _ _ _ _ Pb P34 U Ek) in Le. congruence.
      * apply (Cmp x); auto.
        -- intros l k i Hl. apply C12. now right.
        -- exists a, b, ij, kl. auto.
    + destruct (IH (h12 :: r12) r34 res) as (Inc & Cmp); auto.
      { now inversion S34. }
      split; auto. intros x q C12 C34 (a & b & ij & kl & Ha & Hb & Pa & Pb & H).
      destruct Hb as [<-|Hb].
      * exfalso. assert (x = k34) as -> by (unfold parsed in *; congruence).
        destruct Ha as [<-|Ha]; [unfold parsed in *; congruence|].
        assert (U : unrelated k34 k12) by (apply (C12 h12 k12 ij12); auto; now left).
        pose proof (sorted_head_le _ _ _ S12 Ha) as Le. unfold text_le in Le.
        rewrite (order_keys _ _ _ _ _ _ Pa P12 U) in Le by congruence.
        destruct (text_ltb_total _ _ Lt) as [|T]; congruence.
      * apply (Cmp x); auto.
        -- intros l k i Hl. apply C34. now right.
        -- exists a, b, ij, kl. auto.
Qed.
Lemma join_some l12 l34 r : sorted l12 -> sorted l34 -> join_pairs_files l12 l34 t order sequences = Some r ->
  forall x q, clear_of x l12 -> clear_of x l34 -> matched l12 l34 x q -> In q r.
Proof. intros S12 S34 E. now apply (run_join_some _ _ _ _ _ S12 S34 E). Qed.
End Join.

(* ---- the two files of a directory ---- *)
Section Directory.
Context (t : SequenceType) (m : MatchOption) (n : nat) (rs : Quad) (L : Tag -> list (list Z)).
Context (Ht : searchable t).
Context (Hn : 1 <= n).
Context (HL : is_list t n rs L).
Context (a b c d : Tag) (sa sb : EquationSide) (ba bb : bool).
Context (Ho : In (a, b, c, d) orders).
Let F1 := pair_lines t m sa ba n (L a) (L b).
Let F2 := pair_lines t m sb bb n (L c) (L d).
Let S := (L TW, L TX, L TY, L TZ).
Context (G1 G2 : Lines) (I1 : cut_lines F1 G1) (I2 : cut_lines F2 G2).

(* a beginning of a line that can be read has the key of the line *)
Lemma cut_line sd bo l1 l2 (G : Lines) line x ij : cut_lines (pair_lines t m sd bo n l1 l2) G -> In line G -> parsed line x ij ->
  exists s1 s2, In s1 l1 /\ In s2 l2 /\ x = join (key_fields t m sd bo s1 s2).
Proof.
  intros I Hl Hp. destruct (I _ Hl) as (y & lost & Hy & ->). apply in_pair_lines in Hy as (i & j & s1 & s2 & H1 & H2 & _ & _ & E).
  exists s1, s2. split; [eapply nth_error_In; eauto|]. split; [eapply nth_error_In; eauto|].
  assert (P : parsed (line ++ lost) (join (key_fields t m sd bo s1 s2)) (i, j)).
  { unfold parsed. replace (line ++ lost) with (line_of t m sd bo i s1 j s2) by (symmetry; exact E). apply get_line_pair_line. }
  symmetry. apply (parsed_prefix line x ij (line ++ lost) _ (i, j)); auto.
  destruct (parsed_text _ _ _ Hp) as (r & ->). exists (r ++ lost). rewrite <- !app_assoc. reflexivity.
Qed.

Definition both (F G : Lines) : Lines := filter (fun x => existsb (text_eqb x) F) G.
Lemma in_both F G x : In x (both F G) <-> In x F /\ In x G.
Proof.
  unfold both. rewrite filter_In, existsb_exists. split.
  - intros (A & y & B & E). apply TextFacts.text_eqb_eq in E. now subst.
  - intros [A B]. split; auto. exists x. split; auto. now apply TextFacts.text_eqb_eq.
Qed.

Lemma cut_directory r : join_pairs_files (sort_lines G1) (sort_lines G2) t (a, b, c, d) S = Some r ->
    (forall q, In q r -> valid t n rs q) /\
    (forall q, valid t n rs q ->
      key_fields t m sa ba (sequence q a) (sequence q b) = key_fields t m sb bb (sequence q c) (sequence q d) ->
      (forall s1 s2, In s1 (L a) -> In s2 (L b) -> unrelated (join (key_fields t m sa ba (sequence q a) (sequence q b))) (join (key_fields t m sa ba s1 s2))) ->
      (forall s3 s4, In s3 (L c) -> In s4 (L d) -> unrelated (join (key_fields t m sa ba (sequence q a) (sequence q b))) (join (key_fields t m sb bb s3 s4))) ->
      lined L a b (both F1 G1) q -> lined L c d (both F2 G2) q -> In q r).
Proof.
  intros E. assert (Q := fun ij kl s1 s2 s3 s4 => quad_found t n rs L HL a b c d Ho ij kl s1 s2 s3 s4).
  assert (P1 : forall line, In line (sort_lines G1) <-> In line G1) by (intros; now rewrite sort_lines_perm).
  assert (P2 : forall line, In line (sort_lines G2) <-> In line G2) by (intros; now rewrite sort_lines_perm).
  split.
  - intros q Hq. destruct (join_files_sound t (a, b, c, d) S _ _ r E q Hq) as (Cq & [[[i j] k] l] & w & x & y & z & Eg & Eq).
    assert (X : pm_quad n q /\ totals q = rs).
    { apply (listed_valid t n rs L HL); [subst q; reflexivity|].
      unfold get_sequences, get_sequence_aux, vget, S in Eg. assert (O := Ho). clear -Eg Eq O. cbn [orders In] in O.
      repeat (destruct O as [O|O]; [injection O as <- <- <- <-; cbn [tag_eqb bind] in Eg;
        repeat (apply bind_some in Eg as (? & ? & Eg)); injection Eg as <- <- <- <-; subst q; intros []; cbn [sequence q_a q_b q_c q_d set_all_values]; eapply nth_error_In; eassumption|]). contradiction. }
    destruct X as [Pq Tq]. destruct (join_condition_spec n q t Ht Hn Pq) as (v & Ev & Hv). split; auto. split; auto. apply Hv. congruence.
  - intros q Vq K U1 U2 (l1 & k1 & i & j & H1 & X1 & A & B) (l2 & k2 & k & l & H2 & X2 & C & D). pose proof Vq as (Pq & Tyq & Tq).
    apply in_both in H1 as [H1 H1']. apply in_both in H2 as [H2 H2'].
    destruct (thin_line t m n sa ba (L a) (L b) F1 l1 k1 (i, j)) as (s1 & s2 & A' & B' & ->); auto; [now intros ?|].
    destruct (thin_line t m n sb bb (L c) (L d) F2 l2 k2 (k, l)) as (s3 & s4 & C' & D' & ->); auto; [now intros ?|]. cbn [fst snd] in *.
    rewrite A in A'. rewrite B in B'. rewrite C in C'. rewrite D in D'. injection A' as <-. injection B' as <-. injection C' as <-. injection D' as <-.
    apply (join_some t (a, b, c, d) S _ _ r (sort_lines_sorted G1) (sort_lines_sorted G2) E (join (key_fields t m sa ba (sequence q a) (sequence q b)))).
    + intros line x ij Hin Hp. apply P1 in Hin. destruct (cut_line _ _ _ _ _ _ _ _ I1 Hin Hp) as (s1 & s2 & A' & B' & ->). now apply U1.
    + intros line x ij Hin Hp. apply P2 in Hin. destruct (cut_line _ _ _ _ _ _ _ _ I2 Hin Hp) as (s1 & s2 & A' & B' & ->). now apply U2.
    + destruct (Q (i, j) (k, l) (sequence q a) (sequence q b) (sequence q c) (sequence q d)) as (q' & Eq & Pq' & _ & Ea & Eb & Ec & Ed); auto.
      assert (q' = q).
      { apply quad_ext; [destruct Pq as ((-> & _) & _), Pq' as ((-> & _) & _); reflexivity|].
        apply (order_all (fun tg => sequence q' tg = sequence q tg) a b c d); auto. }
      subst q'. exists l1, l2, (i, j), (k, l). split; [now apply P1|]. split; [now apply P2|]. split; auto. split; [now rewrite K|]. split; [exact Eq|].
      destruct (join_condition_spec n q t Ht Hn Pq) as (v & -> & Hv). f_equal. now apply Hv.
Qed.
End Directory.

Lemma cut_pairing t m n rs L p G1 G2 : searchable t -> 1 <= n -> is_list t n rs L -> cut_lines (left_lines t m n p L) G1 -> cut_lines (right_lines t m n p L) G2 ->
  let S := (L TW, L TX, L TY, L TZ) in
  let good r := (forall q, In q r -> valid t n rs q) /\ forall q, valid t n rs q -> lined L (fst (tags1 p)) (snd (tags1 p)) (both (left_lines t m n p L) G1) q ->
    lined L (fst (tags2 p)) (snd (tags2 p)) (both (right_lines t m n p L) G2) q -> In q r in
  (forall r, join_pairs_files (sort_lines G1) (sort_lines G2) t (order_of p) S = Some r -> good r) /\
  (forall r, join_pairs_files (sort_lines G2) (sort_lines G1) t (swapped (order_of p)) S = Some r -> good r).
Proof.
  intros Ht Hn HL. cbv zeta. unfold left_lines, right_lines, order_of, swapped, tags1, tags2.
  pose proof (fun q Hq Ty => key_match n q t m p Hn Hq Ty Ht) as KM.
  assert (Ho : let '((a, b), (c, d)) := pairing_tags p in In (a, b, c, d) orders /\ In (c, d, a, b) orders /\ a <> b /\ c <> d).
  { destruct p as [[| |]|]; cbn [pairing_tags]; (split; [cbn; tauto|split; [cbn; tauto|split; discriminate]]). }
  destruct (pairing_tags p) as [[a b] [c d]]. cbn [fst snd]. destruct Ho as (Ho & Ho' & Nab & Ncd). intros I1 I2. split; intros r E.
  - destruct (cut_directory t m n rs L Ht Hn HL a b c d LEFT RIGHT (fst (signs p)) (snd (signs p)) Ho G1 G2 I1 I2 r E) as (Snd & Cmp).
    split; auto. intros q Vq H1 H2. apply Cmp; auto.
    + apply KM; apply Vq.
    + intros s1 s2 X1 X2. apply (keys_clear t m n rs L q a b a b LEFT LEFT); auto.
    + intros s1 s2 X1 X2. apply (keys_clear t m n rs L q a b c d LEFT RIGHT); auto. right. split; [discriminate|auto].
  - destruct (cut_directory t m n rs L Ht Hn HL c d a b RIGHT LEFT (snd (signs p)) (fst (signs p)) Ho' G2 G1 I2 I1 r E) as (Snd & Cmp).
    split; auto. intros q Vq H1 H2. apply Cmp; auto.
    + symmetry. apply KM; apply Vq.
    + intros s1 s2 X1 X2. apply (keys_clear t m n rs L q c d c d RIGHT RIGHT); auto.
    + intros s1 s2 X1 X2. apply (keys_clear t m n rs L q c d a b RIGHT LEFT); auto. right. split; [discriminate|auto].
Qed.

Lemma cut_dir_of p W FL FR d : cut_dir (FolderFacts.dir_of p W FL FR) d -> exists G1 G2, d = FolderFacts.dir_of p W G1 G2 /\ cut_lines FL G1 /\ cut_lines FR G2.
Proof.
  assert (Ns : forall a q, seq_file a <> pair_name q) by (intros [] [[] []]; discriminate).
  assert (Cr : forall l, cut_lines l l) by (intros l x I; exists x, []; split; auto; now rewrite app_nil_r).
  unfold cut_dir, FolderFacts.dir_of. destruct (pairing_tags p) as [[a b] [c d0]]. intros F.
  do 6 (destruct d as [|[? ?] d]; [now inversion F|]; apply forall2_cons in F as [[? ?] F]). inversion F; subst. cbn [fst snd] in *. subst.
  repeat match goal with H : _ = W _ \/ _ |- _ => destruct H as [->|[[q H] _]]; [|now apply Ns in H] end.
  repeat match goal with H : ?l = ?F \/ _ |- _ => assert (cut_lines F l) by (destruct H as [->|[_ H]]; [apply Cr|exact H]); clear H end.
  do 2 eexists. split; [reflexivity|]. split; assumption.
Qed.

(* ---- a file that ends too early ---- *)
Lemma split_line (x x' r r' : list ascii) : ~ In newline x -> ~ In newline x' -> x ++ newline :: r = x' ++ newline :: r' -> x = x' /\ r = r'.
Proof.
  revert x'. induction x as [|a x IH]; intros [|b x'] N N' E; cbn [app] in E.
  - injection E as ->. auto.
  - exfalso. apply N'. left. symmetry. exact (f_equal (hd newline) E).
  - exfalso. apply N. left. exact (f_equal (hd newline) E).
  - injection E as -> E. destruct (IH x') as [-> ->]; auto; intros X; [apply N|apply N']; now right.
Qed.
Lemma part_line (x x' r lost : list ascii) : ~ In newline x' -> x ++ newline :: r = x' ++ lost -> exists k, x = x' ++ k.
Proof.
  revert x'. induction x as [|a x IH]; intros [|b x'] N E; cbn [app] in E.
  - now exists [].
  - exfalso. apply N. left. symmetry. exact (f_equal (hd newline) E).
  - now exists (a :: x).
  - injection E as -> E. destruct (IH x') as [k ->]; auto; [intros X; apply N; now right|]. now exists k.
Qed.
Lemma truncated_lines (l l' : Lines) (bytes lost : list ascii) : Forall (fun x => ~ In newline x) l -> text_lines bytes l' -> stacked l = bytes ++ lost -> 
  cut_lines l l' /\ incl (removelast l') l.
Proof.
  assert (G : forall (l l' : Lines) rest, Forall (fun x => ~ In newline x) l -> Forall (fun x => ~ In newline x) l' -> stacked l = stacked l' ++ rest ->
    exists l2, l = l' ++ l2 /\ stacked l2 = rest).
  { clear. intros l l'. revert l. induction l' as [|x' l' IH]; intros l rest Fl Fl' E; [now exists l|].
    destruct l as [|x l]; [unfold stacked in E; cbn [map concat app] in E; destruct x'; discriminate|].
    inversion Fl; inversion Fl'; subst. unfold stacked in E. cbn [map concat] in E. rewrite <- !app_assoc in E. cbn [app] in E.
    apply split_line in E as [-> E]; auto. destruct (IH l rest) as (l2 & -> & S); auto. now exists l2. }
  intros Fl (Fl' & [->|(l0 & last & Ne & -> & ->)]) E.
  - destruct (G l l' lost Fl Fl' E) as (l2 & -> & _). split.
    + intros x Hx. exists x, []. split; [apply in_app_iff; auto|now rewrite app_nil_r].
    + intros x Hx. apply in_app_iff. left. clear -Hx. induction l' as [|a l' IH]; [contradiction|]. cbn [removelast] in Hx. destruct l' as [|b l']; [contradiction|].
      destruct Hx as [<-|Hx]; [now left|right; auto].
  - rewrite <- app_assoc in E. apply Forall_app in Fl' as [F1 F2]. inversion F2 as [|? ? N2 _]; subst.
    destruct (G l l0 (last ++ lost) Fl F1 E) as (l2 & -> & S). destruct l2 as [|x l2]; [destruct last; [congruence|discriminate S]|].
    unfold stacked in S. cbn [map concat] in S. rewrite <- app_assoc in S. cbn [app] in S. destruct (part_line _ _ _ _ N2 S) as (k & Ek). split.
    + intros y Hy. apply in_app_iff in Hy as [Hy|[<-|[]]].
      * exists y, []. split; [apply in_app_iff; auto|now rewrite app_nil_r].
      * exists x, k. split; [apply in_app_iff; right; now left|exact Ek].
    + rewrite removelast_last. intros y Hy. apply in_app_iff. auto.
Qed.
