(* The merge join of two sorted pair files. *)
From Coq Require Import Ascii String List ZArith Lia Arith Bool Permutation Sorted.
From Verif Require Import Base BaseFacts ModelSequence ModelWilliamson ModelEquivalence ModelFourier ModelMatching
  ModelRowsum ModelWrite Spec TextFacts.
Import ListNotations.
Notation length := List.length.
Open Scope nat_scope.

Lemma strip_prefix_some p s r : strip_prefix p s = Some r -> s = p ++ r.
Proof.
  revert s. induction p as [|a p IH]; intros s E; cbn in *; [congruence|].
  destruct s as [|b s]; [discriminate|]. destruct (Ascii.eqb_spec a b); [|discriminate]. subst. cbn. f_equal. auto.
Qed.
Lemma strip_prefix_app p r : strip_prefix p (p ++ r) = Some r.
Proof. induction p; cbn; auto. now rewrite Ascii.eqb_refl. Qed.
Lemma split_at_some p s a r : split_at p s = (a, Some r) -> s = a ++ p ++ r.
Proof.
  revert a. induction s as [|c s IH]; intros a E; cbn [split_at] in E.
  - destruct (strip_prefix p []) eqn:H; [|discriminate]. injection E as <- <-. now apply strip_prefix_some in H.
  - destruct (strip_prefix p (c :: s)) eqn:H.
    + injection E as <- <-. now apply strip_prefix_some in H.
    + destruct (split_at p s) as [a' r'] eqn:E'. injection E as <- ->. cbn. f_equal. now apply IH.
Qed.
Lemma strip_prefix_local p u r r' : length p <= length u -> strip_prefix p (u ++ r) = None -> strip_prefix p (u ++ r') = None.
Proof.
  revert u. induction p as [|a p IH]; intros u Hl E; [discriminate|].
  destruct u as [|b u]; [cbn in Hl; lia|]. cbn in *. destruct (Ascii.eqb a b); auto. apply IH; auto. lia.
Qed.
Lemma split_at_unique p a r r' : split_at p (a ++ p ++ r) = (a, Some r) -> split_at p (a ++ p ++ r') = (a, Some r').
Proof.
  induction a as [|c a IH]; intros E.
  - cbn [app] in *. destruct (p ++ r') eqn:E'; cbn [split_at]; rewrite <- E', strip_prefix_app; reflexivity.
  - cbn [app split_at] in *. destruct (strip_prefix p (c :: a ++ p ++ r)) eqn:H; [discriminate|].
    destruct (split_at p (a ++ p ++ r)) as [a' s] eqn:E'. injection E as -> ->. rewrite (IH eq_refl).
    replace (strip_prefix p (c :: a ++ p ++ r')) with (@None text); auto. symmetry.
    change (c :: a ++ p ++ r') with ((c :: a) ++ p ++ r'). rewrite app_assoc. apply (strip_prefix_local _ _ r).
    + rewrite app_length. cbn. lia.
    + rewrite <- app_assoc. exact H.
Qed.

Lemma run_S {A R} fuel (step : A -> option (A + R)) s : run (S fuel) step s =
  match step s with None => None | Some (inr r) => Some r | Some (inl s') => run fuel step s' end.
Proof. unfold run. cbn [loop]. now destruct (step s) as [[?|?]|]. Qed.

(* a line that parses *)
Definition parsed (line : text) (k : text) (ij : nat * nat) : Prop := get_line_from line = Some (k, ij).
Definition has_key (k line : text) : Prop := exists ij, parsed line k ij.

Lemma parsed_split line k ij : parsed line k ij -> exists r, split_at (lit "_:_") line = (k, Some r).
Proof.
  unfold parsed, get_line_from. destruct (split_at (lit "_:_") line) as [a r] eqn:E. intros H.
  apply bind_some in H as (r' & -> & H). exists r'.
  destruct (split_at (lit "_:_") r') as [p ?]. destruct (split_at (lit "_") p) as [f o'].
  apply bind_some in H as (i & _ & H). apply bind_some in H as (r1 & _ & H).
  destruct (split_at (lit "_") r1). apply bind_some in H as (j & _ & H). congruence.
Qed.
Lemma parsed_text line k ij : parsed line k ij -> exists r, line = k ++ lit "_:_" ++ r.
Proof. intros H. destruct (parsed_split _ _ _ H) as (r & E). exists r. now apply split_at_some. Qed.
Lemma parsed_prefix line k ij line' k' ij' : parsed line k ij -> parsed line' k' ij' ->
  prefix (k ++ lit "_:_") line' -> k' = k.
Proof.
  intros H H' [r ->]. rewrite <- app_assoc in H'.
  destruct (parsed_split _ _ _ H) as (s & E). assert (E2 := E). apply split_at_some in E2. rewrite E2 in E.
  apply split_at_unique with (r' := r) in E. destruct (parsed_split _ _ _ H') as (r' & E'). congruence.
Qed.

(* neither key is a proper prefix of the other *)
Definition unrelated (x y : text) : Prop := x = y \/ ~ prefix x y /\ ~ prefix y x.

Lemma order_keys lx x ix ly y iy : parsed lx x ix -> parsed ly y iy -> unrelated x y -> x <> y ->
  text_ltb lx ly = text_ltb x y.
Proof.
  intros Hx Hy [->|[U V]] N; [congruence|].
  destruct (parsed_text _ _ _ Hx) as (r & ->). destruct (parsed_text _ _ _ Hy) as (s & ->). now apply text_ltb_app.
Qed.

Definition ok_lines (l : Lines) : Prop := Forall (fun line => exists k ij, parsed line k ij) l.

Lemma same_key_spec x l : ok_lines l -> exists m pre rest, same_key x l = Some (m, rest) /\ l = pre ++ rest /\
  Forall2 (fun line ij => parsed line x ij) pre m /\
  match rest with [] => True | h :: _ => exists k ij, parsed h k ij /\ k <> x end.
Proof.
  induction l as [|h l IH]; intros Hok.
  - exists [], [], []. repeat split; constructor.
  - inversion Hok as [|? ? (k & ij & Hk) Hl]; subst. cbn [same_key]. unfold parsed in Hk. rewrite Hk. cbn [bind].
    destruct (text_eqb x k) eqn:E.
    + apply text_eqb_eq in E. subst k. destruct (IH Hl) as (m & pre & rest & -> & -> & F & R).
      exists (ij :: m), (h :: pre), rest. cbn. repeat split; auto.
    + apply text_eqb_neq in E. exists [], [], (h :: l). cbn. repeat split; auto. exists k, ij. split; auto.
Qed.

Lemma sorted_app_le (l1 l2 : Lines) a b : sorted (l1 ++ l2) -> In a l1 -> In b l2 -> text_le a b.
Proof.
  unfold sorted. induction l1 as [|c l1 IH]; intros H Ha Hb; [contradiction|].
  cbn in H. inversion H as [|? ? Hs Hf]; subst. destruct Ha as [->|Ha]; auto.
  apply (proj1 (Forall_forall _ _) Hf). apply in_or_app. auto.
Qed.
Lemma sorted_app_r (l1 l2 : Lines) : sorted (l1 ++ l2) -> sorted l2.
Proof. unfold sorted. induction l1; cbn; auto. intros H. inversion H; auto. Qed.
Lemma sorted_head_le h l b : sorted (h :: l) -> In b l -> text_le h b.
Proof. intros H Hb. inversion H as [|? ? _ F]; subst. now apply (proj1 (Forall_forall _ _) F). Qed.

(* the lines after the group of x have other keys *)
Lemma rest_other x pre rest m line ij : sorted (pre ++ rest) -> pre <> [] ->
  Forall2 (fun line ij => parsed line x ij) pre m ->
  match rest with [] => True | h :: _ => exists k ij, parsed h k ij /\ k <> x end ->
  In line rest -> ~ parsed line x ij.
Proof.
  intros Hs Hp F R Hin Hx. destruct rest as [|h rest]; [contradiction|]. destruct R as (k & ij' & Hk & N).
  destruct pre as [|a pre]; [congruence|]. inversion F as [|? ij0 ? ? Ha _]; subst.
  apply N. assert (prefix (x ++ lit "_:_") h).
  { destruct (parsed_text _ _ _ Ha) as (r & Ea). destruct (parsed_text _ _ _ Hx) as (s & El).
    apply (between_prefix (x ++ lit "_:_") r s).
    - rewrite <- app_assoc, <- Ea. apply (sorted_app_le ((a :: pre)) (h :: rest)); auto; now left.
    - rewrite <- app_assoc, <- El. apply sorted_app_r in Hs. destruct Hin as [->|Hin].
      + unfold text_le. apply text_ltb_irrefl.
      + now apply (sorted_head_le h rest). }
  eapply parsed_prefix; eauto.
Qed.

Section Join.
Context (t : SequenceType) (order : Tag * Tag * Tag * Tag) (sequences : Sequences).

(* the quadruple built from two pairs of indices *)
Definition quad_at (ij kl : nat * nat) : option QuadSeq :=
  let* (w, x, y, z) := get_sequences sequences order (fst ij, snd ij, fst kl, snd kl) in
  Some (set_all_values (Quad_new (length w)) w x y z).

(* two lines with the same key give a quadruple of the type *)
Definition matched (l12 l34 : Lines) (x : text) (q : QuadSeq) : Prop :=
  exists a b ij kl, In a l12 /\ In b l34 /\ parsed a x ij /\ parsed b x kl /\
    quad_at ij kl = Some q /\ join_condition t q = Some true.

Definition defined (l12 l34 : Lines) : Prop :=
  forall a b x ij kl, In a l12 -> In b l34 -> parsed a x ij -> parsed b x kl ->
    exists q v, quad_at ij kl = Some q /\ join_condition t q = Some v.

Definition collect (result : list QuadSeq) (p : (nat * nat) * (nat * nat)) : option (list QuadSeq) :=
  let '((i1, i2), (i3, i4)) := p in
  let* (w, x, y, z) := get_sequences sequences order (i1, i2, i3, i4) in
  let quad_seq := set_all_values (Quad_new (length w)) w x y z in
  let* b := join_condition t quad_seq in
  Some (if b then result ++ [quad_seq] else result).

Lemma collect_spec l res : (forall p, In p l -> exists q v, quad_at (fst p) (snd p) = Some q /\ join_condition t q = Some v) ->
  exists r, fold_m collect l res = Some r /\
  forall q, In q r <-> In q res \/ exists p, In p l /\ quad_at (fst p) (snd p) = Some q /\ join_condition t q = Some true.
Proof.
  revert res. induction l as [|p l IH]; intros res H.
  - exists res. split; auto. intros q. split; auto. intros [|(p & [] & _)]; auto.
  - destruct (H p ltac:(now left)) as (q0 & v & E1 & E2). cbn [fold_m].
    assert (E : collect res p = Some (if v then res ++ [q0] else res)).
    { destruct p as [[i1 i2] [i3 i4]]. unfold collect, quad_at in *. cbn [fst snd] in *.
      destruct (get_sequences sequences order (i1, i2, i3, i4)) as [[[[w x] y] z]|]; [|discriminate].
      cbn [bind] in *. injection E1 as <-. rewrite E2. reflexivity. }
    rewrite E. cbn [bind]. destruct (IH (if v then res ++ [q0] else res)) as (r & Er & Hr).
    { intros; apply H; now right. }
    exists r. split; auto. intros q. rewrite Hr. split.
    + intros [Hq|(p' & Hp & A & B)].
      * destruct v; auto. apply in_app_iff in Hq as [Hq|[<-|[]]]; auto. right. exists p. split; [now left|auto].
      * right. exists p'. split; [now right|auto].
    + intros [Hq|(p' & [<-|Hp] & A & B)].
      * left. destruct v; auto. apply in_or_app; auto.
      * left. rewrite E1 in A. injection A as ->. rewrite E2 in B. injection B as ->. apply in_or_app. right. now left.
      * right. exists p'. auto.
Qed.

Definition clear_of (x : text) (l : Lines) : Prop :=
  forall line k ij, In line l -> parsed line k ij -> unrelated x k.

Lemma run_join fuel l12 l34 res : length l12 + length l34 < fuel ->
  sorted l12 -> sorted l34 -> ok_lines l12 -> ok_lines l34 -> defined l12 l34 ->
  exists r, run fuel (join_step t order sequences) (l12, l34, res) = Some r /\
    (forall q, In q res -> In q r) /\
    (forall q, In q r -> In q res \/ exists x, matched l12 l34 x q) /\
    (forall x q, clear_of x l12 -> clear_of x l34 -> matched l12 l34 x q -> In q r).
Proof.
  revert l12 l34 res. induction fuel as [|fuel IH]; intros l12 l34 res Hf S12 S34 O12 O34 D; [lia|].
  rewrite run_S. destruct l12 as [|h12 r12].
  { exists res. cbn. repeat split; auto. intros x q _ _ (a & b & ij & kl & [] & _). }
  destruct l34 as [|h34 r34].
  { exists res. cbn. repeat split; auto. intros x q _ _ (a & b & ij & kl & _ & [] & _). }
  inversion O12 as [|? ? (k12 & ij12 & P12) O12']; subst.
  inversion O34 as [|? ? (k34 & ij34 & P34) O34']; subst.
  cbn [join_step]. rewrite P12, P34. cbn [bind].
  destruct (text_eqb k12 k34) eqn:E.
  - apply text_eqb_eq in E. subst k34.
    destruct (same_key_spec k12 (h12 :: r12) O12) as (m12 & pre12 & rest12 & K12 & L12 & F12 & R12).
    destruct (same_key_spec k12 (h34 :: r34) O34) as (m34 & pre34 & rest34 & K34 & L34 & F34 & R34).
    rewrite K12. cbn [bind]. rewrite K34. cbn [bind].
    assert (N12 : pre12 <> []).
    { intros ->. cbn in L12. subst rest12. destruct R12 as (k & ij & Pk & Nk). unfold parsed in *. congruence. }
    assert (N34 : pre34 <> []).
    { intros ->. cbn in L34. subst rest34. destruct R34 as (k & ij & Pk & Nk). unfold parsed in *. congruence. }
    assert (M12 : forall ij, In ij m12 <-> exists a, In a pre12 /\ parsed a k12 ij).
    { clear - F12. induction F12 as [|a ij l m Ha _ IH]; intros ij'.
      - split; [intros []|intros (a & [] & _)].
      - split.
        + intros [<-|H]; [exists a; split; [now left|auto]|]. apply IH in H as (b & Hb & Pb). exists b. split; [now right|auto].
        + intros (b & [<-|Hb] & Pb); [left; unfold parsed in *; congruence|]. right. apply IH. eauto. }
    assert (M34 : forall ij, In ij m34 <-> exists a, In a pre34 /\ parsed a k12 ij).
    { clear - F34. induction F34 as [|a ij l m Ha _ IH]; intros ij'.
      - split; [intros []|intros (a & [] & _)].
      - split.
        + intros [<-|H]; [exists a; split; [now left|auto]|]. apply IH in H as (b & Hb & Pb). exists b. split; [now right|auto].
        + intros (b & [<-|Hb] & Pb); [left; unfold parsed in *; congruence|]. right. apply IH. eauto. }
    change (fold_m _ (iproduct m12 m34) res) with (fold_m collect (iproduct m12 m34) res).
    assert (I12 : forall a, In a (h12 :: r12) <-> In a pre12 \/ In a rest12).
    { intros a. rewrite L12. apply in_app_iff. }
    assert (I34 : forall a, In a (h34 :: r34) <-> In a pre34 \/ In a rest34).
    { intros a. rewrite L34. apply in_app_iff. }
    destruct (collect_spec (iproduct m12 m34) res) as (res' & Er & Hr).
    { intros [ij kl] Hp. apply in_prod_iff in Hp as [A B]. apply M12 in A as (a & Ha & Pa). apply M34 in B as (b & Hb & Pb).
      cbn [fst snd]. apply (D a b k12); auto; [apply I12|apply I34]; auto. }
    rewrite Er. cbn [bind].
    assert (Len12 : length rest12 < length (h12 :: r12)).
    { rewrite L12, app_length. destruct pre12; [congruence|cbn; lia]. }
    assert (Len34 : length rest34 < length (h34 :: r34)).
    { rewrite L34, app_length. destruct pre34; [congruence|cbn; lia]. }
    rewrite L12 in S12. rewrite L34 in S34.
    destruct (IH rest12 rest34 res') as (r & Rr & Inc & Snd & Cmp).
    + lia.
    + now apply sorted_app_r in S12.
    + now apply sorted_app_r in S34.
    + unfold ok_lines in *. rewrite L12 in O12. now apply Forall_app in O12 as [_ ?].
    + unfold ok_lines in *. rewrite L34 in O34. now apply Forall_app in O34 as [_ ?].
    + intros a b x ij kl Ha Hb. apply D; [apply I12|apply I34]; auto.
    + exists r. split; auto. split; [|split].
      * intros q Hq. apply Inc, Hr. auto.
      * intros q Hq. apply Snd in Hq as [Hq|(x & a & b & ij & kl & Ha & Hb & H)].
        -- apply Hr in Hq as [Hq|([ij kl] & Hp & A & B)]; auto. right. exists k12.
           apply in_prod_iff in Hp as [A' B']. apply M12 in A' as (a & Ha & Pa). apply M34 in B' as (b & Hb & Pb).
           exists a, b, ij, kl. rewrite I12, I34. auto 10.
        -- right. exists x, a, b, ij, kl. rewrite I12, I34. auto.
      * intros x q C12 C34 (a & b & ij & kl & Ha & Hb & Pa & Pb & A & B).
        apply I12 in Ha. apply I34 in Hb.
        assert (X12 : In a pre12 -> x = k12).
        { intros Hin. clear - F12 Hin Pa. induction F12 as [|? ? ? ? Hx]; [contradiction|].
          destruct Hin as [->|]; auto. unfold parsed in *. congruence. }
        assert (X34 : In b pre34 -> x = k12).
        { intros Hin. clear - F34 Hin Pb. induction F34 as [|? ? ? ? Hx]; [contradiction|].
          destruct Hin as [->|]; auto. unfold parsed in *. congruence. }
        assert (Y12 : In a rest12 -> x <> k12).
        { intros Hin ->. apply (rest_other k12 pre12 rest12 m12 a ij); auto. }
        assert (Y34 : In b rest34 -> x <> k12).
        { intros Hin ->. apply (rest_other k12 pre34 rest34 m34 b kl); auto. }
        destruct Ha as [Ha|Ha], Hb as [Hb|Hb].
        -- apply Inc, Hr. right. exists (ij, kl). cbn [fst snd]. rewrite (X12 Ha) in Pa, Pb. split; auto.
           apply in_prod_iff. split; [apply M12; exists a; auto|apply M34; exists b; auto].
        -- now destruct (Y34 Hb (X12 Ha)).
        -- now destruct (Y12 Ha (X34 Hb)).
        -- apply (Cmp x); [intros l k i Hl; apply C12, I12; auto|intros l k i Hl; apply C34, I34; auto|].
           exists a, b, ij, kl. auto 10.
  - apply text_eqb_neq in E. destruct (text_ltb k12 k34) eqn:L.
    + destruct (IH r12 (h34 :: r34) res) as (r & Rr & Inc & Snd & Cmp); auto.
      * cbn in *. lia.
      * now inversion S12.
      * intros a b x ij kl Ha. apply D. now right.
      * exists r. split; auto. split; auto. split.
        -- intros q Hq. apply Snd in Hq as [Hq|(x & a & b & ij & kl & Ha & H)]; auto.
           right. exists x, a, b, ij, kl. split; [now right|auto].
        -- intros x q C12 C34 (a & b & ij & kl & Ha & Hb & Pa & Pb & H).
           destruct Ha as [<-|Ha].
           ++ exfalso. assert (x = k12) as -> by (unfold parsed in *; congruence).
              destruct Hb as [<-|Hb]; [unfold parsed in *; congruence|].
              assert (U : unrelated k12 k34) by (apply (C34 h34 k34 ij34); auto; now left).
              pose proof (sorted_head_le _ _ _ S34 Hb) as Le. unfold text_le in Le.
              rewrite (order_keys _ _ _ _ _ _ Pb P34 U E) in Le. congruence.
           ++ apply (Cmp x); auto.
              ** intros l k i Hl. apply C12. now right.
              ** exists a, b, ij, kl. auto.
    + destruct (IH (h12 :: r12) r34 res) as (r & Rr & Inc & Snd & Cmp); auto.
      * cbn in *. lia.
      * now inversion S34.
      * intros a b x ij kl Ha Hb. apply D; auto. now right.
      * exists r. split; auto. split; auto. split.
        -- intros q Hq. apply Snd in Hq as [Hq|(x & a & b & ij & kl & Ha & Hb & H)]; auto.
           right. exists x, a, b, ij, kl. split; auto. split; [now right|auto].
        -- intros x q C12 C34 (a & b & ij & kl & Ha & Hb & Pa & Pb & H).
           destruct Hb as [<-|Hb].
           ++ exfalso. assert (x = k34) as -> by (unfold parsed in *; congruence).
              destruct Ha as [<-|Ha]; [unfold parsed in *; congruence|].
              assert (U : unrelated k34 k12) by (apply (C12 h12 k12 ij12); auto; now left).
              pose proof (sorted_head_le _ _ _ S12 Ha) as Le. unfold text_le in Le.
              rewrite (order_keys _ _ _ _ _ _ Pa P12 U) in Le by congruence.
              destruct (text_ltb_total _ _ L) as [|T]; congruence.
           ++ apply (Cmp x); auto.
              ** intros l k i Hl. apply C34. now right.
              ** exists a, b, ij, kl. auto.
Qed.

Lemma join_files_spec l12 l34 :
  sorted l12 -> sorted l34 -> ok_lines l12 -> ok_lines l34 -> defined l12 l34 ->
  exists r, join_pairs_files l12 l34 t order sequences = Some r /\
    (forall q, In q r -> exists x, matched l12 l34 x q) /\
    (forall x q, clear_of x l12 -> clear_of x l34 -> matched l12 l34 x q -> In q r).
Proof.
  intros S12 S34 O12 O34 D. unfold join_pairs_files.
  destruct (run_join (S (length l12 + length l34)) l12 l34 []) as (r & E & _ & Snd & Cmp); auto; try lia.
  exists r. split; auto. split; auto. intros q Hq. apply Snd in Hq as [[]|]; auto.
Qed.

(* whatever the files contain *)
Definition produced (q : QuadSeq) : Prop := join_condition t q = Some true /\
  exists idx w x y z, get_sequences sequences order idx = Some (w, x, y, z) /\ q = set_all_values (Quad_new (length w)) w x y z.
Lemma collect_in l res r : fold_m collect l res = Some r ->
  forall q, In q r -> In q res \/ produced q.
Proof.
  revert res. induction l as [|p l IH]; cbn [fold_m]; intros res E q Hq; [left; congruence|].
  apply bind_some in E as (res' & E1 & E). destruct (IH _ E q Hq) as [H|]; auto.
  destruct p as [[i1 i2] [i3 i4]]. unfold collect in E1.
  apply bind_some in E1 as ([[[w x] y] z] & Eg & E1). apply bind_some in E1 as (b & Eb & E1). injection E1 as <-.
  destruct b; auto. apply in_app_iff in H as [H|[<-|[]]]; auto. right. split; auto. exists (i1, i2, i3, i4), w, x, y, z. auto.
Qed.
Lemma join_files_sound l12 l34 r : join_pairs_files l12 l34 t order sequences = Some r ->
  forall q, In q r -> produced q.
Proof.
  unfold join_pairs_files. generalize (S (length l12 + length l34)) as fuel.
  assert (G : forall fuel l12 l34 res r, run fuel (join_step t order sequences) (l12, l34, res) = Some r ->
    forall q, In q r -> In q res \/ produced q).
  { clear. induction fuel as [|fuel IH]; intros l12 l34 res r E q Hq; [discriminate|]. rewrite run_S in E.
    destruct (join_step t order sequences (l12, l34, res)) as [[[[a b] res']|res']|] eqn:St; [| |discriminate].
    - destruct (IH _ _ _ _ E q Hq) as [H|]; auto. unfold join_step in St.
      destruct l12 as [|h12 r12]; [discriminate|]. destruct l34 as [|h34 r34]; [discriminate|].
      apply bind_some in St as ([k12 i12] & _ & St). apply bind_some in St as ([k34 i34] & _ & St).
      destruct (text_eqb k12 k34).
      + apply bind_some in St as ([m12 s12] & _ & St). apply bind_some in St as ([m34 s34] & _ & St).
        apply bind_some in St as (res'' & Ef & St). injection St as <- <- <-.
        eapply collect_in; eauto.
      + destruct (text_ltb k12 k34); injection St as <- <- <-; auto.
    - left. unfold join_step in St.
      destruct l12 as [|h12 r12]; [injection E as <-; injection St as <-; auto|].
      destruct l34 as [|h34 r34]; [injection E as <-; injection St as <-; auto|].
      apply bind_some in St as ([k12 i12] & _ & St). apply bind_some in St as ([k34 i34] & _ & St).
      destruct (text_eqb k12 k34).
      + apply bind_some in St as ([m12 s12] & _ & St). apply bind_some in St as ([m34 s34] & _ & St).
        apply bind_some in St as (res'' & Ef & St). discriminate.
      + destruct (text_ltb k12 k34); discriminate. }
  intros fuel E q Hq. destruct (G _ _ _ _ _ E q Hq) as [[]|]; auto.
Qed.
End Join.
