(* The end-to-end search, the join of arbitrary files and the table of pairs. *)
From Coq Require Import Ascii String List ZArith Lia Arith Bool Reals Permutation Relations Sorted.
From Verif Require Import Base BaseFacts Sums ModelSequence ModelWilliamson ModelEquivalence SpecEquiv OpFacts EquivFacts TypeFacts
  OrderFacts FastFacts EquivThms CanonFacts NsFacts ReduceFacts WsFacts ModelFourier ModelMatching ModelRowsum SeqFacts SpecRowsum RowsumFacts
  SpecFourier MatchFacts ModelWrite TextFacts JoinFacts WriteFacts DirFacts FolderFacts SearchThms ExtendFacts FindQuadFacts SpecSearch Spec.
Import ListNotations.
Notation length := List.length.
Open Scope nat_scope.

(* ---- the order of texts ---- *)

Lemma text_le_byte x y : text_le x y <-> byte_le x y.
Proof.
  unfold text_le. revert y. induction x as [|a x IH]; intros [|b y].
  - split; [|reflexivity]. left. now exists [].
  - split; [|reflexivity]. left. now exists (b :: y).
  - split; [discriminate|]. intros [[r E]|(p & c & d & u & v & E1 & E2 & _)]; [discriminate|]. destruct p; discriminate.
  - cbn [text_ltb]. destruct (Nat.ltb_spec (nat_of_ascii b) (nat_of_ascii a)) as [L|L].
    + split; [discriminate|]. intros [[r E]|(p & c & d & u & v & E1 & E2 & H)].
      * injection E as -> _. lia.
      * destruct p as [|e p]; injection E1 as -> ->; injection E2 as -> ->; lia.
    + destruct (Nat.ltb_spec (nat_of_ascii a) (nat_of_ascii b)) as [L'|L'].
      * split; [|reflexivity]. intros _. right. exists [], a, b, x, y. auto.
      * assert (a = b) as -> by (apply code_inj; lia). rewrite IH. split.
        -- intros [[r Er]|(p & c & d & u & v & -> & -> & H)]; [left; exists r; now rewrite Er|]. right. exists (b :: p), c, d, u, v. auto.
        -- intros [[r E]|(p & c & d & u & v & E1 & E2 & H)].
           ++ injection E as ->. left. now exists r.
           ++ destruct p as [|e p]; [injection E1 as -> ->; injection E2 as -> ->; lia|]. injection E1 as -> ->. injection E2 as ->. right. exists p, c, d, u, v. auto.
Qed.

Lemma sorted_text l : sorted l <-> text_sorted l.
Proof.
  unfold sorted, text_sorted. split; intros H; induction H; constructor; auto;
    (eapply Forall_impl; [|eassumption]); intros; now apply text_le_byte.
Qed.

(* ---- the lines of the result ---- *)

Lemma seq_lines_spec n l : (forall q, In q l -> pm_quad n q) -> exists out, seq_lines l = Some out /\ Forall2 line_of_quad l out.
Proof.
  unfold seq_lines. induction l as [|q l IH]; intros H; [exists []; auto|].
  destruct IH as (out & E & F); [intros; apply H; now right|].
  destruct (quad_text_total n q (H q (in_eq _ _))) as (v & s & E1 & E2).
  exists (s :: out). cbn [traverse]. rewrite E1. cbn [bind]. rewrite E2. cbn [bind]. rewrite E. split; [reflexivity|].
  constructor; auto. now exists v.
Qed.

(* ---- the list of matches ---- *)

Theorem search_exhaustive n t m p ls : 1 <= n -> (Z.of_nat n < 2 ^ 62)%Z -> searchable t -> listing_ok ls ->
  exists fuel0, forall fuel, fuel0 <= fuel -> exists f c r,
    write_pairs fuel n t m p [] = Some (f, c) /\ match_pairs ls t (sortpairs f) = Some r /\
    (forall q, In q r -> pm_quad n q /\ is_type t q) /\
    (forall q, pm_quad n q -> is_type t q -> exists x, In x r /\ reach (type_ops t) q x).
Proof.
  intros Hn Hn2 Ht Hls. destruct (search_spec n t m p ls Hn Hn2 Ht Hls) as (f0 & H). exists f0. intros fuel Hf.
  destruct (H fuel Hf) as (f & c & r & Ew & Em & Snd & Cmp). exists f, c, r. split; auto. split; auto. split.
  - intros q Hq. destruct (Snd q Hq) as (? & ? & _). auto.
  - intros q Pq Tq. destruct (normal_reach n t q Hn Pq Tq) as (y & R & Py & Ty & Ny). exists y. split; auto.
Qed.

(* ---- the driver ---- *)

Lemma one_per_class_intro n t r : 1 <= n -> NoDup r ->
  (forall x, In x r -> pm_quad n x /\ verify x t = Some true /\ least (reach (type_ops t) x) x) ->
  (forall q, pm_quad n q -> verify q t = Some true ->
     exists x, In x r /\ reach (type_ops t) q x /\ forall x', In x' r -> reach (type_ops t) q x' -> x' = x) ->
  one_per_class n t r.
Proof.
  intros Hn Nd A B. split; auto. split.
  - intros x Hx. destruct (A x Hx) as (P & V & L). split; auto. split; auto. now apply (verify_type n).
  - intros q P T. apply B; auto. now apply (verify_type n).
Qed.

Theorem driver_QT n m p ls ord : 1 <= n <= 31 -> listing_ok ls -> ord_ok ord ->
  (exists q, pm_quad n q /\ is_QT q) ->
  exists fuel0, forall fuel path, fuel0 <= fuel -> exists r out,
    driver fuel ord path ls QuaternionType n m p = Some (out, None) /\
    one_per_class n QuaternionType r /\ Forall2 line_of_quad r out.
Proof.
  intros Hn Hls Ho (q & P & T).
  destruct (search_classes n QuaternionType m p ls ord Hn (or_introl eq_refl) Hls Ho) as (f0 & H).
  { exists q. split; auto. apply (verify_type n); auto; lia. }
  exists f0. intros fuel path Hf. destruct (H fuel (0 :: path) Hf) as (f & c & r & Ew & Ej & Nd & A & B).
  destruct (seq_lines_spec n r) as (out & Eo & Fo); [intros x Hx; now apply A|].
  exists r, out. split; [|split; auto].
  - unfold driver. rewrite Ew. cbn [bind]. unfold find_write_quad_seq. rewrite Ej. cbn [bind]. rewrite Eo. reflexivity.
  - apply one_per_class_intro; auto; lia.
Qed.

Theorem driver_WT n m p ls ord : 1 <= n <= 31 -> listing_ok ls -> ord_ok ord ->
  (exists q, pm_quad n q /\ is_WT q) ->
  exists fuel0, forall fuel path, fuel0 <= fuel -> exists r out r' out',
    driver fuel ord path ls WilliamsonType n m p = Some (out, Some out') /\
    one_per_class n WilliamsonType r /\ Forall2 line_of_quad r out /\
    one_per_class n QuaternionType r' /\ Forall2 line_of_quad r' out'.
Proof.
  intros Hn Hls Ho (q & P & T). assert (Hn1 : 1 <= n) by lia.
  destruct (search_classes n WilliamsonType m p ls ord Hn (or_intror eq_refl) Hls Ho) as (f0 & H).
  { exists q. split; auto. now apply (verify_type n). }
  exists (max f0 (class_fuel n)). intros fuel path Hf.
  destruct (H fuel (0 :: path) ltac:(lia)) as (f & c & r & Ew & Ej & Nd & A & B).
  destruct (seq_lines_spec n r) as (out & Eo & Fo); [intros x Hx; now apply A|].
  assert (Hne : r <> []).
  { intros ->. destruct (B q P) as (x & [] & _). now apply (verify_type n). }
  destruct (wts_to_qts_at n ord r Ho Hn Hne) as (l' & El & R).
  { apply Forall_forall. intros x Hx. destruct (A x Hx) as (? & ? & _). auto. }
  { intros y Py Vy. destruct (B y Py Vy) as (x & I & Rx & _). eauto. }
  destruct (R fuel (1 :: path) ltac:(lia)) as (r' & Er' & Nd' & A' & B').
  destruct (seq_lines_spec n r') as (out' & Eo' & Fo'); [intros x Hx; now apply A'|].
  exists r, out, r', out'. split; [|split; [|split; [|split]]]; auto.
  - unfold driver. rewrite Ew. cbn [bind]. unfold find_write_quad_seq. rewrite Ej. cbn [bind]. rewrite Eo. cbn [bind].
    rewrite El. cbn [bind]. rewrite Er'. cbn [bind]. rewrite Eo'. reflexivity.
  - now apply one_per_class_intro.
  - now apply one_per_class_intro.
Qed.

Theorem driver_W n m p ls ord : 1 <= n <= 31 -> listing_ok ls -> ord_ok ord ->
  (exists q, pm_quad n q /\ is_W q) ->
  exists fuel0, forall fuel path, fuel0 <= fuel -> exists r out,
    driver fuel ord path ls Williamson n m p = Some (out, None) /\
    one_per_class_W n r /\ Forall2 line_of_quad r out.
Proof.
  intros Hn Hls Ho (q & P & T). assert (Hn1 : 1 <= n) by lia.
  destruct (search_classes_W n m p ls ord Hn Hls Ho) as (f0 & H).
  { exists q. split; auto. now apply (verify_type n). }
  exists f0. intros fuel path Hf. destruct (H fuel (0 :: path) Hf) as (f & c & r & Ew & Ej & Nd & A & B).
  destruct (seq_lines_spec n r) as (out & Eo & Fo).
  { intros x Hx. destruct (A x Hx) as (y & Py & _ & Ry & _). now apply (reach_pm n (type_ops WilliamsonType) y). }
  exists r, out. split; [|split; auto].
  - unfold driver. rewrite Ew. cbn [bind]. unfold find_write_quad_seq. rewrite Ej. cbn [bind]. rewrite Eo. reflexivity.
  - split; auto. split.
    + intros x Hx. destruct (A x Hx) as (y & Py & Vy & Ry). exists y. split; auto. split; auto. now apply (verify_type n).
    + intros y Py Ty. destruct (B y Py) as (x & I & Rx & U & W); [now apply (verify_type n)|].
      exists x. split; auto. split; auto. split; auto. intros q' P' T'. apply W; auto. now apply (verify_type n).
Qed.

(* no solution: the program stops with a panic when it takes the first element of an empty list *)
Theorem driver_none n t m p ls : 1 <= n -> (Z.of_nat n < 2 ^ 62)%Z -> searchable t -> listing_ok ls ->
  (forall q, pm_quad n q -> ~ is_type t q) ->
  exists fuel0, forall fuel ord path, fuel0 <= fuel -> driver fuel ord path ls t n m p = None.
Proof.
  intros Hn Hn2 Ht Hls No. destruct (search_none n t m p ls Hn Hn2 Ht Hls) as (f0 & H).
  { intros q P V. apply (No q P). now apply (verify_type n). }
  exists f0. intros fuel ord path Hf. destruct (H fuel ord (0 :: path) Hf) as (f & c & Ew & Ej).
  unfold driver. rewrite Ew. cbn [bind]. unfold find_write_quad_seq. rewrite Ej. reflexivity.
Qed.

(* ---- the join of two sorted files ---- *)

Lemma quad_at_any (L : Tag -> list (list Z)) a b c d i j k l s1 s2 s3 s4 : NoDup [a; b; c; d] ->
  nth_error (L a) i = Some s1 -> nth_error (L b) j = Some s2 -> nth_error (L c) k = Some s3 -> nth_error (L d) l = Some s4 ->
  exists q, quad_at (a, b, c, d) (L TW, L TX, L TY, L TZ) (i, j) (k, l) = Some q /\ q_size q = length (q_a q) /\
    sequence q a = s1 /\ sequence q b = s2 /\ sequence q c = s3 /\ sequence q d = s4.
Proof.
  intros Hd A B C D.
  inversion Hd as [|? ? H1 Hd1]; subst. inversion Hd1 as [|? ? H2 Hd2]; subst. inversion Hd2 as [|? ? H3 _]; subst.
  cbn [In] in *.
  assert (a <> b) by (intros ->; tauto). assert (a <> c) by (intros ->; tauto). assert (a <> d) by (intros ->; tauto).
  assert (b <> c) by (intros ->; tauto). assert (b <> d) by (intros ->; tauto). assert (c <> d) by (intros ->; tauto).
  clear Hd Hd1 Hd2 H1 H2 H3.
  destruct a, b; try congruence; destruct c; try congruence; destruct d; try congruence;
    (unfold quad_at, get_sequences, get_sequence_aux, vget; cbn [tag_eqb fst snd bind]; rewrite A, B, C, D; cbn [bind];
     eexists; repeat split).
Qed.

Lemma four_tags a b c d (P : Tag -> Prop) : NoDup [a; b; c; d] -> P a -> P b -> P c -> P d -> forall tg, P tg.
Proof.
  intros Hd A B C D.
  inversion Hd as [|? ? H1 Hd1]; subst. inversion Hd1 as [|? ? H2 Hd2]; subst. inversion Hd2 as [|? ? H3 _]; subst.
  cbn [In] in *.
  assert (a <> b) by (intros ->; tauto). assert (a <> c) by (intros ->; tauto). assert (a <> d) by (intros ->; tauto).
  assert (b <> c) by (intros ->; tauto). assert (b <> d) by (intros ->; tauto). assert (c <> d) by (intros ->; tauto).
  destruct a, b; try congruence; destruct c; try congruence; destruct d; try congruence; intros []; assumption.
Qed.

Lemma pm_quad_tags n q : q_size q = length (q_a q) ->
  (forall tg, length (sequence q tg) = n /\ pm1 (sequence q tg)) -> pm_quad n q.
Proof.
  intros S H. pose proof (H TW). pose proof (H TX). pose proof (H TY). pose proof (H TZ). cbn [sequence] in *.
  unfold pm_quad, wf. repeat split; try tauto. rewrite S. tauto.
Qed.

Theorem join_exact t n a b c d (L : Tag -> list (list Z)) l12 l34 : searchable t -> 1 <= n -> NoDup [a; b; c; d] ->
  (forall tg s, In s (L tg) -> length s = n /\ pm1 s) ->
  text_sorted l12 -> text_sorted l34 -> lines_within l12 (L a) (L b) -> lines_within l34 (L c) (L d) ->
  exists r, join_pairs_files l12 l34 t (a, b, c, d) (L TW, L TX, L TY, L TZ) = Some r /\
    (forall q, In q r -> pm_quad n q /\ is_type t q /\
       exists x y k i1 i2 i3 i4, In x l12 /\ In y l34 /\
         get_line_from x = Some (k, (i1, i2)) /\ get_line_from y = Some (k, (i3, i4)) /\
         nth_error (L a) i1 = Some (sequence q a) /\ nth_error (L b) i2 = Some (sequence q b) /\
         nth_error (L c) i3 = Some (sequence q c) /\ nth_error (L d) i4 = Some (sequence q d)) /\
    (forall q, pm_quad n q -> is_type t q -> forall x y k i1 i2 i3 i4, In x l12 -> In y l34 ->
         get_line_from x = Some (k, (i1, i2)) -> get_line_from y = Some (k, (i3, i4)) ->
         nth_error (L a) i1 = Some (sequence q a) -> nth_error (L b) i2 = Some (sequence q b) ->
         nth_error (L c) i3 = Some (sequence q c) -> nth_error (L d) i4 = Some (sequence q d) ->
         (forall z k' ij, In z (l12 ++ l34) -> get_line_from z = Some (k', ij) -> k' = k \/ ~ text_prefix k k' /\ ~ text_prefix k' k) ->
         In q r).
Proof.
  intros Ht Hn Hd HL S1 S2 W1 W2. apply sorted_text in S1, S2.
  assert (Q : forall x y k i1 i2 i3 i4, In x l12 -> In y l34 -> parsed x k (i1, i2) -> parsed y k (i3, i4) ->
    exists q, quad_at (a, b, c, d) (L TW, L TX, L TY, L TZ) (i1, i2) (i3, i4) = Some q /\ pm_quad n q /\
      nth_error (L a) i1 = Some (sequence q a) /\ nth_error (L b) i2 = Some (sequence q b) /\
      nth_error (L c) i3 = Some (sequence q c) /\ nth_error (L d) i4 = Some (sequence q d)).
  { intros x y k i1 i2 i3 i4 Ix Iy Px Py.
    destruct (W1 x Ix) as (k1 & j1 & j2 & E1 & B1 & B2). destruct (W2 y Iy) as (k2 & j3 & j4 & E2 & B3 & B4).
    unfold parsed in *. rewrite Px in E1. injection E1 as <- <- <-. rewrite Py in E2. injection E2 as <- <- <-.
    apply nth_error_Some in B1, B2, B3, B4.
    destruct (nth_error (L a) i1) as [s1|] eqn:N1; [|congruence]. destruct (nth_error (L b) i2) as [s2|] eqn:N2; [|congruence].
    destruct (nth_error (L c) i3) as [s3|] eqn:N3; [|congruence]. destruct (nth_error (L d) i4) as [s4|] eqn:N4; [|congruence].
    destruct (quad_at_any L a b c d i1 i2 i3 i4 s1 s2 s3 s4 Hd N1 N2 N3 N4) as (q & Eq & Sz & <- & <- & <- & <-).
    exists q. repeat split; auto; apply (pm_quad_tags n q Sz), (four_tags a b c d _ Hd); apply (HL _ _ (nth_error_In _ _ N1))
      || apply (HL _ _ (nth_error_In _ _ N2)) || apply (HL _ _ (nth_error_In _ _ N3)) || apply (HL _ _ (nth_error_In _ _ N4)). }
  assert (OK : forall file l1 l2, lines_within file l1 l2 -> ok_lines file).
  { intros file l1 l2 W. apply Forall_forall. intros x Hx. destruct (W x Hx) as (k & i & j & E & _). exists k, (i, j). exact E. }
  destruct (join_files_spec t (a, b, c, d) (L TW, L TX, L TY, L TZ) l12 l34 S1 S2 (OK _ _ _ W1) (OK _ _ _ W2)) as (r & Er & A & B).
  { intros x y k [i1 i2] [i3 i4] Ix Iy Px Py. destruct (Q x y k i1 i2 i3 i4 Ix Iy Px Py) as (q & Eq & Pq & _).
    destruct (join_condition_spec n q t Ht Hn Pq) as (v & Ev & _). eauto. }
  exists r. split; auto. split.
  - intros q Hq. destruct (A q Hq) as (k & x & y & [i1 i2] & [i3 i4] & Ix & Iy & Px & Py & Eq & Jq).
    destruct (Q x y k i1 i2 i3 i4 Ix Iy Px Py) as (q' & Eq' & Pq & N). rewrite Eq in Eq'. injection Eq' as <-.
    split; auto. split.
    + destruct (join_condition_spec n q t Ht Hn Pq) as (v & Ev & Hv). apply Hv. congruence.
    + exists x, y, k, i1, i2, i3, i4. unfold parsed in *. tauto.
  - intros q Pq Tq x y k i1 i2 i3 i4 Ix Iy Px Py N1 N2 N3 N4 Cl. apply (B k).
    + intros z k' ij Iz Pz. destruct (Cl z k' ij ltac:(apply in_or_app; auto) Pz); unfold unrelated; auto.
    + intros z k' ij Iz Pz. destruct (Cl z k' ij ltac:(apply in_or_app; auto) Pz); unfold unrelated; auto.
    + exists x, y, (i1, i2), (i3, i4). split; auto. split; auto. split; auto. split; auto.
      destruct (Q x y k i1 i2 i3 i4 Ix Iy Px Py) as (q' & Eq' & Pq' & M1 & M2 & M3 & M4).
      assert (q' = q) as ->.
      { apply quad_ext; [destruct Pq' as [[-> _] _], Pq as [[-> _] _]; reflexivity|].
        apply (four_tags a b c d _ Hd); congruence. }
      split; auto. destruct (join_condition_spec n q t Ht Hn Pq) as (v & Ev & Hv). rewrite Ev. f_equal. now apply Hv.
Qed.

(* ---- the join step on arbitrary folders ---- *)

Definition comps_ok (n : nat) (S : Sequences) : Prop := forall tg, seqs_ok n (comp S tg).

Lemma string_to_sequence_ok line s : string_to_sequence line = Some s -> length s = length line /\ pm1 s.
Proof.
  unfold string_to_sequence. revert s. induction line as [|c line IH]; cbn [traverse]; intros s E.
  - injection E as <-. split; [reflexivity|constructor].
  - apply bind_some in E as (x & Ex & E). apply bind_some in E as (r & Er & E). injection E as <-.
    destruct (IH r Er) as [A B]. split; [cbn [length]; now rewrite A|]. constructor; auto.
    destruct (Ascii.eqb c "+"%char); [injection Ex as <-; auto|]. destruct (Ascii.eqb c "-"%char); [injection Ex as <-; auto|discriminate].
Qed.

Lemma traverse_in {A B} (f : A -> option B) l r : traverse f l = Some r -> forall y, In y r -> exists x, In x l /\ f x = Some y.
Proof.
  revert r. induction l as [|x l IH]; cbn [traverse]; intros r E y Hy.
  - injection E as <-. contradiction.
  - apply bind_some in E as (x' & Ex & E). apply bind_some in E as (r' & Er & E). injection E as <-.
    destruct Hy as [<-|Hy]; [exists x; split; auto; now left|]. destruct (IH r' Er y Hy) as (z & Hz & Ez). exists z. split; auto. now right.
Qed.

Lemma file_ok n lines l : (forall line, In line lines -> length line = n) -> file_to_sequences lines = Some l -> seqs_ok n l.
Proof.
  intros H E s Hs. destruct (traverse_in _ _ _ E s Hs) as (line & Hl & El). apply string_to_sequence_ok in El as [A B].
  split; auto. now rewrite A, H.
Qed.

Lemma dir_sequences n d S : dir_len n d -> get_sequences_from_dir d = Some S -> comps_ok n S.
Proof.
  intros Hd. unfold get_sequences_from_dir. match goal with |- fold_m ?g _ _ = _ -> _ => set (f := g) end.
  assert (G : forall d0 S0 S1, (forall e, In e d0 -> In e d) -> comps_ok n S0 -> fold_m f d0 S0 = Some S1 -> comps_ok n S1).
  { induction d0 as [|[name lines] d0 IH]; cbn [fold_m]; intros S0 S1 Sub Ok E; [injection E as <-; auto|].
    apply bind_some in E as (S2 & E2 & E). apply (IH S2 S1); auto; [intros; apply Sub; now right|].
    destruct S0 as [[[w x] y] z]. unfold f in E2. destruct (ends_with name (lit ".seq")) eqn:En; [|injection E2 as <-; auto].
    assert (Fo : forall l, file_to_sequences lines = Some l -> seqs_ok n l).
    { intros l. apply file_ok. apply (Hd name); auto. apply Sub. now left. }
    pose proof (Ok TW) as OW. pose proof (Ok TX) as OX. pose proof (Ok TY) as OY. pose proof (Ok TZ) as OZ. cbn [comp] in *.
    repeat (destruct (text_eqb name _); [apply bind_some in E2 as (l & El & E2); injection E2 as <-; intros []; cbn [comp]; auto|]).
    discriminate. }
  intros E. apply (G d _ _ ltac:(auto)) in E; auto. intros [] s [].
Qed.

Lemma get_sequence_aux_ok n S o idx tg s : comps_ok n S -> get_sequence_aux S o idx tg = Some s -> length s = n /\ pm1 s.
Proof.
  intros Ok E. destruct S as [[[w x] y] z], o as [[[t1 t2] t3] t4], idx as [[[i1 i2] i3] i4]. unfold get_sequence_aux in E.
  apply bind_some in E as (i & _ & E). apply (Ok tg). destruct tg; cbn [comp]; unfold vget in E; eapply nth_error_In; eauto.
Qed.

Lemma produced_valid n t o S q : 1 <= n -> comps_ok n S -> produced t o S q -> pm_quad n q /\ is_type t q.
Proof.
  intros Hn Ok (J & idx & w & x & y & z & Eg & ->). unfold get_sequences in Eg.
  apply bind_some in Eg as (w' & Ew & Eg). apply bind_some in Eg as (x' & Ex & Eg).
  apply bind_some in Eg as (y' & Ey & Eg). apply bind_some in Eg as (z' & Ez & Eg). injection Eg as -> -> -> ->.
  apply get_sequence_aux_ok with (n := n) in Ew as [Lw Pw]; auto. apply get_sequence_aux_ok with (n := n) in Ex as [Lx Px]; auto.
  apply get_sequence_aux_ok with (n := n) in Ey as [Ly Py]; auto. apply get_sequence_aux_ok with (n := n) in Ez as [Lz Pz]; auto.
  match goal with |- pm_quad n ?q /\ _ => set (Q := q) in * end.
  assert (P : pm_quad n Q) by (unfold pm_quad, wf, Q; cbn; auto 10).
  split; auto. destruct t; try discriminate;
  match goal with |- is_type ?t _ => destruct (join_condition_spec n Q t) as (b & Eb & Hb); auto; [unfold searchable; tauto|]; apply Hb; congruence end.
Qed.

Theorem match_sound n ls t f r : 1 <= n -> listing_ok ls ->
  (forall name d, In (name, d) f -> dir_len n d) -> match_pairs ls t f = Some r ->
  forall q, In q r -> pm_quad n q /\ is_type t q.
Proof.
  intros Hn (Lf & Lsq & Lp) Hf. unfold match_pairs. match goal with |- fold_m ?g _ _ = _ -> _ => set (g0 := g) end.
  assert (G : forall l r0 r1, (forall e, In e l -> In e f) -> (forall q, In q r0 -> pm_quad n q /\ is_type t q) ->
    fold_m g0 l r0 = Some r1 -> forall q, In q r1 -> pm_quad n q /\ is_type t q).
  { induction l as [|[name d] l IH]; cbn [fold_m]; intros r0 r1 Sub A E; [injection E as <-; auto|].
    apply bind_some in E as (r2 & E2 & E). apply (IH r2 r1); auto; [intros; apply Sub; now right|].
    unfold g0 in E2. apply bind_some in E2 as (S & Es & E2). apply bind_some in E2 as ([files order] & Eo & E2).
    apply bind_some in E2 as (r3 & Er & E2). injection E2 as <-.
    intros q Hq. apply in_app_iff in Hq as [Hq|Hq]; auto.
    apply (produced_valid n t order S q Hn); [|eapply join_files_sound; eauto].
    apply (dir_sequences n (ls_seq ls name d)); auto.
    intros nm lines I. apply (Hf name d (Sub _ (or_introl eq_refl)) nm lines). eapply Permutation_in; [apply Lsq|exact I]. }
  intros E. apply (G _ _ _) with (3 := E).
  - intros e He. eapply Permutation_in; [apply Lf|exact He].
  - intros q [].
Qed.

(* the output of the join step for whatever pairs are in the folder *)
Theorem join_any n ls ord t f r0 : 1 <= n <= 31 -> listing_ok ls -> ord_ok ord -> t = QuaternionType \/ t = WilliamsonType ->
  (forall name d, In (name, d) f -> dir_len n d) -> match_pairs ls t f = Some r0 -> r0 <> [] ->
  exists fuel0, forall fuel path, fuel0 <= fuel -> exists r, join_pairs fuel ord path ls t f = Some r /\ NoDup r /\
    (forall x, In x r -> pm_quad n x /\ is_type t x /\ least (reach (type_ops t) x) x /\ exists q, In q r0 /\ reach (type_ops t) q x) /\
    (forall q, In q r0 -> exists x, In x r /\ reach (type_ops t) q x /\ forall x', In x' r -> reach (type_ops t) q x' -> x' = x).
Proof.
  intros Hn Hls Ho Ht Hf Em Hne. assert (Hn1 : 1 <= n) by lia.
  assert (Ht' : searchable t) by (unfold searchable; tauto).
  assert (Snd := match_sound n ls t f r0 Hn1 Hls Hf Em).
  destruct (canonical_list n t r0 Ht' Hn1) as (l & El & A & B); [intros q Hq; now apply Snd|].
  assert (Vl : forall x, In x l -> pm_quad n x /\ is_type t x).
  { intros x Hx. destruct (B x Hx) as (q & Hq & R). destruct (Snd q Hq). now apply (reach_type n t q). }
  assert (Hne' : unique l <> []).
  { apply unique_nonempty. destruct r0 as [|q r0]; [congruence|]. destruct (A q (or_introl eq_refl)) as (c & I & _). intros ->. exact I. }
  exists (class_fuel n). intros fuel path Hfu.
  destruct (reduce_complete_at n ord (unique l) t Ho Ht Hn Hne') with (fuel := fuel) (p := path) as (r & Er & Nd & C & D & E); auto.
  { apply Forall_forall. intros x Hx. apply (proj1 (proj2 (unique_spec l) _)) in Hx. destruct (Vl x Hx). split; auto. now apply (verify_type n). }
  exists r. split; [|split; auto; split].
  - rewrite join_pairs_eq by auto. rewrite Em. cbn [bind]. rewrite El. exact Er.
  - intros x Hx. destruct (C x Hx) as (Px & Vx & y & Hy & Ry). split; auto. split; [now apply (verify_type n)|]. split; auto.
    apply (proj1 (proj2 (unique_spec l) _)) in Hy. destruct (B y Hy) as (q & Hq & Rq). exists q. split; auto. now apply rt_trans with y.
  - intros q Hq. destruct (A q Hq) as (c & Hc & Rc). destruct (D c) as (x & Hx & Rx & U); [now apply (proj2 (proj2 (unique_spec l) _))|].
    exists x. split; auto. split; [now apply rt_trans with c|]. intros x' I' R'. apply U; auto.
    apply rt_trans with q; auto. apply (reach_sym n); auto. apply pm_i8. now apply Snd.
Qed.

(* ---- the table of pairs ---- *)

Lemma match_eqb_eq x y : match_eqb x y = true <-> x = y.
Proof.
  assert (L : forall a b, list_eqb a b = true <-> a = b).
  { induction a as [|u a IH]; destruct b as [|v b]; cbn; split; intros H; try discriminate; auto.
    - apply andb_true_iff in H as [H1 H2]. apply Z.eqb_eq in H1. apply IH in H2. congruence.
    - injection H as -> ->. rewrite Z.eqb_refl. now apply IH. }
  destruct x as [a b], y as [c d]. unfold match_eqb. cbn [fst snd]. rewrite andb_true_iff, !L. split; [intros [-> ->]; auto|intros E; injection E; auto].
Qed.

Lemma table_get_app T k v k' : table_get T k' = None \/ k <> k' -> table_get (T ++ [(k, v)]) k' = if match_dec k k' then Some v else table_get T k'.
Proof.
  intros H. induction T as [|[k0 v0] T IH]; cbn [app table_get] in *.
  - destruct (match_eqb k k') eqn:E; destruct (match_dec k k') as [->|N]; auto.
    + apply match_eqb_eq in E. congruence.
    + rewrite (proj2 (match_eqb_eq k' k') eq_refl) in E. discriminate.
  - destruct (match_eqb k0 k') eqn:E.
    + destruct H as [H|H]; [discriminate|]. destruct (match_dec k k'); congruence.
    + apply IH. exact H.
Qed.
Lemma table_get_push T k c k' : table_get (table_push T k c) k' =
  if match_dec k k' then option_map (fun v => v ++ [c]) (table_get T k') else table_get T k'.
Proof.
  induction T as [|[k0 v0] T IH]; cbn [table_push table_get].
  - now destruct (match_dec k k').
  - destruct (match_eqb k0 k) eqn:E; cbn [table_get]; destruct (match_eqb k0 k') eqn:E'; try apply match_eqb_eq in E; try apply match_eqb_eq in E'; subst.
    + destruct (match_dec k' k'); [reflexivity|congruence].
    + destruct (match_dec k k') as [->|]; auto. rewrite (proj2 (match_eqb_eq k' k') eq_refl) in E'. discriminate.
    + destruct (match_dec k k') as [->|]; auto. rewrite (proj2 (match_eqb_eq k' k') eq_refl) in E. discriminate.
    + apply IH.
Qed.

Lemma with_key_app key k l1 l2 : with_key key k (l1 ++ l2) = with_key key k l1 ++ with_key key k l2.
Proof. apply filter_app. Qed.

Lemma table_spec n s1 s2 tags p b : 1 <= n -> seqs_ok n s1 -> seqs_ok n s2 -> tag_sign tags = Some b ->
  exists couples T key, iter_over_filtered_couples n s1 s2 (4 * INR p) = Some couples /\
    generate_matching_table n s1 s2 tags p = Some T /\
    (forall c, In c couples -> MatchData_from (fst c) (snd c) tags = Some (key c)) /\
    forall k, table_get T k = all_but_first (with_key key k couples).
Proof.
  intros Hn H1 H2 Hb.
  assert (Ec : exists couples, iter_over_filtered_couples n s1 s2 (4 * INR p) = Some couples /\ forall c, In c couples -> In (fst c) s1 /\ In (snd c) s2).
  { unfold iter_over_filtered_couples.
    rewrite (filter_m_filter _ (fun '(x, y) => match couple_within n (4 * INR p) x y with Some v => v | None => false end)).
    - eexists. split; [reflexivity|]. intros [x y] Hc. apply filter_In in Hc as [Hc _]. now apply in_prod_iff in Hc.
    - intros [x y] Hc. apply in_prod_iff in Hc as [Hx Hy].
      destruct (couple_within_spec n (4 * INR p) x y Hn (proj1 (H1 x Hx)) (proj1 (H2 y Hy))) as (v & -> & _). reflexivity. }
  destruct Ec as (couples & Ec & Hc).
  set (key := fun c : list Z * list Z =>
    (map (fun t => (paf (fst c) (Z.of_nat t) + paf (snd c) (Z.of_nat t))%Z) (range_incl 1 (n / 2)),
     map (fun t => cdiff b (fst c) (snd c) (Z.of_nat t)) (range_incl 1 (n / 2)))).
  assert (Hk : forall c, In c couples -> MatchData_from (fst c) (snd c) tags = Some (key c)).
  { intros c Hin. destruct (Hc c Hin) as [A B]. destruct (H1 _ A) as [L1 P1], (H2 _ B) as [L2 P2]. unfold MatchData_from.
    rewrite (auto_pair_direct _ _ n) by auto. cbn [bind]. rewrite (cross_direct tags b _ _ n) by auto. reflexivity. }
  unfold generate_matching_table. rewrite Ec. cbn [bind].
  match goal with |- context [fold_m ?g couples []] => set (f := g) end.
  assert (G : forall l pre T, (forall c, In c l -> In c couples) -> (forall k, table_get T k = all_but_first (with_key key k pre)) ->
    exists T', fold_m f l T = Some T' /\ forall k, table_get T' k = all_but_first (with_key key k (pre ++ l))).
  { induction l as [|[x y] l IH]; intros pre T Sub HT.
    - exists T. rewrite app_nil_r. auto.
    - cbn [fold_m]. unfold f at 1. pose proof (Hk (x, y) (Sub _ (or_introl eq_refl))) as E. cbn [fst snd] in E. rewrite E. cbn [bind].
      destruct (IH (pre ++ [(x, y)]) (match table_get T (key (x, y)) with Some _ => table_push T (key (x, y)) (x, y) | None => T ++ [(key (x, y), [])] end))
        as (T' & ET & HT'); [intros; apply Sub; now right| |exists T'; rewrite <- app_assoc in HT'; auto].
      intros k. rewrite with_key_app. unfold with_key at 2. cbn [filter]. specialize (HT k) as HTk.
      destruct (table_get T (key (x, y))) as [v|] eqn:Eg.
      + rewrite table_get_push, HTk. destruct (match_dec (key (x, y)) k) as [Ek|]; [|now rewrite app_nil_r].
        rewrite Ek in Eg. rewrite HTk in Eg. destruct (with_key key k pre); [discriminate|]. reflexivity.
      + rewrite table_get_app.
        * destruct (match_dec (key (x, y)) k) as [Ek|]; [|now rewrite HTk, app_nil_r].
          rewrite Ek, HTk in Eg. destruct (with_key key k pre); [reflexivity|discriminate].
        * destruct (match_dec (key (x, y)) k) as [Ek|]; [left; congruence|now right]. }
  destruct (G couples [] [] ltac:(auto)) as (T & ET & HT); [intros; reflexivity|].
  exists couples, T, key. cbn [app] in HT. auto.
Qed.

(* ---- a match that is skipped ---- *)

Definition lost : QuadSeq := (mkQuad 3 [-1;-1;-1] [-1;1;1] [-1;1;1] [-1;1;1])%Z.
Definition lost_lists (tg : Tag) : list (list Z) := [sequence lost tg].
Definition lost_left : Lines := [lit "12_:_0_0"; lit "1_:_0_0"].
Definition lost_right : Lines := [lit "1_:_0_0"].

Theorem merge_misses : forall t, three_types t ->
  pm_quad 3 lost /\ is_type t lost /\ text_sorted lost_left /\ text_sorted lost_right /\
  lines_within lost_left (lost_lists TW) (lost_lists TX) /\ lines_within lost_right (lost_lists TY) (lost_lists TZ) /\
  (exists x y k, In x lost_left /\ In y lost_right /\
     get_line_from x = Some (k, (0, 0)) /\ get_line_from y = Some (k, (0, 0)) /\
     forall tg, nth_error (lost_lists tg) 0 = Some (sequence lost tg)) /\
  join_pairs_files lost_left lost_right t (TW, TX, TY, TZ) (lost_lists TW, lost_lists TX, lost_lists TY, lost_lists TZ) = Some [].
Proof.
  assert (P : pm_quad 3 lost).
  { split; [repeat split|]. repeat split; apply Forall_forall; cbn; intros x Hx; intuition lia. }
  assert (Ty : forall t, three_types t -> is_type t lost).
  { intros t Ht. apply (verify_type 3); auto. destruct Ht as [->|[->| ->]]; vm_compute; reflexivity. }
  intros t Ht. split; auto. split; auto. split; [|split; [|split; [|split; [|split]]]].
  - change lost_left with (sort_lines lost_left). apply sorted_text, sort_lines_sorted.
  - change lost_right with (sort_lines lost_right). apply sorted_text, sort_lines_sorted.
  - intros line [<-|[<-|[]]]; [exists (lit "12"), 0, 0|exists (lit "1"), 0, 0]; repeat split; cbn; auto.
  - intros line [<-|[]]; exists (lit "1"), 0, 0; repeat split; cbn; auto.
  - exists (lit "1_:_0_0"), (lit "1_:_0_0"), (lit "1"). split; [right; now left|]. split; [now left|]. repeat split; auto.
  - destruct Ht as [->|[->| ->]]; vm_compute; reflexivity.
Qed.

Lemma tag_sign_some a b : a <> b -> exists v, tag_sign (a, b) = Some v.
Proof. destruct a, b; intros H; try congruence; eexists; reflexivity. Qed.

Theorem table_single n q a b : 1 <= n -> pm_quad n q -> complementary q -> a <> b ->
  exists T k, generate_matching_table n [sequence q a] [sequence q b] (a, b) n = Some T /\
    MatchData_from (sequence q a) (sequence q b) (a, b) = Some k /\ table_get T k = Some [].
Proof.
  intros Hn Pq Cq D. destruct (tag_sign_some a b D) as (v & Hv).
  assert (S : forall tg, seqs_ok n [sequence q tg]).
  { intros tg s [<-|[]]. split; [now apply (seq_len n)|now apply (seq_pm n)]. }
  destruct (table_spec n [sequence q a] [sequence q b] (a, b) n v Hn (S a) (S b) Hv) as (cs & T & key & Ec & ET & Hk & HT).
  destruct (couple_within_spec n (4 * INR n) (sequence q a) (sequence q b) Hn (seq_len n q a Pq) (seq_len n q b Pq)) as (w & Ew & Hw).
  assert (w = true) as -> by (apply Hw; intros k _; now apply (psd_two n)).
  unfold iter_over_filtered_couples in Ec. cbn [iproduct list_prod map app filter_m] in Ec. rewrite Ew in Ec. cbn [bind] in Ec. injection Ec as <-.
  exists T, (key (sequence q a, sequence q b)). split; auto. split; [apply (Hk (sequence q a, sequence q b)); now left|].
  rewrite HT. unfold with_key. cbn [filter]. destruct (match_dec _ _); [reflexivity|congruence].
Qed.

Theorem no_match_panics fuel ord p ls i t f : searchable t -> match_pairs ls t f = Some [] ->
  join_pairs fuel ord p ls t f = None /\ find_write_quad_seq fuel ord p ls i t f = None.
Proof.
  intros Ht E.
  assert (G : forall p, join_pairs fuel ord p ls t f = None) by (intros; rewrite join_pairs_eq by auto; rewrite E; reflexivity).
  split; auto. unfold find_write_quad_seq. now rewrite G.
Qed.
