(* Writing the two pairs of a row sum directory in separate processes, with and without prepared files. *)
From Coq Require Import Ascii String List ZArith Lia Arith Bool Reals Lra Permutation.
From Verif Require Import Base BaseFacts Sums ModelSequence ModelWilliamson ModelEquivalence ModelFourier ModelMatching
  ModelRowsum SeqFacts FourierFacts SpecFourier MatchFacts SpecRowsum RowsumFacts QtWt GraphFacts Convert SearchFacts ModelWrite TextFacts
  JoinFacts WriteFacts DirFacts FolderFacts SpecFiles Spec.
Import ListNotations.
Notation length := List.length.
Open Scope nat_scope.

(* ---- sorting the row sums ---- *)

Definition std : list Tag := [TW; TX; TY; TZ].
Lemma sort_quad_tags rs : exists tab idx a b c d, sort_quad rs = Some (tab, idx) /\ traverse index_to_tag idx = Some [a; b; c; d] /\
  decreasing_tags rs [a; b; c; d] /\
  forall t, normal_rowsums t rs -> forall pr,
    (usable pr rs -> paired pr [a; b; c; d] = paired pr std \/ paired pr [a; b; c; d] = rev (paired pr std)) /\
    (~ usable pr rs -> exists p, In p (paired pr [a; b; c; d]) /\ ~ In p (paired pr std)).
Proof.
  destruct rs as [[[a b] c] d]. unfold sort_quad, range, exchange_at.
  repeat (cbn -[Z.ltb]; match goal with |- context [(?x <? ?y)%Z] => destruct (Z.ltb_spec x y) end).
  all: cbn; do 6 eexists; (split; [reflexivity|split; [reflexivity|split; [split; [|cbn; lia]|]]]);
    [ apply NoDup_Permutation_bis; [repeat constructor; cbn; intuition congruence|cbn; lia|intros x Hx; destruct x; cbn; tauto] | ].
  all: intros t (N1 & N2 & N3) pr; destruct pr; unfold usable; cbn [paired std rev app]; (split; intros U;
    [ first [now left|now right|exfalso; destruct U as [U|U]; [lia|try (destruct U as [U _]; discriminate U); lia]]
    | first [ eexists; split; [left; reflexivity|cbn; intuition discriminate]
            | eexists; split; [right; left; reflexivity|cbn; intuition discriminate]
            | exfalso; apply U; first [left; lia|right; split; [reflexivity|lia]]
            | exfalso; destruct (Z.lt_ge_cases d 0) as [D|D]; [destruct (N3 D) as (_ & ? & ?); lia|lia] ] ]).
Qed.

(* ---- the files of the directory ---- *)

Lemma perm_pick {A} (x : A) l r r1 r2 : r = r1 ++ x :: r2 -> Permutation l (r1 ++ r2) -> Permutation (x :: l) r.
Proof. intros -> H. apply Permutation_cons_app, H. Qed.
Ltac pick x pre r :=
  lazymatch r with
  | x :: ?t => let l := eval cbn [rev app] in (rev pre) in refine (perm_pick x _ _ l t eq_refl _); cbn [app]
  | ?y :: ?t => pick x (y :: pre) t
  end.
Ltac perm :=
  cbn [app];
  repeat match goal with
  | |- Permutation [] [] => apply perm_nil
  | |- Permutation (?x :: _) ?r => let ty := type of x in pick x (@nil ty) r
  end.

Definition leftover (pr : RowsumPairing) (l : list Tag) : list (Tag * Tag) :=
  filter (fun p => negb (existsb (fun p' => tag_eqb (fst p) (fst p') && tag_eqb (snd p) (snd p')) (paired pr std))) (paired pr l).
Lemma leftover_spec pr l p : In p (leftover pr l) <-> In p (paired pr l) /\ ~ In p (paired pr std).
Proof.
  unfold leftover. rewrite filter_In. apply and_iff_compat_l. rewrite negb_true_iff, <- not_true_iff_false.
  apply not_iff_compat. rewrite existsb_exists. split.
  - intros ([a b] & H & E). destruct p as [c d]. cbn [fst snd] in E. destruct a, b, c, d; try discriminate E; exact H.
  - intros H. exists p. split; auto. destruct p as [[] []]; reflexivity.
Qed.
Lemma pair_name_file a b : pair_name (a, b) = pair_file a b.
Proof. destruct a, b; reflexivity. Qed.
Lemma pair_name_inj p q : pair_name p = pair_name q -> p = q.
Proof. destruct p as [a b], q as [c d]. destruct a, b, c, d; cbn; intros H; try discriminate H; reflexivity. Qed.

(* the puts of write_pair_single_rowsum *)
Definition put_single (pr : RowsumPairing) (W : Tag -> Lines) (k : nat) (F : Lines) (d : Dir) : Dir :=
  match nth_error (paired pr std) k with
  | Some (p, q) => put (put (put d (seq_file p) (W p)) (seq_file q) (W q)) (pair_file p q) F
  | None => d
  end.
Lemma put_both pr W FL FR : Permutation (put_single pr W 1 FR (put_single pr W 0 FL [])) (dir_of (Some pr) W FL FR) /\
  Permutation (put_single pr W 0 FL (put_single pr W 1 FR [])) (dir_of (Some pr) W FL FR).
Proof. destruct pr; unfold put_single, dir_of; cbn; split; perm. Qed.
Lemma put_prepared pr W FL FR l : Permutation l std ->
  Permutation (put_single pr W 1 FR (put_single pr W 0 FL
     (fold_left (fun d p => put d (pair_file (fst p) (snd p)) []) (paired pr l) [])))
    (dir_of (Some pr) W FL FR ++ map (fun p => (pair_name p, [])) (leftover pr l)).
Proof.
  intros H. pose proof (Permutation_length H) as Hl. destruct l as [|a [|b [|c [|d [|e l]]]]]; try discriminate Hl.
  assert (Nd : NoDup [a; b; c; d]). { apply (Permutation_NoDup (Permutation_sym H)). repeat constructor; cbn; intuition discriminate. }
  inversion Nd as [|? ? N1 Nd1]; subst. inversion Nd1 as [|? ? N2 Nd2]; subst. inversion Nd2 as [|? ? N3 Nd3]; subst.
  cbn in N1, N2, N3. clear H Hl Nd Nd1 Nd2 Nd3.
  destruct a, b, c, d; try (exfalso; cbn in *; tauto); clear N1 N2 N3; destruct pr; unfold put_single, dir_of, leftover; cbn; perm.
Qed.

(* ---- the commands ---- *)

Lemma open_put (f : Folder) name d : open_dir (put f name d) name = d.
Proof.
  unfold open_dir, get, put. induction f as [|[nm x] f IH]; cbn [filter app find fst].
  - replace (text_eqb name name) with true by (symmetry; now apply text_eqb_eq). reflexivity.
  - destruct (text_eqb nm name) eqn:E; cbn [negb app find fst]; auto. rewrite E. exact IH.
Qed.
Lemma put_put {A} (f : list (text * A)) name d d' : put (put f name d) name d' = put f name d'.
Proof.
  unfold put. f_equal. rewrite filter_app. cbn [filter fst]. replace (text_eqb name name) with true by (symmetry; now apply text_eqb_eq).
  cbn [negb]. rewrite app_nil_r. induction f as [|e f IH]; cbn [filter]; auto. destruct (negb (text_eqb (fst e) name)) eqn:E; cbn [filter]; auto.
  rewrite E. now rewrite IH.
Qed.
Lemma fresh_forall {A} (f : list (text * A)) name : ~ In name (map fst f) -> Forall (fun e => fst e <> name) f.
Proof. intros H. apply Forall_forall. intros e He E. apply H. rewrite <- E. now apply in_map. Qed.

Lemma rowsum_parts t m n rs : searchable t -> 1 <= n -> (Z.of_nat n < 2 ^ 62)%Z -> feasible n rs ->
  exists W F, (forall pr f, no_dir f (rowsum_dir rs) -> exists c,
      write_pairs_rowsum n (seqtype_to_string t) rs n m (Some pr) f =
        Some (f ++ [(rowsum_dir rs, dir_of (Some pr) W (F pr 0) (F pr 1))], c)) /\
    (forall pr k f, k < 2 -> write_pair_single_rowsum n (seqtype_to_string t) rs n m (Some pr) (S k) f =
        Some (put f (rowsum_dir rs) (put_single pr W k (F pr k) (open_dir f (rowsum_dir rs))))).
Proof.
  intros Ht Hn Hn2 Hf.
  destruct (tag_choice (fun tg l => candidates t (rowsum_of_tag rs tg) n = Some l /\
      forall s, In s l <-> length s = n /\ pm1 s /\ total s = rowsum_of_tag rs tg /\ (t = Williamson -> symmetric s))) as (L & HL).
  { intros tg. destruct (candidates_spec t (rowsum_of_tag rs tg) n Hn) as (l & E & _ & H); eauto. now apply (feasible_bound n). }
  assert (IL : is_list t n rs L) by (intros tg s; apply HL).
  destruct (tag_choice (fun tg w => traverse sequence_to_string (L tg) = Some w /\ file_to_sequences w = Some (L tg))) as (W & HW).
  { intros tg. apply write_lines. intros s Hs. apply IL in Hs. tauto. }
  assert (Len : forall tg, all_len n (L tg)).
  { intros tg s Hs. apply IL in Hs. tauto. }
  assert (Sum : forall tg s, In s (L tg) -> total s = rowsum_of_tag rs tg).
  { intros tg s Hs. apply IL in Hs. tauto. }
  assert (WS : forall a b bo sd d, tag_sign (a, b) = Some bo -> write_seq_pairs n (L a) (L b) (a, b) t rs n d sd m =
    Some (put d (pair_file a b) (pair_lines t m sd bo n (L a) (L b)), Z.of_nat (length (pair_lines t m sd bo n (L a) (L b))))).
  { intros a b bo sd d Hb. rewrite (write_seq_pairs_spec n (a, b) bo) by (auto; apply Sum). reflexivity. }
  exists W, (fun pr k => if k =? 0 then left_lines t m n (Some pr) L else right_lines t m n (Some pr) L). split.
  - intros pr f Fresh. apply fresh_forall in Fresh. cbn [Nat.eqb].
    exists (Z.of_nat (length (left_lines t m n (Some pr) L)) + Z.of_nat (length (right_lines t m n (Some pr) L)))%Z.
    unfold write_pairs_rowsum. rewrite seqtype_round. cbn [bind]. rewrite (open_fresh f) by auto.
    rewrite !(proj1 (HL _)). cbn [bind].
    do 4 (rewrite (write_sequences_some _ _ _ _ (proj1 (HW _))); cbn [bind]).
    pose proof (signs_spec (Some pr)) as Sg. unfold left_lines, right_lines, dir_of.
    destruct pr; cbn [pairing_tags fst snd] in *; destruct Sg as [S1 S2];
      rewrite (WS _ _ _ LEFT _ S1); cbn [bind]; rewrite (WS _ _ _ RIGHT _ S2); cbn [bind];
      rewrite (put_fresh f) by auto; cbn [put filter seq_file fst]; reflexivity.
  - intros pr k f Hk. unfold write_pair_single_rowsum. rewrite seqtype_round. cbn [bind].
    pose proof (signs_spec (Some pr)) as Sg. unfold left_lines, right_lines, put_single.
    destruct k as [|[|k]]; [| |lia]; destruct pr; cbn [get_indices index_to_tag bind paired std nth_error pairing_tags fst snd Nat.eqb] in *;
      rewrite !(proj1 (HL _)); cbn [bind];
      do 2 (rewrite (write_sequences_some _ _ _ _ (proj1 (HW _))); cbn [bind]);
      destruct Sg as [S1 S2]; first [rewrite (WS _ _ _ _ _ S1)|rewrite (WS _ _ _ _ _ S2)]; reflexivity.
Qed.

(* without create: in either order the two processes leave the files of write_pairs_rowsum *)
Lemma separate_jobs t m n rs pr f : searchable t -> 1 <= n -> (Z.of_nat n < 2 ^ 62)%Z -> feasible n rs -> no_dir f (rowsum_dir rs) ->
  exists d c f1 d12 f2 d21,
    write_pairs_rowsum n (seqtype_to_string t) rs n m (Some pr) f = Some (f ++ [(rowsum_dir rs, d)], c) /\
    write_pair_single_rowsum n (seqtype_to_string t) rs n m (Some pr) 1 f = Some f1 /\
    write_pair_single_rowsum n (seqtype_to_string t) rs n m (Some pr) 2 f1 = Some (f ++ [(rowsum_dir rs, d12)]) /\
    write_pair_single_rowsum n (seqtype_to_string t) rs n m (Some pr) 2 f = Some f2 /\
    write_pair_single_rowsum n (seqtype_to_string t) rs n m (Some pr) 1 f2 = Some (f ++ [(rowsum_dir rs, d21)]) /\
    same_files d d12 /\ same_files d d21.
Proof.
  intros Ht Hn Hn2 Hf Fr. destruct (rowsum_parts t m n rs Ht Hn Hn2 Hf) as (W & F & HP & HS).
  destruct (HP pr f Fr) as (c & Ec). destruct (put_both pr W (F pr 0) (F pr 1)) as [P1 P2].
  exists (dir_of (Some pr) W (F pr 0) (F pr 1)), c, (put f (rowsum_dir rs) (put_single pr W 0 (F pr 0) (open_dir f (rowsum_dir rs)))),
    (put_single pr W 1 (F pr 1) (put_single pr W 0 (F pr 0) [])), (put f (rowsum_dir rs) (put_single pr W 1 (F pr 1) (open_dir f (rowsum_dir rs)))),
    (put_single pr W 0 (F pr 0) (put_single pr W 1 (F pr 1) [])).
  split; auto. rewrite !HS by lia. rewrite !open_put, !put_put. rewrite open_fresh by now apply fresh_forall.
  rewrite !put_fresh by now apply fresh_forall.
  assert (Nd : NoDup (map fst (dir_of (Some pr) W (F pr 0) (F pr 1)))).
  { destruct pr; cbn; repeat constructor; cbn; intuition discriminate. }
  unfold same_files. do 4 (split; [reflexivity|]). split; (split; [exact Nd|now apply Permutation_sym]).
Qed.

(* ---- sorting the files ---- *)

Lemma ends_with_spec s p : ends_with s p = true <-> exists r, s = r ++ p.
Proof.
  unfold ends_with. assert (G : forall p s, (exists r, strip_prefix p s = Some r) <-> exists r, s = p ++ r).
  { clear. induction p as [|a p IH]; intros s; cbn.
    - split; intros _; eauto.
    - destruct s as [|b s]; [split; [intros [r E]; discriminate|intros [r E]; discriminate]|].
      destruct (Ascii.eqb_spec a b) as [->|N].
      + rewrite IH. split; intros [r E]; exists r; [now rewrite E|injection E; auto].
      + split; [intros [r E]; discriminate|]. intros [r E]. injection E as E _. congruence. }
  split.
  - destruct (strip_prefix (rev p) (rev s)) as [r|] eqn:E; [|discriminate]. intros _.
    destruct (proj1 (G (rev p) (rev s)) (ex_intro _ r E)) as [r' E']. exists (rev r').
    rewrite <- (rev_involutive s), E', rev_app_distr, rev_involutive. reflexivity.
  - intros [r ->]. rewrite rev_app_distr. destruct (proj2 (G (rev p) (rev p ++ rev r)) (ex_intro _ (rev r) eq_refl)) as [x ->]. reflexivity.
Qed.
Definition sorted_entry (e : text * Lines) : text * Lines :=
  if ends_with (fst e) (lit ".pair") then (fst e ++ lit ".sorted", sort_lines (snd e)) else e.

Lemma Permutation_filter_all {A} (g : A -> bool) l : (forall x, In x l -> g x = true) -> filter g l = l.
Proof. induction l as [|x l IH]; intros H; auto. cbn. rewrite (H x) by now left. f_equal. apply IH. intros; apply H; now right. Qed.

Lemma sort_dir_spec d : NoDup (map fst d) -> (forall e, In e d -> ends_with (fst e) (lit ".pair.sorted") = false) ->
  Permutation (sort_dir d) (map sorted_entry d).
Proof.
  intros Nd Hs. unfold sort_dir. match goal with |- Permutation (fold_left ?g _ _) _ => set (step := g) end.
  assert (G : forall l don s, NoDup (map fst (don ++ l)) -> (forall e, In e (don ++ l) -> ends_with (fst e) (lit ".pair.sorted") = false) ->
    Permutation s (map sorted_entry don ++ l) -> Permutation (fold_left step l s) (map sorted_entry (don ++ l))).
  { clear. induction l as [|e l IH]; intros don s Nd Hs P.
    - cbn. now rewrite !app_nil_r in *.
    - cbn [fold_left]. replace (don ++ e :: l) with ((don ++ [e]) ++ l) in * by now rewrite <- app_assoc.
      apply IH; auto. rewrite map_app. cbn [map]. rewrite <- app_assoc. cbn [app]. unfold step, sorted_entry at 2.
      destruct (ends_with (fst e) (lit ".pair")) eqn:Ee; [|exact P].
      assert (Hnames : forall x, In x (map sorted_entry don ++ l) -> fst x <> fst e /\ fst x <> fst e ++ lit ".sorted").
      { assert (Hd : forall x, In x (don ++ l) -> fst x <> fst e).
        { intros x Hx C. rewrite <- app_assoc in Nd. cbn [app] in Nd. rewrite map_app in Nd. cbn [map] in Nd. apply NoDup_remove_2 in Nd.
          apply Nd. rewrite <- map_app, <- C. now apply in_map. }
        assert (Hp : ends_with (fst e ++ lit ".sorted") (lit ".pair.sorted") = true).
        { apply ends_with_spec in Ee as [r ->]. apply ends_with_spec. exists r. now rewrite <- app_assoc. }
        assert (Hq : ends_with (fst e) (lit ".pair.sorted") = false).
        { apply Hs. rewrite <- app_assoc. apply in_app_iff. right. now left. }
        intros x Hx. apply in_app_iff in Hx as [Hx|Hx].
        - apply in_map_iff in Hx as (y & <- & Hy). unfold sorted_entry. destruct (ends_with (fst y) (lit ".pair")) eqn:Ey; cbn [fst].
          + split.
            * intros C. apply ends_with_spec in Ey as [r Er]. rewrite Er in C. assert (X : ends_with (fst e) (lit ".pair.sorted") = true).
              { apply ends_with_spec. exists r. rewrite <- C. now rewrite <- app_assoc. }
              congruence.
            * intros C. apply app_inv_tail in C. revert C. apply Hd, in_app_iff. now left.
          + split; [apply Hd, in_app_iff; now left|]. intros C. assert (X : ends_with (fst y) (lit ".pair.sorted") = false).
            { apply Hs. rewrite <- app_assoc. apply in_app_iff. now left. }
            rewrite C in X. unfold text in *. congruence.
        - split; [apply Hd, in_app_iff; now right|]. intros C. assert (X : ends_with (fst x) (lit ".pair.sorted") = false).
          { apply Hs. apply in_app_iff. now right. }
          rewrite C in X. unfold text in *. congruence. }
      assert (P' : Permutation s (e :: map sorted_entry don ++ l)). { etransitivity; [exact P|]. apply Permutation_sym, Permutation_middle. }
      set (keep := fun e' : text * Lines => negb (text_eqb (fst e') (fst e))).
      assert (P2 : Permutation (filter keep s) (map sorted_entry don ++ l)).
      { etransitivity; [apply Permutation_filter', P'|]. cbn [filter]. unfold keep at 1.
        replace (text_eqb (fst e) (fst e)) with true by (symmetry; now apply text_eqb_eq). cbn [negb].
        rewrite Permutation_filter_all; auto. intros x Hx. unfold keep. apply negb_true_iff, not_true_iff_false. rewrite text_eqb_eq. now apply Hnames. }
      unfold put. rewrite Permutation_filter_all.
      + etransitivity; [apply Permutation_app; [exact P2|apply Permutation_refl]|]. etransitivity; [apply Permutation_app_comm|]. cbn [app].
        apply Permutation_middle.
      + intros x Hx. apply (Permutation_in _ P2) in Hx. apply negb_true_iff, not_true_iff_false. rewrite text_eqb_eq. now apply Hnames. }
  apply (G d [] d); auto.
Qed.

Lemma filter_length {A B} (g : A -> B) (h : B -> bool) l : length (filter h (map g l)) = length (filter (fun x => h (g x)) l).
Proof. induction l as [|x l IH]; cbn; auto. destruct (h (g x)); cbn; auto. Qed.

(* three .pair files make get_order_from_dir panic *)
Lemma three_files d d' : NoDup (map fst d) -> (forall e, In e d -> ends_with (fst e) (lit ".pair.sorted") = false) ->
  length (filter (fun e => ends_with (fst e) (lit ".pair")) d) <> 2 -> Permutation d' (sort_dir d) -> get_order_from_dir d' = None.
Proof.
  intros Nd Hs Hl P. unfold get_order_from_dir. set (h := fun e : text * Lines => ends_with (fst e) (lit ".pair.sorted")).
  assert (E : length (filter h d') <> 2).
  { rewrite (Permutation_length (Permutation_filter' h _ _ P)), (Permutation_length (Permutation_filter' h _ _ (sort_dir_spec d Nd Hs))).
    rewrite filter_length. intros C. apply Hl. rewrite <- C. f_equal. apply filter_ext_in. intros e He. unfold h, sorted_entry.
    destruct (ends_with (fst e) (lit ".pair")) eqn:Ee; cbn [fst].
    - symmetry. apply ends_with_spec in Ee as [r ->]. apply ends_with_spec. exists r. now rewrite <- app_assoc.
    - symmetry. now apply Hs. }
  destruct (filter h d') as [|[n0 l0] [|[n1 l1] [|x y]]]; auto. cbn in E. lia.
Qed.

Lemma fold_m_none {A B} (f : A -> B -> option A) l x : In x l -> (forall a, f a x = None) -> forall a, fold_m f l a = None.
Proof.
  intros Hx Hf. induction l as [|y l IH]; [contradiction|]. intros a. cbn [fold_m]. destruct Hx as [->|Hx].
  - rewrite Hf. reflexivity.
  - destruct (f a y); cbn [bind]; auto.
Qed.

Lemma join_panics ls t f name d : listing_ok ls -> In (name, d) f -> NoDup (map fst d) ->
  (forall e, In e d -> ends_with (fst e) (lit ".pair.sorted") = false) ->
  length (filter (fun e => ends_with (fst e) (lit ".pair")) d) <> 2 -> match_pairs ls t (sortpairs f) = None.
Proof.
  intros (Lf & _ & Lp) Hin Nd Hs Hl. unfold match_pairs. apply (fold_m_none _ _ (name, sort_dir d)).
  - apply (Permutation_in _ (Permutation_sym (Lf _))). apply in_map_iff. exists (name, d). auto.
  - intros a. destruct (get_sequences_from_dir _); auto. cbn [bind]. rewrite (three_files d) by auto. reflexivity.
Qed.

(* with create *)
Lemma prepared_jobs t m n rs pr f : searchable t -> 1 <= n -> (Z.of_nat n < 2 ^ 62)%Z -> feasible n rs -> no_dir f (rowsum_dir rs) ->
  exists d c l f1 f2 d' left,
    write_pairs_rowsum n (seqtype_to_string t) rs n m (Some pr) f = Some (f ++ [(rowsum_dir rs, d)], c) /\
    decreasing_tags rs l /\
    create_rowsum_dirs rs (Some pr) f = Some f1 /\
    write_pair_single_rowsum n (seqtype_to_string t) rs n m (Some pr) 1 f1 = Some f2 /\
    write_pair_single_rowsum n (seqtype_to_string t) rs n m (Some pr) 2 f2 = Some (f ++ [(rowsum_dir rs, d')]) /\
    NoDup left /\ (forall p, In p left <-> In p (paired pr l) /\ ~ In p (paired pr [TW; TX; TY; TZ])) /\
    NoDup (map fst d') /\ Permutation d' (d ++ map (fun p => (pair_name p, [])) left) /\
    (normal_rowsums t rs -> (usable pr rs -> left = []) /\
       (~ usable pr rs -> forall ls f', listing_ok ls -> In (rowsum_dir rs, d') f' -> match_pairs ls t (sortpairs f') = None)).
Proof.
  intros Ht Hn Hn2 Hf Fr. destruct (rowsum_parts t m n rs Ht Hn Hn2 Hf) as (W & F & HP & HS).
  destruct (HP pr f Fr) as (k & Ec). destruct (sort_quad_tags rs) as (tab & idx & a & b & c & d & Es & Et & Hd & Hu).
  set (l := [a; b; c; d]) in *.
  set (d0 := fold_left (fun (d : Dir) p => put d (pair_file (fst p) (snd p)) []) (paired pr l) []).
  set (d' := put_single pr W 1 (F pr 1) (put_single pr W 0 (F pr 0) d0)).
  pose proof (put_prepared pr W (F pr 0) (F pr 1) l (proj1 Hd)) as P. fold d0 d' in P.
  assert (Nl : NoDup (leftover pr l)).
  { apply NoDup_filter. destruct Hd as [Hd _]. apply Permutation_sym in Hd. apply Permutation_NoDup in Hd; [|repeat constructor; cbn; intuition discriminate].
    unfold l in *. inversion Hd as [|? ? N1 Hd1]; subst. inversion Hd1 as [|? ? N2 Hd2]; subst. inversion Hd2 as [|? ? N3 Hd3]; subst. cbn in N1, N2, N3.
    destruct pr; cbn [paired]; repeat constructor; cbn; intuition congruence. }
  assert (Nd : NoDup (map fst d')).
  { apply (Permutation_NoDup (Permutation_sym (Permutation_map fst P))). rewrite map_app, map_map. cbn [fst]. apply NoDup_app.
    - destruct pr; cbn; repeat constructor; cbn; intuition discriminate.
    - apply FinFun.Injective_map_NoDup; auto. intros x y. apply pair_name_inj.
    - intros x Hx Hy. apply in_map_iff in Hy as (p & <- & Hp). apply leftover_spec in Hp as [_ Hp].
      destruct p as [p q]. rewrite pair_name_file in Hx.
      destruct pr; cbn in Hx, Hp; destruct p, q; cbn in Hx; repeat (destruct Hx as [Hx|Hx]; [try discriminate Hx|]); tauto. }
  exists (dir_of (Some pr) W (F pr 0) (F pr 1)), k, l, (f ++ [(rowsum_dir rs, d0)]),
    (f ++ [(rowsum_dir rs, put_single pr W 0 (F pr 0) d0)]), d', (leftover pr l).
  split; [exact Ec|]. split; [exact Hd|]. split.
  { unfold create_rowsum_dirs. rewrite open_fresh by now apply fresh_forall. rewrite Es. cbn [bind]. rewrite Et. cbn [bind].
    rewrite <- (put_fresh f) by now apply fresh_forall. unfold l, d0. destruct pr; reflexivity. }
  rewrite !HS by lia. rewrite <- !(put_fresh f) by now apply fresh_forall. rewrite !open_put, !put_put.
  split; [reflexivity|]. split; [reflexivity|]. split; [exact Nl|]. split; [intros p; apply leftover_spec|]. split; [exact Nd|]. split; [exact P|].
  intros Hnr. destruct (Hu t Hnr pr) as [U1 U2]. split.
  - intros U. apply U1 in U. unfold leftover. destruct U as [-> | ->]; destruct pr; reflexivity.
  - intros U ls f' Hls Hin. apply U2 in U as (p & Hp & Hq). eapply join_panics; eauto.
    + intros e He. apply (Permutation_in _ P), in_app_iff in He as [He|He].
      * destruct pr; cbn in He; repeat (destruct He as [<-|He]; [reflexivity|]); contradiction.
      * apply in_map_iff in He as ([[] []] & <- & _); reflexivity.
    + rewrite (Permutation_length (Permutation_filter' _ _ _ P)), filter_app, app_length, filter_length.
      assert (E1 : length (filter (fun e => ends_with (fst e) (lit ".pair")) (dir_of (Some pr) W (F pr 0) (F pr 1))) = 2) by (destruct pr; reflexivity).
      rewrite E1. cbn [fst]. rewrite Permutation_filter_all by (intros [[] []] _; reflexivity).
      assert (Hp' : In p (leftover pr l)) by (apply leftover_spec; auto). destruct (leftover pr l); [contradiction|]. cbn. lia.
Qed.

Lemma no_pairing plan folder rs p m pair f :
  create_rowsum_dirs rs None f = None /\
  (str_to_seqtype folder <> None -> no_dir f (rowsum_dir rs) ->
   write_pair_single_rowsum plan folder rs p m None pair f = Some (f ++ [(rowsum_dir rs, [])])) /\
  write_pairs_rowsum plan folder rs p m None f = write_pairs_rowsum plan folder rs p m (Some WZ) f.
Proof.
  split; [|split; [|reflexivity]].
  - unfold create_rowsum_dirs. destruct (sort_quad rs) as [[? ?]|]; auto. cbn [bind]. now destruct (traverse _ _).
  - intros H Fr. unfold write_pair_single_rowsum. destruct (str_to_seqtype folder); [|congruence]. cbn [bind get_indices].
    apply fresh_forall in Fr. now rewrite open_fresh, put_fresh.
Qed.
