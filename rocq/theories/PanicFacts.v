(* The model with panics agrees with the other one on runs that do not panic, and what a panicking run may touch. *)
From Coq Require Import Ascii String List ZArith Lia Arith Bool Permutation Relations Reals.
From Verif Require Import Base BaseFacts Sums Quat ModelSequence ModelWilliamson ModelEquivalence SpecEquiv ModelMatrices ModelGraph
  ModelRowsum ModelFourier ModelMatching ModelWrite ModelMain ModelPanic SpecMain MainThms SpecOutputs FilesMain Spec.
Import ListNotations.
Open Scope nat_scope.
Notation length := List.length.

Definition agrees {S} (o : option S) (x : S * bool) : Prop := forall s, o = Some s <-> x = (s, true).
Definition agrees_v {S V} (o : option (S * V)) (x : S * option V) : Prop := forall s v, o = Some (s, v) <-> x = (s, Some v).

Lemma agrees_some {S} (s : S) : agrees (Some s) (s, true).
Proof. intros s'. split; intros H; injection H as <-; reflexivity. Qed.
Lemma agrees_none {S} (s : S) : agrees None (s, false).
Proof. intros s'. split; discriminate. Qed.
Lemma agrees_v_some {S V} (s : S) (v : V) : agrees_v (Some (s, v)) (s, Some v).
Proof. intros s' v'. split; intros H; injection H as <- <-; reflexivity. Qed.
Lemma agrees_v_none {S V} (s : S) : agrees_v (V := V) None (s, None).
Proof. intros s' v'. split; discriminate. Qed.
Lemma agrees_cases {S} (o : option S) x : agrees o x -> match o with Some s => x = (s, true) | None => snd x = false end.
Proof.
  intros H. destruct o as [s|]; [now apply H|]. destruct x as [s [|]]; auto. destruct (H s) as [_ K]. specialize (K eq_refl). discriminate.
Qed.
Lemma agrees_v_cases {S V} (o : option (S * V)) x : agrees_v o x -> match o with Some (s, v) => x = (s, Some v) | None => snd x = None end.
Proof.
  intros H. destruct o as [[s v]|]; [now apply H|]. destruct x as [s [v|]]; auto. destruct (H s v) as [_ K]. specialize (K eq_refl). discriminate.
Qed.

Lemma loop_agrees {A S} (f : S -> A -> option S) g : (forall s a, agrees (f s a) (g s a)) -> forall l s, agrees (fold_m f l s) (loop g l s).
Proof.
  intros H. induction l as [|a l IH]; cbn [fold_m loop]; intros s; [apply agrees_some|].
  specialize (H s a). apply agrees_cases in H. destruct (f s a) as [s1|]; cbn [bind].
  - rewrite H. apply IH.
  - destruct (g s a) as [s1 ok]. cbn in H. subst ok. apply agrees_none.
Qed.

(* ---- find_write.rs ---- *)
Lemma lines_agree l acc : agrees (option_map (fun r => acc ++ r) (traverse sequence_to_string l))
  (loop (fun lines s => match sequence_to_string s with Some l => (lines ++ [l], true) | None => (lines, false) end) l acc).
Proof.
  revert acc. induction l as [|s l IH]; intros acc; cbn [traverse loop option_map].
  - rewrite app_nil_r. apply agrees_some.
  - destruct (sequence_to_string s) as [x|]; cbn [bind]; [|apply agrees_none]. specialize (IH (acc ++ [x])).
    destruct (traverse sequence_to_string l) as [r|]; cbn [bind option_map] in *; [|exact IH].
    rewrite <- app_assoc in IH. exact IH.
Qed.
Lemma write_sequences_agree l d t : agrees (write_sequences l d t) (write_sequences_x l d t).
Proof.
  unfold write_sequences, write_sequences_x. assert (H := lines_agree l []). apply agrees_cases in H.
  destruct (traverse sequence_to_string l) as [r|]; cbn [option_map bind app] in *.
  - rewrite H. apply agrees_some.
  - destruct (loop _ l []) as [s ok]. cbn in H. subst ok. apply agrees_none.
Qed.
Lemma couples_agree {A B S} (h : A -> option (option B)) (k : S -> B -> option S) (g : S -> A -> S * bool) :
  (forall s a, agrees (match h a with None => None | Some None => Some s | Some (Some b) => k s b end) (g s a)) ->
  forall l s, agrees (let* os := traverse h l in fold_m k (somes os) s) (loop g l s).
Proof.
  intros H. induction l as [|a l IH]; intros s; cbn [traverse loop bind]; [apply agrees_some|].
  specialize (H s a). apply agrees_cases in H. destruct (h a) as [[b|]|]; cbn [bind].
  - destruct (k s b) as [s1|] eqn:E.
    + rewrite H. specialize (IH s1). destruct (traverse h l) as [os|]; cbn [bind] in *; [|exact IH].
      cbn [somes flat_map app fold_m]. rewrite E. exact IH.
    + destruct (g s a) as [s1 ok]. cbn in H. subst ok. destruct (traverse h l) as [os|]; cbn [bind]; [|apply agrees_none].
      cbn [somes flat_map app fold_m]. rewrite E. apply agrees_none.
  - rewrite H. specialize (IH s). destruct (traverse h l); cbn [bind] in *; exact IH.
  - destruct (g s a) as [s1 ok]. cbn in H. subst ok. apply agrees_none.
Qed.
Lemma write_seq_pairs_agree plan s1 s2 tags t rs p d side m :
  agrees_v (write_seq_pairs plan s1 s2 tags t rs p d side m) (write_seq_pairs_x plan s1 s2 tags t rs p d side m).
Proof.
  unfold write_seq_pairs, write_seq_pairs_x, guard. destruct (verify_rowsums s1 s2 tags rs); cbn [negb]; [|apply agrees_v_none].
  unfold iter_over_enumerate_filtered_couples_psds. set (l := iproduct _ _).
  match goal with |- agrees_v ?o (let '(x, ok) := loop ?g l ?s0 in _) =>
    set (g0 := g); assert (K := couples_agree (fun '(e1, e2) => couple_psds plan (4 * INR p)%R e1 e2)
      (fun '(file, buffer, counter) pair =>
        let* key := pair_key plan tags t p side m pair in
        match key with
        | None => Some (file, buffer, counter)
        | Some k =>
            let buffer := buffer ++ [pair_line k (fst (seq_enum1 pair)) (fst (seq_enum2 pair))] in
            let counter := (counter + 1)%Z in
            Some (if (counter mod 1000 =? 0)%Z then (file ++ buffer, [], counter) else (file, buffer, counter))
        end) g0) end.
  assert (K0 := fun H => K H l ([], [], 0%Z)). clear K.
  match type of K0 with ?P -> _ => assert (H : P) end.
  { intros [[file buffer] counter] [e1 e2]. unfold g0. destruct (couple_psds plan (4 * INR p)%R e1 e2) as [[data|]|]; try apply agrees_some; [|apply agrees_none].
    destruct (pair_key plan tags t p side m data) as [[k|]|]; cbn [bind]; try apply agrees_some. apply agrees_none. }
  specialize (K0 H). apply agrees_cases in K0. destruct (traverse _ l) as [os|]; cbn [bind] in *.
  - destruct (fold_m _ (somes os) _) as [[[file buffer] counter]|]; cbn [bind].
    + rewrite K0. apply agrees_v_some.
    + destruct (loop g0 l _) as [[[file buffer] counter] ok]. cbn in K0. subst ok. apply agrees_v_none.
  - destruct (loop g0 l _) as [[[file buffer] counter] ok]. cbn in K0. subst ok. apply agrees_v_none.
Qed.
Lemma write_all_agree l d : agrees (fold_m (fun d '(t, s) => write_sequences s d t) l d) (write_all_sequences_x l d).
Proof. apply loop_agrees. intros s [t x]. apply write_sequences_agree. Qed.

Lemma write_pairs_rowsum_agree plan folder rs p m pairing f :
  agrees_v (write_pairs_rowsum plan folder rs p m pairing f) (write_pairs_rowsum_x plan folder rs p m pairing f).
Proof.
  unfold write_pairs_rowsum, write_pairs_rowsum_x.
  destruct (str_to_seqtype folder) as [t|]; cbn [bind]; [|apply agrees_v_none].
  destruct (candidates t (rowsum_of_tag rs TW) p) as [s0|]; cbn [bind]; [|apply agrees_v_none].
  destruct (candidates t (rowsum_of_tag rs TX) p) as [s1|]; cbn [bind]; [|apply agrees_v_none].
  destruct (candidates t (rowsum_of_tag rs TY) p) as [s2|]; cbn [bind]; [|apply agrees_v_none].
  destruct (candidates t (rowsum_of_tag rs TZ) p) as [s3|]; cbn [bind]; [|apply agrees_v_none].
  assert (K := write_all_agree [(TW, s0); (TX, s1); (TY, s2); (TZ, s3)] (open_dir f (rowsum_dir rs))). apply agrees_cases in K. cbn [fold_m] in K.
  assert (N : forall (o : option (Folder * Z)), o = None -> snd (write_all_sequences_x [(TW, s0); (TX, s1); (TY, s2); (TZ, s3)] (open_dir f (rowsum_dir rs))) = false ->
    agrees_v o (let '(d, ok) := write_all_sequences_x [(TW, s0); (TX, s1); (TY, s2); (TZ, s3)] (open_dir f (rowsum_dir rs)) in
      if negb ok then (put f (rowsum_dir rs) d, None) else
        let both s1 s2 tags s1' s2' tags' :=
          match write_seq_pairs_x plan s1 s2 tags t rs p d LEFT m with
          | (d, None) => (put f (rowsum_dir rs) d, None)
          | (d, Some c1) =>
              match write_seq_pairs_x plan s1' s2' tags' t rs p d RIGHT m with
              | (d, None) => (put f (rowsum_dir rs) d, None)
              | (d, Some c2) => (put f (rowsum_dir rs) d, Some (c1 + c2)%Z)
              end
          end in
        match pairing with
        | Some WX => both s0 s1 (TW, TX) s2 s3 (TY, TZ)
        | Some WY => both s0 s2 (TW, TY) s1 s3 (TX, TZ)
        | Some WZ | None => both s0 s3 (TW, TZ) s1 s2 (TX, TY)
        end)).
  { intros o -> H. destruct (write_all_sequences_x _ _) as [d ok]. cbn in H. subst ok. apply agrees_v_none. }
  destruct (write_sequences s0 _ TW) as [d0|]; cbn [bind] in *; [|now apply N].
  destruct (write_sequences s1 d0 TX) as [d1|]; cbn [bind] in *; [|now apply N].
  destruct (write_sequences s2 d1 TY) as [d2|]; cbn [bind] in *; [|now apply N].
  destruct (write_sequences s3 d2 TZ) as [d3|]; cbn [bind] in *; [|now apply N].
  clear N. rewrite K. cbn [negb].
  assert (B : forall a b tags a' b' tags', agrees_v
    (let* (d, counter) := (let* (d, c1) := write_seq_pairs plan a b tags t rs p d3 LEFT m in
       let* (d, c2) := write_seq_pairs plan a' b' tags' t rs p d RIGHT m in Some (d, (c1 + c2)%Z)) in Some (put f (rowsum_dir rs) d, counter))
    (match write_seq_pairs_x plan a b tags t rs p d3 LEFT m with
          | (d, None) => (put f (rowsum_dir rs) d, None)
          | (d, Some c1) =>
              match write_seq_pairs_x plan a' b' tags' t rs p d RIGHT m with
              | (d, None) => (put f (rowsum_dir rs) d, None)
              | (d, Some c2) => (put f (rowsum_dir rs) d, Some (c1 + c2)%Z)
              end
          end)).
  { intros a b tags a' b' tags'. assert (A := write_seq_pairs_agree plan a b tags t rs p d3 LEFT m). apply agrees_v_cases in A.
    destruct (write_seq_pairs plan a b tags t rs p d3 LEFT m) as [[d4 c1]|]; cbn [bind].
    - rewrite A. assert (A' := write_seq_pairs_agree plan a' b' tags' t rs p d4 RIGHT m). apply agrees_v_cases in A'.
      destruct (write_seq_pairs plan a' b' tags' t rs p d4 RIGHT m) as [[d5 c2]|]; cbn [bind].
      + rewrite A'. apply agrees_v_some.
      + destruct (write_seq_pairs_x plan a' b' tags' t rs p d4 RIGHT m) as [d5 v]. cbn in A'. subst v. apply agrees_v_none.
    - destruct (write_seq_pairs_x plan a b tags t rs p d3 LEFT m) as [d5 v]. cbn in A. subst v. apply agrees_v_none. }
  destruct pairing as [[| |]|]; apply B.
Qed.
(* up to the number of pairs *)
Lemma write_pairs_agree fuel p t m pairing f :
  agrees (let* (f, _) := write_pairs fuel p t m pairing f in Some f) (write_pairs_x fuel p t m pairing f).
Proof.
  unfold write_pairs, write_pairs_x. destruct (generate_rowsums fuel p t) as [rowsums|]; cbn [bind]; [|apply agrees_none].
  generalize 0%Z. revert f. induction rowsums as [|rs l IH]; intros f c; cbn [fold_m loop]; [apply agrees_some|].
  assert (A := write_pairs_rowsum_agree p (seqtype_to_string t) rs p m pairing f). apply agrees_v_cases in A.
  destruct (write_pairs_rowsum p (seqtype_to_string t) rs p m pairing f) as [[f1 c1]|]; cbn [bind].
  - rewrite A. apply IH.
  - destruct (write_pairs_rowsum_x p (seqtype_to_string t) rs p m pairing f) as [f1 v]. cbn in A. subst v. apply agrees_none.
Qed.
Lemma write_pair_single_agree plan folder rs p m pairing k f :
  agrees (write_pair_single_rowsum plan folder rs p m pairing k f) (write_pair_single_rowsum_x plan folder rs p m pairing k f).
Proof.
  unfold write_pair_single_rowsum, write_pair_single_rowsum_x. destruct (str_to_seqtype folder) as [t|]; cbn [bind]; [|apply agrees_none].
  destruct (get_indices pairing k) as [[i0 i1]|]; [|apply agrees_some].
  destruct (index_to_tag i0) as [t0|]; cbn [bind]; [|apply agrees_none]. destruct (index_to_tag i1) as [t1|]; cbn [bind]; [|apply agrees_none].
  destruct (candidates t (rowsum_of_tag rs t0) p) as [s0|]; cbn [bind]; [|apply agrees_none].
  destruct (candidates t (rowsum_of_tag rs t1) p) as [s1|]; cbn [bind]; [|apply agrees_none].
  assert (K := write_all_agree [(t0, s0); (t1, s1)] (open_dir f (rowsum_dir rs))). apply agrees_cases in K. cbn [fold_m] in K.
  destruct (write_sequences s0 _ t0) as [d0|]; cbn [bind] in *.
  2: { destruct (write_all_sequences_x _ _) as [d ok]. cbn in K. subst ok. apply agrees_none. }
  destruct (write_sequences s1 d0 t1) as [d1|]; cbn [bind] in *.
  2: { destruct (write_all_sequences_x _ _) as [d ok]. cbn in K. subst ok. apply agrees_none. }
  rewrite K. cbn [negb]. destruct (match k with 1 => Some LEFT | 2 => Some RIGHT | _ => None end) as [side|]; cbn [bind]; [|apply agrees_none].
  assert (A := write_seq_pairs_agree plan s0 s1 (t0, t1) t rs p d1 side m). apply agrees_v_cases in A.
  destruct (write_seq_pairs plan s0 s1 (t0, t1) t rs p d1 side m) as [[d4 c1]|]; cbn [bind].
  - rewrite A. apply agrees_some.
  - destruct (write_seq_pairs_x plan s0 s1 (t0, t1) t rs p d1 side m) as [d4 v]. cbn in A. subst v. apply agrees_none.
Qed.
Lemma create_agree rs pairing f : agrees (create_rowsum_dirs rs pairing f) (create_rowsum_dirs_x rs pairing f).
Proof. unfold create_rowsum_dirs_x. destruct (create_rowsum_dirs rs pairing f); [apply agrees_some|apply agrees_none]. Qed.

(* ---- main.rs ---- *)
Lemma find_agree fuel ord p ls i t pl : agrees (find_write_place fuel ord p ls i t pl) (find_write_place_x fuel ord p ls i t pl).
Proof.
  unfold find_write_place, find_write_place_x. destruct (join_pairs _ _ _ _ _ _) as [r|]; cbn [bind]; [|apply agrees_none].
  destruct (match t with QuaternionType => traverse is_amicable r | _ => Some [] end); cbn [bind]; [|apply agrees_none].
  destruct (seq_lines r) as [out|]; cbn [bind]; [|apply agrees_none]. destruct (qseq_text r) as [qout|]; cbn [bind]; [|apply agrees_none].
  destruct t; try apply agrees_some.
  destruct (extend_wts i r) as [l'|]; cbn [bind]; [|apply agrees_none]. destruct (reduce_to_canonical_reps _ _ _ _ _) as [r'|]; cbn [bind]; [|apply agrees_none].
  destruct (seq_lines r') as [out'|]; cbn [bind]; [|apply agrees_none]. destruct (qseq_text r') as [qout'|]; cbn [bind]; [apply agrees_some|apply agrees_none].
Qed.
Lemma qhm_all_agree fuel ord p t lines pl :
  agrees (let* s := qhm_write_all fuel ord p t lines in Some (set_all pl s)) (qhm_write_all_x fuel ord p t lines pl).
Proof.
  unfold qhm_write_all, qhm_write_all_x. match goal with |- context [traverse ?f lines] => destruct (traverse f lines) as [qts|] end; cbn [bind]; [|apply agrees_none].
  destruct (traverse QuadSeq_to_string qts); cbn [bind]; [|apply agrees_none].
  destruct (generate_equivalent_quad_seqs fuel ord p qts t) as [equ|]; cbn [bind]; [|apply agrees_none].
  match goal with |- agrees (let* s := fold_m ?f equ [] in _) (let '(s, ok) := loop ?g equ [] in _) => assert (A := loop_agrees f g) end.
  match type of A with ?P -> _ => assert (H : P) end.
  { intros s seq. destruct (to_qs seq); cbn [bind]; [|apply agrees_none]. destruct (QHM_from_pqs _); cbn [bind]; [|apply agrees_none].
    destruct (QHM_dephased _); cbn [bind]; [|apply agrees_none]. destruct (QHM_to_string _); cbn [bind]; [apply agrees_some|apply agrees_none]. }
  specialize (A H equ []). apply agrees_cases in A. destruct (fold_m _ equ []) as [s|]; cbn [bind].
  - rewrite A. apply agrees_some.
  - destruct (loop _ equ []) as [s ok]. cbn in A. subst ok. apply agrees_none.
Qed.
Lemma hadamard_agree {L} (canon : Graph -> L) same ord lines t pl :
  agrees (let* (_, s) := hadamard_equivalence_from_file canon same ord lines t in Some (set_mat pl s)) (hadamard_equivalence_x canon same ord lines t pl).
Proof.
  unfold hadamard_equivalence_from_file, hadamard_equivalence_x, guard. destruct (traverse QS_from_str lines) as [seqs|]; cbn [bind]; [|apply agrees_none].
  destruct (traverse from_pqs seqs) as [l|]; cbn [bind]; [|apply agrees_none]. destruct (all_m _ l) as [[|]|]; cbn [bind]; try apply agrees_none.
  match goal with |- context [traverse ?f l] => destruct (traverse f l) as [pairs|] end; cbn [bind]; [|apply agrees_none].
  match goal with |- context [fold_m ?f ?a ?b] => destruct (fold_m f a b) as [s|] end; cbn [bind]; [apply agrees_some|apply agrees_none].
Qed.
Lemma convert_agree lines pl : agrees (let* (_, s) := convert_qs_to_matrices lines in Some (set_qhm pl s)) (convert_qs_to_matrices_x lines pl).
Proof. unfold convert_qs_to_matrices_x. destruct (convert_qs_to_matrices lines) as [[k s]|]; cbn [bind]; [apply agrees_some|apply agrees_none]. Qed.
Lemma rowsums_agree fuel p t pl : agrees (let* l := write_rowsums fuel p t in Some (set_quad pl l)) (write_rowsums_x fuel p t pl).
Proof. unfold write_rowsums_x. destruct (write_rowsums fuel p t); cbn [bind]; [apply agrees_some|apply agrees_none]. Qed.

Lemma agrees_on {S T} (o : option S) x (g : S -> T) : agrees o x -> agrees (let* s := o in Some (g s)) (g (fst x), snd x).
Proof.
  intros H. apply agrees_cases in H. destruct o as [s|]; cbn [bind].
  - rewrite H. apply agrees_some.
  - rewrite H. apply agrees_none.
Qed.
Theorem exec_agree {L} fuel (e : Env L) c w : agrees (exec fuel e c w) (exec_x fuel e c w).
Proof.
  destruct c; cbn [exec exec_x]; try apply agrees_some.
  - destruct (w _ _) as [pl|]; cbn [bind]; [|apply agrees_none]. destruct (pl_seq pl) as [lines|]; cbn [bind]; [|apply agrees_none].
    assert (A := agrees_on _ _ (write w (seqtype_to_string t) (usize_to_string p)) (qhm_all_agree fuel (e_ord e) (e_path e) t lines pl)).
    destruct (qhm_write_all _ _ _ _ _); exact A.
  - destruct (let* pl := w _ _ in let* lines := pl_seq pl in verify_qts_eq_wts lines) eqn:E.
    + apply bind_some in E as (pl & -> & E). apply bind_some in E as (lines & El & E). cbn [bind]. rewrite El. cbn [bind]. rewrite E. apply agrees_some.
    + destruct (w _ _) as [pl|]; cbn [bind] in *; [|apply agrees_none]. destruct (pl_seq pl) as [lines|]; cbn [bind] in *; [|apply agrees_none].
      rewrite E. apply agrees_none.
  - destruct (w _ _) as [pl|]; cbn [bind]; [|apply agrees_none].
    assert (A := agrees_on _ _ (write w (seqtype_to_string t) (usize_to_string p)) (rowsums_agree fuel (Z.to_nat p) t pl)). destruct (write_rowsums _ _ _); exact A.
  - destruct (w _ _) as [pl|]; cbn [bind]; [|apply agrees_none].
    exact (agrees_on _ _ (write w (seqtype_to_string t) (usize_to_string p)) (find_agree fuel (e_ord e) (e_path e) (e_ls e) (Z.to_nat p) t pl)).
  - destruct (w _ _) as [pl|]; cbn [bind]; [|apply agrees_none]. destruct (match t with WilliamsonType => pl_qts pl | _ => pl_seq pl end) as [lines|]; cbn [bind]; [|apply agrees_none].
    assert (A := agrees_on _ _ (write w (seqtype_to_string t) (usize_to_string p)) (hadamard_agree (e_canon e) (e_same e) (e_hms e) lines t pl)).
    destruct (hadamard_equivalence_from_file _ _ _ _ _) as [[k s]|]; exact A.
  - destruct (w _ _) as [pl|]; cbn [bind]; [|apply agrees_some]. destruct (pl_seq pl) as [lines|]; cbn [bind]; [|apply agrees_some].
    assert (A := agrees_on _ _ (write w (seqtype_to_string t) (usize_to_string p)) (convert_agree lines pl)).
    destruct (convert_qs_to_matrices lines) as [[k s]|]; exact A.
  - assert (A := write_pairs_agree fuel (Z.to_nat p) t m pairing (pl_dirs (place_of w (seqtype_to_string t) (usize_to_string p)))). apply agrees_cases in A.
    destruct (write_pairs _ _ _ _ _ _) as [[f k]|]; cbn [bind] in *.
    + rewrite A. cbn [fst snd]. destruct f; apply agrees_some.
    + destruct (write_pairs_x _ _ _ _ _ _) as [f ok]. cbn in A. subst ok. cbn [fst snd]. destruct f; apply agrees_none.
  - assert (A := write_pairs_rowsum_agree (Z.to_nat p) (seqtype_to_string t) rs (Z.to_nat p) m pairing (pl_dirs (place_of w (seqtype_to_string t) (usize_to_string p)))).
    apply agrees_v_cases in A. destruct (write_pairs_rowsum _ _ _ _ _ _ _) as [[f k]|]; cbn [bind] in *.
    + rewrite A. apply agrees_some.
    + destruct (write_pairs_rowsum_x _ _ _ _ _ _ _) as [f v]. cbn in A. subst v. apply agrees_none.
  - exact (agrees_on _ _ (fun f => write w (seqtype_to_string t) (usize_to_string p) (set_dirs (place_of w (seqtype_to_string t) (usize_to_string p)) f)) (create_agree rs pairing _)).
  - exact (agrees_on _ _ (fun f => write w (seqtype_to_string t) (usize_to_string p) (set_dirs (place_of w (seqtype_to_string t) (usize_to_string p)) f)) (write_pair_single_agree _ _ rs _ m pairing _ _)).
Qed.
Theorem run_agree {L} fuel (e : Env L) args w w' : run_main fuel e args w = Some w' <-> run_main_x fuel e args w = (w', true).
Proof. revert w'. unfold run_main, run_main_x. destruct (parse_args args); cbn [bind]; [apply exec_agree|apply agrees_none]. Qed.

(* ---- one directory, its own files ---- *)
Theorem exec_x_only {L} fuel (e : Env L) c w w' ok : exec_x fuel e c w = (w', ok) ->
  match target c with
  | None => w' = w
  | Some (t, p) => only w w' (type_word t) (usize_to_string p)
  end.
Proof.
  assert (R := only_refl w).
  destruct c; cbn [exec_x target]; rewrite ?type_word_string; intros H.
  - now injection H as <- <-.
  - destruct (let* pl := w _ _ in let* lines := pl_seq pl in Some (pl, lines)) as [[pl lines]|]; injection H as <- <-; auto. apply write_only.
  - destruct (let* pl := w _ _ in let* lines := pl_seq pl in verify_qts_eq_wts lines); injection H as <- <-; auto.
  - destruct (w _ _); injection H as <- <-; auto. apply write_only.
  - destruct (w _ _); injection H as <- <-; auto. apply write_only.
  - match type of H with match ?o with _ => _ end = _ => destruct o as [[pl lines]|] end; injection H as <- <-; auto. apply write_only.
  - match type of H with match ?o with _ => _ end = _ => destruct o as [[pl lines]|] end; injection H as <- <-; auto. apply write_only.
  - match type of H with match ?o with _ => _ end = _ => destruct o end; injection H as <- <-; auto. apply write_only.
  - injection H as <- <-. apply write_only.
  - injection H as <- <-. apply write_only.
  - injection H as <- <-. apply write_only.
  - now injection H as <- <-.
Qed.
Lemma find_x_keeps fuel ord p ls i t pl : forall x, ~ In x (outputs (Join t (Z.of_nat i))) -> same_file x pl (fst (find_write_place_x fuel ord p ls i t pl)).
Proof.
  unfold find_write_place_x. intros x Hx. match goal with |- context [match ?o with _ => _ end] => destruct o end; [|apply same_refl].
  match goal with |- context [match ?o with _ => _ end] => destruct o as [[out qout]|] end; [|destruct x; cbn in Hx |- *; destruct t; cbn in Hx; intuition congruence].
  destruct t; try (destruct x; cbn in Hx |- *; intuition congruence).
  match goal with |- context [match ?o with _ => _ end] => destruct o as [q|] end; [|destruct x; cbn in Hx |- *; intuition congruence].
  match goal with |- context [match ?o with _ => _ end] => destruct o as [[out' qout']|] end; destruct x; cbn in Hx |- *; intuition congruence.
Qed.
Theorem exec_x_outputs {L} fuel (e : Env L) c w w' ok t p : exec_x fuel e c w = (w', ok) -> target c = Some (t, p) ->
  forall x, ~ In x (outputs c) -> same_file x (place_of w (type_word t) (usize_to_string p)) (place_of w' (type_word t) (usize_to_string p)).
Proof.
  intros E T x Hx. destruct c; cbn [target] in T; try discriminate; injection T as <- <-; cbn [exec_x] in E; rewrite ?type_word_string in E.
  - destruct (let* pl := w _ _ in let* lines := pl_seq pl in Some (pl, lines)) as [[pl lines]|] eqn:H; injection E as <- <-; [|apply same_refl].
    apply bind_some in H as (pl' & Hw & H). apply bind_some in H as (l' & _ & H). injection H as -> ->. rewrite place_write, (place_some _ _ _ _ Hw).
    unfold qhm_write_all_x. match goal with |- context [match ?o with _ => _ end] => destruct o end; [|apply same_refl].
    match goal with |- context [loop ?f ?a ?b] => destruct (loop f a b) end. destruct x; cbn in Hx |- *; intuition congruence.
  - destruct (let* pl := w _ _ in let* lines := pl_seq pl in verify_qts_eq_wts lines); injection E as <- <-; apply same_refl.
  - destruct (w _ _) as [pl|] eqn:Hw; injection E as <- <-; [|apply same_refl]. rewrite place_write, (place_some _ _ _ _ Hw).
    unfold write_rowsums_x. match goal with |- context [match ?o with _ => _ end] => destruct o end; destruct x; cbn in Hx |- *; intuition congruence.
  - destruct (w _ _) as [pl|] eqn:Hw; injection E as <- <-; [|apply same_refl]. rewrite place_write, (place_some _ _ _ _ Hw). apply find_x_keeps. destruct t0; exact Hx.
  - match type of E with match ?o with _ => _ end = _ => destruct o as [[pl lines]|] eqn:H end; injection E as <- <-; [|apply same_refl].
    apply bind_some in H as (pl' & Hw & H). apply bind_some in H as (l' & _ & H). injection H as -> ->. rewrite place_write, (place_some _ _ _ _ Hw).
    unfold hadamard_equivalence_x. match goal with |- context [match ?o with _ => _ end] => destruct o end; [|apply same_refl].
    match goal with |- context [fold_m ?f ?a ?b] => destruct (fold_m f a b) end; destruct x; cbn in Hx |- *; intuition congruence.
  - match type of E with match ?o with _ => _ end = _ => destruct o as [[pl lines]|] eqn:H end; injection E as <- <-; [|apply same_refl].
    apply bind_some in H as (pl' & Hw & H). apply bind_some in H as (l' & _ & H). injection H as -> ->. rewrite place_write, (place_some _ _ _ _ Hw).
    unfold convert_qs_to_matrices_x. destruct (convert_qs_to_matrices lines) as [[k s]|]; destruct x; cbn in Hx |- *; intuition congruence.
  - match type of E with match ?o with _ => _ end = _ => destruct o end; injection E as <- <-; [apply same_refl|].
    rewrite place_write. destruct x; cbn in Hx |- *; intuition congruence.
  - injection E as <- <-. rewrite place_write. destruct x; cbn in Hx |- *; intuition congruence.
  - injection E as <- <-. rewrite place_write. destruct x; cbn in Hx |- *; intuition congruence.
  - injection E as <- <-. rewrite place_write. destruct x; cbn in Hx |- *; intuition congruence.
Qed.
