(* The logs of the commands join and convert. *)
From Coq Require Import Ascii String List ZArith Bool Arith Lia Permutation.
From Verif Require Import Base BaseFacts Quat ModelSequence ModelWilliamson ModelEquivalence ModelMatrices ModelGraph ModelRowsum ModelFourier ModelMatching ModelWrite TextFacts
  FolderFacts ModelMain MainThms ModelLog LogFolder LogText LogFacts LogStages SpecSearch SpecLog SpecMain Spec.
Import ListNotations.
Open Scope string_scope.
Open Scope list_scope.
Open Scope nat_scope.
Notation length := List.length.
#[local] Opaque usize_to_string isize_to_string seconds.

Definition quote : text := [ascii_of_nat 34].
Lemma quote_plain : plain quote. Proof. split; [discriminate|]. constructor; [vm_compute; tauto|constructor]. Qed.
Lemma fold_all {A B} (f : A -> B -> option A) l : forall a a', fold_m f l a = Some a' -> Forall (fun b => exists c c', f c b = Some c') l.
Proof.
  induction l as [|b l IH]; intros a a' E; [constructor|]. cbn [fold_m] in E. apply bind_some in E as (c & E1 & E). constructor; eauto.
Qed.
Lemma traverse_some {A B} (f : A -> option B) (Q : B -> Prop) l : Forall (fun x => exists y, f x = Some y /\ Q y) l -> exists r, traverse f l = Some r /\ Forall Q r.
Proof.
  intros F. induction F as [|x l (y & Hy & Qy) F (r & Er & Qr)]; [exists []; auto|]. exists (y :: r). cbn [traverse]. rewrite Hy. cbn [bind]. rewrite Er. auto.
Qed.
Definition file_names : list string := ["pair_WX.pair.sorted"; "pair_YZ.pair.sorted"; "pair_WY.pair.sorted"; "pair_XZ.pair.sorted"; "pair_WZ.pair.sorted"; "pair_XY.pair.sorted"].
Lemma sorted_names p W FL FR nm : In nm (map fst (filter (fun e : text * Lines => ends_with (fst e) (lit ".pair.sorted")) (sorted_dir_of p W FL FR))) ->
  exists s, In s file_names /\ nm = lit s.
Proof.
  assert (E : map fst (filter (fun e : text * Lines => ends_with (fst e) (lit ".pair.sorted")) (sorted_dir_of p W FL FR)) =
    match p with Some WX => [lit "pair_WX.pair.sorted"; lit "pair_YZ.pair.sorted"] | Some WY => [lit "pair_WY.pair.sorted"; lit "pair_XZ.pair.sorted"] | _ => [lit "pair_WZ.pair.sorted"; lit "pair_XY.pair.sorted"] end)
    by (destruct p as [[| |]|]; reflexivity).
  rewrite E. destruct p as [[| |]|]; intros [<-|[<-|[]]]; eexists; (split; [|reflexivity]); cbn; tauto.
Qed.
Lemma quiet_matches s0 s1 k : In s0 file_names -> In s1 file_names -> quiet (lit "Matches found in " ++ quoted (lit s0) ++ lit " and " ++ quoted (lit s1) ++ lit ": " ++ count k).
Proof.
  intros H0 H1. unfold quoted. fold quote. pose proof quote_plain as Hq. pose proof (count_plain k) as Hk.
  assert (G : forall p, clear p = true -> forallb (fun s => negb (has p (lit s))) file_names = true -> has p (lit "Matches found in ") = false -> has p (lit " and ") = false ->
    has p (lit ": ") = false -> has p (lit "Matches found in " ++ (quote ++ lit s0 ++ quote) ++ lit " and " ++ (quote ++ lit s1 ++ quote) ++ lit ": " ++ count k) = false).
  { intros p Hp F A B C. rewrite forallb_forall in F. rewrite <- !app_assoc. apply hush; auto. apply hush; auto; [now apply negb_true_iff, F|].
    apply hush; auto. apply hush; auto; [now apply negb_true_iff, F|]. apply hush_end; auto. }
  unfold quiet, p_wts, p_qts, p_pairs, p_red, p_hm. do 5 (split; [apply G; reflexivity|]). right. apply G; reflexivity.
Qed.
Lemma match_logs ls t p F res : any_listing ls -> Forall (sorted_entry p) F -> match_pairs ls t F = Some res ->
  exists ll, traverse (fun '(name, d) => match_log ls name d) (ls_folder ls F) = Some ll /\ Forall quiet (concat ll).
Proof.
  intros (L1 & L2 & L3) Sh E. unfold match_pairs in E. apply fold_all in E.
  assert (K : exists ll, traverse (fun '(name, d) => match_log ls name d) (ls_folder ls F) = Some ll /\ Forall (Forall quiet) ll).
  { apply traverse_some. apply Forall_forall. intros [nm d] Hd. rewrite Forall_forall in E. destruct (E _ Hd) as (c & c' & Ec). clear E.
    apply (Permutation_in _ (L1 F)) in Hd. rewrite Forall_forall in Sh. destruct (Sh _ Hd) as (rs & W & FL & FR & [= En Ed]).
    cbn beta iota in Ec. apply bind_some in Ec as (sq & _ & Ec). apply bind_some in Ec as ([files order] & Eo & Ec). apply bind_some in Ec as (r & Er & _).
    unfold match_log. unfold get_order_from_dir in Eo.
    assert (N : forall x, In x (map fst (filter (fun e : text * Lines => ends_with (fst e) (lit ".pair.sorted")) (ls_pair ls nm d))) -> exists s, In s file_names /\ x = lit s).
    { intros x Hx. apply (sorted_names p W FL FR). rewrite <- Ed. apply (Permutation_in _ (Permutation_map fst (Permutation_filter' _ _ _ (L3 nm d)))). exact Hx. }
    destruct (filter _ (ls_pair ls nm d)) as [|[n0 f0] [|[n1 f1] [|]]]; try discriminate.
    apply bind_some in Eo as ([t1 t2] & _ & Eo). apply bind_some in Eo as ([t3 t4] & _ & Eo). injection Eo as <- <-. cbn [fst snd] in Er.
    unfold join_pairs_files in Er. apply (matches_some _ _ _ _ _ _ _ _ 0) in Er as (k & Ek). unfold matches_of. rewrite Ek. cbn [bind].
    eexists. split; [reflexivity|]. destruct (N n0) as (s0 & H0 & ->); [now left|]. destruct (N n1) as (s1 & H1 & ->); [cbn; auto|].
    constructor; [|constructor; [now apply quiet_matches|constructor; [apply quiet_nil|constructor]]].
    rewrite En. destruct (rowsum_dir_plain rs) as (x & -> & Hx). quiet_tac. }
  destruct K as (ll & El & Fl). exists ll. split; auto. apply Forall_forall. intros s Hs. apply in_concat in Hs as (l & Hl & Hs).
  rewrite Forall_forall in Fl. specialize (Fl l Hl). rewrite Forall_forall in Fl. auto.
Qed.

Definition word (t : SequenceType) : string := match t with QuaternionType => "qts" | WilliamsonType => "wts" | Williamson => "ws" | ItoType => "its" | ExtraTypeI => "et1" | ExtraTypeII => "et2" | ExtraTypeIII => "et3" end.
Lemma word_string t : seqtype_to_string t = lit (word t). Proof. now destruct t. Qed.
Lemma reading_reduced t k : reading [lit "Found " ++ count k ++ lit " " ++ lit (word t) ++ lit " after reducing to equivalence"] =
  mkReading (match t with WilliamsonType => Some (Z.of_nat k) | _ => None end) (match t with QuaternionType => Some (Z.of_nat k) | _ => None end) None [] None None.
Proof.
  line_tac. unfold count. assert (Hk : (0 <= Z.of_nat k)%Z) by lia. unfold m_pairs, m_red, m_hm, m_wts, m_qts.
  destruct t; cbn [word]; rewrite ?number_end by (auto; reflexivity);
  rewrite !number_none, !took_none, runtime_none by (unfold p_red, p_hm; first [left; hush_tac; fail | hush_tac]); reflexivity.
Qed.
Lemma reading_took z : (0 <= z)%Z -> reading [lit "Reducing to equivalence took " ++ seconds z ++ lit " seconds."] = mkReading None None None [] (Some (seconds z)) None.
Proof.
  intros H. line_tac. change (lit " seconds.") with (lit " seconds" ++ lit "."). unfold m_red, p_red. rewrite took_line by auto.
  unfold m_wts, m_qts, m_hm, m_pairs, p_hm. rewrite !number_none, !took_none, runtime_none by first [left; hush_tac; fail | hush_tac]. reflexivity.
Qed.
Lemma reading_found a t k : In a ["after matching"] -> quiet (lit "Found " ++ count k ++ lit " " ++ lit (word t) ++ lit " " ++ lit a).
Proof. intros [<-|[]]. destruct t; cbn [word]; quiet_tac. Qed.
Definition r_reduced (t : SequenceType) (k : nat) (time : option text) : Reading :=
  mkReading (match t with WilliamsonType => Some (Z.of_nat k) | _ => None end) (match t with QuaternionType => Some (Z.of_nat k) | _ => None end) None [] time None.
Lemma join_log ck fuel ord p ls t F r pr : clock_ok ck -> any_listing ls -> Forall (sorted_entry pr) F -> join_pairs fuel ord p ls t F = Some r ->
  exists l, join_pairs_log ck fuel ord p ls t F = Some (r, l) /\
    reading l = then_read (mkReading None None None [seconds (tm_match ck)] None None) (r_reduced t (length r) (Some (seconds (tm_reduce ck)))).
Proof.
  intros Hc Hl Sh E. unfold join_pairs in E. apply bind_some in E as (res & E1 & E). apply bind_some in E as (fl & E2 & E).
  destruct (match_logs ls t pr F res Hl Sh E1) as (ll & El & Ql). unfold join_pairs_log. rewrite E1. cbn [bind]. rewrite El. cbn [bind].
  assert (Hm : (0 <= tm_match ck)%Z) by apply Hc. assert (Hr : (0 <= tm_reduce ck)%Z) by apply Hc.
  assert (K : exists note, quiet note /\ match t with
    | QuaternionType =>
        let* u := traverse ns_canonical res in
        Some (unique u, (concat ll ++ [lit "Matching took: " ++ seconds (tm_match ck) ++ lit " seconds."; [];
                        lit "Found " ++ count (length res) ++ lit " " ++ seqtype_to_string t ++ lit " after matching"]) ++ [lit "Filtered with the NS (negate-and-swap) operation; now filtering " ++ count (length (unique u)) ++ lit " sequences up to QT equivalence ..."])
    | WilliamsonType | Williamson =>
        let* u := traverse sn_ss_canonical res in
        Some (unique u, (concat ll ++ [lit "Matching took: " ++ seconds (tm_match ck) ++ lit " seconds."; [];
                        lit "Found " ++ count (length res) ++ lit " " ++ seqtype_to_string t ++ lit " after matching"]) ++ [lit "Filtered with the SN (single negate) and SS (single swap) operations; now filtering " ++ count (length (unique u)) ++ lit " sequences up to Williamson-type equivalence ..."])
    | _ => None
    end = Some (fl, (concat ll ++ [lit "Matching took: " ++ seconds (tm_match ck) ++ lit " seconds."; [];
                        lit "Found " ++ count (length res) ++ lit " " ++ seqtype_to_string t ++ lit " after matching"]) ++ [note])).
  { destruct t; try discriminate; apply bind_some in E2 as (u & -> & E2); injection E2 as <-; cbn [bind]; (eexists; split; [|reflexivity]); quiet_tac. }
  destruct K as (note & Qn & K). match goal with |- context [bind ?X _] => replace X with (Some (fl, (concat ll ++ [lit "Matching took: " ++ seconds (tm_match ck) ++ lit " seconds."; [];
                        lit "Found " ++ count (length res) ++ lit " " ++ seqtype_to_string t ++ lit " after matching"]) ++ [note])) by (symmetry; exact K) end.
  cbn [bind]. rewrite E. cbn [bind]. eexists. split; [reflexivity|]. rewrite !word_string.
  change (lit "Matching took: " ++ seconds (tm_match ck) ++ lit " seconds.") with (lit "Matching took" ++ lit ": " ++ seconds (tm_match ck) ++ lit " seconds.").
  rewrite <- !app_assoc. rewrite reading_app, (reading_quiet _ Ql), then_nothing.
  set (s1 := _ ++ _ ++ _ ++ lit " seconds."). set (s2 := _ ++ _ ++ _ ++ _ ++ lit " after matching").
  set (s3 := _ ++ _ ++ _ ++ _ ++ lit " after reducing to equivalence"). set (s4 := lit "Reducing to equivalence took " ++ _).
  change ([s1; []; s2] ++ [note] ++ [s3; s4; []]) with ([s1] ++ [[]; s2; note] ++ [s3] ++ [s4] ++ [[]]).
  rewrite !reading_app. unfold s1, s3, s4. rewrite reading_time; [|auto|right; now left].
  rewrite (reading_quiet [[]; s2; note]).
  2:{ constructor; [apply quiet_nil|]. constructor; [|constructor; [auto|constructor]]. apply (reading_found "after matching" t (length res)). now left. }
  rewrite reading_reduced, reading_took by auto. rewrite (reading_quiet [[]]) by (constructor; [apply quiet_nil|constructor]).
  destruct t; reflexivity.
Qed.
Definition extra (ck : Clock) (t : SequenceType) (pl : Place) : Reading :=
  match t with
  | WilliamsonType => mkReading None (option_map (fun l : Lines => Z.of_nat (length l)) (pl_qts pl)) None [] (Some (seconds (tm_qts ck))) None
  | _ => nothing
  end.
Lemma amicable_notes r : Forall (fun q => is_amicable q = Some true) r ->
  exists am notes, traverse is_amicable r = Some am /\
    traverse (fun q => let* b := is_amicable q in
      if b then Some [] else let* s := QuadSeq_to_string q in Some (lit "Seq is valid QTS, but not amicable (not WTS): " ++ s)) r = Some notes /\ concat notes = [].
Proof.
  intros F. induction F as [|q r Hq F (am & notes & E1 & E2 & E3)]; [exists [], []; auto|]. exists (true :: am), ([] :: notes). cbn [traverse]. rewrite Hq. cbn [bind].
  rewrite E1, E2. auto.
Qed.
Lemma find_log ck fuel ord p ls i t pl pl' r pr : clock_ok ck -> any_listing ls -> Forall (sorted_entry pr) (pl_dirs pl) ->
  join_pairs fuel ord (0 :: p) ls t (pl_dirs pl) = Some r -> (t = QuaternionType -> Forall (fun q => is_amicable q = Some true) r) ->
  find_write_place fuel ord p ls i t pl = Some pl' ->
  exists l, find_write_log ck fuel ord p ls i t pl = Some (pl', l, []) /\
    reading l = then_read (then_read (mkReading None None None [seconds (tm_match ck)] None None) (r_reduced t (length r) (Some (seconds (tm_reduce ck))))) (extra ck t pl').
Proof.
  intros Hc Hl Sh Ej Am E. destruct (join_log ck fuel ord (0 :: p) ls t (pl_dirs pl) r pr Hc Hl Sh Ej) as (l & El & Rl).
  unfold find_write_place in E. rewrite Ej in E. cbn [bind] in E. apply bind_some in E as (am & Ea & E).
  apply bind_some in E as (out & Eo & E). apply bind_some in E as (qout & Eq & E).
  unfold find_write_log. rewrite El. cbn [bind].
  assert (N : exists notes, match t with
                | QuaternionType => traverse (fun q => let* b := is_amicable q in
                    if b then Some [] else let* s := QuadSeq_to_string q in Some (lit "Seq is valid QTS, but not amicable (not WTS): " ++ s)) r
                | _ => Some []
                end = Some notes /\ concat notes = []).
  { destruct t; try (exists []; split; reflexivity). destruct (amicable_notes r (Am eq_refl)) as (a & no & _ & E1 & E2). eauto. }
  destruct N as (notes & N & Nc). match goal with |- context [bind ?X _] => replace X with (Some notes) by (symmetry; exact N) end.
  cbn [bind]. rewrite Nc. cbn [split_lines]. rewrite Eo. cbn [bind]. rewrite Eq. cbn [bind]. rewrite app_nil_r. clear N Nc Ea am.
  assert (Hq : (0 <= tm_qts ck)%Z) by apply Hc.
  destruct t; try (injection E as <-; eexists; split; [reflexivity|]; rewrite Rl; reflexivity).
  apply bind_some in E as (ext & E1 & E). apply bind_some in E as (r' & E2 & E). apply bind_some in E as (out' & E3 & E). apply bind_some in E as (qout' & E4 & E).
  injection E as <-. rewrite E1. cbn [bind]. rewrite E2. cbn [bind]. rewrite E3. cbn [bind]. rewrite E4. cbn [bind]. eexists. split; [reflexivity|].
  rewrite reading_app, Rl. f_equal. cbn [extra set_qts pl_qts option_map]. rewrite (traverse_length _ _ _ E3).
  set (s1 := lit "In order to generate all Williamson-type sequences up to Hadamard equivalence, we now generate a complete list up to QT equivalence ...").
  set (s2 := lit "Found " ++ _). set (s3 := lit "Reducing to equivalence took " ++ _). change [s1; s2; s3; []] with ([s1] ++ [s2] ++ [s3] ++ [[]]).
  rewrite !reading_app. rewrite (reading_quiet [s1]) by (constructor; [unfold s1; quiet_tac|constructor]).
  change s2 with (lit "Found " ++ count (length r') ++ lit " " ++ lit (word QuaternionType) ++ lit " after reducing to equivalence"). unfold s3.
  rewrite reading_reduced, reading_took by auto. rewrite (reading_quiet [[]]) by (constructor; [apply quiet_nil|constructor]). reflexivity.
Qed.

(* ---- convert ---- *)
Lemma type_word_lit t : type_word t = lit (word t). Proof. now destruct t. Qed.
Lemma quiet_hm t y k : plain y -> Forall quiet
  [lit "Converting sequences found in results/pairs/" ++ type_word t ++ lit "/find_" ++ y ++ (match t with WilliamsonType => lit "/result-qts.seq" | _ => lit "/result.seq" end) ++ lit " to Hadamard matrices up to Hadamard equivalence ...";
   lit "Reducing matrices to equivalence via graph isomorphism..."; lit "Number of matrices up to equivalence : " ++ count k].
Proof. intros Hy. rewrite type_word_lit. constructor; [destruct t; cbn [word]; quiet_tac|]. constructor; [quiet_tac|]. constructor; [quiet_tac|constructor]. Qed.
Lemma quiet_head t y : plain y -> quiet (lit "./results/pairs/" ++ type_word t ++ lit "/find_" ++ y ++ lit "/result.seq").
Proof. intros Hy. rewrite type_word_lit. destruct t; cbn [word]; quiet_tac. Qed.
Lemma quiet_converted k y nc : plain y -> quiet (lit "converted " ++ count k ++ lit " sequences of size " ++ y ++ lit ". " ++ count nc ++ lit " contained non-commuting elements.").
Proof. intros Hy. quiet_tac. Qed.
Lemma reading_hm z : (0 <= z)%Z -> reading [lit "Converting to matrices up to Hadamard equivalence took " ++ seconds z ++ lit " seconds"] = mkReading None None None [] None (Some (seconds z)).
Proof.
  intros H. line_tac. unfold m_hm. change (lit "Converting to matrices up to Hadamard equivalence took ") with p_hm. rewrite took_end by auto.
  unfold m_wts, m_qts, m_red, m_pairs, p_hm, p_red. rewrite !number_none, !took_none, runtime_none by first [left; hush_tac; fail | hush_tac]. reflexivity.
Qed.
Lemma quiet_matrices o : quiet (match o with Some s => usize_to_string (file_lines s) | None => [] end ++ lit " matrices were found after converting up to Hadamard equivalence.").
Proof.
  destruct o as [s|]; [|cbn [app]; quiet_tac]. assert (0 <= file_lines s)%Z by (unfold file_lines; lia). quiet_tac.
Qed.
Lemma quiet_last ck : clock_ok ck -> Forall quiet [lit "Converting to PQS to QHM took " ++ seconds (tm_qhm ck) ++ lit " seconds"; [];
                  lit "Total execution time was " ++ seconds (tm_all ck) ++ lit " seconds."].
Proof.
  intros Hc. assert (A : (0 <= tm_qhm ck)%Z) by apply Hc. assert (B : (0 <= tm_all ck)%Z) by apply Hc.
  constructor; [quiet_tac|]. constructor; [apply quiet_nil|]. constructor; [quiet_tac|constructor].
Qed.
Lemma quiet_pqs : quiet (lit "Converting PQS to QHM ..."). Proof. quiet_tac. Qed.
