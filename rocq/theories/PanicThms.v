(* Commands that panic, and driver.sh with what they leave behind. *)
From Coq Require Import Ascii String List ZArith Bool Arith Lia Permutation Relations.
From Verif Require Import Base BaseFacts Sums Quat QuatFacts ModelSequence ModelWilliamson ModelEquivalence SpecEquiv OpFacts EquivFacts TypeFacts
  OrderFacts EquivThms CanonFacts ReduceFacts WsFacts QtWt Convert ModelMatrices SpecMatrix SpecPrint MatFacts QhmFacts PrintFacts HmFacts ModelGraph SpecGraph GraphThms HadEquiv
  ModelRowsum SpecRowsum RowsumFacts ModelMatching ModelWrite TextFacts WriteFacts FolderFacts SearchThms ExtendFacts FindQuadFacts DriverFacts ModelMain SpecMain MainFacts ArgFacts MainThms RepSymm SeqFacts DriverMain
  SpecFiles SpecSearch SplitThms SpecScripts ModelPanic PanicFacts SpecPanic Spec.
Import ListNotations.
Open Scope nat_scope.
Notation length := List.length.

(* ---- convert qhm ---- *)
Lemma qhm_total s : length (qs_values s) = qs_size s -> (forall p, In p (qs_values s) -> In p Q24) ->
  exists h d b txt, QHM_from_pqs s = Some h /\ QHM_dephase h = Some d /\ QHM_dephased h = Some d /\ contains_non_commuting_elements d = Some b /\ QHM_to_string d = Some txt.
Proof.
  intros L F. pose proof (QhmFacts.from_pqs_spec s L) as Eh. set (n := qs_size s) in *.
  match type of Eh with _ = Some ?x => set (h := x) in * end.
  assert (Sq : square n (qhm_matrix h)) by apply tab_square.
  assert (E24 : entries_in24 (qhm_matrix h)).
  { unfold h. apply entries_tab. intros i j Hi Hj. unfold qcirc, qentry. apply F. apply nth_In. apply pos_lt. lia. }
  destruct (dephase_spec n h eq_refl Sq E24) as (d & Ed & Ed' & Sd & Sqd & E24d & Nd & Hd & (txt & Et)).
  destruct (contains_non_commuting_spec n d Sd Sqd) as (b & Eb & _).
  exists h, d, b, txt. auto.
Qed.
Lemma from_str_total line : readable line -> exists s, QS_from_str line = Some s.
Proof.
  intros H. destruct (QS_from_str line) as [s|] eqn:E; [eauto|]. apply from_str_none in E as (c & I & N). destruct N. now apply H.
Qed.
Lemma convert_total lines : Forall readable lines -> exists k s, convert_qs_to_matrices lines = Some (k, s).
Proof.
  intros H. unfold convert_qs_to_matrices. generalize (0, 0, @nil ascii). induction H as [|line lines R H IH]; intros [[a b] r]; cbn [fold_m]; [eauto|].
  destruct (from_str_total line R) as (s & E). destruct (to_string_from_str line s E) as (_ & Sz & Ln & F).
  destruct (qhm_total s ltac:(congruence) F) as (h & d & c & txt & E1 & E2 & _ & E3 & E4).
  rewrite E. cbn [bind]. rewrite E1. cbn [bind]. rewrite E2. cbn [bind]. rewrite E3. cbn [bind]. rewrite E4. cbn [bind]. apply IH.
Qed.
Lemma readable_dec line : {readable line} + {exists c, In c line /\ ~ In c Q24_STRING}.
Proof.
  destruct (QS_from_str line) as [s|] eqn:E.
  - left. intros c Hc. destruct (in_dec ascii_dec c Q24_STRING) as [|N]; auto. assert (K : QS_from_str line = None) by (apply from_str_none; eauto). congruence.
  - right. now apply from_str_none.
Qed.
Lemma convert_none lines : convert_qs_to_matrices lines = None <-> ~ Forall readable lines.
Proof.
  split.
  - intros E H. destruct (convert_total lines H) as (k & s & E'). congruence.
  - intros N. unfold convert_qs_to_matrices. generalize (0, 0, @nil ascii). induction lines as [|line lines IH]; [destruct N; constructor|].
    intros [[a b] r]; cbn [fold_m]. destruct (readable_dec line) as [R|B].
    + assert (N' : ~ Forall readable lines) by (intros H; apply N; now constructor). specialize (IH N').
      destruct (from_str_total line R) as (s & E). destruct (to_string_from_str line s E) as (_ & Sz & Ln & F).
      destruct (qhm_total s ltac:(congruence) F) as (h & d & c & txt & E1 & E2 & _ & E3 & E4).
      rewrite E. cbn [bind]. rewrite E1. cbn [bind]. rewrite E2. cbn [bind]. rewrite E3. cbn [bind]. rewrite E4. cbn [bind]. apply IH.
    + apply from_str_none in B. now rewrite B.
Qed.

(* ---- convert hm ---- *)
Lemma read_quad line s q : QS_from_str line = Some s -> from_pqs s = Some q -> pm_quad (length line) q.
Proof.
  intros E1 E2. destruct (to_string_from_str line s E1) as (_ & Sz & Ln & F).
  destruct (to_qs_from_pqs s) as (q' & E & P & _).
  - congruence.
  - intros p Hp. destruct (in_dec quat_eq_dec p QPLUS) as [|N]; auto. assert (K : from_pqs s = None) by (apply from_pqs_none; eauto). congruence.
  - rewrite E in E2. injection E2 as <-. now rewrite <- Sz.
Qed.
Lemma traverse_in {A B : Type} (f : A -> option B) l r b : traverse f l = Some r -> In b r -> exists a, In a l /\ f a = Some b.
Proof.
  revert r. induction l as [|a l IH]; cbn [traverse]; intros r E I; [injection E as <-; destruct I|].
  apply bind_some in E as (x & Ex & E). apply bind_some in E as (xs & Exs & E). injection E as <-. destruct I as [<-|I]; [exists a; split; auto; now left|].
  destruct (IH xs Exs I) as (a' & Ia & Ea). exists a'. split; auto. now right.
Qed.
Lemma map_insert_in {K V : Type} (same : K -> K -> bool) (k : K) (v : V) m x : In x (map snd (map_insert same k v m)) -> x = v \/ In x (map snd m).
Proof.
  induction m as [|[k' v'] m IH]; cbn; [intuition|]. destruct (same k' k); cbn; intuition.
Qed.
Lemma magma_total equ s : (forall h, In h equ -> exists n m, h = mkHM n m /\ 1 <= n /\ square n m) ->
  fold_m (fun s mat => let* t := HM_to_string_magma mat in Some (s ++ t ++ [newline_char])) equ s <> None.
Proof.
  revert s. induction equ as [|h equ IH]; cbn [fold_m]; intros s H; [discriminate|].
  destruct (H h (or_introl eq_refl)) as (n & m & -> & Hn & Sq). rewrite (HM_to_string_magma_spec n m Sq Hn). cbn [bind].
  apply IH. intros h Hh. apply H. now right.
Qed.
Theorem hadamard_nothing {L} (canon : Graph -> L) same ord lines t pl pl' : (forall l, Permutation (ord l) l) -> ~ In [] lines ->
  hadamard_equivalence_x canon same ord lines t pl = (pl', false) -> pl' = pl.
Proof.
  intros Ho Hl. unfold hadamard_equivalence_x. match goal with |- match ?o with _ => _ end = _ -> _ => destruct o as [prs|] eqn:E end; [|now intros H; injection H as <-].
  apply bind_some in E as (seqs & E1 & E). apply bind_some in E as (quads & E2 & E). apply bind_some in E as (ok & _ & E). destruct ok; [|discriminate]. cbn [guard] in E.
  cbv zeta. match goal with |- match ?o with _ => _ end = _ -> _ => destruct o as [s|] eqn:Em end; [discriminate|].
  exfalso. revert Em. apply magma_total. intros h Hh. apply (Permutation_in _ (Ho _)) in Hh.
  assert (G : In h (map snd prs)).
  { assert (G : forall (l m : list (L * HM)) x, In x (map snd (fold_left (fun m '(k, v) => map_insert same k v m) l m)) -> In x (map snd l) \/ In x (map snd m)).
    { induction l as [|[k v] l IH]; cbn [fold_left map]; intros m x Hx; [now right|].
      destruct (IH _ _ Hx) as [I|I]; [left; now right|]. apply map_insert_in in I as [->|I]; [left; now left|now right]. }
    destruct (G _ _ _ Hh) as [I|[]]. exact I. }
  apply in_map_iff in G as ([k h'] & Eh & I). cbn in Eh. subst h'. destruct (traverse_in _ _ _ _ E I) as (q & Iq & Eq).
  apply bind_some in Eq as (h0 & Eq & E0). apply bind_some in E0 as (c & _ & E0). injection E0 as _ ->.
  destruct (traverse_in _ _ _ _ E2 Iq) as (s & Is & Es). destruct (traverse_in _ _ _ _ E1 Is) as (line & Il & Eline).
  assert (P := read_quad _ _ _ Eline Es). assert (1 <= length line) by (destruct line; [contradiction|cbn; lia]).
  rewrite (from_williamson_spec (length line) q P H) in Eq. injection Eq as <-.
  exists (4 * length line), (tab (4 * length line) (bmat (length line) q)). split; auto. split; [lia|apply tab_square].
Qed.

(* ---- qhm-all ---- *)
Lemma classes_pm fuel ord p t l r : ord_ok ord -> (forall q, In q l -> exists n, n <= 100 /\ pm_quad n q) ->
  generate_equivalent_quad_seqs fuel ord p l t = Some r -> forall q, In q r -> exists n, n <= 100 /\ pm_quad n q.
Proof.
  intros Ho Hl E. unfold generate_equivalent_quad_seqs in E. apply bind_some in E as (res & E & Er). injection Er as <-.
  assert (G : forall l i acc r, (forall q, In q l -> exists n, n <= 100 /\ pm_quad n q) -> (forall q, In q acc -> exists n, n <= 100 /\ pm_quad n q) ->
    foldi_from i (fun i res q => if mem q res then Some res
      else let* class := generate_equivalence_class fuel ord (0 :: i :: p) q (equivalences t) in
           Some (insert_all (ord (1 :: i :: p) class) res)) l acc = Some r -> forall q, In q r -> exists n, n <= 100 /\ pm_quad n q).
  { clear -Ho. induction l as [|q l IH]; cbn [foldi_from]; intros i acc r A B E; [injection E as <-; exact B|].
    apply bind_some in E as (acc' & E1 & E). apply (IH (S i) acc' r); auto; [intros; apply A; now right|].
    destruct (mem q acc); [injection E1 as <-; exact B|]. apply bind_some in E1 as (class & Ec & E1). injection E1 as <-.
    intros x Hx. apply insert_all_in in Hx as [Hx|Hx]; [|now apply B]. apply (Permutation_in _ (Ho _ _)) in Hx.
    destruct (A q (or_introl eq_refl)) as (n & Hn & P). exists n. split; auto.
    rewrite equivalences_impl in Ec. destruct (class_sound n ord (type_ops t) q fuel _ class Ho (pm_i8 n q P) Hn Ec) as [_ C].
    apply C in Hx. now apply (CanonFacts.reach_pm n (type_ops t) q). }
  intros q Hq. apply (Permutation_in _ (Ho _ _)) in Hq. apply (G l 0 [] res Hl ltac:(intros ? []) E q Hq).
Qed.
Theorem qhm_all_nothing fuel ord p t lines pl pl' : ord_ok ord -> (forall line, In line lines -> length line <= 100) ->
  qhm_write_all_x fuel ord p t lines pl = (pl', false) -> pl' = pl.
Proof.
  intros Ho Hl. unfold qhm_write_all_x. match goal with |- match ?o with _ => _ end = _ -> _ => destruct o as [equ|] eqn:E end; [|now intros H; injection H as <-].
  apply bind_some in E as (qts & E1 & E). apply bind_some in E as (txt & _ & E).
  assert (P : forall q, In q equ -> exists n, n <= 100 /\ pm_quad n q).
  { apply (classes_pm fuel ord p t qts equ Ho); auto. intros q Hq. destruct (traverse_in _ _ _ _ E1 Hq) as (line & Il & El).
    apply bind_some in El as (s & Es & Eq). exists (length line). split; auto. now apply (read_quad line s). }
  match goal with |- (let '(s, ok) := loop ?g equ ?s0 in _) = _ -> _ => set (g0 := g); assert (G : forall s, snd (loop g0 equ s) = true) end.
  { clear -P. induction equ as [|q equ IH]; cbn [loop]; intros s; [reflexivity|]. unfold g0 at 1.
    destruct (P q (or_introl eq_refl)) as (n & _ & Pq). destruct (from_pqs_to_qs n q Pq) as (v & Ev & _). rewrite Ev. cbn [bind].
    destruct (quad_text_total n q Pq) as (v' & tx & Ev' & Et). rewrite Ev in Ev'. injection Ev' as <-.
    destruct (line_reads n q tx Pq) as (v' & Ev' & _ & _ & Sz & Ln & F); [now exists v|]. rewrite Ev in Ev'. injection Ev' as <-.
    destruct (qhm_total v ltac:(congruence)) as (h & d & b & txt & E1 & _ & E2 & _ & E3); [now apply Forall_forall|].
    rewrite E1. cbn [bind]. rewrite E2. cbn [bind]. rewrite E3. apply IH. intros x Hx. apply P. now right. }
  specialize (G []). destruct (loop g0 equ []) as [s ok]. cbn in G. subst ok. discriminate.
Qed.

(* ---- join ---- *)
Lemma reduce_W_eq fuel ord p l : reduce_to_canonical_reps fuel ord p l Williamson = reduce_to_canonical_reps fuel ord p l WilliamsonType.
Proof. reflexivity. Qed.
Lemma join_total n ls ord t f r0 : 1 <= n <= 31 -> ord_ok ord -> searchable t ->
  match_pairs ls t f = Some r0 -> (forall q, In q r0 -> pm_quad n q /\ is_type t q) -> r0 <> [] ->
  forall fuel path, class_fuel n <= fuel -> exists r, join_pairs fuel ord path ls t f = Some r /\ r <> [] /\ (forall x, In x r -> pm_quad n x /\ is_WT x).
Proof.
  intros Hn Ho Ht Em Snd Hne fuel path Hf. assert (Hn1 : 1 <= n) by lia.
  destruct (canonical_list n t r0 Ht Hn1) as (l & El & A & B); [intros q Hq; now apply Snd|].
  assert (Vl : forall x, In x l -> pm_quad n x /\ is_type t x).
  { intros x Hx. destruct (B x Hx) as (q & Hq & R). destruct (Snd q Hq). now apply (reach_type n t q). }
  assert (Hne' : unique l <> []).
  { apply unique_nonempty. destruct r0 as [|q r0]; [congruence|]. destruct (A q (or_introl eq_refl)) as (c & I & _). intros ->. exact I. }
  set (t' := match t with QuaternionType => QuaternionType | _ => WilliamsonType end).
  assert (Ht' : t' = QuaternionType \/ t' = WilliamsonType) by (unfold t'; destruct t; auto).
  destruct (reduce_complete_at n ord (unique l) t' Ho Ht' Hn Hne') with (fuel := fuel) (p := path) as (r & Er & Nd & C & D & E); auto.
  { apply Forall_forall. intros x Hx. apply (proj1 (proj2 (unique_spec l) _)) in Hx. destruct (Vl x Hx) as [Px Tx]. split; auto.
    apply (verify_type n) in Tx; auto. destruct Ht as [->|[->| ->]]; unfold t'; auto. now apply (W_WT_verify n). }
  exists r. split; [|split].
  - rewrite join_pairs_eq by auto. rewrite Em. cbn [bind]. rewrite El. cbn [bind]. destruct Ht as [->|[->| ->]]; exact Er.
  - intros ->. destruct (unique l) as [|x l']; [congruence|]. destruct (D x (or_introl eq_refl)) as (m & [] & _).
  - intros x Hx. destruct (C x Hx) as (Px & Vx & _). split; auto. apply (verify_type n) in Vx; auto.
    destruct Ht' as [->| ->]; [now apply (QT_iff_WT n)|exact Vx].
Qed.
Lemma extend_total n ord r : ord_ok ord -> 1 <= n <= 31 -> r <> [] -> (forall x, In x r -> pm_quad n x /\ is_WT x) ->
  exists l, extend_wts n r = Some l /\ forall fuel path, class_fuel n <= fuel -> exists r',
    reduce_to_canonical_reps fuel ord path l QuaternionType = Some r' /\ (forall x, In x r' -> pm_quad n x /\ is_QT x).
Proof.
  intros Ho Hn Hne Hl. assert (Hn1 : 1 <= n) by lia.
  destruct (extend_spec n r) as (l' & El & Hl').
  { apply Forall_forall. intros x Hx. now apply Hl. }
  exists l'. split; auto. intros fuel path Hf.
  assert (G : forall c, In c l' -> pm_quad n c /\ is_QT c).
  { intros c Hc. apply Hl' in Hc as (x & Hx & Hc). destruct (Hl x Hx) as [Px Vx]. split; [now apply (variants_pm n x)|].
    apply (QT_iff_WT n); auto; [now apply (variants_pm n x)|].
    assert (Rr : reach (type_ops WilliamsonType) x c).
    { assert (RN : forall y, reach (type_ops WilliamsonType) y (N TW y)) by (intros; apply reach_negate; cbn; tauto).
      unfold variants_of in Hc. destruct (Nat.even n) eqn:E; cbn in Hc.
      - assert (RH : reach (type_ops WilliamsonType) x (H n TW x)) by (apply single_half; auto; [cbn; tauto|apply Px]).
        destruct Hc as [<-|[<-|[<-|[<-|[]]]]]; auto; [apply rt_refl|]. eapply rt_trans; [exact RH|apply RN].
      - destruct Hc as [<-|[<-|[]]]; auto. apply rt_refl. }
    apply (reach_type n WilliamsonType x c Px Hn1 Rr Vx). }
  destruct (reduce_complete_at n ord l' QuaternionType Ho (or_introl eq_refl) Hn) with (fuel := fuel) (p := path) as (r' & Er & _ & C & _); auto.
  - intros ->. destruct r as [|x r]; [congruence|]. assert (I : In x []) by (apply Hl'; exists x; split; now left). exact I.
  - apply Forall_forall. intros c Hc. destruct (G c Hc) as [A B]. split; auto. now apply (verify_type n).
  - exists r'. split; auto. intros x Hx. destruct (C x Hx) as (Px & Vx & _). split; auto. now apply (verify_type n) in Vx.
Qed.
(* what a successful search writes *)
Theorem join_writes n ls ord t pl r0 : 1 <= n <= 31 -> ord_ok ord -> searchable t ->
  match_pairs ls t (pl_dirs pl) = Some r0 -> (forall q, In q r0 -> pm_quad n q /\ is_type t q) -> r0 <> [] ->
  forall fuel p, class_fuel n <= fuel -> exists r out pl', (forall x, In x r -> pm_quad n x) /\ Forall2 line_of_quad r out /\
    find_write_place fuel ord p ls n t pl = Some pl' /\ pl_seq pl' = Some out /\
    match t with
    | WilliamsonType => exists r' out', (forall x, In x r' -> pm_quad n x) /\ Forall2 line_of_quad r' out' /\ pl_qts pl' = Some out'
    | _ => pl_qts pl' = pl_qts pl
    end.
Proof.
  intros Hn Ho Ht Em Snd Hne fuel p Hf. assert (Hn1 : 1 <= n) by lia.
  destruct (join_total n ls ord t (pl_dirs pl) r0 Hn Ho Ht Em Snd Hne fuel (0 :: p) Hf) as (r & Ej & Hr & A).
  destruct (seq_lines_spec n r) as (out & Eo & Fo); [intros x Hx; now apply A|].
  assert (Eq : qseq_text r = Some (stacked (map quad_text r))) by (apply (qseq_text_spec n); intros x Hx; now apply A).
  destruct (amicable_total n r Hn1) as (am & Ea); [intros x Hx; now apply A|].
  unfold find_write_place. rewrite Ej. cbn [bind]. 
  destruct Ht as [->|[->| ->]]; rewrite ?Ea; cbn [bind]; rewrite Eo; cbn [bind]; rewrite Eq; cbn [bind].
  - eexists r, out, _. split; [intros x Hx; now apply A|]. split; [exact Fo|]. split; [reflexivity|]. split; reflexivity.
  - destruct (extend_total n ord r Ho Hn Hr A) as (l & El & R). destruct (R fuel (1 :: p) Hf) as (r' & Er & A').
    destruct (seq_lines_spec n r') as (out' & Eo' & Fo'); [intros x Hx; now apply A'|].
    assert (Eq' : qseq_text r' = Some (stacked (map quad_text r'))) by (apply (qseq_text_spec n); intros x Hx; now apply A').
    rewrite El. cbn [bind]. rewrite Er. cbn [bind]. rewrite Eo'. cbn [bind]. rewrite Eq'. cbn [bind].
    eexists r, out, _. split; [intros x Hx; now apply A|]. split; [exact Fo|]. split; [reflexivity|]. split; [reflexivity|].
    exists r', out'. split; [intros x Hx; now apply A'|]. split; [exact Fo'|reflexivity].
  - eexists r, out, _. split; [intros x Hx; now apply A|]. split; [exact Fo|]. split; [reflexivity|]. split; reflexivity.
Qed.
Lemma join_none_nothing fuel ord p ls i t pl : join_pairs fuel ord (0 :: p) ls t (pl_dirs pl) = None ->
  find_write_place_x fuel ord p ls i t pl = (pl, false).
Proof. intros E. unfold find_write_place_x. now rewrite E. Qed.
Lemma no_match_join fuel ord p ls t f : searchable t -> match_pairs ls t f = Some [] -> join_pairs fuel ord p ls t f = None.
Proof. intros Ht E. rewrite join_pairs_eq by auto. rewrite E. reflexivity. Qed.
Theorem find_nothing n ls ord t pl pl' : 1 <= n <= 31 -> listing_ok ls -> ord_ok ord -> searchable t ->
  (forall name d, In (name, d) (pl_dirs pl) -> dir_len n d) ->
  forall fuel p, class_fuel n <= fuel -> find_write_place_x fuel ord p ls n t pl = (pl', false) -> pl' = pl.
Proof.
  intros Hn Hls Ho Ht Hd fuel p Hf E. destruct (match_pairs ls t (pl_dirs pl)) as [r0|] eqn:Em.
  - destruct (list_eq_dec quad_eq_dec r0 []) as [->|Hne].
    + rewrite join_none_nothing in E by (now apply no_match_join). now injection E as <-.
    + assert (Snd := match_sound n ls t (pl_dirs pl) r0 ltac:(lia) Hls Hd Em).
      destruct (join_writes n ls ord t pl r0 Hn Ho Ht Em Snd Hne fuel p Hf) as (r & out & pl1 & _ & _ & Ef & _).
      apply find_agree in Ef. rewrite E in Ef. discriminate.
  - rewrite join_none_nothing in E; [now injection E as <-|]. rewrite join_pairs_eq by auto. now rewrite Em.
Qed.
