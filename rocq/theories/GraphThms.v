(* Reduction of lists and files of Hadamard matrices by canonical labellings of their graphs. *)
From Coq Require Import List ZArith Lia Bool Arith Ascii Permutation FinFun Relations.
From Verif Require Import Base BaseFacts Sums Quat ModelSequence ModelWilliamson ModelEquivalence Spec SpecEquiv FindFacts OpFacts TypeFacts Convert CanonFacts NsFacts ReduceFacts WsFacts EquivFacts EquivThms ModelMatrices SpecMatrix MatFacts HmFacts SpecPrint PrintFacts
  ModelGraph SpecGraph GraphFacts.
Import ListNotations.
Open Scope nat_scope.

Lemma permutes_inv n f : permutes n f -> exists g, permutes n g /\ forall i, i < n -> g (f i) = i /\ f (g i) = i.
Proof.
  intros [Hf Hi].
  assert (bFun n f) as B by exact Hf. assert (bInjective n f) as I by exact Hi.
  apply (bInjective_bSurjective B) in I. destruct (bSurjective_bBijective B I) as (g & Bg & Hg).
  exists g. split; [split; [exact Bg|]|exact Hg].
  intros i j Hi' Hj E. rewrite <- (proj2 (Hg i Hi')), <- (proj2 (Hg j Hj)). now rewrite E.
Qed.
Lemma iso_refl g : isomorphic g g.
Proof. split; auto. exists (fun i => i). split; [split; auto|tauto]. Qed.
Lemma iso_sym g1 g2 : isomorphic g1 g2 -> isomorphic g2 g1.
Proof.
  intros [N (f & P & A)]. split; auto. destruct (permutes_inv _ f P) as (g & Pg & Hg). exists g. rewrite <- N. split; auto.
  intros u v Hu Hv. rewrite (A (g u) (g v)) by (apply Pg; auto). now rewrite (proj2 (Hg u Hu)), (proj2 (Hg v Hv)).
Qed.
Lemma iso_trans g1 g2 g3 : isomorphic g1 g2 -> isomorphic g2 g3 -> isomorphic g1 g3.
Proof.
  intros [N (f & [Bf If] & A)] [N' (f' & [Bf' If'] & A')]. split; [congruence|]. rewrite <- N in *. exists (fun i => f' (f i)). split; [split|].
  - intros i Hi. apply Bf'. now apply Bf.
  - intros i j Hi Hj E. apply If; auto.
  - intros u v Hu Hv. rewrite (A u v) by auto. apply A'; auto.
Qed.

Lemma hadamard_fun n m : hadamard n m -> m = tab n (cell 1%Z m) /\ pm_fun n (cell 1%Z m) /\ pairwise_independent n (cell 1%Z m).
Proof.
  intros [P O]. assert (m = tab n (cell 1%Z m)) as E by (apply square_tab, P). split; auto.
  assert (pm_fun n (cell 1%Z m)) as Pf by (intros i j Hi Hj; apply (pm_cell n m i j); auto). split; auto.
  assert (forall i j, i < n -> j < n -> i <> j -> sumZ n (fun k => cell 1%Z m i k * cell 1%Z m j k)%Z = 0%Z) as R.
  { intros i j Hi Hj Hne. specialize (O i j Hi Hj Hne). rewrite E, dot_tab in O by auto. exact O. }
  split; auto. intros. now apply columns_orthogonal.
Qed.
Lemma graph_of_hadamard n h : hm_size h = n -> pm_matrix n (hm_matrix h) ->
  graph_from_hm h = Some (mkGraph (4 * n) (hm_edges n (cell 1%Z (hm_matrix h)))).
Proof.
  destruct h as [n' m]. cbn [hm_size hm_matrix]. intros -> [Sq _]. rewrite <- graph_from_hm_tab. do 2 f_equal. now apply square_tab.
Qed.
Lemma graph_shape n h : hm_size h = n -> pm_matrix n (hm_matrix h) ->
  exists g, graph_from_hm h = Some g /\ g_nodes g = 4 * n /\ NoDup (g_edges g) /\
  forall u v, In (u, v) (g_edges g) <->
    (u = v /\ u < 2 * n) \/
    exists i j, i < n /\ j < n /\
      ((cell 1%Z (hm_matrix h) i j = 1%Z /\ ((u = i /\ v = 2 * n + j) \/ (u = n + i /\ v = 3 * n + j))) \/
       (cell 1%Z (hm_matrix h) i j = (-1)%Z /\ ((u = i /\ v = 3 * n + j) \/ (u = n + i /\ v = 2 * n + j)))).
Proof.
  intros Hs P. rewrite (graph_of_hadamard n h Hs P). eexists. split; [reflexivity|]. cbn [g_nodes g_edges]. split; auto. split; [apply hm_edges_nodup|].
  intros u v. rewrite in_hm_edges. apply or_iff_compat_l.
  split; intros (i & j & Hi & Hj & H); exists i, j; (split; [auto|]; split; [auto|]);
    destruct (pm_cell n _ i j P Hi Hj) as [Ec|Ec]; unfold c1 in Ec; unfold two_edges in *; rewrite Ec in *; cbn [Z.eqb Pos.eqb In] in *.
  - left. split; auto. destruct H as [[= <- <-]|[[= <- <-]|[]]]; auto.
  - right. split; auto. destruct H as [[= <- <-]|[[= <- <-]|[]]]; auto.
  - destruct H as [[_ [[-> ->]|[-> ->]]]|[K _]]; auto. discriminate.
  - destruct H as [[K _]|[_ [[-> ->]|[-> ->]]]]; auto. discriminate.
Qed.
Lemma graph_iso_iff n a b : hm_size a = n -> hm_size b = n -> hadamard n (hm_matrix a) -> hadamard n (hm_matrix b) ->
  exists ga gb, graph_from_hm a = Some ga /\ graph_from_hm b = Some gb /\
    (isomorphic ga gb <-> hadamard_equivalent n (hm_matrix a) (hm_matrix b)).
Proof.
  intros Sa Sb Ha Hb. rewrite (graph_of_hadamard n a Sa (proj1 Ha)), (graph_of_hadamard n b Sb (proj1 Hb)).
  eexists _, _. split; [reflexivity|]. split; [reflexivity|].
  destruct (hadamard_fun n _ Ha) as (Ea & Pa & Ia), (hadamard_fun n _ Hb) as (Eb & Pb & Ib).
  set (fa := cell 1%Z (hm_matrix a)) in *. set (fb := cell 1%Z (hm_matrix b)) in *. rewrite Ea, Eb. split; intros H.
  - apply iso_equiv; auto. now apply iso_sym.
  - apply iso_sym. now apply equiv_iso.
Qed.
(* an exact canonical labelling exists: label a graph by itself and compare by trying all bijections *)
Fixpoint all_maps (n k : nat) : list (list nat) :=
  match k with 0 => [[]] | S k => flat_map (fun l => map (fun x => x :: l) (seq 0 n)) (all_maps n k) end.
Lemma in_all_maps n k l : In l (all_maps n k) <-> length l = k /\ Forall (fun x => x < n) l.
Proof.
  revert l. induction k as [|k IH]; intros l; cbn [all_maps].
  - split; [intros [<-|[]]; auto|]. intros [L _]. destruct l; [cbn; auto|discriminate].
  - rewrite in_flat_map. split.
    + intros (l' & H & H'). apply in_map_iff in H' as (x & <- & Hx). apply in_seq in Hx. apply IH in H as [L F]. cbn. split; [lia|constructor; [lia|auto]].
    + intros [L F]. destruct l as [|x l]; [discriminate|]. inversion F; subst. exists l. split; [apply IH; cbn in L; auto|]. apply in_map_iff. exists x. split; auto. apply in_seq. lia.
Qed.
Definition adj_b (g : Graph) (u v : nat) : bool :=
  existsb (fun '(x, y) => ((x =? u) && (y =? v)) || ((x =? v) && (y =? u))) (g_edges g).
Lemma adj_b_spec g u v : adj_b g u v = true <-> adjacent g u v.
Proof.
  unfold adj_b, adjacent. rewrite existsb_exists. split.
  - intros ([x y] & H & E). apply orb_prop in E as [E|E]; apply andb_prop in E as [E1 E2]; apply Nat.eqb_eq in E1, E2; subst; auto.
  - intros [H|H]; [exists (u, v)|exists (v, u)]; (split; [auto|]); rewrite !Nat.eqb_refl; cbn; auto using orb_true_r.
Qed.
Definition iso_b (g1 g2 : Graph) : bool :=
  let n := g_nodes g1 in (n =? g_nodes g2) &&
  existsb (fun l => forallb (fun u => forallb (fun v => (negb (nth u l 0 =? nth v l 0) || (u =? v)) && Bool.eqb (adj_b g1 u v) (adj_b g2 (nth u l 0) (nth v l 0))) (seq 0 n)) (seq 0 n)) (all_maps n n).
Lemma iso_b_spec g1 g2 : iso_b g1 g2 = true <-> isomorphic g1 g2.
Proof.
  unfold iso_b, isomorphic. cbv zeta. rewrite andb_true_iff, Nat.eqb_eq, existsb_exists. set (n := g_nodes g1). apply and_iff_compat_l. split.
  - intros (l & Hl & H). apply in_all_maps in Hl as [L F]. rewrite forallb_forall in H.
    assert (forall u v, u < n -> v < n -> (nth u l 0 = nth v l 0 -> u = v) /\ (adjacent g1 u v <-> adjacent g2 (nth u l 0) (nth v l 0))) as K.
    { intros u v Hu Hv. specialize (H u ltac:(apply in_seq; lia)). rewrite forallb_forall in H. specialize (H v ltac:(apply in_seq; lia)).
      apply andb_prop in H as [H1 H2]. split.
      - intros E. rewrite E, Nat.eqb_refl in H1. cbn in H1. now apply Nat.eqb_eq.
      - apply eqb_prop in H2. rewrite <- !adj_b_spec, H2. tauto. }
    exists (fun u => nth u l 0). split; [split|].
    + intros i Hi. apply (proj1 (Forall_forall _ _) F). apply nth_In. lia.
    + intros i j Hi Hj. now apply K.
    + intros u v Hu Hv. now apply K.
  - intros (f & [B I] & A). exists (map f (seq 0 n)). split.
    + apply in_all_maps. rewrite map_length, seq_length. split; auto. apply Forall_forall. intros x Hx. apply in_map_iff in Hx as (i & <- & Hi). apply in_seq in Hi. apply B. lia.
    + apply forallb_forall. intros u Hu. apply forallb_forall. intros v Hv. apply in_seq in Hu, Hv. rewrite !nth_map_seq by lia.
      apply andb_true_iff. split.
      * destruct (Nat.eqb_spec (f u) (f v)) as [E|]; auto. apply I in E; [|lia|lia]. subst. now rewrite Nat.eqb_refl.
      * specialize (A u v ltac:(lia) ltac:(lia)). rewrite <- !adj_b_spec in A. apply eqb_true_iff.
        destruct (adj_b g1 u v), (adj_b g2 (f u) (f v)); intuition congruence.
Qed.
Lemma canonical_exists : canonical (fun g : Graph => g) iso_b.
Proof. intros g1 g2. apply iso_b_spec. Qed.

(* ---- reduction of a list ---- *)
Section Reduce.
Context {L : Type} (canon : Graph -> L) (same : L -> L -> bool) (Hc : canonical canon same) (n : nat).
Local Notation good := (hm_hadamard n).
Local Notation eqv := (hm_equivalent n).
Lemma canon_hm_some h : good h -> exists g, graph_from_hm h = Some g /\ canon_hm canon h = Some (canon g).
Proof. intros [Hs Hh]. unfold canon_hm. rewrite (graph_of_hadamard n h Hs (proj1 Hh)). eauto. Qed.
Lemma same_iff a b ka kb : good a -> good b -> canon_hm canon a = Some ka -> canon_hm canon b = Some kb -> (same ka kb = true <-> eqv a b).
Proof.
  intros [Sa Ha] [Sb Hb] Ea Eb. destruct (graph_iso_iff n a b Sa Sb Ha Hb) as (ga & gb & Ga & Gb & H).
  unfold canon_hm in Ea, Eb. rewrite Ga in Ea. rewrite Gb in Eb. cbn in Ea, Eb. injection Ea as <-. injection Eb as <-. rewrite <- H. apply Hc.
Qed.
Lemma eqv_refl a : good a -> eqv a a.
Proof. intros G. destruct (canon_hm_some a G) as (g & _ & E). apply (same_iff a a _ _ G G E E). apply Hc, iso_refl. Qed.
Lemma eqv_sym a b : good a -> good b -> eqv a b -> eqv b a.
Proof.
  intros Ga Gb H. destruct (canon_hm_some a Ga) as (g & _ & E), (canon_hm_some b Gb) as (g' & _ & E').
  apply (same_iff b a _ _ Gb Ga E' E). apply Hc, iso_sym, Hc. now apply (same_iff a b _ _ Ga Gb E E').
Qed.
Lemma eqv_trans a b c : good a -> good b -> good c -> eqv a b -> eqv b c -> eqv a c.
Proof.
  intros Ga Gb Gc H H'. destruct (canon_hm_some a Ga) as (g & _ & E), (canon_hm_some b Gb) as (g' & _ & E'), (canon_hm_some c Gc) as (g'' & _ & E'').
  apply (same_iff a c _ _ Ga Gc E E''). apply Hc. apply iso_trans with g'; apply Hc; [now apply (same_iff a b _ _ Ga Gb E E')|now apply (same_iff b c _ _ Gb Gc E' E'')].
Qed.
Lemma unique_by_spec mats : forall seen seenk, Forall good mats -> Forall good seen ->
  Forall2 (fun h k => canon_hm canon h = Some k) seen seenk ->
  exists r, unique_by (canon_hm canon) same seenk mats = Some r /\ incl r mats /\
  (forall m, In m mats -> exists k, In k (seen ++ r) /\ eqv m k) /\
  (forall m k, In m r -> In k seen -> ~ eqv m k) /\
  (forall i j d, i < length r -> j < length r -> eqv (nth i r d) (nth j r d) -> i = j).
Proof.
  induction mats as [|h mats IH]; intros seen seenk Gm Gs F; cbn [unique_by].
  - exists []. split; auto. split; [easy|]. split; [easy|]. split; [easy|]. cbn; lia.
  - inversion Gm as [|? ? Gh Gm']; subst. destruct (canon_hm_some h Gh) as (g & _ & E). rewrite E. cbn [bind].
    assert (existsb (same (canon g)) seenk = true <-> exists k, In k seen /\ eqv h k) as X.
    { rewrite existsb_exists. clear IH Gm Gm'. split.
      - intros (k & Hk & Sk). induction F as [|x y seen seenk Exy F IH]; [easy|]. inversion Gs; subst. destruct Hk as [<-|Hk].
        + exists x. split; [cbn; auto|]. now apply (same_iff h x _ _ Gh H1 E Exy).
        + destruct IH as (k' & ? & ?); auto. exists k'. cbn; auto.
      - intros (k & Hk & Ek). induction F as [|x y seen seenk Exy F IH]; [easy|]. inversion Gs; subst. destruct Hk as [<-|Hk].
        + exists y. split; [cbn; auto|]. now apply (same_iff h x _ _ Gh H1 E Exy).
        + destruct IH as (k' & ? & ?); auto. exists k'. cbn; auto. }
    destruct (existsb (same (canon g)) seenk).
    + destruct (IH seen seenk Gm' Gs F) as (r & Er & I & C & S & U). exists r. split; auto. split; [now apply incl_tl|]. split; [|auto].
      intros m [<-|Hm]; [|auto]. destruct (proj1 X eq_refl) as (k & Hk & Ek). exists k. split; auto. apply in_or_app; auto.
    + destruct (IH (h :: seen) (canon g :: seenk) Gm' ltac:(constructor; auto) ltac:(constructor; auto)) as (r & -> & I & C & S & U).
      cbn [bind]. exists (h :: r). split; auto. split; [apply incl_cons; [cbn; auto|now apply incl_tl]|].
      assert (Forall good r) as Gr by (apply Forall_forall; intros x Hx; apply (proj1 (Forall_forall _ _) Gm'), I, Hx).
      split; [|split].
      * intros m [<-|Hm]; [exists h; split; [apply in_or_app; cbn; auto|now apply eqv_refl]|].
        destruct (C m Hm) as (k & Hk & Ek). exists k. split; auto. cbn in Hk. rewrite in_app_iff in *. cbn. tauto.
      * intros m k [<-|Hm] Hk Ek; [|apply (S m k); cbn; auto]. assert (false = true) by (apply X; eauto). discriminate.
      * intros i j d Hi Hj Eij. cbn in Hi, Hj. destruct i as [|i], j as [|j]; auto.
        -- exfalso. cbn [nth] in Eij. apply (S (nth j r d) h); [apply nth_In; lia|cbn; auto|]. apply eqv_sym; auto. apply (proj1 (Forall_forall _ _) Gr). apply nth_In. lia.
        -- exfalso. cbn [nth] in Eij. apply (S (nth i r d) h); [apply nth_In; lia|cbn; auto|]. auto.
        -- f_equal. apply (U i j d); auto; lia.
Qed.
Lemma reduce_spec mats : Forall good mats ->
  exists r, reduce_to_hadamard_equivalence canon same mats = Some r /\ one_per_class n mats r.
Proof.
  intros G. destruct (unique_by_spec mats [] [] G ltac:(constructor) ltac:(constructor)) as (r & E & I & C & _ & U).
  exists r. split; auto. split; auto.
Qed.

(* ---- HashMap of representatives ---- *)
Definition map_ok (m : list (L * HM)) : Prop :=
  Forall (fun '(k, v) => good v /\ exists k', canon_hm canon v = Some k' /\ forall h kh, good h -> canon_hm canon h = Some kh -> (same k kh = true <-> eqv v h)) m.
Lemma map_insert_spec h k m : good h -> canon_hm canon h = Some k -> map_ok m ->
  (forall i j d, i < length m -> j < length m -> eqv (snd (nth i m d)) (snd (nth j m d)) -> i = j) ->
  let m' := map_insert same k h m in
  map_ok m' /\ (forall i j d, i < length m' -> j < length m' -> eqv (snd (nth i m' d)) (snd (nth j m' d)) -> i = j) /\
  incl (map snd m') (h :: map snd m) /\ In h (map snd m') /\
  (forall v, In v (map snd m) -> In v (map snd m') \/ eqv v h).
Proof.
  intros Gh Ek. induction m as [|[k' v'] m IH]; intros Ok U; cbn [map_insert]; cbv zeta.
  - split; [|split; [|split; [|split]]].
    + constructor; [|constructor]. split; auto. exists k. split; auto. intros h' kh Gh' E'. now apply same_iff.
    + cbn. intros. lia.
    + intros x Hx. exact Hx.
    + cbn; auto.
    + easy.
  - inversion Ok as [|? ? Hx Ok']; subst. cbv beta iota in Hx. destruct Hx as [Gv (k0 & Ev & Hk)].
    assert (forall i j d, i < length m -> j < length m -> eqv (snd (nth i m d)) (snd (nth j m d)) -> i = j) as U'.
    { intros i j d Hi Hj E. assert (S i = S j) as E' by (apply (U (S i) (S j) d); cbn; auto; lia). lia. }
    destruct (same k' k) eqn:Es.
    + assert (eqv v' h) as Evh by (now apply (Hk h k Gh Ek)). split; [|split; [|split; [|split]]].
      * constructor; auto. split; auto. exists k. split; auto. intros h' kh Gh' E'. rewrite (Hk h' kh Gh' E'). split; intros H.
        -- apply eqv_trans with v'; auto. apply eqv_sym; auto.
        -- apply eqv_trans with h; auto.
      * assert (forall j d, j < length m -> good (snd (nth j m d))) as Gn.
        { intros j d Hj. assert (In (nth j m d) m) as Hin by now apply nth_In. apply (proj1 (Forall_forall _ _) Ok') in Hin. destruct (nth j m d). apply Hin. }
        intros i j d Hi Hj E. cbn in Hi, Hj. destruct i as [|i], j as [|j]; auto; cbn [nth snd] in E.
        -- exfalso. assert (0 = S j) as E' by (apply (U 0 (S j) d); cbn; [lia|lia|]; apply eqv_trans with h; auto; apply Gn; lia). discriminate.
        -- exfalso. assert (S i = 0) as E' by (apply (U (S i) 0 d); cbn; [lia|lia|]; apply eqv_trans with h; auto; [apply Gn; lia|apply eqv_sym; auto]). discriminate.
        -- f_equal. apply (U' i j d); auto; lia.
      * intros x Hx. cbn in *. tauto.
      * cbn; auto.
      * intros v [<-|Hv]; [right; auto|left; cbn; auto].
    + assert (~ eqv v' h) as Nvh by (intros K; apply (Hk h k Gh Ek) in K; congruence).
      destruct (IH Ok' U') as (Ok2 & U2 & I2 & In2 & C2). split; [|split; [|split; [|split]]].
      * constructor; auto. split; auto. exists k0. auto.
      * set (m2 := map_insert same k h m) in *.
        assert (forall j d, j < length m2 -> good (snd (nth j m2 d))) as Gn.
        { intros j d Hj. assert (In (nth j m2 d) m2) as Hin by now apply nth_In. apply (proj1 (Forall_forall _ _) Ok2) in Hin. destruct (nth j m2 d). apply Hin. }
        assert (forall j d, j < length m2 -> ~ eqv v' (snd (nth j m2 d))) as Nn.
        { intros j d Hj K. assert (In (snd (nth j m2 d)) (map snd m2)) as Hin by (apply in_map; now apply nth_In).
          apply I2 in Hin as [Hin|Hin]; [rewrite <- Hin in K; auto|]. apply in_map_iff in Hin as (x & Ex & Hx).
          apply (In_nth m x d) in Hx as (q & Hq & Eq). rewrite <- Ex, <- Eq in K. assert (0 = S q) as E' by (apply (U 0 (S q) d); cbn; auto; lia). discriminate. }
        intros i j d Hi Hj E. cbn in Hi, Hj. destruct i as [|i], j as [|j]; auto; cbn [nth snd] in E.
        -- exfalso. apply (Nn j d); auto. lia.
        -- exfalso. apply (Nn i d); [lia|]. apply eqv_sym; auto. apply Gn. lia.
        -- f_equal. apply (U2 i j d); auto; lia.
      * intros x [Hx|Hx]; [cbn; auto|]. apply I2 in Hx as [Hx|Hx]; cbn; auto.
      * cbn; auto.
      * intros v [<-|Hv]; [left; cbn; auto|]. destruct (C2 v Hv); [left; cbn; auto|auto].
Qed.
Lemma collect_spec pairs : Forall (fun '(k, v) => good v /\ canon_hm canon v = Some k) pairs ->
  forall m, map_ok m -> (forall i j d, i < length m -> j < length m -> eqv (snd (nth i m d)) (snd (nth j m d)) -> i = j) ->
  let m' := fold_left (fun m '(k, v) => map_insert same k v m) pairs m in
  map_ok m' /\ (forall i j d, i < length m' -> j < length m' -> eqv (snd (nth i m' d)) (snd (nth j m' d)) -> i = j) /\
  incl (map snd m') (map snd pairs ++ map snd m) /\
  (forall v, In v (map snd pairs ++ map snd m) -> exists k, In k (map snd m') /\ eqv v k).
Proof.
  induction pairs as [|[k h] pairs IH]; intros F m Ok U; cbn [fold_left map]; cbv zeta.
  - split; auto. split; auto. split; [apply incl_refl|]. intros v Hv. exists v. split; auto. apply eqv_refl.
    cbn in Hv. apply in_map_iff in Hv as (x & <- & Hx). apply (proj1 (Forall_forall _ _) Ok) in Hx. destruct x. apply Hx.
  - inversion F as [|? ? Hx F']; subst. cbv beta iota in Hx. destruct Hx as [Gh Ek].
    destruct (map_insert_spec h k m Gh Ek Ok U) as (Ok2 & U2 & I2 & In2 & C2). set (m2 := map_insert same k h m) in *.
    destruct (IH F' m2 Ok2 U2) as (Ok3 & U3 & I3 & C3). split; auto. split; auto. cbn [snd]. split.
    + intros x Hx. apply I3 in Hx. apply in_app_iff in Hx as [Hx|Hx]; [right; apply in_or_app; auto|].
      apply I2 in Hx as [Hx|Hx]; [left; auto|right; apply in_or_app; auto].
    + assert (forall x, In x (map snd m2) -> good x) as G2.
      { intros x Hx. apply in_map_iff in Hx as (y & <- & Hy). apply (proj1 (Forall_forall _ _) Ok2) in Hy. destruct y. apply Hy. }
      assert (forall x, In x (map snd m) -> good x) as G1.
      { intros x Hx. apply in_map_iff in Hx as (y & <- & Hy). apply (proj1 (Forall_forall _ _) Ok) in Hy. destruct y. apply Hy. }
      assert (forall x, In x (map snd (fold_left (fun m '(k, v) => map_insert same k v m) pairs m2)) -> good x) as G3.
      { intros x Hx. apply in_map_iff in Hx as (y & <- & Hy). apply (proj1 (Forall_forall _ _) Ok3) in Hy. destruct y. apply Hy. }
      intros v [<-|Hv]; [apply C3; apply in_or_app; auto|]. apply in_app_iff in Hv as [Hv|Hv]; [apply C3; apply in_or_app; auto|].
      destruct (C2 v Hv) as [H|H]; [apply C3; apply in_or_app; auto|].
      destruct (C3 h) as (k' & Hk' & E'); [apply in_or_app; auto|]. exists k'. split; auto. apply eqv_trans with h; auto.
Qed.
End Reduce.

Lemma Some_inj' {A} (x y : A) : Some x = Some y -> x = y. Proof. now intros [= ->]. Qed.
Lemma perm_one_per_class n mats r r' : Permutation r r' -> one_per_class n mats r -> one_per_class n mats r'.
Proof.
  intros P (I & C & U). split; [|split].
  - intros x Hx. apply I. eapply Permutation_in; [apply Permutation_sym|]; eauto.
  - intros m Hm. destruct (C m Hm) as (k & Hk & E). exists k. split; auto. eapply Permutation_in; eauto.
  - intros i j d Hi Hj E. pose proof (Permutation_length P) as PL.
    apply (Permutation_nth r r' d) in P as (_ & f & Bf & If & Hf). rewrite !Hf in E by lia.
    apply If; try lia. apply (U _ _ d); auto; apply Bf; lia.
Qed.
Lemma from_file_spec {L} (canon : Graph -> L) same ord n quads lines t :
  canonical canon same -> (forall l, Permutation (ord l) l) -> 1 <= n ->
  Forall (pm_quad n) quads -> Forall (fun q => verify q t = Some true) quads ->
  Forall2 (fun q line => exists s, to_qs q = Some s /\ QS_to_string_raw s = Some line) quads lines ->
  exists mats equ,
    Forall2 (fun q h => HM_from_williamson q QuaternionType = Some h) quads mats /\ Forall (hm_hadamard (4 * n)) mats /\
    hadamard_equivalence_from_file canon same ord lines t =
      Some (length equ, concat (map (fun h => magma_text (hm_matrix h) ++ [newline]) equ)) /\
    one_per_class (4 * n) mats equ.
Proof.
  intros Hc Ho Hn Pq Vq F.
  (* parsing *)
  assert (exists seqs, traverse QS_from_str lines = Some seqs /\ traverse from_pqs seqs = Some quads) as (seqs & E1 & E2).
  { clear Vq. induction F as [|q line quads lines (s & Es & El) F IH]; [exists []; auto|]. inversion Pq; subst.
    destruct IH as (seqs & E1 & E2); auto.
    destruct (from_pqs_to_qs n q H1) as (s' & Es' & Ep). rewrite Es in Es'. injection Es' as <-.
    assert (exists s2, QS_from_str line = Some s2 /\ from_pqs s2 = Some q) as (s2 & E3 & E4); [|exists (s2 :: seqs); cbn [traverse]; rewrite E3, E4; cbn [bind]; rewrite E1, E2; auto].
    destruct (from_str_to_string s) as (txt & Et & Er).
    { rewrite (to_qs_spec n q H1) in Es. apply Some_inj' in Es; subst s. cbn [qs_values]. intros p Hp. apply in_map_iff in Hp as (i & <- & Hi).
      destruct QPLUS_ok as (_ & Hi24 & _). apply Hi24, quad_quat_QPLUS. apply in_seq in Hi. apply (quad_at_pm n); auto. lia. }
    rewrite El in Et. injection Et as <-. exists (mkQS (length (qs_values s)) (qs_values s) None). split; auto.
    rewrite (to_qs_spec n q H1) in Es. apply Some_inj' in Es; subst s. cbn [qs_values]. rewrite map_length, seq_length. exact Ep. }
  assert (forall q, pm_quad n q -> verify q t = Some true -> exists h, HM_from_williamson q QuaternionType = Some h /\ hm_hadamard (4 * n) h) as W.
  { intros q Hq Vq'. destruct (from_williamson_hadamard n q t Hq Hn Vq') as (h & E & Hs & Hh & _). exists h. split; auto. split; auto. }
  assert (exists pairs, traverse (fun q => let* hmat := HM_from_williamson q QuaternionType in let* c := canon_hm canon hmat in Some (c, hmat)) quads = Some pairs /\
    Forall (fun '(k, v) => hm_hadamard (4 * n) v /\ canon_hm canon v = Some k) pairs /\
    Forall2 (fun q h => HM_from_williamson q QuaternionType = Some h) quads (map snd pairs)) as (pairs & E3 & F3 & F4).
  { clear F E2. induction quads as [|q quads IH]; [exists []; repeat split; constructor|]. inversion Pq; subst. inversion Vq; subst.
    destruct IH as (pairs & E3 & F3 & F4); auto. destruct (W q H1 H3) as (h & Eh & Gh). destruct (canon_hm_some canon (4 * n) h Gh) as (g & _ & Ec).
    exists ((canon g, h) :: pairs). cbn [traverse]. rewrite Eh. cbn [bind]. rewrite Ec. cbn [bind]. rewrite E3. split; auto. split; constructor; auto. }
  destruct (collect_spec canon same Hc (4 * n) pairs F3 [] ltac:(constructor) ltac:(cbn; intros; lia)) as (Ok & U & I & C).
  set (m := fold_left (fun m '(k, v) => map_insert same k v m) pairs []) in *.
  exists (map snd pairs), (ord (map snd m)). split; auto. split.
  { apply Forall_forall. intros h Hh. apply in_map_iff in Hh as ([k v] & <- & Hx). apply (proj1 (Forall_forall _ _) F3) in Hx. apply Hx. }
  assert (one_per_class (4 * n) (map snd pairs) (map snd m)) as O.
  { cbn [map] in I, C. rewrite app_nil_r in I, C. split; auto. split; auto. intros i j d Hi Hj E. rewrite map_length in Hi, Hj.
    set (d' := nth 0 m (hd (canon graph_new, d) m)).
    assert (forall i, i < length m -> nth i (map snd m) d = snd (nth i m (canon graph_new, d))) as Nn by (intros; now rewrite <- (map_nth snd)).
    rewrite !Nn in E by auto. eapply U; eauto. }
  split; [|eapply perm_one_per_class; [apply Permutation_sym, Ho|exact O]].
  unfold hadamard_equivalence_from_file. rewrite E1. cbn [bind]. rewrite E2. cbn [bind].
  rewrite (all_m_forallb _ (fun _ => true)).
  2:{ intros q Hq. apply (proj1 (Forall_forall _ _) Vq). auto. }
  rewrite (proj2 (forallb_forall _ _)) by auto. cbn [bind guard]. rewrite E3. cbn [bind]. fold m.
  assert (Forall (hm_hadamard (4 * n)) (ord (map snd m))) as Gm.
  { apply Forall_forall. intros h Hh. apply (Permutation_in _ (Ho _)) in Hh. apply in_map_iff in Hh as ([k v] & <- & Hx). apply (proj1 (Forall_forall _ _) Ok) in Hx. apply Hx. }
  generalize dependent (ord (map snd m)). intros equ Ge.
  assert (forall s, fold_m (fun s mat => let* t0 := HM_to_string_magma mat in Some (s ++ t0 ++ [newline_char])) equ s =
     Some (s ++ concat (map (fun h => magma_text (hm_matrix h) ++ [newline]) equ))) as P.
  { induction Ge as [|h equ [Hs Hh] Ge IH]; intros s; cbn [fold_m map concat]; [now rewrite app_nil_r|].
    destruct h as [sz mm]. cbn [hm_size hm_matrix] in *. subst sz. rewrite (HM_to_string_magma_spec (4 * n)) by (apply Hh || lia). cbn [bind].
    rewrite IH. now rewrite <- !app_assoc. }
  rewrite P. reflexivity.
Qed.

(* ---- reduce_to_ns_equivalence ---- *)
Lemma reduce_to_ns_spec ord p n l : ord_ok ord -> 1 <= n -> Forall (pm_quad n) l ->
  exists r, reduce_to_ns_equivalence ord p l = Some r /\ NoDup r /\
    (forall c, In c r -> exists q, In q l /\ least (reach [NegateSwap] q) c) /\
    (forall q, In q l -> exists c, In c r /\ reach [NegateSwap] q c) /\
    (forall c d, In c r -> In d r -> reach [NegateSwap] c d -> c = d).
Proof.
  intros Ho Hn F. unfold reduce_to_ns_equivalence.
  assert (exists cs, traverse ns_canonical l = Some cs) as (cs & E).
  { induction F as [|q l Hq F IH]; [exists []; auto|]. destruct IH as (cs & E). destruct (ns_spec n q Hq Hn) as (c & Ec & _).
    exists (c :: cs). cbn [traverse]. rewrite Ec, E. reflexivity. }
  rewrite E. cbn [bind]. eexists. split; [reflexivity|].
  assert (forall c, In c (ord p (insert_all cs [])) <-> In c cs) as Hin.
  { intros c. rewrite ord_in, insert_all_in by auto. cbn. tauto. }
  split; [|split; [|split]].
  - eapply Permutation_NoDup; [apply Permutation_sym, Ho|]. apply insert_all_nodup. constructor.
  - intros c Hc. apply Hin in Hc. destruct (traverse_in_some _ _ _ E c Hc) as (q & Hq & Ec).
    exists q. split; auto. destruct (ns_spec n q (proj1 (Forall_forall _ _) F q Hq) Hn) as (c' & Ec' & Lc). congruence.
  - intros q Hq. destruct (traverse_some_in _ _ _ E q Hq) as (c & Ec & Hc). exists c. split; [now apply Hin|].
    destruct (ns_spec n q (proj1 (Forall_forall _ _) F q Hq) Hn) as (c' & Ec' & Lc). assert (c = c') as -> by congruence. apply Lc.
  - intros c d Hc Hd R. apply Hin in Hc, Hd. destruct (traverse_in_some _ _ _ E c Hc) as (q & Hq & Ec), (traverse_in_some _ _ _ E d Hd) as (q' & Hq' & Ed).
    pose proof (proj1 (Forall_forall _ _) F q Hq) as Pq. pose proof (proj1 (Forall_forall _ _) F q' Hq') as Pq'.
    destruct (ns_spec n q Pq Hn) as (c' & Ec' & Lc & _). assert (c' = c) by congruence. subst c'.
    destruct (ns_spec n q' Pq' Hn) as (d' & Ed' & Ld & _). assert (d' = d) by congruence. subst d'.
    assert (ns_canonical q = ns_canonical q') as K; [|congruence]. apply (ns_complete n); auto.
    apply rt_trans with c; [exact Lc|]. apply rt_trans with d; [exact R|]. apply (reach_sym n); [now apply pm_i8|exact Ld].
Qed.
