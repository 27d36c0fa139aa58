(* The search with files of pairs that have lost lines. *)
From Coq Require Import Ascii String List ZArith Bool Arith Lia Permutation Relations.
From Verif Require Import Base BaseFacts Sums Quat ModelSequence ModelWilliamson ModelEquivalence SpecEquiv OpFacts EquivFacts TypeFacts
  OrderFacts EquivThms CanonFacts ReduceFacts WsFacts QtWt Convert ModelMatrices SpecMatrix SpecPrint MatFacts QhmFacts PrintFacts HmFacts ModelGraph SpecGraph GraphThms HadEquiv
  ModelRowsum SpecRowsum RowsumFacts ModelMatching ModelWrite TextFacts JoinFacts WriteFacts FolderFacts SearchThms ExtendFacts FindQuadFacts DriverFacts ModelMain SpecMain MainFacts ArgFacts MainThms RepSymm SeqFacts DriverMain
  ModelLog LogFolder LogJoin ModelScripts DirFacts SpecFiles SingleFacts SpecSearch SpecSplit SplitFacts SplitThms ModelJobs SpecJobs JobsFacts JobsThms JobsResults SpecKilled KilledFacts KilledThms KilledSilent ClassSums
  SolverFacts SpecPrinted PrintedFacts SpecMixed SpecThinned ThinFacts Spec.
Import ListNotations.
Open Scope nat_scope.
Notation length := List.length.

Lemma pairs_tags pr : SpecMixed.pairs_of pr Both = [tags1 (Some pr); tags2 (Some pr)]. Proof. now destruct pr. Qed.

Section Thin.
Context (t : SequenceType) (m : MatchOption) (n : nat) (pr : RowsumPairing).
Hypothesis Ht : searchable t.
Hypothesis Hn : 1 <= n.
Let p := Some pr.

Definition lines_there (d : Dir) (q : QuadSeq) : Prop := forall pair, In pair (SpecMixed.pairs_of pr Both) -> has_line d pair q.

(* an entry that has lost lines *)
Definition thin_of (rs : Quad) (e : text * Dir) : Prop :=
  exists L W G1 G2, is_list t n rs L /\ (forall tg, file_to_sequences (W tg) = Some (L tg)) /\ incl G1 (left_lines t m n p L) /\ incl G2 (right_lines t m n p L) /\
    e = (rowsum_dir rs, FolderFacts.dir_of p W G1 G2).

Lemma thin_entry rs e e' : entry_of t m n p rs e -> fst e' = fst e -> fewer_lines (snd e) (snd e') -> thin_of rs e'.
Proof.
  intros (L & W & HL & HW & ->) E F. cbn [fst snd] in *. apply fewer_dir in F as (G1 & G2 & Ed & I1 & I2).
  exists L, W, G1, G2. destruct e' as [k d]. cbn [fst snd] in *. subst. auto.
Qed.

Lemma thin_match rs e ls : listing_ok ls -> thin_of rs e ->
  exists r, entry_result t ls (fst e, sort_dir (snd e)) = Some r /\ forall q, In q r <-> valid t n rs q /\ lines_there (snd e) q.
Proof.
  intros (_ & Ls & Lp) (L & W & G1 & G2 & HL & HW & I1 & I2 & ->). unfold entry_result. cbn [fst snd]. rewrite sort_dir_of.
  rewrite (read_sequences p W L _ _ _ HW (Ls _ _)). cbn [bind].
  assert (X : forall r, (forall q, In q r <-> valid t n rs q /\ lined L (fst (tags1 p)) (snd (tags1 p)) G1 q /\ lined L (fst (tags2 p)) (snd (tags2 p)) G2 q) ->
    forall q, In q r <-> valid t n rs q /\ lines_there (FolderFacts.dir_of p W G1 G2) q).
  { intros r Hr q. rewrite Hr. destruct (in_dir p W G1 G2) as (D1 & D2 & D3). unfold lines_there. rewrite pairs_tags.
    split; intros (V & H); (split; [exact V|]); assert (Pq := proj1 V).
    - destruct H as [H1 H2]. apply (lined_text t m n rs _ _ L W _ _ G1 q HL HW Pq I1) in H1. apply (lined_text t m n rs _ _ L W _ _ G2 q HL HW Pq I2) in H2.
      destruct H1 as (k1 & i1 & j1 & si1 & sj1 & H1). destruct H2 as (k2 & i2 & j2 & si2 & sj2 & H2).
      intros pair [<-|[<-|[]]].
      + exists (W (fst (tags1 p))), (W (snd (tags1 p))), G1, k1, i1, j1, si1, sj1. rewrite !D1. split; auto. split; auto. split; [now apply D2|exact H1].
      + exists (W (fst (tags2 p))), (W (snd (tags2 p))), G2, k2, i2, j2, si2, sj2. rewrite !D1. split; auto. split; auto. split; [now apply D3|exact H2].
    - split.
      + apply (lined_text t m n rs _ _ L W _ _ G1 q HL HW Pq I1). destruct (H _ (or_introl eq_refl)) as (la & lb & lines & k & i & j & si & sj & A & B & C & R).
        apply D1 in A. apply D1 in B. apply D2 in C. subst. exists k, i, j, si, sj. exact R.
      + apply (lined_text t m n rs _ _ L W _ _ G2 q HL HW Pq I2). destruct (H _ (or_intror (or_introl eq_refl))) as (la & lb & lines & k & i & j & si & sj & A & B & C & R).
        apply D1 in A. apply D1 in B. apply D3 in C. subst. exists k, i, j, si, sj. exact R. }
  destruct (thin_pairing t m n rs L p G1 G2 Ht Hn HL I1 I2) as [(r & E & G) (r' & E' & G')].
  destruct (read_order p W G1 G2 _ (Lp (rowsum_dir rs) _)) as [O|O].
  - exists r. split; [|now apply X]. refine (eq_trans (f_equal (fun o => let* (files, order) := o in _) O) _). exact E.
  - exists r'. split; [|now apply X]. refine (eq_trans (f_equal (fun o => let* (files, order) := o in _) O) _). exact E'.
Qed.

Lemma thin_forall rss f f' : Forall2 (entry_of t m n p) rss f -> thinned f f' -> Forall2 thin_of rss f'.
Proof.
  intros F. revert f'. induction F as [|rs e rss f He F IH]; intros f' T; inversion T as [|? e' ? f2 [E Fe] T']; subst; constructor.
  - now apply (thin_entry rs e).
  - now apply IH.
Qed.

Lemma thin_folder rss f ls : listing_ok ls -> Forall2 thin_of rss f ->
  exists r, match_pairs ls t (sortpairs f) = Some r /\ forall q, In q r <-> In (totals q) rss /\ pm_quad n q /\ is_type t q /\ both_lines f pr q.
Proof.
  intros Hls F.
  assert (Fr : forall e0, In e0 f -> exists rs, In rs rss /\ thin_of rs e0).
  { clear -F. induction F as [|rs e0 rss f H _ IH]; intros e [].
    - subst. exists rs. split; auto. now left.
    - destruct (IH e) as (r & A & B); auto. exists r. split; auto. now right. }
  assert (Nm : forall rs e0, thin_of rs e0 -> fst e0 = rowsum_dir rs) by (intros rs e0 (? & ? & ? & ? & _ & _ & _ & _ & ->); reflexivity).
  destruct (match_entries t ls (fun e q => exists e0 rs, In e0 f /\ In rs rss /\ thin_of rs e0 /\ e = (fst e0, sort_dir (snd e0)) /\ valid t n rs q /\ lines_there (snd e0) q)
     (sortpairs f) Hls) as (r & E & H).
  - intros e I. unfold sortpairs in I. apply in_map_iff in I as ([k d] & <- & I). destruct (Fr _ I) as (rs & Ir & T).
    destruct (thin_match rs (k, d) ls Hls T) as (r & E & H). exists r. split; [exact E|]. intros q. split.
    + intros Iq. apply H in Iq as [V Lq]. exists (k, d), rs. auto 6.
    + intros ([k' d'] & rs' & I' & Ir' & T' & X & V & Lq). cbn [fst snd] in X. destruct (thin_match rs' (k', d') ls Hls T') as (r' & E' & H').
      cbn [fst snd] in E, E'. rewrite <- X in E'. rewrite E in E'. injection E' as <-. now apply H'.
  - exists r. split; auto. intros q. rewrite H. split.
    + intros (e & _ & e0 & rs & I & Ir & T & _ & (Pq & Tq & <-) & Lq). split; auto. split; auto. split; auto.
      exists (fst e0), (snd e0). rewrite (Nm _ _ T) at 1. split; [apply dir_sums|]. split; [now destruct e0|exact Lq].
    + intros (Ir & Pq & Tq & name & d & Sd & I & Lq). apply sums_dir_unique in Sd. subst name.
      destruct (Fr _ I) as (rs & Ir' & T). assert (X := Nm _ _ T). cbn [fst] in X. apply rowsum_dir_inj in X. subst rs.
      exists (rowsum_dir (totals q), sort_dir d). split; [unfold sortpairs; apply in_map_iff; exists (rowsum_dir (totals q), d); auto|].
      exists (rowsum_dir (totals q), d), (totals q). split; auto. split; auto. split; auto. split; auto. split; auto. split; auto.
Qed.
End Thin.

(* the matching part of the search *)
Theorem thinned_matches n t m pr ls : 1 <= n -> (Z.of_nat n < 2 ^ 62)%Z -> three_types t -> any_listing ls ->
  exists fuel0, forall fuel, fuel0 <= fuel -> exists f c, write_pairs fuel n t m (Some pr) [] = Some (f, c) /\
    forall f', thinned f f' -> exists r, match_pairs ls t (sortpairs f') = Some r /\
      forall q, In q r <-> pm_quad n q /\ is_type t q /\ normal_rowsums t (totals q) /\ both_lines f' pr q.
Proof.
  intros Hn Hn2 Ht Hls. destruct (generate_rowsums_spec n t) as (f0 & H). exists f0. intros fuel Hf.
  destruct (H fuel Hf) as (rss & E & Nd & Hin).
  destruct (write_folder t m n (Some pr) rss [] 0%Z Ht Hn Hn2) as (f & c & Ew & F2); auto.
  { apply Forall_forall. intros r Hr. apply Hin in Hr. apply Hr. }
  exists f, c. split; [unfold write_pairs; rewrite E; exact Ew|]. intros f' T.
  destruct (thin_folder t m n pr Ht Hn rss f' ls Hls (thin_forall t m n pr rss f f' F2 T)) as (r & Er & R).
  exists r. split; auto. intros q. rewrite R, Hin. split; [tauto|]. intros (Pq & Tq & Nq & B). split; auto. split; auto.
  apply complementary_rowsums; auto. now apply (type_WT n q t).
Qed.
(* nothing is lost as long as no line is *)
Theorem all_lines n t m pr : 1 <= n -> (Z.of_nat n < 2 ^ 62)%Z -> three_types t ->
  exists fuel0, forall fuel, fuel0 <= fuel -> exists f c, write_pairs fuel n t m (Some pr) [] = Some (f, c) /\
    forall q, pm_quad n q -> is_type t q -> normal_rowsums t (totals q) -> both_lines f pr q.
Proof.
  intros Hn Hn2 Ht. set (ls := mkListing (fun f => f) (fun _ d => d) (fun _ d => d)). assert (Hls : any_listing ls) by (repeat split; intros; apply Permutation_refl).
  destruct (thinned_matches n t m pr ls Hn Hn2 Ht Hls) as (f1 & H1). destruct (search_spec n t m (Some pr) ls Hn Hn2 Ht Hls) as (f2 & H2).
  exists (Nat.max f1 f2). intros fuel Hf. destruct (H1 fuel ltac:(lia)) as (f & c & E & T). destruct (H2 fuel ltac:(lia)) as (f' & c' & r & E' & Em & _ & C).
  rewrite E in E'. injection E' as <- <-. exists f, c. split; auto. intros q P Ty N.
  destruct (T f) as (r' & Em' & R).
  { unfold thinned. clear. induction f as [|x f IH]; constructor; auto. split; auto. unfold fewer_lines. induction (snd x); constructor; auto. }
  rewrite Em in Em'. injection Em' as <-. apply R. now apply C.
Qed.
(* the join command *)
Theorem thinned_join n t m pr ls ord : 1 <= n <= 31 -> t = QuaternionType \/ t = WilliamsonType -> any_listing ls -> ord_ok ord ->
  exists fuel0, forall fuel, fuel0 <= fuel -> exists f c, write_pairs fuel n t m (Some pr) [] = Some (f, c) /\
    forall f' path, thinned f f' -> let left q := pm_quad n q /\ is_type t q /\ normal_rowsums t (totals q) /\ both_lines f' pr q in
      ((exists q, left q) -> exists r, join_pairs fuel ord path ls t (sortpairs f') = Some r /\ one_per_class_of left t r) /\
      ((forall q, ~ left q) -> join_pairs fuel ord path ls t (sortpairs f') = None).
Proof.
  intros Hn Ht Hls Ho. assert (Ht' : searchable t) by (unfold searchable; tauto).
  destruct (thinned_matches n t m pr ls ltac:(lia) ltac:(lia) Ht' Hls) as (f1 & H1). exists (Nat.max f1 (class_fuel n)). intros fuel Hf.
  destruct (H1 fuel ltac:(lia)) as (f & c & E & T). exists f, c. split; auto. intros f' path Th. cbv zeta. destruct (T f' Th) as (r0 & Em & R). split.
  - intros (z & Z). destruct (join_of n ls ord t (sortpairs f') r0 Hn Ho Ht Em) with (fuel := fuel) (path := path) as (r & Ej & Nd & A & B); [| |lia|].
    { intros q Hq. apply R in Hq. tauto. }
    { intros ->. apply R in Z. exact Z. }
    exists r. split; auto. split; auto. split.
    + intros x Hx. destruct (A x Hx) as (_ & _ & Lx & q & Iq & Rq). split; auto. exists q. split; auto. now apply R.
    + intros q Hq. apply B. now apply R.
  - intros N. rewrite join_pairs_eq by auto. rewrite Em. cbn [bind]. destruct r0 as [|x r0]; [|exfalso; apply (N x), R; now left].
    reflexivity.
Qed.

(* the remaining scripts *)
Section Result.
Context {L : Type} (e : Env L) (n : nat) (y : list ascii) (m : MatchOption) (pr : RowsumPairing).
Hypothesis Hy : canonical_numeral y n.
Hypothesis Hn : 1 <= n <= 31.
Hypothesis He : env_ok e.
Lemma thin_sorted t rss f : Forall2 (thin_of t m n pr) rss f -> map (fun '(name, d) => (name, sort_dir_sh d)) f = sortpairs f.
Proof.
  intros F. unfold sortpairs. apply map_ext_in. intros [name d] I. f_equal. unfold sort_dir_sh.
  replace (existsb _ d) with true; auto. symmetry. apply existsb_exists.
  assert (X : exists rs, thin_of t m n pr rs (name, d)).
  { clear -F I. induction F as [|rs e0 rss f H _ IH]; [contradiction|]. destruct I as [->|I]; eauto. }
  destruct X as (rs & K & W & G1 & G2 & _ & _ & _ & _ & E). injection E as _ ->.
  destruct pr; (eexists; split; [do 4 right; left; reflexivity|reflexivity]).
Qed.
Theorem thinned_QT : exists fuel0, forall fuel, fuel0 <= fuel -> exists f c, write_pairs fuel n QuaternionType m (Some pr) [] = Some (f, c) /\
  forall f' w, thinned f f' -> let left q := pm_quad n q /\ is_QT q /\ normal_rowsums QuaternionType (totals q) /\ both_lines f' pr q in
  (exists q, left q) -> exists w' pl res,
    remaining fuel e (type_word QuaternionType) y false (write w (type_word QuaternionType) y (set_dirs (place_of w (type_word QuaternionType) y) f')) = w' /\
    only w w' (type_word QuaternionType) y /\ w' (type_word QuaternionType) y = Some pl /\
    one_per_class_of left QuaternionType res /\ lists_quads (pl_seq pl) (pl_qseq pl) res /\ lists_qhms n (pl_qhm pl) res.
Proof.
  assert (He' := He). destruct He' as (Ho & Hl & _). assert (Ht : searchable QuaternionType) by (left; reflexivity). assert (Hn1 := proj1 Hn). assert (Hn2 : (Z.of_nat n < 2 ^ 62)%Z) by lia.
  destruct (generate_rowsums_spec n QuaternionType) as (f0 & H). exists (Nat.max f0 (class_fuel n)). intros fuel Hf.
  destruct (H fuel ltac:(lia)) as (rss & E & Nd & Hin).
  destruct (write_folder QuaternionType m n (Some pr) rss [] 0%Z Ht Hn1 Hn2) as (f & c & Ew & F2); auto.
  { apply Forall_forall. intros r Hr. apply Hin in Hr. apply Hr. }
  exists f, c. split; [unfold write_pairs; rewrite E; exact Ew|]. intros f' w T. cbv zeta. intros (z & Z).
  assert (F3 := thin_forall QuaternionType m n pr rss f f' F2 T).
  destruct (thin_folder QuaternionType m n pr Ht Hn1 rss f' (e_ls e) Hl F3) as (r0 & Em & R).
  assert (I : forall q, In q r0 <-> pm_quad n q /\ is_QT q /\ normal_rowsums QuaternionType (totals q) /\ both_lines f' pr q).
  { intros q. rewrite R, Hin. cbn [is_type]. split; [tauto|]. intros (Pq & Tq & Nq & B). split; auto. split; auto.
    apply complementary_rowsums; auto. now apply (type_WT n q QuaternionType). }
  assert (Es := thin_sorted QuaternionType rss f' F3).
  set (w1 := write w (type_word QuaternionType) y (set_dirs (place_of w (type_word QuaternionType) y) f')).
  set (pl := set_dirs (place_of w (type_word QuaternionType) y) (sortpairs f')).
  assert (Ws : sort_sh (type_word QuaternionType) y w1 (type_word QuaternionType) y = Some pl).
  { unfold sort_sh, w1. rewrite write_same. cbn [set_dirs pl_dirs]. rewrite Es. apply write_same. }
  assert (O : only w (sort_sh (type_word QuaternionType) y w1) (type_word QuaternionType) y).
  { unfold sort_sh, w1. rewrite write_same. eapply only_trans; [apply write_only|apply write_only]. }
  destruct (join_of n (e_ls e) (e_ord e) QuaternionType (pl_dirs pl) r0 Hn Ho (or_introl eq_refl) Em) with (fuel := fuel) (path := 0 :: e_path e) as (res & Ej & Nd' & A1 & B1); [| |lia|].
  { intros q Hq. apply I in Hq as (? & ? & _). auto. }
  { intros ->. apply I in Z. exact Z. }
  destruct (last_QT e n y Hn He Hy fuel false _ pl res Ws Ej) as (pl' & equ & O' & W' & LQ & LH & X); auto; try discriminate.
  { intros q Hq. destruct (A1 q Hq) as (? & ? & _). auto. }
  eexists _, pl', res. split; [reflexivity|]. split; [eapply only_trans; [exact O|exact O']|].
  split; [exact W'|]. split; auto. split; auto. split.
  - intros q Hq. destruct (A1 q Hq) as (Px & Tx & Lx & q0 & Iq & Rq). split; auto. exists q0. split; [now apply I|exact Rq].
  - intros q Hq. apply B1. now apply I.
Qed.
End Result.
