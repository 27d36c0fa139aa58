(* The whole search: representatives of all classes. *)
From Coq Require Import Ascii String List ZArith Lia Arith Bool Reals Permutation Relations.
From Verif Require Import Base BaseFacts Sums ModelSequence ModelWilliamson ModelEquivalence SpecEquiv OpFacts EquivFacts TypeFacts
  OrderFacts FastFacts EquivThms CanonFacts NsFacts ReduceFacts WsFacts ModelMatching ModelRowsum SeqFacts SpecRowsum RowsumFacts
  ModelWrite TextFacts JoinFacts WriteFacts DirFacts FolderFacts Spec.
Import ListNotations.
Notation length := List.length.
Open Scope nat_scope.

Definition canonical (t : SequenceType) (q : QuadSeq) : option QuadSeq :=
  match t with QuaternionType => ns_canonical q | _ => sn_ss_canonical q end.

Lemma canonical_reach n t q : searchable t -> 1 <= n -> pm_quad n q -> exists c, canonical t q = Some c /\ reach (type_ops t) q c.
Proof.
  intros Ht Hn Hq. destruct Ht as [->|Ht].
  - destruct (ns_spec n q Hq Hn) as (c & E & R & _). exists c. split; auto.
    apply (reach_incl [NegateSwap]); auto. intros o [<-|[]]. cbn. tauto.
  - destruct (sn_ss_spec n q Hq Hn) as (c & E & R & _). exists c. split; [now destruct Ht as [->| ->]|].
    apply (reach_incl [Negate; Reorder]); auto. destruct Ht as [->| ->]; intros o [<-|[<-|[]]]; cbn; tauto.
Qed.

(* the list handed to the reduction *)
Lemma canonical_list n t r : searchable t -> 1 <= n -> (forall q, In q r -> pm_quad n q) ->
  exists l, traverse (canonical t) r = Some l /\
    (forall q, In q r -> exists c, In c l /\ reach (type_ops t) q c) /\
    (forall c, In c l -> exists q, In q r /\ reach (type_ops t) q c).
Proof.
  intros Ht Hn. induction r as [|q r IH]; intros H.
  - exists []. repeat split; intros ? [].
  - destruct IH as (l & E & A & B); [intros; apply H; now right|].
    destruct (canonical_reach n t q Ht Hn (H q ltac:(now left))) as (c & Ec & Rc).
    exists (c :: l). cbn [traverse]. rewrite Ec. cbn [bind]. rewrite E. split; [reflexivity|]. split.
    + intros x [<-|Hx]; [exists c; split; auto; now left|]. destruct (A x Hx) as (c' & I & R). exists c'. split; auto. now right.
    + intros x [<-|Hx]; [exists q; split; auto; now left|]. destruct (B x Hx) as (q' & I & R). exists q'. split; auto. now right.
Qed.

Lemma join_pairs_eq fuel ord p ls t f : searchable t ->
  join_pairs fuel ord p ls t f =
  let* result := match_pairs ls t f in let* l := traverse (canonical t) result in reduce_to_canonical_reps fuel ord p (unique l) t.
Proof.
  intros Ht. unfold join_pairs. destruct (match_pairs ls t f); cbn [bind]; auto.
  destruct Ht as [->|[->| ->]]; unfold canonical.
  - now destruct (traverse _ _).
  - now destruct (traverse _ _).
  - now destruct (traverse _ _).
Qed.

(* what is known before the reduction *)
Lemma search_list n t m p ls : 1 <= n -> (Z.of_nat n < 2 ^ 62)%Z -> searchable t -> listing_ok ls ->
  exists fuel0 f c l, (forall fuel, fuel0 <= fuel -> write_pairs fuel n t m p [] = Some (f, c)) /\
    (forall fuel ord path, join_pairs fuel ord path ls t (sortpairs f) = reduce_to_canonical_reps fuel ord path (unique l) t) /\
    (forall x, In x l -> pm_quad n x /\ is_type t x) /\
    (forall q, pm_quad n q -> is_type t q -> exists x, In x l /\ reach (type_ops t) q x).
Proof.
  intros Hn Hn2 Ht Hls. destruct (search_spec n t m p ls Hn Hn2 Ht Hls) as (f0 & H).
  destruct (H f0 (le_n _)) as (f & c & r & Ew & Em & Snd & Cmp).
  destruct (canonical_list n t r Ht Hn) as (l & El & A & B). { intros q Hq. now apply Snd. }
  exists f0, f, c, l. split; [|split; [|split]].
  - intros fuel Hf. unfold write_pairs in *. apply bind_some in Ew as (rss & Er & Ew).
    rewrite (generate_rowsums_mono _ fuel _ _ _ Hf Er). exact Ew.
  - intros. rewrite join_pairs_eq by auto. rewrite Em. cbn [bind]. rewrite El. reflexivity.
  - intros x Hxl. destruct (B x Hxl) as (q & Hq & R). destruct (Snd q Hq) as (Pq & Tq & _).
    now apply (reach_type n t q).
  - intros q Pq Tq. destruct (normal_reach n t q Hn Pq Tq) as (y & R & Py & Ty & Ny).
    destruct (A y (Cmp y Py Ty Ny)) as (x & Hxl & R'). exists x. split; auto. now apply rt_trans with y.
Qed.

Lemma unique_nonempty l : l <> [] -> unique l <> [].
Proof.
  intros H E. destruct l as [|x l]; [congruence|]. assert (I : In x (unique (x :: l))) by (apply unique_spec; now left).
  rewrite E in I. exact I.
Qed.

(* no quadruple of the type: the reduction is called on an empty list *)
Theorem search_none n t m p ls : 1 <= n -> (Z.of_nat n < 2 ^ 62)%Z -> searchable t -> listing_ok ls ->
  (forall q, pm_quad n q -> verify q t <> Some true) ->
  exists fuel0, forall fuel ord path, fuel0 <= fuel -> exists f c, write_pairs fuel n t m p [] = Some (f, c) /\
    join_pairs fuel ord path ls t (sortpairs f) = None.
Proof.
  intros Hn Hn2 Ht Hls No. destruct (search_list n t m p ls Hn Hn2 Ht Hls) as (f0 & f & c & l & Ew & Ej & S & _).
  exists f0. intros fuel ord path Hf. exists f, c. split; auto. rewrite Ej. destruct l as [|x l]; [reflexivity|].
  destruct (S x ltac:(now left)) as [Px Tx]. exfalso. apply (No x Px). now apply (verify_type n).
Qed.

Theorem search_classes n t m p ls ord : 1 <= n <= 31 -> t = QuaternionType \/ t = WilliamsonType -> listing_ok ls -> ord_ok ord ->
  (exists q, pm_quad n q /\ verify q t = Some true) ->
  exists fuel0, forall fuel path, fuel0 <= fuel -> exists f c r, write_pairs fuel n t m p [] = Some (f, c) /\
    join_pairs fuel ord path ls t (sortpairs f) = Some r /\ NoDup r /\
    (forall x, In x r -> pm_quad n x /\ verify x t = Some true /\ least (reach (type_ops t) x) x) /\
    (forall q, pm_quad n q -> verify q t = Some true ->
       exists x, In x r /\ reach (type_ops t) q x /\ forall x', In x' r -> reach (type_ops t) q x' -> x' = x).
Proof.
  intros Hn Ht Hls Ho (q0 & P0 & V0).
  assert (Ht' : searchable t) by (unfold searchable; tauto).
  destruct (search_list n t m p ls ltac:(lia) ltac:(lia) Ht' Hls) as (f0 & f & c & l & Ew & Ej & S & C).
  destruct (reduce_complete n ord (unique l) t Ho Ht Hn) as (f1 & R).
  - apply unique_nonempty. destruct (C q0) as (x & I & _); auto; [apply (verify_type n); auto; lia|]. intros ->. exact I.
  - apply Forall_forall. intros x Hxl. apply (proj1 (proj2 (unique_spec l) _)) in Hxl. destruct (S x Hxl) as [A B]. split; auto.
    apply (verify_type n); auto; lia.
  - exists (max f0 f1). intros fuel path Hf. destruct (R fuel path ltac:(lia)) as (r & Er & Nd & A & B & D).
    exists f, c, r. split; [apply Ew; lia|]. split; [now rewrite Ej|]. split; auto. split.
    + intros x Hxr. destruct (A x Hxr) as (Px & Vx & _). split; auto.
    + intros q Pq Vq. destruct (C q Pq) as (x & I & Rx); [apply (verify_type n); auto; lia|].
      destruct (B x) as (y & Iy & Ry & U); [now apply unique_spec|].
      exists y. split; auto. split; [now apply rt_trans with x|]. intros x' I' R'. apply U; auto.
      apply rt_trans with q; auto. apply (reach_sym n); auto. now apply pm_i8.
Qed.

Theorem search_classes_W n m p ls ord : 1 <= n <= 31 -> listing_ok ls -> ord_ok ord ->
  (exists q, pm_quad n q /\ verify q Williamson = Some true) ->
  exists fuel0, forall fuel path, fuel0 <= fuel -> exists f c r, write_pairs fuel n Williamson m p [] = Some (f, c) /\
    join_pairs fuel ord path ls Williamson (sortpairs f) = Some r /\ NoDup r /\
    (forall x, In x r -> exists q, pm_quad n q /\ verify q Williamson = Some true /\ least (reach (type_ops WilliamsonType) q) x) /\
    (forall q, pm_quad n q -> verify q Williamson = Some true ->
       exists x, In x r /\ reach (type_ops WilliamsonType) q x /\
         (forall x', In x' r -> reach (type_ops WilliamsonType) q x' -> x' = x) /\
         forall q', pm_quad n q' -> verify q' Williamson = Some true ->
           (reach (type_ops Williamson) q q' <-> reach (type_ops WilliamsonType) q' x)).
Proof.
  intros Hn Hls Ho (q0 & P0 & V0).
  assert (Ht' : searchable Williamson) by (unfold searchable; tauto).
  assert (Hn1 : 1 <= n) by lia.
  assert (VT : forall q, pm_quad n q -> (verify q Williamson = Some true <-> is_type Williamson q)) by (intros; now apply (verify_type n)).
  assert (WWT : forall x y, reach (type_ops Williamson) x y -> reach (type_ops WilliamsonType) x y).
  { intros x y. apply reach_incl. intros o Hin. cbn in *. tauto. }
  destruct (search_list n Williamson m p ls ltac:(lia) ltac:(lia) Ht' Hls) as (f0 & f & c & l & Ew & Ej & S & C).
  destruct (reduce_W n ord (unique l) Ho Hn) as (rep & Rep & LL & f1 & R).
  - apply unique_nonempty. destruct (C q0) as (x & I & _); auto; [now apply VT|]. intros ->. exact I.
  - apply Forall_forall. intros x Hxl. apply (proj1 (proj2 (unique_spec l) _)) in Hxl. destruct (S x Hxl) as [A B]. split; auto. now apply VT.
  - assert (RR : forall x, In x (unique l) -> reach (type_ops WilliamsonType) x (rep x)) by (intros x Hxl; now apply LL).
    exists (max f0 f1). intros fuel path Hf. destruct (R fuel path ltac:(lia)) as (r & Er & Nd & A).
    exists f, c, r. split; [apply Ew; lia|]. split; [now rewrite Ej|]. split; auto. split.
    + intros x Hxr. apply A in Hxr as (y & Iy & ->). exists y. assert (Iy' := Iy). apply (proj1 (proj2 (unique_spec l) _)) in Iy'. destruct (S y Iy').
      split; auto. split; [now apply VT|]. now apply LL.
    + intros q Pq Vq. destruct (C q Pq) as (x & I & Rx); [now apply VT|]. destruct (S x I) as [Px Tx].
      apply (proj2 (proj2 (unique_spec l) _)) in I. exists (rep x). split; [apply A; eauto|]. split; [apply rt_trans with x; [now apply WWT|now apply RR]|].
      assert (Tq : is_type Williamson q) by now apply VT. split.
      * intros x' I' R'. apply A in I' as (y & Iy & ->). assert (Iy' := Iy). apply (proj1 (proj2 (unique_spec l) _)) in Iy'. destruct (S y Iy') as [Py Ty].
        apply Rep; auto. apply (W_reach n); auto. apply rt_trans with (rep y); [now apply RR|].
        apply rt_trans with q; [|now apply WWT]. apply (reach_sym n); auto. now apply pm_i8.
      * intros q' Pq' Vq'. assert (Tq' : is_type Williamson q') by now apply VT. split; intros H.
        -- apply rt_trans with q; [apply (reach_sym n); [now apply pm_i8|now apply WWT]|].
           apply rt_trans with x; [now apply WWT|now apply RR].
        -- apply (W_reach n); auto. apply rt_trans with x; [now apply WWT|]. apply rt_trans with (rep x); [now apply RR|].
           apply (reach_sym n); auto. now apply pm_i8.
Qed.
