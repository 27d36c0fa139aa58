(* Property theorems C30-C34, C65 and C66: joining the files of pairs and the search as a whole. *)
From Coq Require Import Ascii String List ZArith Lia Arith Bool Reals Permutation Relations.
From Verif Require Import Base BaseFacts Sums Quat ModelSequence ModelWilliamson ModelEquivalence SpecEquiv EquivFacts ModelFourier
  ModelMatching ModelRowsum ModelWrite TextFacts WriteFacts SpecSearch SearchThms ExtendFacts DriverFacts SameResult PropSequences PropEquivalence PropMatching Spec.
Import ListNotations.
Notation length := List.length.
Open Scope nat_scope.

(* C30: the order names the tags of the two columns of indices of the two files *)
Theorem C30_join_exact : forall t n a b c d (L : Tag -> list (list Z)) l12 l34, three_types t -> 1 <= n -> NoDup [a; b; c; d] ->
  (forall tg s, In s (L tg) -> length s = n /\ pm1 s) ->
  text_sorted l12 -> text_sorted l34 -> lines_within l12 (L a) (L b) -> lines_within l34 (L c) (L d) ->
  exists r, join_pairs_files l12 l34 t (a, b, c, d) (L TW, L TX, L TY, L TZ) = Some r /\
    (forall q, In q r -> pm_quad n q /\ is_type t q /\
       exists x y k i1 i2 i3 i4, In x l12 /\ In y l34 /\
         get_line_from x = Some (k, (i1, i2)) /\ get_line_from y = Some (k, (i3, i4)) /\
         nth_error (L a) i1 = Some (sequence q a) /\ nth_error (L b) i2 = Some (sequence q b) /\
         nth_error (L c) i3 = Some (sequence q c) /\ nth_error (L d) i4 = Some (sequence q d)) /\
    (forall q, pm_quad n q -> is_type t q -> forall x y k i1 i2 i3 i4, In x l12 -> In y l34 ->
         get_line_from x = Some (k, (i1, i2)) -> get_line_from y = Some (k, (i3, i4)) ->
         nth_error (L a) i1 = Some (sequence q a) -> nth_error (L b) i2 = Some (sequence q b) ->
         nth_error (L c) i3 = Some (sequence q c) -> nth_error (L d) i4 = Some (sequence q d) ->
         (forall z k' ij, In z (l12 ++ l34) -> get_line_from z = Some (k', ij) -> k' = k \/ ~ text_prefix k k' /\ ~ text_prefix k' k) ->
         In q r).
Proof. exact join_exact. Qed.
Print Assumptions C30_join_exact.
Theorem C30_sort_sorts : forall l, text_sorted (sort_lines l) /\ Permutation (sort_lines l) l.
Proof. intros l. exact (conj (proj1 (sorted_text _) (sort_lines_sorted l)) (sort_lines_perm l)). Qed.
Print Assumptions C30_sort_sorts.

Definition ex_left : Lines := sort_lines [lit "4_:_0_1"; lit "-4_:_0_0"; lit "-4_:_0_2"].
Definition ex_right : Lines := sort_lines [lit "4_:_2_2"; lit "-4_:_2_2"; lit "-4_:_1_0"; lit "0_:_1_0"].
Example C30_instance : (forall tg s, In s (L3 tg) -> length s = 3 /\ pm1 s) /\
  text_sorted ex_left /\ text_sorted ex_right /\ lines_within ex_left (L3 TW) (L3 TX) /\ lines_within ex_right (L3 TY) (L3 TZ) /\
  join_pairs_files ex_left ex_right QuaternionType (TW, TX, TY, TZ) (L3 TW, L3 TX, L3 TY, L3 TZ) = Some [w3].
Proof.
  split.
  { intros [] s; cbn; intros Hs; (split; [intuition subst; reflexivity|]); intuition subst;
      apply Forall_forall; cbn; intros x Hx; intuition lia. }
  split; [apply C30_sort_sorts|]. split; [apply C30_sort_sorts|]. split; [|split].
  - intros line Hl. vm_compute in Hl. repeat (destruct Hl as [<-|Hl]; [eexists _, _, _; split; [vm_compute; reflexivity|cbn; lia]|]). contradiction.
  - intros line Hl. vm_compute in Hl. repeat (destruct Hl as [<-|Hl]; [eexists _, _, _; split; [vm_compute; reflexivity|cbn; lia]|]). contradiction.
  - vm_compute. reflexivity.
Qed.

(* C31: with a key that is a proper prefix of another, a match is skipped *)
Theorem C31_merge_misses_match : forall t, three_types t ->
  pm_quad 3 lost /\ is_type t lost /\ text_sorted lost_left /\ text_sorted lost_right /\
  lines_within lost_left (lost_lists TW) (lost_lists TX) /\ lines_within lost_right (lost_lists TY) (lost_lists TZ) /\
  (exists x y k, In x lost_left /\ In y lost_right /\
     get_line_from x = Some (k, (0, 0)) /\ get_line_from y = Some (k, (0, 0)) /\
     forall tg, nth_error (lost_lists tg) 0 = Some (sequence lost tg)) /\
  join_pairs_files lost_left lost_right t (TW, TX, TY, TZ) (lost_lists TW, lost_lists TX, lost_lists TY, lost_lists TZ) = Some [].
Proof. exact merge_misses. Qed.
Print Assumptions C31_merge_misses_match.
Example C31_instance : lost_left = [lit "12_:_0_0"; lit "1_:_0_0"] /\ lost_right = [lit "1_:_0_0"] /\
  sort_lines [lit "1_:_0_0"; lit "12_:_0_0"] = lost_left.
Proof. repeat split. Qed.

(* C32 *)
Theorem C32_matches_are_valid : forall n ls t f r, 1 <= n -> any_listing ls ->
  (forall name d, In (name, d) f -> dir_len n d) -> match_pairs ls t f = Some r ->
  forall q, In q r -> pm_quad n q /\ is_type t q.
Proof. exact match_sound. Qed.
Print Assumptions C32_matches_are_valid.
Theorem C32_join_any_folder : forall n ls ord t f r0, 1 <= n <= 31 -> any_listing ls -> ord_ok ord ->
  t = QuaternionType \/ t = WilliamsonType ->
  (forall name d, In (name, d) f -> dir_len n d) -> match_pairs ls t f = Some r0 -> r0 <> [] ->
  exists fuel0, forall fuel path, fuel0 <= fuel -> exists r, join_pairs fuel ord path ls t f = Some r /\ NoDup r /\
    (forall x, In x r -> pm_quad n x /\ is_type t x /\ least (reach (type_ops t) x) x /\ exists q, In q r0 /\ reach (type_ops t) q x) /\
    (forall q, In q r0 -> exists x, In x r /\ reach (type_ops t) q x /\ forall x', In x' r -> reach (type_ops t) q x' -> x' = x).
Proof. exact join_any. Qed.
Print Assumptions C32_join_any_folder.

Definition ls_id : Listing := mkListing (fun f => f) (fun _ d => d) (fun _ d => d).
Definition ls_rev : Listing := mkListing (fun f => rev f) (fun _ d => rev d) (fun _ d => rev d).
Lemma ls_id_ok : any_listing ls_id. Proof. repeat split; intros; apply Permutation_refl. Qed.
Lemma ls_rev_ok : any_listing ls_rev. Proof. repeat split; intros; apply Permutation_sym, Permutation_rev. Qed.
(* a directory with lines that match by accident and one that does not belong there *)
Definition ex_dir : Dir :=
  [(lit "seq_W.seq", [lit "---"; lit "+--"]); (lit "seq_X.seq", [lit "-++"]); (lit "notes.txt", [lit "x"]);
   (lit "seq_Y.seq", [lit "-++"]); (lit "seq_Z.seq", [lit "-++"; lit "++-"]);
   (lit "pair_WX.pair.sorted", [lit "7_:_0_0"; lit "7_:_1_0"]); (lit "pair_YZ.pair.sorted", [lit "7_:_0_0"; lit "7_:_0_1"])].
Example C32_instance : dir_len 3 ex_dir /\
  match_pairs ls_rev WilliamsonType [(lit "rowsum", ex_dir)] = Some [w3] /\
  match_pairs ls_id QuaternionType [(lit "rowsum", ex_dir)] = Some [w3].
Proof.
  split.
  { intros name lines Hin. cbn in Hin. repeat (destruct Hin as [E|Hin];
      [injection E as <- <-; intros En line Hl; try discriminate En; repeat (destruct Hl as [<-|Hl]; [reflexivity|]); contradiction|]). contradiction. }
  split; vm_compute; reflexivity.
Qed.

(* C33 *)
Theorem C33_matches_exhaustive : forall n t m p ls, 1 <= n -> (Z.of_nat n < 2 ^ 62)%Z -> three_types t -> any_listing ls ->
  exists fuel0, forall fuel, fuel0 <= fuel -> exists f c r,
    write_pairs fuel n t m p [] = Some (f, c) /\ match_pairs ls t (sortpairs f) = Some r /\
    (forall q, In q r -> pm_quad n q /\ is_type t q) /\
    (forall q, pm_quad n q -> is_type t q -> exists x, In x r /\ reach (type_ops t) q x).
Proof. exact search_exhaustive. Qed.
Print Assumptions C33_matches_exhaustive.
Theorem C33_one_per_class : forall n t m p ls ord, 1 <= n <= 31 -> t = QuaternionType \/ t = WilliamsonType -> any_listing ls -> ord_ok ord ->
  (exists q, pm_quad n q /\ verify q t = Some true) ->
  exists fuel0, forall fuel path, fuel0 <= fuel -> exists f c r, write_pairs fuel n t m p [] = Some (f, c) /\
    join_pairs fuel ord path ls t (sortpairs f) = Some r /\ NoDup r /\
    (forall x, In x r -> pm_quad n x /\ verify x t = Some true /\ least (reach (type_ops t) x) x) /\
    (forall q, pm_quad n q -> verify q t = Some true ->
       exists x, In x r /\ reach (type_ops t) q x /\ forall x', In x' r -> reach (type_ops t) q x' -> x' = x).
Proof. exact search_classes. Qed.
Print Assumptions C33_one_per_class.
Theorem C33_one_per_class_W : forall n m p ls ord, 1 <= n <= 31 -> any_listing ls -> ord_ok ord ->
  (exists q, pm_quad n q /\ verify q Williamson = Some true) ->
  exists fuel0, forall fuel path, fuel0 <= fuel -> exists f c r, write_pairs fuel n Williamson m p [] = Some (f, c) /\
    join_pairs fuel ord path ls Williamson (sortpairs f) = Some r /\ NoDup r /\
    (forall x, In x r -> exists q, pm_quad n q /\ verify q Williamson = Some true /\ least (reach (type_ops WilliamsonType) q) x) /\
    (forall q, pm_quad n q -> verify q Williamson = Some true ->
       exists x, In x r /\ reach (type_ops WilliamsonType) q x /\
         (forall x', In x' r -> reach (type_ops WilliamsonType) q x' -> x' = x) /\
         forall q', pm_quad n q' -> verify q' Williamson = Some true ->
           (reach (type_ops Williamson) q q' <-> reach (type_ops WilliamsonType) q' x)).
Proof. exact search_classes_W. Qed.
Print Assumptions C33_one_per_class_W.
Example C33_instance : any_listing ls_rev /\ ord_ok ord_mix /\
  (forall t, three_types t -> exists q, pm_quad 3 q /\ verify q t = Some true).
Proof.
  split; [exact ls_rev_ok|]. split; [exact ord_mix_ok|]. intros t Ht. exists w3. split; [exact w3_pm|].
  destruct Ht as [->|[->| ->]]; vm_compute; reflexivity.
Qed.

(* C34 *)
Theorem C34_extension_exhaustive : forall n ord l, ord_ok ord -> 1 <= n <= 31 -> l <> [] ->
  Forall (fun x => pm_quad n x /\ verify x WilliamsonType = Some true) l ->
  (forall q, pm_quad n q -> verify q WilliamsonType = Some true -> exists x, In x l /\ reach (type_ops WilliamsonType) q x) ->
  exists l' fuel0, extend_wts n l = Some l' /\ forall fuel path, fuel0 <= fuel -> exists r,
    reduce_to_canonical_reps fuel ord path l' QuaternionType = Some r /\ NoDup r /\
    (forall x, In x r -> pm_quad n x /\ verify x QuaternionType = Some true /\ least (reach (type_ops QuaternionType) x) x) /\
    (forall q, pm_quad n q -> verify q QuaternionType = Some true ->
       exists x, In x r /\ reach (type_ops QuaternionType) q x /\
         forall x', In x' r -> reach (type_ops QuaternionType) q x' -> x' = x).
Proof. exact wts_to_qts. Qed.
Print Assumptions C34_extension_exhaustive.
(* an even length, where the half-shifts are added *)
Definition v2 : QuadSeq := (mkQuad 2 [1;-1] [1;1] [1;-1] [1;1])%Z.
Example C34_instance : pm_quad 2 v2 /\ verify v2 WilliamsonType = Some true /\
  extend_wts 2 [v2] = Some [v2; mkQuad 2 [-1;1] [1;1] [1;-1] [1;1]; mkQuad 2 [-1;1] [1;1] [1;-1] [1;1]; v2]%Z /\
  extend_wts 3 [w3] = Some [w3; mkQuad 3 [1;1;1] [-1;1;1] [-1;1;1] [-1;1;1]]%Z.
Proof. split; [pm_tac|]. repeat split; vm_compute; reflexivity. Qed.

(* C65: writing, sorting and joining in an empty folder: the lines of result.seq and result-qts.seq *)
Theorem C65_driver_QT : forall n m p ls ord, 1 <= n <= 31 -> any_listing ls -> ord_ok ord ->
  (exists q, pm_quad n q /\ is_QT q) ->
  exists fuel0, forall fuel path, fuel0 <= fuel -> exists r out,
    driver fuel ord path ls QuaternionType n m p = Some (out, None) /\
    one_per_class n QuaternionType r /\ Forall2 line_of_quad r out.
Proof. exact driver_QT. Qed.
Print Assumptions C65_driver_QT.
Theorem C65_driver_WT : forall n m p ls ord, 1 <= n <= 31 -> any_listing ls -> ord_ok ord ->
  (exists q, pm_quad n q /\ is_WT q) ->
  exists fuel0, forall fuel path, fuel0 <= fuel -> exists r out r' out',
    driver fuel ord path ls WilliamsonType n m p = Some (out, Some out') /\
    one_per_class n WilliamsonType r /\ Forall2 line_of_quad r out /\
    one_per_class n QuaternionType r' /\ Forall2 line_of_quad r' out'.
Proof. exact driver_WT. Qed.
Print Assumptions C65_driver_WT.
Theorem C65_driver_W : forall n m p ls ord, 1 <= n <= 31 -> any_listing ls -> ord_ok ord ->
  (exists q, pm_quad n q /\ is_W q) ->
  exists fuel0, forall fuel path, fuel0 <= fuel -> exists r out,
    driver fuel ord path ls Williamson n m p = Some (out, None) /\
    one_per_class_W n r /\ Forall2 line_of_quad r out.
Proof. exact driver_W. Qed.
Print Assumptions C65_driver_W.
Example C65_instance : any_listing ls_rev /\ ord_ok ord_mix /\ pm_quad 3 w3 /\ is_QT w3 /\ is_WT w3 /\ is_W w3.
Proof.
  destruct C28_instance as (A & B & C & P & T & _).
  split; [exact ls_rev_ok|]. split; [exact ord_mix_ok|]. split; [exact P|]. split; [exact (T _ A)|]. split; [exact (T _ B)|exact (T _ C)].
Qed.

(* C66: a search without matches ends in a panic *)
Theorem C66_no_match_panics : forall fuel ord p ls i t f, three_types t -> match_pairs ls t f = Some [] ->
  join_pairs fuel ord p ls t f = None /\ find_write_quad_seq fuel ord p ls i t f = None.
Proof. exact no_match_panics. Qed.
Print Assumptions C66_no_match_panics.
Theorem C66_no_solution_panics : forall n t m p ls, 1 <= n -> (Z.of_nat n < 2 ^ 62)%Z -> three_types t -> any_listing ls ->
  (forall q, pm_quad n q -> ~ is_type t q) ->
  exists fuel0, forall fuel ord path, fuel0 <= fuel -> driver fuel ord path ls t n m p = None.
Proof. exact driver_none. Qed.
Print Assumptions C66_no_solution_panics.
Definition ex_dir_none : Dir :=
  [(lit "seq_W.seq", [lit "+--"]); (lit "seq_X.seq", [lit "-++"]); (lit "seq_Y.seq", [lit "-++"]); (lit "seq_Z.seq", [lit "++-"]);
   (lit "pair_WX.pair.sorted", [lit "7_:_0_0"]); (lit "pair_YZ.pair.sorted", [lit "7_:_0_0"])].
Example C66_instance : match_pairs ls_id WilliamsonType [(lit "rowsum", ex_dir_none)] = Some [] /\
  match_pairs ls_rev QuaternionType [] = Some [].
Proof. split; vm_compute; reflexivity. Qed.

(* C68: the lines of the result files depend neither on the match option, nor on the pairing, nor on
   the orders in which directories are listed and hash sets are walked *)
Theorem C68_same_result : forall n t m m' p p' ls ls' ord ord', 1 <= n <= 31 -> three_types t -> any_listing ls -> any_listing ls' ->
  ord_ok ord -> ord_ok ord' -> (exists q, pm_quad n q /\ is_type t q) ->
  exists fuel0, forall fuel fuel' path path', fuel0 <= fuel -> fuel0 <= fuel' ->
    exists out ext out' ext', driver fuel ord path ls t n m p = Some (out, ext) /\ driver fuel' ord' path' ls' t n m' p' = Some (out', ext') /\
      Permutation out out' /\
      match ext, ext' with Some e, Some e' => Permutation e e' | None, None => True | _, _ => False end.
Proof. exact driver_same. Qed.
Print Assumptions C68_same_result.
Example C68_instance : any_listing ls_rev /\ any_listing ls_id /\ ord_ok ord_mix /\ pm_quad 3 w3 /\
  (forall t, three_types t -> is_type t w3).
Proof.
  split; [exact ls_rev_ok|]. split; [exact ls_id_ok|]. split; [exact ord_mix_ok|]. split; [exact w3_pm|].
  apply C28_instance.
Qed.
