(* Lengths from 64 on: the symbolic symmetry group holds the symbol 256, which is 0 as an i8, and the
   search for representatives panics; above 100 the symmetry group itself cannot be computed. *)
From Coq Require Import Ascii String List ZArith Lia Arith Bool Permutation Relations.
From Verif Require Import Base BaseFacts Sums ModelSequence ModelWilliamson ModelEquivalence SpecEquiv
  SeqFacts OpFacts EquivFacts TypeFacts FastFacts OrderFacts CanonFacts NsFacts ReduceFacts WsFacts
  ModelRowsum ModelMatching ModelWrite FolderFacts SearchThms DebugFacts
  ModelMain SpecMain MainFacts ArgFacts MainThms ModelPanic PanicFacts PanicThms PanicDriver SpecSearch Spec.
Import ListNotations.
Notation length := List.length.
Open Scope nat_scope.

(* ---- 64 to 100 ---- *)

Lemma fast_zero n q : q_size q = n -> 64 <= n <= 100 -> fast_element q 0%Z = None.
Proof.
  intros Hs Hn. unfold fast_element. rewrite Hs. set (N := Z.of_nat n). assert (64 <= N <= 100)%Z as HN by lia.
  change (ModelEquivalence.as_usize (ModelEquivalence.as_usize (abs8 0) - 1)) with 18446744073709551615%Z.
  remember (18446744073709551615 mod N)%Z as r eqn:Er.
  assert (0 <= r < N)%Z as Hr by (rewrite Er; apply Z.mod_pos_bound; lia). clear Er.
  change (wrap8 (abs8 0 - 1)) with (-1)%Z. rewrite (wrap8_id r), (wrap8_id (-1 - r)) by (unfold i8; lia).
  unfold ModelEquivalence.as_usize. replace ((-1 - r) mod 2 ^ 64)%Z with (18446744073709551615 - r)%Z.
  2:{ apply Z.mod_unique with (-1)%Z; [left; lia|]. change (2 ^ 64)%Z with 18446744073709551616%Z. lia. }
  assert (3 < (18446744073709551615 - r) / N)%Z as Hd by (apply Z.lt_le_trans with 4%Z; [lia|]; apply Z.div_le_lower_bound; lia).
  set (k := ((18446744073709551615 - r) / N)%Z) in *.
  replace (k =? 0)%Z with false by lia. replace (k =? 1)%Z with false by lia.
  replace (k =? 2)%Z with false by lia. replace (k =? 3)%Z with false by lia. reflexivity.
Qed.

Lemma symbolic_zero n : 64 <= n -> exists t, In 0%Z (slot (symbolic_quad n) t).
Proof.
  intros Hn. set (k := 255 / n).
  assert (k < 4) as Hk by (apply Nat.div_lt_upper_bound; lia).
  pose proof (Nat.div_mod 255 n ltac:(lia)) as Hdm. fold k in Hdm. pose proof (Nat.mod_upper_bound 255 n ltac:(lia)) as Hm.
  assert (exists t, tag_no t = k) as [t Ht].
  { destruct k as [|[|[|[|k]]]]; [exists TW|exists TX|exists TY|exists TZ|lia]; reflexivity. }
  exists t. rewrite symbolic_slot, Ht. apply in_map_iff. exists (255 mod n). split; [|apply in_seq; lia].
  replace (255 mod n + k * n + 1) with 256 by lia. reflexivity.
Qed.

Lemma traverse_none_in {A B} (f : A -> option B) l x : In x l -> f x = None -> traverse f l = None.
Proof.
  intros Hx E. induction l as [|a l IH]; [destruct Hx|]. cbn [traverse]. destruct Hx as [->|Hx]; [now rewrite E|].
  rewrite (IH Hx). now destruct (f a).
Qed.

Lemma fast_symbolic n q : q_size q = n -> 64 <= n <= 100 -> fast_apply q (symbolic_quad n) = None.
Proof.
  intros Hs Hn. unfold fast_apply. destruct (symbolic_zero n ltac:(lia)) as [t Ht].
  rewrite (traverse_none_in _ _ 0%Z); [reflexivity| |now apply (fast_zero n)].
  rewrite !in_app_iff. destruct t; cbn [slot] in Ht; tauto.
Qed.

(* every class holds the quadruple it starts from *)
Lemma class_start ord ops : ord_ok ord -> forall fuel p q r, generate_equivalence_class fuel ord p q ops = Some r -> In q r.
Proof.
  intros Ho fuel p q r. unfold generate_equivalence_class, run.
  assert (G : forall fuel k c, In q c -> forall r, match Base.loop fuel (class_step ord p ops) (k, c) with Some r => r | None => None end = Some r -> In q r).
  { clear fuel r. induction fuel as [|fuel IH]; intros k c Hc r E; [discriminate|]. cbn [Base.loop] in E.
    unfold class_step in E at 1. destruct (foldi _ _ _) as [new|]; cbn [bind] in E; [|discriminate].
    destruct (length new =? 0); [now injection E as <-|]. eapply IH; [|exact E]. rewrite insert_all_in. auto. }
  intros E. eapply G; [|exact E]. now left.
Qed.

Lemma class_fast_none ord p q n G : ord_ok ord -> q_size q = n -> 64 <= n <= 100 -> In (symbolic_quad n) G ->
  generate_equivalence_class_fast ord p q G = None.
Proof.
  intros Ho Hs Hn HG. unfold generate_equivalence_class_fast. rewrite (traverse_none_in _ _ (symbolic_quad n)); auto.
  - now apply ord_in.
  - now apply fast_symbolic.
Qed.

(* ---- above 100 ---- *)

Lemma foldi_none {A B} (f : nat -> B -> A -> option B) l x acc : In x l -> (forall i acc, f i acc x = None) -> foldi f l acc = None.
Proof. intros H E. unfold foldi. now apply foldi_panic with x. Qed.

Lemma round_none ord p ops q k : ord_ok ord -> equivalent_automorphism q = None ->
  class_step ord p (equivalent_automorphism :: ops) (k, [q]) = None.
Proof.
  intros Ho E. unfold class_step.
  rewrite (foldi_none _ _ q); [reflexivity| |].
  - apply ord_in; auto. now left.
  - intros i acc. apply (foldi_none _ _ equivalent_automorphism); [now left|]. intros j acc'. now rewrite E.
Qed.

Lemma group_none ord p n t : ord_ok ord -> 100 < n ->
  class_step ord p (canonical_ops t) (0, [symbolic_quad n]) = None.
Proof.
  intros Ho Hn. assert (equivalent_automorphism (symbolic_quad n) = None) as E by (apply (automorphism_panics n); [apply symbolic_wf|exact Hn]).
  destruct t; apply round_none; auto.
Qed.

(* ---- representatives ---- *)

Theorem reduce_64 n ord p l t fuel : ord_ok ord -> 64 <= n -> Forall (fun x => q_size x = n) l ->
  reduce_to_canonical_reps fuel ord p l t = None.
Proof.
  intros Ho Hn Hl. unfold reduce_to_canonical_reps. destruct l as [|q l]; [reflexivity|].
  inversion Hl as [|? ? Hq _]; subst. cbn [vget nth_error bind].
  destruct (le_lt_dec (q_size q) 100) as [H|H].
  - destruct (generate_symmetry_group _ _ _ _ _) as [G|] eqn:EG; cbn [bind]; [|reflexivity].
    apply class_start in EG; auto.
    rewrite (foldi_none _ _ q); [reflexivity|now left|]. intros i acc. unfold qt_canonical.
    rewrite (class_fast_none ord _ q (q_size q) G); auto. now destruct t.
  - unfold generate_symmetry_group, generate_equivalence_class, run. destruct fuel as [|fuel]; [reflexivity|].
    cbn [Base.loop]. rewrite group_none by auto. reflexivity.
Qed.

(* what the None of reduce_64 stands for: a panic, and not a lack of fuel *)
Theorem panics_64 n ord p t : ord_ok ord -> 64 <= n ->
  if n <=? 100 then exists fuel0, forall fuel, fuel0 <= fuel -> exists G, generate_symmetry_group fuel ord p n (canonical_ops t) = Some G /\
    forall path q, q_size q = n -> generate_equivalence_class_fast ord path q G = None
  else class_step ord p (canonical_ops t) (0, [symbolic_quad n]) = None.
Proof.
  intros Ho Hn. destruct (Nat.leb_spec n 100) as [H|H]; [|now apply group_none].
  exists (class_fuel n). intros fuel Hf. rewrite canonical_ops_impl.
  destruct (symmetry_group_spec n ord p (pos_ops t) fuel Ho (small_ok n _ H) Hf) as (G & EG & _ & HG).
  exists G. split; auto. intros path q Hq. apply (class_fast_none ord path q n G); auto. apply HG, rt_refl.
Qed.

Lemma supported_three t : supported t <-> three_types t.
Proof. unfold supported, three_types. tauto. Qed.

Theorem equiv_64 n ord p x y t fuel : ord_ok ord -> 64 <= n -> pm_quad n x -> pm_quad n y -> three_types t ->
  verify x t = Some true -> verify y t = Some true -> equiv fuel ord p x y t = None.
Proof.
  intros Ho Hn Px Py Ht Vx Vy. apply supported_three in Ht. rewrite equiv_unfold by auto.
  destruct (canon_of_spec n t x Ht Px) as (c1 & -> & L1); [lia|].
  destruct (canon_of_spec n t y Ht Py) as (c2 & -> & L2); [lia|]. cbn [bind].
  rewrite (reduce_64 n); auto.
  constructor; [eapply reach_pm; [apply Px|apply L1]|]. constructor; [eapply reach_pm; [apply Py|apply L2]|constructor].
Qed.

(* ---- the search ---- *)

Theorem search_64 n t m p ls : 64 <= n -> (Z.of_nat n < 2 ^ 62)%Z -> three_types t -> any_listing ls ->
  exists fuel0, forall fuel, fuel0 <= fuel -> exists f c, write_pairs fuel n t m p [] = Some (f, c) /\
    forall ord path fuel', ord_ok ord -> join_pairs fuel' ord path ls t (sortpairs f) = None.
Proof.
  intros Hn H62 Ht Hls. destruct (search_spec n t m p ls ltac:(lia) H62 Ht Hls) as (f0 & H).
  exists f0. intros fuel Hf. destruct (H fuel Hf) as (f & c & r & Ew & Em & Snd & _). exists f, c. split; auto.
  intros ord path fuel' Ho. rewrite join_pairs_eq by auto. rewrite Em. cbn [bind].
  destruct (canonical_list n t r Ht ltac:(lia)) as (l & -> & _ & B). { intros q Hq. now apply Snd. }
  cbn [bind]. apply (reduce_64 n); auto. apply Forall_forall. intros x Hx. apply (proj1 (proj2 (unique_spec l) x)) in Hx.
  destruct (B x Hx) as (q & Hq & R). destruct (Snd q Hq) as (Pq & _). apply (reach_pm n _ q x Pq R).
Qed.

Theorem driver_64 {L} (e : Env L) n t y (c : bool) pr h (d : bool) w : 64 <= n -> (Z.of_nat n < 2 ^ 62)%Z -> env_ok e -> three_types t ->
  canonical_numeral y n -> d = true \/ pl_dirs (place_of w (type_word t) y) = [] ->
  pl_seq (place_of w (type_word t) y) = None -> pl_qts (place_of w (type_word t) y) = None ->
  exists fuel0, forall fuel, fuel0 <= fuel -> exists f k,
    write_pairs fuel n t (if c then CORRELATION else PSD) (str_to_rowsum_pairing (match pr with Some r => r | None => lit "WZ" end)) [] = Some (f, k) /\
    only w (driver_flags_x fuel e (type_word t) y c pr h d w) (type_word t) y /\
    driver_flags_x fuel e (type_word t) y c pr h d w (type_word t) y = Some (set_dirs (place_of w (type_word t) y) (sortpairs f)).
Proof.
  intros Hn H62 (Ho & Hls & _) Ht Hy Hd N1 N2.
  assert (H64 : (Z.of_nat n < 2 ^ 64)%Z) by (eapply Z.lt_trans; [exact H62|reflexivity]).
  set (m := if c then CORRELATION else PSD). set (pw := match pr with Some r => r | None => lit "WZ" end).
  destruct (search_64 n t m (str_to_rowsum_pairing pw) (e_ls e) Hn H62 Ht Hls) as (f0 & H).
  exists f0. intros fuel Hf. destruct (H fuel Hf) as (f & k & Ew & Ej).
  exists f, k. split; [exact Ew|]. destruct (flags_x_place fuel e n t y H64 Hy c pr h d w Hd) as [O E]. split; [exact O|]. rewrite E. f_equal.
  fold m. fold pw. unfold px_driver, p_script. set (pl0 := place_of w (type_word t) y) in *. cbv zeta.
  assert (Ep : px_pairs fuel n t m pw (set_dirs pl0 []) = set_dirs pl0 f).
  { unfold px_pairs. assert (A := write_pairs_agree fuel n t m (str_to_rowsum_pairing pw) []). apply agrees_cases in A.
    rewrite Ew in A. cbn [bind] in A. now rewrite A. }
  rewrite Ep. set (pl1 := set_dirs pl0 (sortpairs f)).
  change (set_dirs (set_dirs pl0 f) (sortpairs (pl_dirs (set_dirs pl0 f)))) with pl1.
  assert (E1 : px_join fuel e n t pl1 = pl1).
  { unfold px_join. rewrite join_none_nothing; [reflexivity|]. apply Ej, Ho. }
  rewrite E1.
  assert (E2 : px_hm e t pl1 = pl1).
  { unfold px_hm. replace (match t with WilliamsonType => pl_qts pl1 | _ => pl_seq pl1 end) with (@None Lines); [reflexivity|].
    destruct t; cbn; auto. }
  rewrite E2. assert (E3 : px_qhm pl1 = pl1) by (unfold px_qhm; change (pl_seq pl1) with (pl_seq pl0); now rewrite N1).
  destruct h; exact E3.
Qed.
