(* The search with jobs whose options depend on the row sums. *)
From Coq Require Import Ascii String List ZArith Lia Arith Bool Permutation Relations.
From Verif Require Import Base BaseFacts Sums Quat ModelSequence ModelWilliamson ModelEquivalence SpecEquiv OpFacts EquivFacts TypeFacts
  OrderFacts EquivThms CanonFacts ReduceFacts WsFacts QtWt Convert ModelMatrices SpecMatrix SpecPrint MatFacts QhmFacts PrintFacts HmFacts ModelGraph SpecGraph GraphThms HadEquiv
  ModelRowsum SpecRowsum RowsumFacts ModelMatching ModelWrite TextFacts WriteFacts FolderFacts SearchThms ExtendFacts FindQuadFacts DriverFacts ModelMain SpecMain MainFacts ArgFacts MainThms RepSymm SeqFacts DriverMain
  ModelLog LogFolder LogJoin ModelScripts DirFacts SpecFiles SingleFacts SpecSearch SpecSplit SplitFacts SplitThms MixedThms MixedFacts SpecMixed Spec.
Import ListNotations.
Notation length := List.length.
Open Scope nat_scope.

Definition option_of (jobs : list MixedJob) (r : Quad) : MatchOption * RowsumPairing :=
  match find (fun j => if quad_dec (fst (fst j)) r then true else false) jobs with Some j => snd j | None => (CORRELATION, WX) end.
Lemma option_of_job jobs r h o : settled jobs -> In ((r, h), o) jobs -> option_of jobs r = o.
Proof.
  intros S I. unfold option_of. match goal with |- context [find ?g jobs] => destruct (find g jobs) as [[[r1 h1] o1]|] eqn:E end.
  - apply find_some in E as [I' E]. cbn [fst snd] in *. destruct (quad_dec r1 r) as [->|]; [|discriminate]. exact (S _ _ _ _ _ I' I).
  - apply (find_none _ _ E) in I. cbn [fst] in I. destruct (quad_dec r r); congruence.
Qed.

Section Runs.
Context {L : Type} (e : Env L) (n : nat) (y : list ascii).
Hypothesis Hy : canonical_numeral y n.
Lemma orun_jobs t om op jobs lines w f : 1 <= n -> (Z.of_nat n < 2 ^ 62)%Z -> (forall r h o, In ((r, h), o) jobs -> o = (om r, op r)) -> Forall2 (mixed_line t y) jobs lines ->
  fold_m (fun f j => job_folder t (om (fst j)) n (op (fst j)) j f) (map fst jobs) (pl_dirs (place_of w (type_word t) y)) = Some f ->
  exists w', (forall fuel, runs fuel e lines w w') /\ only w w' (type_word t) y /\ place_of w' (type_word t) y = set_dirs (place_of w (type_word t) y) f /\ (jobs <> [] -> w' (type_word t) y <> None).
Proof.
  intros Hn Hn2 S F. set (x := type_word t). revert w. induction F as [|[[r h] [m pr]] args jobs lines J F IH]; intros w E; cbn [map fst fold_m] in E.
  - injection E as <-. exists w. split; [intros; constructor|]. split; [apply only_refl|]. split; [now rewrite set_dirs_same|intros Z; now elim Z].
  - unfold mixed_line in J. cbn [fst snd] in J. assert (X := S r h (m, pr) (or_introl eq_refl)). injection X as -> ->.
    destruct (job_folder t (om r) n (op r) (r, h) (pl_dirs (place_of w x y))) as [f1|] eqn:E1; [|discriminate]. cbn [bind] in E.
    set (w1 := write w x y (set_dirs (place_of w x y) f1)). assert (P1 : place_of w1 x y = set_dirs (place_of w x y) f1) by (unfold place_of at 1, w1; now rewrite write_same).
    destruct (IH (fun r h o I => S r h o (or_intror I)) w1) as (w' & R & O & P & N). { rewrite P1. exact E. }
    exists w'. split; [intros fuel; econstructor; [exact (run_job n t y (om r) (op r) Hn Hn2 Hy fuel e (r, h) args w f1 J E1)|apply R]|]. split; [eapply only_trans; [apply write_only|exact O]|].
    split; [rewrite P, P1; reflexivity|].
    intros _. destruct jobs; [|apply N; discriminate]. inversion F; subst. specialize (R 0). inversion R; subst. unfold w1. rewrite write_same. discriminate.
Qed.
Lemma mixed_start t jobs lines w : 1 <= n -> (Z.of_nat n < 2 ^ 62)%Z -> searchable t -> pl_dirs (place_of w (type_word t) y) = [] ->
  complete_jobs n (map fst jobs) -> settled jobs -> jobs <> [] -> Forall2 (mixed_line t y) jobs lines -> any_listing (e_ls e) ->
  exists w1 pl r0, (forall fuel, runs fuel e lines w w1) /\ only w (sort_sh (type_word t) y w1) (type_word t) y /\ sort_sh (type_word t) y w1 (type_word t) y = Some pl /\
    pl_mat pl = pl_mat (place_of w (type_word t) y) /\
    match_pairs (e_ls e) t (pl_dirs pl) = Some r0 /\ forall q, In q r0 <-> pm_quad n q /\ is_type t q /\ done (map fst jobs) (totals q).
Proof.
  intros Hn Hn2 Ht Hd Hc Hs Hne F Hl. set (om := fun r => fst (option_of jobs r)). set (op := fun r => snd (option_of jobs r)).
  destruct (ojobs_folder t n om op Ht Hn Hn2 (map fst jobs) Hc) as (f & Ef & S).
  destruct (orun_jobs t om op jobs lines w f Hn Hn2) as (w1 & R & O & P & N); auto.
  { intros r h o I. unfold om, op. rewrite (option_of_job jobs r h o Hs I). now destruct o. }
  { now rewrite Hd. }
  destruct (ojobs_match t n om op Ht Hn Hn2 (map fst jobs) f (e_ls e) Hc S Hl) as (r0 & Em & I).
  destruct (ojobs_sorted t n om op Ht Hn Hn2 (map fst jobs) f Hc S) as [_ Es].
  specialize (N Hne). exists w1, (set_dirs (place_of w (type_word t) y) (sortpairs f)), r0. unfold sort_sh. destruct (w1 (type_word t) y) as [pl|] eqn:E1; [|congruence].
  unfold place_of in P at 1. rewrite E1 in P. subst pl. cbn [set_dirs pl_dirs]. rewrite Es. split; auto. split; [eapply only_trans; [exact O|apply write_only]|].
  split; [apply write_same|]. split; [reflexivity|]. split; auto.
Qed.
Hypothesis Hn : 1 <= n <= 31.
Hypothesis He : env_ok e.

Theorem mixed_QT jobs lines (h : bool) w : pl_dirs (place_of w (type_word QuaternionType) y) = [] -> complete_jobs n (map fst jobs) -> settled jobs ->
  (forall r, feasible n r -> normal_rowsums QuaternionType r -> done (map fst jobs) r) -> Forall2 (mixed_line QuaternionType y) jobs lines ->
  (exists q, pm_quad n q /\ is_QT q) ->
  exists w1 fuel0, (forall fuel, runs fuel e lines w w1) /\ forall fuel, fuel0 <= fuel -> exists w' pl r equ,
    remaining fuel e (type_word QuaternionType) y h w1 = w' /\ only w w' (type_word QuaternionType) y /\ w' (type_word QuaternionType) y = Some pl /\
    one_per_class n QuaternionType r /\ lists_quads (pl_seq pl) (pl_qseq pl) r /\ lists_qhms n (pl_qhm pl) r /\
    (if h then one_matrix_per_class n QuaternionType equ /\ lists_matrices (pl_mat pl) equ else pl_mat pl = pl_mat (place_of w (type_word QuaternionType) y)).
Proof.
  intros Hd Hc Hs Hr F (q & P & T). assert (He' := He). destruct He' as (Ho & Hl & _). assert (Hn1 := proj1 Hn). assert (Hn2 : (Z.of_nat n < 2 ^ 62)%Z) by lia.
  destruct (normal_reach n QuaternionType q Hn1 P T) as (z & R & Pz & Tz & Nz).
  assert (Dz : done (map fst jobs) (totals z)). { apply Hr; [|exact Nz]. apply (complementary_rowsums n z Pz Hn1). now apply (type_complementary QuaternionType). }
  destruct (mixed_start QuaternionType jobs lines w Hn1 Hn2 (or_introl eq_refl) Hd Hc Hs) as (w1 & pl & r0 & R1 & O & W & M & Em & I); auto.
  { intros ->. destruct Dz as [[]|[[] _]]. }
  exists w1, (class_fuel n). split; auto. intros fuel Hf.
  destruct (join_of n (e_ls e) (e_ord e) QuaternionType (pl_dirs pl) r0 Hn Ho (or_introl eq_refl) Em) with (fuel := fuel) (path := 0 :: e_path e) as (r & Ej & Nd & A & B); auto.
  { intros x Hx. apply I in Hx as (? & ? & _). auto. }
  { intros ->. assert (X : In z []) by (apply I; auto). exact X. }
  assert (OC : one_per_class n QuaternionType r) by (eapply (all_classes n Hn _ (map fst jobs)); eauto).
  destruct (last_QT e n y Hn He Hy fuel h _ pl r W Ej) as (pl' & equ & O' & W' & LQ & LH & X); auto.
  { intros x Hx. destruct (A x Hx) as (? & ? & _). auto. }
  exists (remaining fuel e (type_word QuaternionType) y h w1), pl', r, equ. split; [reflexivity|]. split; [eapply only_trans; [exact O|exact O']|].
  split; [exact W'|]. split; auto. split; auto. split; auto. destruct h; [exact X|congruence].
Qed.
Theorem mixed_WT jobs lines (h : bool) w : pl_dirs (place_of w (type_word WilliamsonType) y) = [] -> complete_jobs n (map fst jobs) -> settled jobs ->
  (forall r, feasible n r -> normal_rowsums WilliamsonType r -> done (map fst jobs) r) -> Forall2 (mixed_line WilliamsonType y) jobs lines ->
  (exists q, pm_quad n q /\ is_WT q) ->
  exists w1 fuel0, (forall fuel, runs fuel e lines w w1) /\ forall fuel, fuel0 <= fuel -> exists w' pl r r' equ,
    remaining fuel e (type_word WilliamsonType) y h w1 = w' /\ only w w' (type_word WilliamsonType) y /\ w' (type_word WilliamsonType) y = Some pl /\
    one_per_class n WilliamsonType r /\ lists_quads (pl_seq pl) (pl_qseq pl) r /\
    one_per_class n QuaternionType r' /\ lists_quads (pl_qts pl) (pl_qts_q pl) r' /\ lists_qhms n (pl_qhm pl) r /\
    (if h then one_matrix_per_class n WilliamsonType equ /\ lists_matrices (pl_mat pl) equ else pl_mat pl = pl_mat (place_of w (type_word WilliamsonType) y)).
Proof.
  intros Hd Hc Hs Hr F (q & P & T). assert (He' := He). destruct He' as (Ho & Hl & _). assert (Hn1 := proj1 Hn). assert (Hn2 : (Z.of_nat n < 2 ^ 62)%Z) by lia.
  destruct (normal_reach n WilliamsonType q Hn1 P T) as (z & R & Pz & Tz & Nz).
  assert (Dz : done (map fst jobs) (totals z)). { apply Hr; [|exact Nz]. apply (complementary_rowsums n z Pz Hn1). now apply (type_complementary WilliamsonType). }
  destruct (mixed_start WilliamsonType jobs lines w Hn1 Hn2 (or_intror (or_introl eq_refl)) Hd Hc Hs) as (w1 & pl & r0 & R1 & O & W & M & Em & I); auto.
  { intros ->. destruct Dz as [[]|[[] _]]. }
  exists w1, (class_fuel n). split; auto. intros fuel Hf.
  destruct (join_of n (e_ls e) (e_ord e) WilliamsonType (pl_dirs pl) r0 Hn Ho (or_intror eq_refl) Em) with (fuel := fuel) (path := 0 :: e_path e) as (r & Ej & Nd & A & B); auto.
  { intros x Hx. apply I in Hx as (? & ? & _). auto. }
  { intros ->. assert (X : In z []) by (apply I; auto). exact X. }
  assert (OC : one_per_class n WilliamsonType r) by (eapply (all_classes n Hn _ (map fst jobs)); eauto).
  destruct (last_WT e n y Hn He Hy fuel h _ pl r Hf W) as (pl' & r' & equ & O' & W' & LQ & OC' & LQ' & LH & X); auto.
  { intros ->. destruct (B z) as (x & [] & _). apply I. auto. }
  exists (remaining fuel e (type_word WilliamsonType) y h w1), pl', r, r', equ. split; [reflexivity|]. split; [eapply only_trans; [exact O|exact O']|].
  split; [exact W'|]. split; auto. split; auto. split; auto. split; auto. split; auto. destruct h; [exact X|congruence].
Qed.
(* some of the row sums only *)
End Runs.
(* the join command on such jobs *)
Lemma joins {L} (e : Env L) n y jobs lines w q : canonical_numeral y n -> 1 <= n <= 31 -> env_ok e -> pl_dirs (place_of w (type_word QuaternionType) y) = [] -> complete_jobs n (map fst jobs) -> settled jobs ->
  Forall2 (mixed_line QuaternionType y) jobs lines -> pm_quad n q -> is_QT q -> done (map fst jobs) (totals q) ->
  exists w1, (forall fuel, runs fuel e lines w w1) /\ forall fuel, class_fuel n <= fuel ->
    run_main fuel e [chars "rust"; chars "join"; type_word QuaternionType; y] (sort_sh (type_word QuaternionType) y w1) <> None.
Proof.
  intros Hy Hn He Hd Hc Hs F P T Dq. assert (He' := He). destruct He' as (Ho & Hl & _).
  destruct (mixed_start e n y Hy QuaternionType jobs lines w ltac:(lia) ltac:(lia) (or_introl eq_refl) Hd Hc Hs) as (w1 & pl & r0 & R & _ & W & _ & Em & I); auto.
  { intros ->. destruct Dq as [[]|[[] _]]. }
  exists w1. split; auto. intros fuel Hf.
  destruct (join_of n (e_ls e) (e_ord e) QuaternionType (pl_dirs pl) r0 Hn Ho (or_introl eq_refl) Em) with (fuel := fuel) (path := 0 :: e_path e) as (r & Ej & _ & A & _); auto.
  { intros z Hz. apply I in Hz as (? & ? & _). auto. }
  { intros ->. assert (X : In q []) by (apply I; auto). exact X. }
  assert (Ea : Forall (fun q => is_amicable q = Some true) r).
  { apply Forall_forall. intros z Hz. destruct (A z Hz) as (Pz & Tz & _).
    destruct (is_amicable_spec n z Pz ltac:(lia)) as (b & -> & Hb). f_equal. apply Hb. now apply (QT_iff_WT n z Pz ltac:(lia)). }
  destruct (seq_lines_spec n r) as (out & Eo & Fo); [intros z Hz; now apply A|].
  assert (Eq : qseq_text r = Some (stacked (map quad_text r))) by (apply (qseq_text_spec n); intros z Hz; now apply A).
  assert (C := cl_join (chars "rust") QuaternionType y _ (numeral_length_arg y n Hy ltac:(lia))). apply parse_args_iff in C. unfold run_main. rewrite C. cbn [bind exec].
  rewrite type_word_string, <- (numeral_string y n Hy), W. cbn [bind]. unfold find_write_place. rewrite Ej. cbn [bind]. destruct (amicable_notes r Ea) as (am & no & -> & _). cbn [bind]. rewrite Eo. cbn [bind]. rewrite Eq. discriminate.
Qed.
