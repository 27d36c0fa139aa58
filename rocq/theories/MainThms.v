(* driver.sh from the command line to the result files. *)
From Coq Require Import Ascii String List ZArith Lia Arith Bool Reals Permutation Relations.
From Verif Require Import Base BaseFacts Sums Quat ModelSequence ModelWilliamson ModelEquivalence SpecEquiv OpFacts EquivFacts TypeFacts
  OrderFacts EquivThms CanonFacts ReduceFacts QtWt Convert ModelMatrices SpecMatrix SpecPrint MatFacts QhmFacts PrintFacts HmFacts ModelGraph SpecGraph GraphThms HadEquiv
  ModelRowsum ModelMatching ModelWrite TextFacts WriteFacts SearchThms ExtendFacts FindQuadFacts DriverFacts ModelMain SpecMain MainFacts ArgFacts SpecSearch Spec.
Import ListNotations.
Open Scope nat_scope.
Notation length := List.length.

(* ---- numerals without leading zeros ---- *)
Lemma decimal_pos s z : decimal s z -> (forall r, s <> "0"%char :: r) -> (1 <= z)%Z.
Proof.
  induction 1 as [d Hd|s z d H IH Hd]; intros N.
  - destruct d; [destruct (N []); reflexivity|lia].
  - assert (1 <= z)%Z; [|lia]. apply IH. intros r ->. destruct (N (r ++ [ascii_of_nat (48 + d)])). reflexivity.
Qed.
Lemma decimal_digits s z : decimal s z -> (forall r, s <> "0"%char :: r) -> forall fuel, (z < 2 ^ Z.of_nat fuel)%Z -> digits fuel z = s.
Proof.
  intros H. induction H as [d Hd|s z d H IH Hd]; intros N fuel Hf.
  - destruct fuel as [|k]; [assert (Z.of_nat d < 1)%Z by exact Hf; assert (d = 0) by lia; subst; destruct (N []); reflexivity|].
    cbn [digits]. destruct (Z.ltb_spec (Z.of_nat d) 10); [|lia]. unfold digit. now rewrite Nat2Z.id.
  - assert (N' : forall r, s <> "0"%char :: r) by (intros r ->; destruct (N (r ++ [ascii_of_nat (48 + d)])); reflexivity).
    pose proof (decimal_pos s z H N').
    destruct fuel as [|k]; [change (2 ^ Z.of_nat 0)%Z with 1%Z in Hf; lia|]. cbn [digits]. destruct (Z.ltb_spec (10 * z + Z.of_nat d) 10); [lia|].
    assert (E1 : ((10 * z + Z.of_nat d) / 10 = z)%Z) by (symmetry; apply Z.div_unique with (Z.of_nat d); lia).
    assert (E2 : ((10 * z + Z.of_nat d) mod 10 = Z.of_nat d)%Z) by (symmetry; apply Z.mod_unique with z; lia).
    rewrite E1, E2, IH; auto.
    + unfold digit. now rewrite Nat2Z.id.
    + rewrite Nat2Z.inj_succ, Z.pow_succ_r in Hf by lia. lia.
Qed.
Lemma numeral_string y n : canonical_numeral y n -> y = usize_to_string (Z.of_nat n).
Proof.
  intros [D [->|N]].
  - apply (parse_digits_iff ["0"%char]) in D; [|discriminate]. injection D as E. assert (n = 0) by lia. now subst n.
  - symmetry. unfold usize_to_string. apply decimal_digits; auto. now apply log2_fuel; lia.
Qed.
Lemma numeral_length_arg y n : canonical_numeral y n -> (Z.of_nat n < 2 ^ 64)%Z -> length_arg y (Z.of_nat n).
Proof. intros [D _] H. split; auto. now left. Qed.

(* ---- worlds ---- *)
Lemma only_refl w x y : only w w x y. Proof. intros ? ? _; reflexivity. Qed.
Lemma only_trans w w' w'' x y : only w w' x y -> only w' w'' x y -> only w w'' x y.
Proof. intros A B x' y' N. rewrite B, A; auto. Qed.
Lemma write_same w x y pl : write w x y pl x y = Some pl.
Proof. unfold write. now rewrite !text_eqb_refl. Qed.
Lemma write_only w x y pl : only w (write w x y pl) x y.
Proof.
  intros x' y' N. unfold write. destruct (text_eqb x' x && text_eqb y' y) eqn:E; auto.
  apply andb_true_iff in E as [E1 E2]. apply text_eqb_eq in E1, E2. congruence.
Qed.
Lemma type_word_string t : seqtype_to_string t = type_word t. Proof. destruct t; reflexivity. Qed.

(* every command touches one directory only *)
Lemma bind_some {A B} (e : option A) (k : A -> option B) r : (let* x := e in k x) = Some r -> exists x, e = Some x /\ k x = Some r.
Proof. destruct e; cbn; [eauto|discriminate]. Qed.
Ltac inv_bind H := apply bind_some in H as (? & ? & H).
Lemma exec_only {L} fuel (e : Env L) c w w' : exec fuel e c w = Some w' ->
  match target c with
  | None => w' = w
  | Some (t, p) => only w w' (type_word t) (usize_to_string p)
  end.
Proof.
  destruct c; cbn [exec target]; rewrite ?type_word_string; intros H.
  - now injection H as <-.
  - inv_bind H. inv_bind H. inv_bind H. injection H as <-. apply write_only.
  - inv_bind H. inv_bind H. inv_bind H. injection H as <-. apply only_refl.
  - inv_bind H. inv_bind H. injection H as <-. apply write_only.
  - inv_bind H. inv_bind H. injection H as <-. apply write_only.
  - inv_bind H. inv_bind H. inv_bind H. destruct x1. injection H as <-. apply write_only.
  - destruct (w (type_word t) (usize_to_string p)) as [pl|]; [|injection H as <-; apply only_refl].
    destruct (pl_seq pl); [|injection H as <-; apply only_refl]. inv_bind H. destruct x. injection H as <-. apply write_only.
  - inv_bind H. destruct x as [[|] ?]; injection H as <-; [apply only_refl|apply write_only].
  - inv_bind H. destruct x. injection H as <-. apply write_only.
  - inv_bind H. injection H as <-. apply write_only.
  - inv_bind H. injection H as <-. apply write_only.
  - now injection H as <-.
Qed.

Lemma run_on_cmd {L} fuel (e : Env L) args c w : command_line (lit "rust" :: args) c ->
  run_on fuel e args w = match exec fuel e c w with Some w' => w' | None => w end.
Proof. intros H. unfold run_on, run_main. apply parse_args_iff in H. rewrite H. reflexivity. Qed.

Lemma Forall2_impl_in {A B} (P Q : A -> B -> Prop) l r : (forall x y, In x l -> P x y -> Q x y) -> Forall2 P l r -> Forall2 Q l r.
Proof. intros H F. induction F; constructor; auto; [apply H; cbn; auto|apply IHF; intros; apply H; cbn; auto]. Qed.

(* ---- the stages ---- *)
Section Stages.
Context {L : Type} (fuel : nat) (e : Env L) (n : nat) (t : SequenceType) (y : list ascii).
Hypothesis Hn : (Z.of_nat n < 2 ^ 64)%Z.
Hypothesis Hy : canonical_numeral y n.
Let x := type_word t.
Lemma num_y : usize_to_string (Z.of_nat n) = y. Proof. symmetry. now apply numeral_string. Qed.
Lemma stage_pairs w pl m pr f c : w x y = Some pl -> pl_dirs pl = [] -> write_pairs fuel n t m (str_to_rowsum_pairing pr) [] = Some (f, c) ->
  let w' := run_on fuel e [lit "pairs"; x; y; match_word m; pr] w in w' x y = Some (set_dirs pl f) /\ only w w' x y.
Proof.
  intros Hw Hd Ew. cbv zeta. rewrite (run_on_cmd fuel e _ (Pairs t (Z.of_nat n) m (str_to_rowsum_pairing pr))).
  2:{ apply cl_pairs; [now apply numeral_length_arg|]. now apply pairing_arg_iff. }
  cbn [exec]. rewrite type_word_string, num_y. fold x. unfold place_of. rewrite Hw, Hd, Nat2Z.id, Ew. cbn [bind].
  destruct f as [|a f]; [|split; [apply write_same|apply write_only]].
  split; [|apply only_refl]. rewrite Hw. destruct pl. cbn in Hd. subst. reflexivity.
Qed.
Lemma stage_sort w pl : w x y = Some pl ->
  let w' := sort_place x y w in w' x y = Some (set_dirs pl (sortpairs (pl_dirs pl))) /\ only w w' x y.
Proof. intros Hw. cbv zeta. unfold sort_place. rewrite Hw. split; [apply write_same|apply write_only]. Qed.
Lemma stage_join w pl pl' : w x y = Some pl -> find_write_place fuel (e_ord e) (e_path e) (e_ls e) n t pl = Some pl' ->
  let w' := run_on fuel e [lit "join"; x; y] w in w' x y = Some pl' /\ only w w' x y.
Proof.
  intros Hw Ej. cbv zeta. rewrite (run_on_cmd fuel e _ (Join t (Z.of_nat n))).
  2:{ apply cl_join. now apply numeral_length_arg. }
  cbn [exec]. rewrite type_word_string, num_y. fold x. rewrite Hw. cbn [bind]. rewrite Nat2Z.id, Ej. cbn [bind]. split; [apply write_same|apply write_only].
Qed.
Lemma stage_hm w pl lines k s : w x y = Some pl -> match t with WilliamsonType => pl_qts pl | _ => pl_seq pl end = Some lines ->
  hadamard_equivalence_from_file (e_canon e) (e_same e) (e_hms e) lines t = Some (k, s) ->
  let w' := run_on fuel e [lit "convert"; lit "hm"; x; y] w in w' x y = Some (set_mat pl s) /\ only w w' x y.
Proof.
  intros Hw El Eh. cbv zeta. rewrite (run_on_cmd fuel e _ (ConvertHm t (Z.of_nat n))).
  2:{ apply cl_convert_hm. now apply numeral_length_arg. }
  cbn [exec]. rewrite type_word_string, num_y. fold x. rewrite Hw. cbn [bind]. rewrite El. cbn [bind]. rewrite Eh. cbn [bind]. split; [apply write_same|apply write_only].
Qed.
Lemma stage_hm_panics w pl lines : w x y = Some pl -> match t with WilliamsonType => pl_qts pl | _ => pl_seq pl end = Some lines ->
  hadamard_equivalence_from_file (e_canon e) (e_same e) (e_hms e) lines t = None ->
  run_on fuel e [lit "convert"; lit "hm"; x; y] w = w.
Proof.
  intros Hw El Eh. rewrite (run_on_cmd fuel e _ (ConvertHm t (Z.of_nat n))).
  2:{ apply cl_convert_hm. now apply numeral_length_arg. }
  cbn [exec]. rewrite type_word_string, num_y. fold x. rewrite Hw. cbn [bind]. rewrite El. cbn [bind]. rewrite Eh. reflexivity.
Qed.
Lemma stage_qhm w pl lines k s : w x y = Some pl -> pl_seq pl = Some lines -> convert_qs_to_matrices lines = Some (k, s) ->
  let w' := run_on fuel e [lit "convert"; lit "qhm"; x; y] w in w' x y = Some (set_qhm pl s) /\ only w w' x y.
Proof.
  intros Hw El Eh. cbv zeta. rewrite (run_on_cmd fuel e _ (ConvertQhm t (Z.of_nat n))).
  2:{ apply cl_convert_qhm. now apply numeral_length_arg. }
  cbn [exec]. rewrite type_word_string, num_y. fold x. rewrite Hw, El, Eh. cbn [bind]. split; [apply write_same|apply write_only].
Qed.
End Stages.

Lemma heq_trans N a b c : hadamard_equivalent N a b -> hadamard_equivalent N b c -> hadamard_equivalent N a c.
Proof. exact (fequiv_trans N (cell 1%Z a) (cell 1%Z b) (cell 1%Z c)). Qed.
Lemma stacked_concat {A} (f : A -> list ascii) l : concat (map (fun h => f h ++ [newline]) l) = stacked (map f l).
Proof. unfold stacked. now rewrite map_map. Qed.

(* one matrix for each class, from the list with one quadruple for each class *)
Lemma matrices_spec {L} (canon : Graph -> L) same ord n t r lines : SpecGraph.canonical canon same -> (forall l, Permutation (ord l) l) -> 1 <= n ->
  t = QuaternionType \/ t = WilliamsonType -> one_per_class n QuaternionType r -> Forall2 line_of_quad r lines ->
  exists equ, hadamard_equivalence_from_file canon same ord lines t = Some (length equ, stacked (map (fun h => magma_text (hm_matrix h)) equ)) /\
    one_matrix_per_class n t equ.
Proof.
  intros Hc Ho Hn Ht (_ & A & B) F.
  assert (TT : forall q, pm_quad n q -> (is_type t q <-> is_QT q)).
  { intros q P. destruct Ht as [->| ->]; [reflexivity|]. symmetry. now apply (QT_iff_WT n). }
  destruct (from_file_spec canon same ord n r lines t Hc Ho Hn) as (mats & equ & Fm & Hm & E & I & C & U); auto.
  { apply Forall_forall. intros q Hq. now apply A. }
  { apply Forall_forall. intros q Hq. destruct (A q Hq) as (P & T & _). apply (verify_type n); auto. now apply TT. }
  exists equ. split; [now rewrite E, stacked_concat|]. split; [|split; [|exact U]].
  - intros k Hk. apply I in Hk. split; [now apply (proj1 (Forall_forall _ _) Hm)|].
    clear -Fm Hk A TT. induction Fm as [|q h r mats E Fm IH]; [destruct Hk|]. destruct Hk as [<-|Hk].
    + destruct (A q (or_introl eq_refl)) as (P & T & _). exists q. split; auto. split; auto. now apply TT.
    + apply IH; auto. intros; apply A; now right.
  - intros q P T. apply TT in T; auto. destruct (B q P T) as (x & Hx & R & _).
    destruct (qt_reach_hadamard n q x Hn P R) as (h & h' & E1 & E2 & _ & _ & Q).
    assert (In h' mats) as Hin.
    { clear -Fm Hx E2. induction Fm as [|q h r mats E Fm IH]; [destruct Hx|]. destruct Hx as [->|Hx]; [left; congruence|right; auto]. }
    destruct (C h' Hin) as (k & Hk & Ek). exists h, k. split; auto. split; auto. unfold hm_equivalent in *. now apply heq_trans with (hm_matrix h').
Qed.

Lemma qhms_spec n r lines : 1 <= n -> (forall q, In q r -> pm_quad n q /\ is_QT q) -> Forall2 line_of_quad r lines ->
  exists k s, convert_qs_to_matrices lines = Some (k, s) /\ lists_qhms n (Some s) r.
Proof.
  intros Hn A F. destruct (convert_spec n r lines Hn) as (ds & txts & flags & F1 & F2 & F3 & E); auto; [now apply Forall_forall|].
  eexists _, _. split; [exact E|]. exists ds, txts. auto.
Qed.

(* the number of lines *)
Lemma in_join sep l (c : ascii) : In c (SpecPrint.join sep l) -> In c sep \/ exists x, In x l /\ In c x.
Proof.
  induction l as [|x [|y l] IH]; [intros []|right; exists x; split; [now left|auto]|].
  change (SpecPrint.join sep (x :: y :: l)) with (x ++ sep ++ SpecPrint.join sep (y :: l)). rewrite !in_app_iff.
  intros [H|[H|H]]; auto; [right; exists x; split; [now left|auto]|].
  destruct (IH H) as [|(z & ? & ?)]; auto. right. exists z. split; [now right|auto].
Qed.
Lemma magma_one_line m : ~ In newline (magma_text m).
Proof.
  assert (C : forall c : ascii, In c (chars "M := Matrix([") \/ In c (chars "]);") \/ In c (chars ",") \/ In c (chars "[") \/ In c (chars "]") \/ In c (chars "1") \/ In c (chars "-1") -> c <> newline).
  { intros c H. rewrite <- !in_app_iff in H. vm_compute in H. intros ->. repeat (destruct H as [H|H]; [discriminate H|]). exact H. }
  intros H. refine (C newline _ eq_refl). unfold magma_text in H. rewrite !in_app_iff in H. destruct H as [H|[H|H]]; try tauto.
  apply in_join in H as [H|(x & Hx & H)]; try tauto. apply in_map_iff in Hx as (row & <- & _).
  unfold bracket_row in H. rewrite !in_app_iff in H. destruct H as [H|[H|H]]; try tauto.
  apply in_join in H as [H|(x & Hx & H)]; try tauto. apply in_map_iff in Hx as (z & <- & _). unfold sign_word in H. destruct (z =? 1)%Z; tauto.
Qed.
Lemma stacked_lines (l : list (list ascii)) : (forall s, In s l -> ~ In newline s) -> line_count (stacked l) = length l.
Proof.
  induction l as [|s l IH]; intros H; [reflexivity|]. unfold stacked, line_count in *. cbn [map concat length]. rewrite !count_occ_app, IH by (intros; apply H; now right).
  rewrite (proj1 (count_occ_not_In ascii_dec s newline)) by (apply H; now left). cbn. destruct (ascii_dec newline newline); [reflexivity|congruence].
Qed.
Lemma matrices_lines equ : line_count (stacked (map (fun h => magma_text (hm_matrix h)) equ)) = length equ.
Proof. rewrite stacked_lines, map_length; auto. intros s Hs. apply in_map_iff in Hs as (h & <- & _). apply magma_one_line. Qed.

(* ---- the first steps of driver.sh ---- *)
Lemma driver_start {L} fuel (e : Env L) n t y m pr h w : (Z.of_nat n < 2 ^ 64)%Z -> canonical_numeral y n ->
  pl_dirs (place_of w (type_word t) y) = [] ->
  forall f c, write_pairs fuel n t m (str_to_rowsum_pairing pr) [] = Some (f, c) ->
  exists w2, only w w2 (type_word t) y /\ w2 (type_word t) y = Some (set_dirs (place_of w (type_word t) y) (sortpairs f)) /\
    driver_sh fuel e (type_word t) y (match_word m) pr h w =
      (let w := run_on fuel e [lit "join"; type_word t; y] w2 in
       let w := if h then run_on fuel e [lit "convert"; lit "hm"; type_word t; y] w else w in
       run_on fuel e [lit "convert"; lit "qhm"; type_word t; y] w).
Proof.
  intros Hn Hy Hd f c Ew. unfold driver_sh. rewrite Hd. cbn [length Nat.eqb negb].
  set (w0 := match w (type_word t) y with Some _ => w | None => write w (type_word t) y new_place end).
  assert (H0 : w0 (type_word t) y = Some (place_of w (type_word t) y) /\ only w w0 (type_word t) y).
  { unfold w0, place_of. destruct (w (type_word t) y) eqn:E; [split; auto; apply only_refl|split; [apply write_same|apply write_only]]. }
  destruct H0 as [H0 O0].
  destruct (stage_pairs fuel e n t y Hn Hy w0 _ m pr f c H0 Hd Ew) as [H1 O1].
  destruct (stage_sort t y _ _ H1) as [H2 O2].
  eexists. split; [|split; [exact H2|reflexivity]].
  eapply only_trans; [exact O0|]. eapply only_trans; [exact O1|exact O2].
Qed.
