(* Theorems about the files of equations. *)
From Coq Require Import Ascii String List ZArith Arith Bool Lia.
From Verif Require Import Base BaseFacts Sums ModelSequence ModelWilliamson ModelEquivalence ModelRowsum ModelWrite
  ModelEquations ModelSolver TextFacts SeqFacts RowsumFacts EquationText SystemFacts SolverFacts
  SpecRowsum SpecPrint SpecMain SpecEquations Spec SpecSolver.
Import ListNotations.
Notation length := List.length.
Open Scope nat_scope.

Lemma named_get {A} (l : list (text * A)) name : named l name = get l name.
Proof.
  unfold get. induction l as [|[x a] l IH]; [reflexivity|]. cbn [named find fst snd]. destruct (list_eq_dec ascii_dec x name) as [->|N].
  - now rewrite text_eqb_refl.
  - rewrite SplitFacts.text_eqb_neq; auto.
Qed.
Lemma file_at_lookup tree d f : file_at tree d f = lookup tree d f.
Proof. unfold file_at, lookup. rewrite (named_get (A := Texts)).
  change (match @get Texts tree d with Some l => named l f | None => None end = match @get Texts tree d with Some d => get d f | None => None end).
  destruct (@get Texts tree d) as [t|]; [apply (named_get (A := text))|reflexivity].
Qed.

Lemma find_equations_spec : forall p tree, 1 <= p -> (Z.of_nat p < 2 ^ 62)%Z -> exists fuel0, forall fuel, fuel0 <= fuel ->
  exists tree' rows, find_equations fuel p QuaternionType tree = Some tree' /\ generate_rowsums fuel p QuaternionType = Some rows /\
    (forall r, not_overwritten rows r -> exists d pairs, equation_dir r d /\ NoDup pairs /\ (forall s1 s2, In (s1, s2) pairs <-> given p r s1 s2) /\
       forall k s1 s2, nth_error pairs k = Some (s1, s2) ->
         exists f x, equation_file k f /\ file_at tree' d f = Some x /\ equation_text r s1 s2 x) /\
    (forall d f x, file_at tree' d f = Some x -> file_at tree d f = Some x \/
       exists r k s1 s2, not_overwritten rows r /\ equation_dir r d /\ equation_file k f /\ given p r s1 s2 /\ equation_text r s1 s2 x) /\
    (forall d f, (forall r, In r rows -> ~ equation_dir r d) -> file_at tree' d f = file_at tree d f).
Proof.
  intros p tree Hp Hb. exists (rowsums_fuel p). intros fuel Hf.
  destruct (generate_rowsums_fuel p QuaternionType fuel Hf) as (rows & E & N & H).
  destruct (tree_spec p tree Hp Hb rows (fun r => proj1 (H r))) as (tree' & Et & A & B & C).
  exists tree', rows. unfold find_equations. rewrite E. cbn [bind]. split; [exact Et|]. split; auto.
  assert (Nr : forall r, not_overwritten rows r -> normal_rowsums QuaternionType r) by (intros r Hr; apply H; now apply not_overwritten_in).
  split; [|split].
  - intros r Hr. destruct (A r Hr) as (pairs & (N1 & P) & L). exists (dir_of r), pairs. split; [apply dir_spec; auto|]. split; auto. split; auto.
    intros k s1 s2 Hk. destruct (L k s1 s2 Hk) as (x & Ex & Hx). exists (equations_file k), x. rewrite file_at_lookup. auto using file_spec.
  - intros d f x. rewrite !file_at_lookup. intros Hx. destruct (B d f x Hx) as [|(r & k & s1 & s2 & pairs & Hr & -> & -> & P & Hk & Ht)]; auto.
    right. exists r, k, s1, s2. split; auto. split; [apply dir_spec; auto|]. split; [apply file_spec|]. split; auto.
    apply P. eapply nth_error_In; eauto.
  - intros d f G. rewrite !file_at_lookup. apply C. intros r Hr ->. apply (G r Hr). apply dir_spec. now apply H.
Qed.

(* ---- reading the files ---- *)

Lemma signs_plain s : Forall (fun c => c <> line_break) (map sign_char s).
Proof. apply Forall_map, Forall_forall. intros x _. unfold sign_char. destruct (x =? 1)%Z; discriminate. Qed.
Lemma isize_no_break z : Forall (fun c => c <> line_break) (isize_to_string z).
Proof. eapply Forall_impl; [|apply isize_chars]. intros c [->|H]; [discriminate|]. intros ->. unfold is_digit in H. cbn in H. lia. Qed.
Lemma rowsum_line_plain r l : rowsum_line r l -> Forall (fun c => c <> line_break) l /\ exists l', l = "*"%char :: l'.
Proof.
  destruct r as [[[a b] c] d]. intros (x & y & z & w & Hx & Hy & Hz & Hw & ->).
  apply signed_isize in Hx, Hy, Hz, Hw. subst. split; [|eexists; reflexivity].
  repeat (apply Forall_app; split); try apply isize_no_break; repeat constructor; discriminate.
Qed.
Lemma rowsum_line_inj r r' l : rowsum_line r l -> rowsum_line r' l -> r = r'.
Proof.
  destruct r as [[[a b] c] d], r' as [[[a' b'] c'] d']. intros (x & y & z & w & Hx & Hy & Hz & Hw & ->) (x' & y' & z' & w' & Hx' & Hy' & Hz' & Hw' & E).
  apply signed_isize in Hx, Hy, Hz, Hw, Hx', Hy', Hz', Hw'. subst. apply app_inv_head in E.
  assert (K : forall z c, (c = ","%char \/ c = ")"%char) -> Forall (fun a => a <> c) (isize_to_string z)).
  { intros z0 c0 H0. eapply Forall_impl; [|apply isize_chars]. intros a0 [->|H] E0; [subst c0; destruct H0; discriminate|].
    subst a0. unfold is_digit in H. destruct H0; subst; cbn in H; lia. }
  cbn [chars list_ascii_of_string app] in E.
  do 3 (apply split_sep in E as [?%isize_inj E]; [|apply K; auto|apply K; auto]).
  apply split_sep in E as [?%isize_inj E]; [|apply K; auto|apply K; auto]. now subst.
Qed.
Lemma text_pieces n r s1 s2 x : 1 <= n -> given n r s1 s2 -> equation_text r s1 s2 x ->
  exists t1 r1 t2 r2 l eqs, best_two r = ((t1, r1), (t2, r2)) /\ generate_equations s1 t1 s2 t2 QuaternionType r = Some (line_break :: eqs) /\ rowsum_line r l /\
    pieces line_break x = (chars "* " ++ [tag_letter t1] ++ chars ": " ++ map sign_char s1) ::
      (chars "* " ++ [tag_letter t2] ++ chars ": " ++ map sign_char s2) :: l :: pieces line_break eqs.
Proof.
  intros Hn. unfold given, equation_text. destruct (best_two r) as [[t1 r1] [t2 r2]] eqn:E.
  intros (L1 & P1 & _ & L2 & P2 & _) (l & eqs & Hl & G & ->). destruct (best_missing _ _ _ _ _ E) as (u1 & u2 & Hm).
  destruct (equations_start n s1 s2 t1 t2 u1 u2 r Hn L1 L2 P1 P2 Hm) as (e & G'). rewrite G' in G. injection G as <-.
  exists t1, r1, t2, r2, l, e. do 3 (split; auto).
  assert (Q : forall t s, Forall (fun c => c <> line_break) (chars "* " ++ [tag_letter t] ++ chars ": " ++ map sign_char s)).
  { intros t s. repeat (apply Forall_app; split); try apply signs_plain; destruct t; repeat constructor; discriminate. }
  match goal with |- pieces _ ?y = _ => replace y with
    ((chars "* " ++ [tag_letter t1] ++ chars ": " ++ map sign_char s1) ++ line_break ::
     ((chars "* " ++ [tag_letter t2] ++ chars ": " ++ map sign_char s2) ++ line_break :: (l ++ line_break :: e))) end.
  2: { rewrite <- !app_assoc. reflexivity. }
  rewrite !pieces_sep; auto. now apply (rowsum_line_plain r).
Qed.
Lemma text_read n r s1 s2 x : 1 <= n -> given n r s1 s2 -> equation_text r s1 s2 x ->
  exists t1 r1 t2 r2 eqs, best_two r = ((t1, r1), (t2, r2)) /\ generate_equations s1 t1 s2 t2 QuaternionType r = Some eqs /\ read_opb x = read_opb eqs.
Proof.
  intros Hn G T. destruct (text_pieces n r s1 s2 x Hn G T) as (t1 & r1 & t2 & r2 & l & eqs & E & Ee & Hl & P).
  exists t1, r1, t2, r2, (line_break :: eqs). do 2 (split; auto). unfold read_opb. rewrite P.
  destruct (rowsum_line_plain r l Hl) as [_ (l' & ->)].
  change (line_break :: eqs) with ([] ++ line_break :: eqs). rewrite pieces_sep by constructor. reflexivity.
Qed.

(* ---- no solution is lost to the files that are there ---- *)

Lemma find_equations_complete : forall p q tree, 1 <= p -> (Z.of_nat p < 2 ^ 62)%Z -> pm_quad p q -> is_QT q ->
  normal_rowsums QuaternionType (totals q) -> exists fuel0, forall fuel, fuel0 <= fuel ->
  exists tree' rows, find_equations fuel p QuaternionType tree = Some tree' /\ generate_rowsums fuel p QuaternionType = Some rows /\
    In (totals q) rows /\
    (not_overwritten rows (totals q) ->
     exists d k f x t1 t2 u1 u2 C N R A, equation_dir (totals q) d /\ equation_file k f /\ file_at tree' d f = Some x /\
       equation_text (totals q) (sequence q t1) (sequence q t2) x /\
       best_positions (totals q) = (t1, t2) /\ missing t1 t2 = Some (u1, u2) /\
       read_opb x = Some (C ++ N ++ R ++ A) /\ length N = p - 1 /\ length R = 2 /\ length A = p - 1 /\
       forall v, encodes p (sequence q u1) (sequence q u2) v -> Forall (holds v) C /\ Forall (holds v) R).
Proof.
  intros p q tree Hp Hb Pq Tq Nq. destruct (find_equations_spec p tree Hp Hb) as (fuel0 & F).
  exists (Nat.max fuel0 (rowsums_fuel p)). intros fuel Hf. destruct (F fuel ltac:(lia)) as (tree' & rows & E & Er & A & _ & _).
  exists tree', rows. do 2 (split; auto).
  destruct (generate_rowsums_fuel p QuaternionType fuel ltac:(lia)) as (rows' & Er' & _ & H).
  rewrite Er in Er'. injection Er' as <-. split.
  { apply H. split; auto. apply complementary_rowsums; auto. apply Tq. }
  intros Hr. destruct (A _ Hr) as (d & pairs & Hd & _ & P & L).
  destruct (best_positions (totals q)) as [t1 t2] eqn:Ep.
  assert (Eb : best_two (totals q) = ((t1, of_tag (totals q) t1), (t2, of_tag (totals q) t2))) by (unfold best_two; now rewrite Ep).
  assert (Ht : forall t, total (sequence q t) = of_tag (totals q) t) by (intros []; reflexivity).
  assert (G : forall t, length (sequence q t) = p /\ pm1 (sequence q t)).
  { destruct Pq as ((H0 & H1 & H2 & H3 & H4) & H5 & H6 & H7 & H8). intros []; cbn; auto. }
  assert (Gv : given p (totals q) (sequence q t1) (sequence q t2)).
  { unfold given. rewrite Eb. destruct (G t1), (G t2). auto 8. }
  apply P in Gv as Hin. apply In_nth_error in Hin as (k & Hk). destruct (L k _ _ Hk) as (f & x & Hfile & Ex & Tx).
  destruct (text_read p _ _ _ x Hp Gv Tx) as (t1' & r1 & t2' & r2 & eqs & Eb' & Ee & Rd). rewrite Eb in Eb'. injection Eb' as <- _ <- _.
  destruct (best_missing _ _ _ _ _ Eb) as (u1 & u2 & Hm).
  destruct (G t1) as [L1 P1]. destruct (G t2) as [L2 P2].
  destruct (system_linear p (sequence q t1) (sequence q t2) t1 t2 u1 u2 (totals q) Hp L1 L2 P1 P2 Hm) as (txt & C & N & R & AA & Et & Ro & LN & LR & LA & M).
  rewrite Ee in Et. injection Et as <-.
  exists d, k, f, x, t1, t2, u1, u2, C, N, R, AA. do 6 (split; auto). split; [now rewrite Rd|]. do 3 (split; auto).
  intros v Hv. destruct (solutions_linear p q t1 t2 u1 u2 (totals q) v Hp Pq Tq Hm (Ht u1) (Ht u2) Hv) as (txt' & C' & N' & R' & A' & Et' & Ro' & LN' & LR' & LA' & HC & HR).
  rewrite Ee in Et'. injection Et' as <-. rewrite Ro in Ro'. injection Ro' as Eq.
  assert (C = C' /\ R = R') as [-> ->]; [|auto].
  assert (LC : length C = length C').
  { apply (f_equal (@length _)) in Eq. rewrite !app_length in Eq. lia. }
  apply app_eq_app in Eq as (l & [[-> Eq]|[-> Eq]]); rewrite app_length in LC; (destruct l; [|cbn in LC; lia]); cbn in Eq;
  rewrite app_nil_r in *; split; auto;
  apply app_eq_app in Eq as (l & [[E1 Eq]|[E1 Eq]]); subst; rewrite app_length in *; (destruct l; [|cbn in *; lia]); cbn in Eq;
  apply app_eq_app in Eq as (l & [[E1 Eq]|[E1 Eq]]); subst; rewrite ?app_length in *; (destruct l; [|cbn in *; lia]); rewrite ?app_nil_r; auto.
Qed.

(* ---- row sums whose files are overwritten ---- *)

Definition rows45 : list (Z * Z * Z * Z) :=
  ([(1, 1, 3, 13); (1, 3, 7, 11); (1, 3, 7, -11); (1, 7, 7, 9); (3, 3, 9, 9); (3, 5, 5, 11); (5, 5, 7, 9)])%Z.
Lemma rows45_ok : generate_rowsums (300 * 300) 45 QuaternionType = Some rows45.
Proof. vm_compute. reflexivity. Qed.
Lemma equations_lost : exists p r, feasible p r /\ normal_rowsums QuaternionType r /\
  exists fuel0, forall fuel, fuel0 <= fuel -> exists tree', find_equations fuel p QuaternionType [] = Some tree' /\
    forall d f x l, file_at tree' d f = Some x -> rowsum_line r l -> nth_error (pieces line_break x) 2 <> Some l.
Proof.
  exists 45, (1, 7, 7, 9)%Z. split; [repeat split|]. split; [repeat split; try lia; discriminate|].
  destruct (find_equations_spec 45 [] ltac:(lia) ltac:(reflexivity)) as (fuel0 & F).
  exists (Nat.max fuel0 (300 * 300)). intros fuel Hf. destruct (F fuel ltac:(lia)) as (tree' & rows & E & Er & _ & B & _).
  exists tree'. split; auto. rewrite (generate_rowsums_mono (300 * 300) fuel 45 _ rows45) in Er; [|lia|exact rows45_ok]. injection Er as <-.
  intros d f x l Hx Hl Hn. destruct (B d f x Hx) as [H|(r & k & s1 & s2 & Hr & _ & _ & G & T)]; [discriminate|].
  destruct (text_pieces 45 r s1 s2 x ltac:(lia) G T) as (t1 & r1 & t2 & r2 & l' & eqs & _ & _ & Hl' & P).
  rewrite P in Hn. cbn in Hn. injection Hn as ->. assert (r = (1, 7, 7, 9)%Z) as -> by (eapply rowsum_line_inj; eauto).
  destruct Hr as (before & after & Eq & Ha). unfold rows45 in Eq.
  do 3 (destruct before as [|? before]; [discriminate|injection Eq as _ Eq]). destruct before as [|? before].
  - injection Eq as <-. apply (Ha (5, 5, 7, 9)%Z); [cbn; tauto|reflexivity].
  - injection Eq as _ Eq. do 3 (destruct before as [|? before]; [discriminate|injection Eq as _ Eq]). destruct before; discriminate.
Qed.

(* ---- get_two_best on any four numbers ---- *)

Lemma two_best_any : forall r, (forall i x, entry4 r i = Some x -> - 2 ^ 63 <= x)%Z ->
  exists v1 i v2 j, get_two_best r = ((v1, i), (v2, j)) /\ i < j <= 3 /\ entry4 r i = Some v1 /\ entry4 r j = Some v2 /\
    forall k x, entry4 r k = Some x -> k <> i -> k <> j -> (x <= v1 /\ x <= v2)%Z.
Proof.
  intros [[[a b] c] d] H. pose proof (H 0 _ eq_refl) as Ha. pose proof (H 1 _ eq_refl) as Hb. pose proof (H 2 _ eq_refl) as Hc. pose proof (H 3 _ eq_refl) as Hd. clear H.
  fold MIN in *. unfold get_two_best. set (m := MIN) in *. clearbody m. cbn [fst snd].
  repeat (match goal with
    | |- context [Z.ltb ?x ?y] => is_var x; is_var y; destruct (Z.ltb_spec x y)
    | |- context [Z.leb ?x ?y] => is_var x; is_var y; destruct (Z.leb_spec x y)
    end; cbn [fst snd Nat.eqb negb andb Nat.ltb Nat.leb]; try lia);
  (do 4 eexists; split; [reflexivity|]; split; [lia|]; split; [reflexivity|]; split; [reflexivity|];
   intros [|[|[|[|k]]]] x; cbn; intros E; try discriminate; try injection E as <-; try (destruct k; discriminate); lia).
Qed.
