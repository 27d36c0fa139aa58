(* driver.sh as a whole for the three types. *)
From Coq Require Import Ascii String List ZArith Lia Arith Bool Reals Permutation Relations.
From Verif Require Import Base BaseFacts Sums Quat ModelSequence ModelWilliamson ModelEquivalence SpecEquiv OpFacts EquivFacts TypeFacts
  OrderFacts EquivThms CanonFacts ReduceFacts QtWt Convert ModelMatrices SpecMatrix SpecPrint MatFacts QhmFacts PrintFacts HmFacts ModelGraph SpecGraph GraphThms HadEquiv
  ModelRowsum ModelMatching ModelWrite TextFacts WriteFacts SearchThms ExtendFacts FindQuadFacts DriverFacts ModelMain SpecMain MainFacts ArgFacts MainThms RepSymm SeqFacts SpecSearch Spec.
Import ListNotations.
Open Scope nat_scope.
Notation length := List.length.

Lemma small_length n : n <= 31 -> (Z.of_nat n < 2 ^ 64)%Z.
Proof. intros H. assert (Z.of_nat n <= 31)%Z by lia. assert (2 ^ 64 = 18446744073709551616)%Z by reflexivity. lia. Qed.

Lemma amicable_total n r : 1 <= n -> (forall x, In x r -> pm_quad n x) -> exists am, traverse is_amicable r = Some am.
Proof.
  intros Hn. induction r as [|q r IH]; intros H; [exists []; reflexivity|].
  destruct (is_amicable_spec n q (H q (or_introl eq_refl)) Hn) as (b & E & _). destruct IH as (am & Ea); [intros; apply H; now right|].
  exists (b :: am). cbn [traverse]. now rewrite E, Ea.
Qed.
Theorem driver_sh_QT {L} (e : Env L) n y m pr h w : 1 <= n <= 31 -> env_ok e -> canonical_numeral y n ->
  pl_dirs (place_of w (type_word QuaternionType) y) = [] -> (exists q, pm_quad n q /\ is_QT q) ->
  exists fuel0, forall fuel, fuel0 <= fuel -> exists w' pl r equ,
    driver_sh fuel e (type_word QuaternionType) y (match_word m) pr h w = w' /\
    only w w' (type_word QuaternionType) y /\ w' (type_word QuaternionType) y = Some pl /\
    one_per_class n QuaternionType r /\ lists_quads (pl_seq pl) (pl_qseq pl) r /\
    one_matrix_per_class n QuaternionType equ /\ (if h then lists_matrices (pl_mat pl) equ else pl_mat pl = pl_mat (place_of w (type_word QuaternionType) y)) /\
    lists_qhms n (pl_qhm pl) r.
Proof.
  intros Hn (Ho & Hls & Hc & Hp) Hy Hd (q & P & T). assert (H64 := small_length n (proj2 Hn)).
  destruct (search_classes n QuaternionType m (str_to_rowsum_pairing pr) (e_ls e) (e_ord e) Hn (or_introl eq_refl) Hls Ho) as (f0 & H).
  { exists q. split; auto. apply (verify_type n); auto; lia. }
  exists f0. intros fuel Hf. destruct (H fuel (0 :: e_path e) Hf) as (f & c & r & Ew & Ej & Nd & A & B).
  assert (OC : one_per_class n QuaternionType r) by (apply one_per_class_intro; auto; lia).
  destruct (seq_lines_spec n r) as (out & Eo & Fo); [intros x Hx; now apply A|].
  assert (Eq : qseq_text r = Some (stacked (map quad_text r))) by (apply (qseq_text_spec n); intros x Hx; now apply A).
  destruct (driver_start fuel e n QuaternionType y m pr h w H64 Hy Hd f c Ew) as (w2 & O2 & W2 & Ed).
  set (pl0 := place_of w (type_word QuaternionType) y) in *.
  destruct (stage_join fuel e n QuaternionType y H64 Hy w2 (set_dirs pl0 (sortpairs f)) (set_seq (set_dirs pl0 (sortpairs f)) out (stacked (map quad_text r))) W2) as [W3 O3].
  { unfold find_write_place. cbn [set_dirs pl_dirs]. rewrite Ej. cbn [bind]. destruct (amicable_total n r ltac:(lia)) as (am & Ea); [intros x Hx; now apply A|]. rewrite Ea. cbn [bind]. rewrite Eo. cbn [bind]. rewrite Eq. reflexivity. }
  destruct (matrices_spec (e_canon e) (e_same e) (e_hms e) n QuaternionType r out Hc Hp ltac:(lia) (or_introl eq_refl) OC Fo) as (equ & Ee & OM).
  destruct (qhms_spec n r out ltac:(lia)) as (k & s & Es & LQ); auto.
  { intros x Hx. destruct OC as (_ & O & _). destruct (O x Hx) as (? & ? & _). auto. }
  cbv zeta in Ed. set (w3 := run_on fuel e [lit "join"; type_word QuaternionType; y] w2) in *.
  destruct h.
  - destruct (stage_hm fuel e n QuaternionType y H64 Hy w3 _ out _ _ W3 eq_refl Ee) as [W4 O4].
    destruct (stage_qhm fuel e n QuaternionType y H64 Hy _ _ out k s W4 eq_refl Es) as [W5 O5].
    eexists _, _, r, equ. split; [exact Ed|]. split; [|split; [exact W5|]].
    { eapply only_trans; [exact O2|]. eapply only_trans; [exact O3|]. eapply only_trans; [exact O4|exact O5]. }
    split; auto. split; [exists out; auto|]. split; [exact OM|]. split; [reflexivity|exact LQ].
  - destruct (stage_qhm fuel e n QuaternionType y H64 Hy _ _ out k s W3 eq_refl Es) as [W5 O5].
    eexists _, _, r, equ. split; [exact Ed|]. split; [|split; [exact W5|]].
    { eapply only_trans; [exact O2|]. eapply only_trans; [exact O3|exact O5]. }
    split; auto. split; [exists out; auto|]. split; [exact OM|]. split; [reflexivity|exact LQ].
Qed.

Theorem driver_sh_WT {L} (e : Env L) n y m pr h w : 1 <= n <= 31 -> env_ok e -> canonical_numeral y n ->
  pl_dirs (place_of w (type_word WilliamsonType) y) = [] -> (exists q, pm_quad n q /\ is_WT q) ->
  exists fuel0, forall fuel, fuel0 <= fuel -> exists w' pl r r' equ,
    driver_sh fuel e (type_word WilliamsonType) y (match_word m) pr h w = w' /\
    only w w' (type_word WilliamsonType) y /\ w' (type_word WilliamsonType) y = Some pl /\
    one_per_class n WilliamsonType r /\ lists_quads (pl_seq pl) (pl_qseq pl) r /\
    one_per_class n QuaternionType r' /\ lists_quads (pl_qts pl) (pl_qts_q pl) r' /\
    one_matrix_per_class n WilliamsonType equ /\ (if h then lists_matrices (pl_mat pl) equ else pl_mat pl = pl_mat (place_of w (type_word WilliamsonType) y)) /\
    lists_qhms n (pl_qhm pl) r.
Proof.
  intros Hn (Ho & Hls & Hc & Hp) Hy Hd (q & P & T). assert (H64 := small_length n (proj2 Hn)). assert (Hn1 : 1 <= n) by lia.
  destruct (search_classes n WilliamsonType m (str_to_rowsum_pairing pr) (e_ls e) (e_ord e) Hn (or_intror eq_refl) Hls Ho) as (f0 & H).
  { exists q. split; auto. now apply (verify_type n). }
  exists (max f0 (class_fuel n)). intros fuel Hf.
  destruct (H fuel (0 :: e_path e) ltac:(lia)) as (f & c & r & Ew & Ej & Nd & A & B).
  assert (OC : one_per_class n WilliamsonType r) by (apply one_per_class_intro; auto; lia).
  destruct (seq_lines_spec n r) as (out & Eo & Fo); [intros x Hx; now apply A|].
  assert (Eq : qseq_text r = Some (stacked (map quad_text r))) by (apply (qseq_text_spec n); intros x Hx; now apply A).
  assert (Hne : r <> []).
  { intros ->. destruct (B q P) as (x & [] & _). now apply (verify_type n). }
  destruct (wts_to_qts_at n (e_ord e) r Ho Hn Hne) as (l' & El & R).
  { apply Forall_forall. intros x Hx. destruct (A x Hx) as (? & ? & _). auto. }
  { intros z Pz Vz. destruct (B z Pz Vz) as (x & I & Rx & _). eauto. }
  destruct (R fuel (1 :: e_path e) ltac:(lia)) as (r' & Er' & Nd' & A' & B').
  assert (OC' : one_per_class n QuaternionType r') by (apply one_per_class_intro; auto; lia).
  destruct (seq_lines_spec n r') as (out' & Eo' & Fo'); [intros x Hx; now apply A'|].
  assert (Eq' : qseq_text r' = Some (stacked (map quad_text r'))) by (apply (qseq_text_spec n); intros x Hx; now apply A').
  destruct (driver_start fuel e n WilliamsonType y m pr h w H64 Hy Hd f c Ew) as (w2 & O2 & W2 & Ed).
  set (pl0 := place_of w (type_word WilliamsonType) y) in *.
  destruct (stage_join fuel e n WilliamsonType y H64 Hy w2 (set_dirs pl0 (sortpairs f))
    (set_qts (set_seq (set_dirs pl0 (sortpairs f)) out (stacked (map quad_text r))) out' (stacked (map quad_text r'))) W2) as [W3 O3].
  { unfold find_write_place. cbn [set_dirs pl_dirs]. rewrite Ej. cbn [bind]. rewrite Eo. cbn [bind]. rewrite Eq. cbn [bind].
    rewrite El. cbn [bind]. rewrite Er'. cbn [bind]. rewrite Eo'. cbn [bind]. rewrite Eq'. reflexivity. }
  destruct (matrices_spec (e_canon e) (e_same e) (e_hms e) n WilliamsonType r' out' Hc Hp Hn1 (or_intror eq_refl) OC' Fo') as (equ & Ee & OM).
  destruct (qhms_spec n r out Hn1) as (k & s & Es & LQ); auto.
  { intros x Hx. destruct OC as (_ & O & _). destruct (O x Hx) as (? & ? & _). split; auto. now apply (QT_iff_WT n). }
  cbv zeta in Ed. set (w3 := run_on fuel e [lit "join"; type_word WilliamsonType; y] w2) in *.
  destruct h.
  - destruct (stage_hm fuel e n WilliamsonType y H64 Hy w3 _ out' _ _ W3 eq_refl Ee) as [W4 O4].
    destruct (stage_qhm fuel e n WilliamsonType y H64 Hy _ _ out k s W4 eq_refl Es) as [W5 O5].
    eexists _, _, r, r', equ. split; [exact Ed|]. split; [|split; [exact W5|]].
    { eapply only_trans; [exact O2|]. eapply only_trans; [exact O3|]. eapply only_trans; [exact O4|exact O5]. }
    split; auto. split; [exists out; auto|]. split; auto. split; [exists out'; auto|]. split; [exact OM|]. split; [reflexivity|exact LQ].
  - destruct (stage_qhm fuel e n WilliamsonType y H64 Hy _ _ out k s W3 eq_refl Es) as [W5 O5].
    eexists _, _, r, r', equ. split; [exact Ed|]. split; [|split; [exact W5|]].
    { eapply only_trans; [exact O2|]. eapply only_trans; [exact O3|exact O5]. }
    split; auto. split; [exists out; auto|]. split; auto. split; [exists out'; auto|]. split; [exact OM|]. split; [reflexivity|exact LQ].
Qed.

(* ---- Williamson sequences ---- *)
Lemma lines_read n r lines : Forall (pm_quad n) r -> Forall2 line_of_quad r lines ->
  exists seqs, traverse QS_from_str lines = Some seqs /\ traverse from_pqs seqs = Some r /\
    traverse (fun line => let* pqs := QS_from_str line in from_pqs pqs) lines = Some r.
Proof.
  intros P F. induction F as [|q line r lines Hl F IH]; [exists []; auto|]. inversion P; subst.
  destruct IH as (seqs & E1 & E2 & E3); auto. destruct (line_reads n q line) as (s & _ & A & B & _); auto.
  exists (s :: seqs). cbn [traverse]. rewrite A. cbn [bind]. rewrite E1, B. cbn [bind]. rewrite E2, E3. auto.
Qed.
Lemma from_file_rejects {L} (canon : Graph -> L) same ord n r lines t : 1 <= n -> Forall (pm_quad n) r -> Forall2 line_of_quad r lines ->
  (exists q, In q r /\ ~ is_type t q) -> hadamard_equivalence_from_file canon same ord lines t = None.
Proof.
  intros Hn P F (q & Hq & T). destruct (lines_read n r lines P F) as (seqs & E1 & E2 & _).
  unfold hadamard_equivalence_from_file. rewrite E1. cbn [bind]. rewrite E2. cbn [bind].
  assert (E : all_m (fun q => verify q t) r = Some false); [|now rewrite E].
  clear -Hn P Hq T. induction r as [|x r IH]; [destruct Hq|]. inversion P; subst. cbn [all_m].
  destruct (verify_spec n x t H1 Hn) as (b & -> & Hb). cbn [bind]. destruct b; auto.
  apply IH; auto. destruct Hq as [->|Hq]; auto. destruct T. now apply Hb.
Qed.

Theorem driver_sh_W {L} (e : Env L) n y m pr h w : 1 <= n <= 31 -> env_ok e -> canonical_numeral y n ->
  pl_dirs (place_of w (type_word Williamson) y) = [] -> (exists q, pm_quad n q /\ is_W q) ->
  exists fuel0, forall fuel, fuel0 <= fuel -> exists w' pl r,
    driver_sh fuel e (type_word Williamson) y (match_word m) pr h w = w' /\
    only w w' (type_word Williamson) y /\ w' (type_word Williamson) y = Some pl /\
    one_per_class_W n r /\ lists_quads (pl_seq pl) (pl_qseq pl) r /\ lists_qhms n (pl_qhm pl) r /\
    (3 <= n -> (forall x, In x r -> ~ is_W x) /\ pl_mat pl = pl_mat (place_of w (type_word Williamson) y)).
Proof.
  intros Hn (Ho & Hls & Hc & Hp) Hy Hd (q & P & T). assert (H64 := small_length n (proj2 Hn)). assert (Hn1 : 1 <= n) by lia.
  destruct (search_classes_W n m (str_to_rowsum_pairing pr) (e_ls e) (e_ord e) Hn Hls Ho) as (f0 & H).
  { exists q. split; auto. now apply (verify_type n). }
  exists f0. intros fuel Hf. destruct (H fuel (0 :: e_path e) Hf) as (f & c & r & Ew & Ej & Nd & A & B).
  assert (OC : one_per_class_W n r).
  { split; auto. split.
    + intros x Hx. destruct (A x Hx) as (z & Pz & Vz & Rz). exists z. split; auto. split; auto. now apply (verify_type n).
    + intros z Pz Tz. destruct (B z Pz) as (x & I & Rx & U & W); [now apply (verify_type n)|].
      exists x. split; auto. split; auto. split; auto. intros q' P' T'. apply W; auto. now apply (verify_type n). }
  assert (VT : forall x, In x r -> pm_quad n x /\ is_WT x).
  { intros x Hx. destruct (A x Hx) as (z & Pz & Vz & Rz & _). apply (W_WT_verify n) in Vz; auto.
    assert (G := reach_type n WilliamsonType z x Pz Hn1 Rz). destruct G as [G1 G2]; [now apply (verify_type n)|]. split; auto. }
  assert (Pr : Forall (pm_quad n) r) by (apply Forall_forall; intros x Hx; now apply VT).
  destruct (seq_lines_spec n r) as (out & Eo & Fo); [intros x Hx; now apply VT|].
  assert (Eq : qseq_text r = Some (stacked (map quad_text r))) by (apply (qseq_text_spec n); intros x Hx; now apply VT).
  assert (NS : 3 <= n -> forall x, In x r -> ~ is_W x).
  { intros H3 x Hx. destruct (VT x Hx) as [Px [Cx _]]. apply (least_not_symmetric n); auto.
    destruct (A x Hx) as (z & Pz & Vz & Rz & Min). intros z' R'. apply Min. now apply rt_trans with x. }
  destruct (driver_start fuel e n Williamson y m pr h w H64 Hy Hd f c Ew) as (w2 & O2 & W2 & Ed).
  set (pl0 := place_of w (type_word Williamson) y) in *.
  destruct (stage_join fuel e n Williamson y H64 Hy w2 (set_dirs pl0 (sortpairs f)) (set_seq (set_dirs pl0 (sortpairs f)) out (stacked (map quad_text r))) W2) as [W3 O3].
  { unfold find_write_place. cbn [set_dirs pl_dirs]. rewrite Ej. cbn [bind]. rewrite Eo. cbn [bind]. rewrite Eq. reflexivity. }
  destruct (qhms_spec n r out Hn1) as (k & s & Es & LQ); auto.
  { intros x Hx. destruct (VT x Hx). split; auto. now apply (QT_iff_WT n). }
  cbv zeta in Ed. set (w3 := run_on fuel e [lit "join"; type_word Williamson; y] w2) in *.
  assert (H4 : exists w4 pl4, (if h then run_on fuel e [lit "convert"; lit "hm"; type_word Williamson; y] w3 else w3) = w4 /\ only w3 w4 (type_word Williamson) y /\
    w4 (type_word Williamson) y = Some pl4 /\ pl_seq pl4 = Some out /\ pl_qseq pl4 = Some (stacked (map quad_text r)) /\ (3 <= n -> pl_mat pl4 = pl_mat pl0)).
  { destruct h.
    2:{ exists w3, (set_seq (set_dirs pl0 (sortpairs f)) out (stacked (map quad_text r))). split; auto. split; [apply only_refl|]. auto 10. }
    destruct (hadamard_equivalence_from_file (e_canon e) (e_same e) (e_hms e) out Williamson) as [[k0 s0]|] eqn:Eh.
    - destruct (stage_hm fuel e n Williamson y H64 Hy w3 _ out _ _ W3 eq_refl Eh) as [W4 O4].
      eexists _, _. split; [reflexivity|]. split; [exact O4|]. split; [exact W4|]. split; [reflexivity|]. split; [reflexivity|].
      intros H3. exfalso. rewrite (from_file_rejects _ _ _ n r out Williamson Hn1 Pr Fo) in Eh; [discriminate|].
      destruct (B q P) as (x & Hx & _); [now apply (verify_type n)|]. exists x. split; [auto|now apply NS].
    - rewrite (stage_hm_panics fuel e n Williamson y H64 Hy w3 _ out W3 eq_refl Eh).
      eexists _, _. split; [reflexivity|]. split; [apply only_refl|]. split; [exact W3|]. auto. }
  destruct H4 as (w4 & pl4 & E4 & O4 & W4 & S4 & Q4 & M4). rewrite E4 in Ed.
  destruct (stage_qhm fuel e n Williamson y H64 Hy _ _ out k s W4 S4 Es) as [W5 O5].
  eexists _, _, r. split; [exact Ed|]. split; [|split; [exact W5|]].
  { eapply only_trans; [exact O2|]. eapply only_trans; [exact O3|]. eapply only_trans; [exact O4|exact O5]. }
  split; auto. split; [exists out; cbn [set_qhm pl_seq pl_qseq]; auto|]. split; [exact LQ|]. intros H3. split; [auto|]. exact (M4 H3).
Qed.

(* ---- qhm-all ---- *)
Lemma type_QT n t q : pm_quad n q -> is_type t q -> is_QT q.
Proof. intros P T. destruct t; try contradiction; auto; apply WT_QT; auto. apply (W_WT n); auto. apply P. Qed.
Theorem qhm_all_spec n ord t r lines : 1 <= n <= 100 -> ord_ok ord ->
  Forall (fun q => pm_quad n q /\ is_type t q) r -> Forall2 line_of_quad r lines ->
  exists fuel0, forall fuel p, fuel0 <= fuel -> exists members ds txts,
    NoDup members /\ (forall y, In y members <-> exists x, In x r /\ reach (type_ops t) x y) /\
    Forall2 (normal_qhm n) members ds /\ Forall2 (fun d s => QHM_to_string d = Some s) ds txts /\
    qhm_write_all fuel ord p t lines = Some (stacked (map (fun s => s ++ [newline]) txts)).
Proof.
  intros Hn Ho P F. assert (Hn1 : 1 <= n) by lia.
  assert (P1 : Forall (pm_quad n) r) by (eapply Forall_impl; [|exact P]; cbn; tauto).
  destruct (lines_read n r lines P1 F) as (seqs & _ & _ & E).
  destruct (equivalent_quad_seqs_spec n ord t r Ho) as (f0 & H); [eapply Forall_impl; [|exact P1]; intros; now apply pm_i8|lia|].
  exists f0. intros fuel p Hf. destruct (H fuel p Hf) as (members & Em & Nd & M).
  assert (Q : Forall (fun q => pm_quad n q /\ is_QT q) members).
  { apply Forall_forall. intros y Hy. apply M in Hy as (x & Hx & R). apply (proj1 (Forall_forall _ _) P) in Hx as [Px Tx].
    destruct (reach_type n t x y Px Hn1 R Tx) as [Py Ty]. split; auto. now apply (type_QT n t). }
  assert (G : exists ds txts, Forall2 (normal_qhm n) members ds /\ Forall2 (fun d s => QHM_to_string d = Some s) ds txts /\
    forall s, fold_m (fun s seq => let* pqs := to_qs seq in let* qhm := QHM_from_pqs pqs in let* qhm := QHM_dephased qhm in
      let* r := QHM_to_string qhm in Some (s ++ r ++ nl1 ++ nl1)) members s = Some (s ++ stacked (map (fun s => s ++ [newline]) txts))).
  { clear M Em Nd. induction Q as [|q members [Pq Tq] Q IH].
    { exists [], []. split; [constructor|]. split; [constructor|]. intros s. cbn. now rewrite app_nil_r. }
    destruct IH as (ds & txts & F1 & F2 & F3). destruct (quad_text_total n q Pq) as (v & line & E1 & E2).
    destruct (line_reads n q line Pq) as (s & Es & _ & _ & Sz & Ln & F24); [now exists v|].
    destruct (qhm_of_quad n q s Pq Hn1 Tq Es Sz Ln F24) as (h & d & txt & Eh & _ & Ed & N & Et).
    exists (d :: ds), (txt :: txts). split; [constructor; auto|]. split; [constructor; auto|]. intros z. cbn [fold_m]. rewrite Es. cbn [bind]. rewrite Eh. cbn [bind].
    rewrite Ed. cbn [bind]. rewrite Et. cbn [bind]. rewrite F3. cbn [map]. rewrite stacked_cons, <- !app_assoc. reflexivity. }
  destruct G as (ds & txts & F1 & F2 & F3). exists members, ds, txts. split; auto. split; auto. split; auto. split; auto.
  unfold qhm_write_all. rewrite E. cbn [bind].
  assert (T : exists l, traverse QuadSeq_to_string r = Some l).
  { clear -P1. induction P1 as [|q r Hq P1 [l E]]; [now exists []|]. cbn [traverse]. rewrite (quad_to_text n q Hq). cbn [bind]. rewrite E. now eexists. }
  destruct T as (l & El). rewrite El. cbn [bind]. rewrite Em. cbn [bind]. exact (F3 []).
Qed.

(* ---- amicable ---- *)
Theorem amicable_spec n r lines : 1 <= n -> Forall (pm_quad n) r -> Forall2 line_of_quad r lines ->
  (verify_qts_eq_wts lines = Some tt <-> Forall is_QT r).
Proof.
  intros Hn P F. destruct (lines_read n r lines P F) as (seqs & E1 & E2 & _). unfold verify_qts_eq_wts. rewrite E1. cbn [bind]. rewrite E2. cbn [bind].
  clear E1 E2 F. induction P as [|q r Hq P IH]; [split; auto|]. cbn [fold_m].
  destruct (verify_spec n q QuaternionType Hq Hn) as (b & Eb & Hb). cbn [verify is_type] in Eb, Hb. rewrite Eb. cbn [bind].
  destruct b; cbn [guard bind].
  - assert (T : is_QT q) by now apply Hb. destruct (is_amicable_spec n q Hq Hn) as (c & Ec & Hc). rewrite Ec. cbn [bind].
    assert (c = true) as -> by (apply Hc; apply (QT_iff_WT n q Hq Hn); auto). cbn [guard bind]. rewrite IH. split; [intros; constructor; auto|now inversion 1].
  - split; [discriminate|]. inversion 1; subst. assert (false = true) by now apply Hb. discriminate.
Qed.

(* ---- the flags ---- *)
Lemma cleanup_dirs x y w : pl_dirs (place_of (cleanup x y w) x y) = [].
Proof. unfold cleanup, place_of. destruct (w x y) as [pl|] eqn:E; [now rewrite write_same|now rewrite E]. Qed.
Lemma cleanup_only x y w : only w (cleanup x y w) x y.
Proof. unfold cleanup. destruct (w x y); [apply write_only|apply only_refl]. Qed.
Lemma cleanup_place x y w : place_of (cleanup x y w) x y = set_dirs (place_of w x y) [].
Proof. unfold cleanup, place_of. destruct (w x y) as [pl|] eqn:E; [now rewrite write_same|now rewrite E]. Qed.
Lemma flags_start (x y : text) (d : bool) w : d = true \/ pl_dirs (place_of w x y) = [] ->
  let w1 := if d then cleanup x y w else w in
  only w w1 x y /\ pl_dirs (place_of w1 x y) = [] /\ pl_mat (place_of w1 x y) = pl_mat (place_of w x y).
Proof.
  cbv zeta. destruct d; intros H.
  - split; [apply cleanup_only|]. split; [apply cleanup_dirs|]. now rewrite cleanup_place.
  - destruct H as [H|H]; [discriminate|]. split; [apply only_refl|auto].
Qed.
Lemma match_flag (c : bool) : (if c then lit "correlation" else lit "psd") = match_word (if c then CORRELATION else PSD).
Proof. now destruct c. Qed.

Theorem flags_QT {L} (e : Env L) n y c pr h d w : 1 <= n <= 31 -> env_ok e -> canonical_numeral y n ->
  d = true \/ pl_dirs (place_of w (chars "qts") y) = [] -> (exists q, pm_quad n q /\ is_QT q) ->
  exists fuel0, forall fuel, fuel0 <= fuel -> exists w' pl r equ,
    driver_flags fuel e (chars "qts") y c pr h d w = w' /\ only w w' (chars "qts") y /\ w' (chars "qts") y = Some pl /\
    one_per_class n QuaternionType r /\ lists_quads (pl_seq pl) (pl_qseq pl) r /\
    one_matrix_per_class n QuaternionType equ /\ (if h then lists_matrices (pl_mat pl) equ else pl_mat pl = pl_mat (place_of w (chars "qts") y)) /\
    lists_qhms n (pl_qhm pl) r.
Proof.
  intros Hn He Hy Hd Hq. destruct (flags_start _ _ d w Hd) as (O & D & M).
  destruct (driver_sh_QT e n y (if c then CORRELATION else PSD) (match pr with Some r => r | None => lit "WZ" end) h _ Hn He Hy D Hq) as (f0 & H).
  exists f0. intros fuel Hf. destruct (H fuel Hf) as (w' & pl & r & equ & E & O' & W & A & B & C & F & G).
  exists w', pl, r, equ. split; [|split; [eapply only_trans; eauto|]].
  { unfold driver_flags. rewrite match_flag. exact E. }
  split; auto. split; auto. split; auto. split; auto. split; auto. destruct h; auto. now rewrite <- M.
Qed.
Theorem flags_WT {L} (e : Env L) n y c pr h d w : 1 <= n <= 31 -> env_ok e -> canonical_numeral y n ->
  d = true \/ pl_dirs (place_of w (chars "wts") y) = [] -> (exists q, pm_quad n q /\ is_WT q) ->
  exists fuel0, forall fuel, fuel0 <= fuel -> exists w' pl r r' equ,
    driver_flags fuel e (chars "wts") y c pr h d w = w' /\ only w w' (chars "wts") y /\ w' (chars "wts") y = Some pl /\
    one_per_class n WilliamsonType r /\ lists_quads (pl_seq pl) (pl_qseq pl) r /\
    one_per_class n QuaternionType r' /\ lists_quads (pl_qts pl) (pl_qts_q pl) r' /\
    one_matrix_per_class n WilliamsonType equ /\ (if h then lists_matrices (pl_mat pl) equ else pl_mat pl = pl_mat (place_of w (chars "wts") y)) /\
    lists_qhms n (pl_qhm pl) r.
Proof.
  intros Hn He Hy Hd Hq. destruct (flags_start _ _ d w Hd) as (O & D & M).
  destruct (driver_sh_WT e n y (if c then CORRELATION else PSD) (match pr with Some r => r | None => lit "WZ" end) h _ Hn He Hy D Hq) as (f0 & H).
  exists f0. intros fuel Hf. destruct (H fuel Hf) as (w' & pl & r & r' & equ & E & O' & W & A & B & C & C' & F & G & I).
  exists w', pl, r, r', equ. split; [|split; [eapply only_trans; eauto|]].
  { unfold driver_flags. rewrite match_flag. exact E. }
  do 6 (split; auto). destruct h; auto. now rewrite <- M.
Qed.
Theorem flags_W {L} (e : Env L) n y c pr h d w : 1 <= n <= 31 -> env_ok e -> canonical_numeral y n ->
  d = true \/ pl_dirs (place_of w (chars "ws") y) = [] -> (exists q, pm_quad n q /\ is_W q) ->
  exists fuel0, forall fuel, fuel0 <= fuel -> exists w' pl r,
    driver_flags fuel e (chars "ws") y c pr h d w = w' /\ only w w' (chars "ws") y /\ w' (chars "ws") y = Some pl /\
    one_per_class_W n r /\ lists_quads (pl_seq pl) (pl_qseq pl) r /\ lists_qhms n (pl_qhm pl) r /\
    (3 <= n -> (forall x, In x r -> ~ is_W x) /\ pl_mat pl = pl_mat (place_of w (chars "ws") y)).
Proof.
  intros Hn He Hy Hd Hq. destruct (flags_start _ _ d w Hd) as (O & D & M).
  destruct (driver_sh_W e n y (if c then CORRELATION else PSD) (match pr with Some r => r | None => lit "WZ" end) h _ Hn He Hy D Hq) as (f0 & H).
  exists f0. intros fuel Hf. destruct (H fuel Hf) as (w' & pl & r & E & O' & W & A & B & C & F).
  exists w', pl, r. split; [|split; [eapply only_trans; eauto|]].
  { unfold driver_flags. rewrite match_flag. exact E. }
  do 4 (split; auto). intros H3. rewrite <- M. now apply F.
Qed.
(* a directory with results of an earlier run is left alone *)
Theorem flags_refuses {L} fuel (e : Env L) x y c pr h w : pl_dirs (place_of w x y) <> [] -> driver_flags fuel e x y c pr h false w = w.
Proof. intros H. unfold driver_flags, driver_sh. destruct (pl_dirs (place_of w x y)); [congruence|reflexivity]. Qed.

(* ---- numbers with a leading zero ---- *)
Lemma digits_first : forall fuel z, (1 <= z < 2 ^ Z.of_nat fuel)%Z -> forall s, digits fuel z <> "0"%char :: s.
Proof.
  induction fuel as [|k IH]; intros z Hz s; [change (2 ^ Z.of_nat 0)%Z with 1%Z in Hz; lia|]. cbn [digits]. destruct (Z.ltb_spec z 10).
  - assert (z = 1 \/ z = 2 \/ z = 3 \/ z = 4 \/ z = 5 \/ z = 6 \/ z = 7 \/ z = 8 \/ z = 9)%Z as D by lia.
    repeat (destruct D as [->|D]; [discriminate|]). subst z. discriminate.
  - rewrite Nat2Z.inj_succ, Z.pow_succ_r in Hz by lia.
    assert (G : (1 <= z / 10 < 2 ^ Z.of_nat k)%Z) by (split; [apply Z.div_le_lower_bound; lia|apply Z.div_lt_upper_bound; lia]).
    specialize (IH _ G). destruct (digits k (z / 10)) as [|c r] eqn:E.
    + exfalso. destruct k as [|k]; [change (2 ^ Z.of_nat 0)%Z with 1%Z in G; lia|]. cbn [digits] in E.
      destruct (z / 10 <? 10)%Z; [discriminate|]. now apply app_eq_nil in E.
    + cbn [app]. intros F. injection F as -> _. exact (IH r eq_refl).
Qed.
Lemma number_first p c s : (0 <= p)%Z -> usize_to_string p <> "0"%char :: c :: s.
Proof.
  intros Hp. destruct (Z.eq_dec p 0) as [->|N]; [discriminate|]. unfold usize_to_string. apply digits_first. split; [lia|].
  apply log2_fuel. lia.
Qed.
Lemma decimal_nonneg s z : decimal s z -> (0 <= z)%Z.
Proof. induction 1; lia. Qed.
Lemma length_nonneg s z : length_arg s z -> (0 <= z)%Z.
Proof. intros [[H|(r & _ & H)] _]; now apply decimal_nonneg in H. Qed.
Lemma target_nonneg args c t p : command_line args c -> target c = Some (t, p) -> (0 <= p)%Z.
Proof. intros H E. destruct H; cbn in E; try discriminate; injection E as <- <-; eauto using length_nonneg. Qed.
Lemma run_elsewhere {L} fuel (e : Env L) args w x y : (forall p, (0 <= p)%Z -> usize_to_string p <> y) -> run_on fuel e args w x y = w x y.
Proof.
  intros H. unfold run_on, run_main. destruct (parse_args (lit "rust" :: args)) as [c|] eqn:Ep; [|reflexivity]. cbn [bind].
  destruct (exec fuel e c w) as [w'|] eqn:Ee; [|reflexivity]. apply exec_only in Ee. apply parse_args_iff in Ep.
  destruct (target c) as [[t p]|] eqn:Et; [|now subst]. apply Ee. intros E. injection E as _ E. apply (H p); auto. eapply target_nonneg; eauto.
Qed.
Theorem leading_zero {L} fuel (e : Env L) x y ch s c pr h d w : y = "0"%char :: ch :: s -> d = true \/ pl_dirs (place_of w x y) = [] ->
  driver_flags fuel e x y c pr h d w x y = Some (set_dirs (place_of w x y) []).
Proof.
  intros -> Hd. set (y := "0"%char :: ch :: s) in *.
  assert (Hy : forall p, (0 <= p)%Z -> usize_to_string p <> y) by (intros p Hp; now apply number_first).
  unfold driver_flags. destruct (flags_start x y d w Hd) as (O & D & _). set (w1 := if d then cleanup x y w else w) in *.
  assert (P1 : place_of w1 x y = set_dirs (place_of w x y) []).
  { unfold w1. destruct d; [apply cleanup_place|]. destruct Hd as [|Hd]; [discriminate|]. destruct (place_of w x y). cbn in Hd. now subst. }
  unfold driver_sh. rewrite D. cbn [length Nat.eqb negb].
  rewrite run_elsewhere by exact Hy.
  set (m := if c then lit "correlation" else lit "psd"). set (pp := match pr with Some r => r | None => lit "WZ" end).
  set (w2 := match w1 x y with Some _ => w1 | None => write w1 x y new_place end).
  assert (P2 : w2 x y = Some (set_dirs (place_of w x y) [])).
  { rewrite <- P1. unfold w2, place_of. destruct (w1 x y) eqn:E; [exact E|apply write_same]. }
  assert (P3 : sort_place x y (run_on fuel e [lit "pairs"; x; y; m; pp] w2) x y = Some (set_dirs (place_of w x y) [])).
  { unfold sort_place. rewrite run_elsewhere, P2 by exact Hy. now rewrite write_same. }
  destruct h; rewrite !run_elsewhere by exact Hy; exact P3.
Qed.

(* ---- the remaining types ---- *)
Theorem other_types {L} fuel (e : Env L) t y n c pr h d w : t <> QuaternionType -> t <> WilliamsonType -> t <> Williamson ->
  canonical_numeral y n -> (Z.of_nat n < 2 ^ 64)%Z -> d = true \/ pl_dirs (place_of w (type_word t) y) = [] ->
  pl_seq (place_of w (type_word t) y) = None ->
  exists f, driver_flags fuel e (type_word t) y c pr h d w (type_word t) y = Some (set_dirs (place_of w (type_word t) y) f).
Proof.
  intros N1 N2 N3 Hy Hn Hd Hs. unfold driver_flags. set (x := type_word t) in *.
  destruct (flags_start x y d w Hd) as (O & D & _). set (w1 := if d then cleanup x y w else w) in *.
  assert (P1 : place_of w1 x y = set_dirs (place_of w x y) []).
  { unfold w1. destruct d; [apply cleanup_place|]. destruct Hd as [|Hd]; [discriminate|]. destruct (place_of w x y). cbn in Hd. now subst. }
  unfold driver_sh. rewrite D. cbn [length Nat.eqb negb].
  set (w2 := match w1 x y with Some _ => w1 | None => write w1 x y new_place end).
  assert (P2 : w2 x y = Some (set_dirs (place_of w x y) [])).
  { rewrite <- P1. unfold w2, place_of. destruct (w1 x y) eqn:E; [exact E|apply write_same]. }
  set (m := if c then lit "correlation" else lit "psd"). set (pp := match pr with Some r => r | None => lit "WZ" end).
  set (w3 := run_on fuel e [lit "pairs"; x; y; m; pp] w2).
  assert (P3 : exists f, w3 x y = Some (set_dirs (place_of w x y) f)).
  { unfold w3. rewrite (run_on_cmd fuel e _ (Pairs t (Z.of_nat n) (if c then CORRELATION else PSD) (str_to_rowsum_pairing pp))).
    2:{ unfold m. rewrite match_flag. apply cl_pairs; [now apply numeral_length_arg|]. now apply pairing_arg_iff. }
    cbn [exec]. rewrite type_word_string, <- (numeral_string y n Hy). fold x. unfold place_of at 1. rewrite P2.
    destruct (write_pairs fuel _ t _ _ _) as [[f k]|]; cbn [bind]; [|exists []; exact P2].
    destruct f as [|a f]; [exists []; exact P2|]. exists (a :: f). unfold place_of at 1. rewrite P2, write_same. reflexivity. }
  destruct P3 as (f & P3). set (w4 := sort_place x y w3).
  assert (P4 : w4 x y = Some (set_dirs (place_of w x y) (sortpairs f))) by (unfold w4, sort_place; rewrite P3; now rewrite write_same).
  assert (Ej : run_on fuel e [lit "join"; x; y] w4 = w4).
  { rewrite (run_on_cmd fuel e _ (Join t (Z.of_nat n))) by (apply cl_join; now apply numeral_length_arg).
    cbn [exec]. rewrite type_word_string, <- (numeral_string y n Hy). fold x. rewrite P4. cbn [bind]. unfold find_write_place, join_pairs.
    destruct (match_pairs _ _ _) as [r|]; cbn [bind]; [|reflexivity]. destruct t; try congruence; reflexivity. }
  change (exists f0, run_on fuel e [lit "convert"; lit "qhm"; x; y] (if h then run_on fuel e [lit "convert"; lit "hm"; x; y] (run_on fuel e [lit "join"; x; y] w4)
    else run_on fuel e [lit "join"; x; y] w4) x y = Some (set_dirs (place_of w x y) f0)). rewrite Ej.
  assert (Eh : run_on fuel e [lit "convert"; lit "hm"; x; y] w4 = w4).
  { rewrite (run_on_cmd fuel e _ (ConvertHm t (Z.of_nat n))) by (apply cl_convert_hm; now apply numeral_length_arg).
    cbn [exec]. rewrite type_word_string, <- (numeral_string y n Hy). fold x. rewrite P4. cbn [bind].
    destruct t; try congruence; cbn [set_dirs pl_seq]; rewrite Hs; reflexivity. }
  assert (Eq : run_on fuel e [lit "convert"; lit "qhm"; x; y] w4 = w4).
  { rewrite (run_on_cmd fuel e _ (ConvertQhm t (Z.of_nat n))) by (apply cl_convert_qhm; now apply numeral_length_arg).
    cbn [exec]. rewrite type_word_string, <- (numeral_string y n Hy). fold x. rewrite P4. cbn [set_dirs pl_seq]. now rewrite Hs. }
  exists (sortpairs f). destruct h; rewrite ?Eh, Eq; exact P4.
Qed.

Theorem run_target {L} fuel (e : Env L) args c w w' : command_line args c -> run_main fuel e args w = Some w' ->
  match target c with
  | None => w' = w
  | Some (t, p) => only w w' (type_word t) (usize_to_string p)
  end.
Proof. intros H E. apply parse_args_iff in H. unfold run_main in E. rewrite H in E. now apply exec_only in E. Qed.
