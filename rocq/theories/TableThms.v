(* The row of the table for a run of driver.sh on each of the three types. *)
From Coq Require Import Ascii String List ZArith Bool Arith Lia Permutation Relations.
From Verif Require Import Base BaseFacts Sums Quat ModelSequence ModelWilliamson ModelEquivalence SpecEquiv OpFacts EquivFacts TypeFacts
  OrderFacts EquivThms CanonFacts ReduceFacts QtWt Convert ModelMatrices SpecMatrix SpecPrint MatFacts QhmFacts PrintFacts HmFacts ModelGraph SpecGraph GraphThms HadEquiv
  ModelRowsum ModelMatching ModelWrite TextFacts WriteFacts FolderFacts SearchThms ExtendFacts FindQuadFacts DriverFacts ModelMain SpecMain MainFacts ArgFacts MainThms RepSymm SeqFacts DriverMain
  ModelLog LogFolder LogText LogFacts LogStages LogJoin DriverLog SpecSearch SpecLog Spec.
Import ListNotations.
Open Scope nat_scope.
Notation length := List.length.
#[local] Opaque usize_to_string isize_to_string seconds.

Lemma small62 n : n <= 31 -> (Z.of_nat n < 2 ^ 62)%Z.
Proof. intros H. assert (Z.of_nat n <= 31)%Z by lia. assert (2 ^ 62 = 4611686018427387904)%Z by reflexivity. lia. Qed.
Lemma stacked_end l : match rev (stacked l) with c :: _ => if Ascii.eqb c nl then 0%Z else 1%Z | [] => 0%Z end = 0%Z.
Proof.
  destruct l as [|s l] using rev_ind; [reflexivity|]. unfold stacked. rewrite map_app, concat_app. cbn [map concat]. rewrite app_nil_r, !rev_app_distr. cbn [rev app].
  change newline with nl. now rewrite Ascii.eqb_refl.
Qed.
Lemma stacked_count ls : Forall (fun l => ~ In nl l) ls -> file_lines (stacked ls) = Z.of_nat (length ls).
Proof.
  intros H. unfold file_lines. f_equal. induction H as [|l ls Hl Hls IH]; [reflexivity|]. unfold stacked. cbn [map concat length].
  rewrite !count_occ_app. fold (stacked ls). rewrite IH. rewrite (proj1 (count_occ_not_In ascii_dec l nl) Hl). reflexivity.
Qed.
Theorem table_matrices pl lg ls last : Forall (fun l => ~ In nl l) ls -> ~ In nl last -> last <> [] ->
  (pl_mat pl = None -> row_mat (collect pl lg) = (-1)%Z) /\
  (pl_mat pl = Some (stacked ls) -> row_mat (collect pl lg) = Z.of_nat (length ls)) /\
  (pl_mat pl = Some (stacked ls ++ last) -> row_mat (collect pl lg) = Z.of_nat (length ls + 1)).
Proof.
  intros H Hl Hne. unfold collect, row_mat, matrix_count. split; [|split]; intros E; rewrite E; cbn [option_map or_minus1].
  - reflexivity.
  - rewrite stacked_count by auto. rewrite stacked_end. lia.
  - assert (F : file_lines (stacked ls ++ last) = Z.of_nat (length ls)).
    { unfold file_lines. rewrite count_occ_app, (proj1 (count_occ_not_In ascii_dec last nl) Hl). pose proof (stacked_count ls H) as S. unfold file_lines in S. lia. }
    rewrite F. rewrite rev_app_distr. destruct last as [|c last'] using rev_ind; [congruence|]. rewrite rev_app_distr. cbn [rev app].
    destruct (Ascii.eqb_spec c nl) as [->|_]; [exfalso; apply Hl; apply in_or_app; right; now left|]. lia.
Qed.
Lemma matrix_rows mat equ : lists_matrices mat equ -> matrix_count mat = Z.of_nat (length equ).
Proof.
  unfold lists_matrices. intros ->. unfold matrix_count. cbn [option_map or_minus1]. unfold file_lines.
  change nl with newline at 1. fold (line_count (stacked (map (fun h => magma_text (hm_matrix h)) equ))). rewrite matrices_lines.
  change newline with nl. rewrite stacked_end. lia.
Qed.
Lemma collect_reading pl lg : collect pl lg =
  mkRow (or_minus1 (rd_qts (reading lg))) (or_minus1 (rd_wts (reading lg))) (matrix_count (pl_mat pl))
    (match rd_pairs (reading lg) with Some z => z | None => Z.of_nat (countpairs (pl_dirs pl)) end) (rd_times (reading lg)) (rd_red (reading lg)) (rd_hm (reading lg)).
Proof. reflexivity. Qed.

Definition good_run {L} (ck : Clock) fuel (e : Env L) (t : SequenceType) (y : list ascii) c pr (h d : bool) w log (w' : World) pl lg : Prop :=
  driver_flags_log ck fuel e (type_word t) y c pr h d w log = (w', Some lg) /\ w' = driver_flags fuel e (type_word t) y c pr h d w /\
  only w w' (type_word t) y /\ w' (type_word t) y = Some pl.

Section Rows.
Context {L : Type} (ck : Clock) (e : Env L) (n : nat) (y : list ascii).
Hypothesis Hck : clock_ok ck.
Hypothesis Hn : 1 <= n <= 31.
Hypothesis He : env_ok e.
Hypothesis Hy : canonical_numeral y n.
Let H64 := small_length n (proj2 Hn).
Let H62 := small62 n (proj2 Hn).

Lemma flags_log fuel t c pr h (d : bool) w log f k r pl1 pl : searchable t -> d = true \/ pl_dirs (place_of w (type_word t) y) = [] ->
  steps fuel e n t (if c : bool then CORRELATION else PSD) (match pr with Some r => r | None => lit "WZ" end) h (place_of (if d then cleanup (type_word t) y w else w) (type_word t) y) f k r pl1 pl ->
  exists w' lg, good_run ck fuel e t y c pr h d w log w' pl lg /\
    pl_dirs pl = sortpairs f /\ k = Z.of_nat (countpairs (pl_dirs pl)) /\ reading lg = whole ck t h k r pl.
Proof.
  intros Ht Hd S. destruct (flags_start _ _ d w Hd) as (O & D & M).
  destruct He as (_ & Hl & _).
  destruct (log_steps ck fuel e n t y Hck H64 Hy _ _ h _ log f k r pl1 pl (proj1 Hn) H62 Ht Hl D S) as (lg & E & O' & W & Dp & K & R).
  exists (driver_flags fuel e (type_word t) y c pr h d w), lg. split; [|split; [auto|split; [now rewrite Dp|auto]]].
  unfold good_run, driver_flags_log, driver_flags. rewrite match_flag. split; [exact E|]. split; [reflexivity|]. split; [eapply only_trans; eauto|exact W].
Qed.

Theorem steps_QT m pr h : (exists q, pm_quad n q /\ is_QT q) -> exists fuel0, forall fuel pl0, fuel0 <= fuel -> exists f k r pl1 pl equ,
  steps fuel e n QuaternionType m pr h pl0 f k r pl1 pl /\ one_per_class n QuaternionType r /\ one_matrix_per_class n QuaternionType equ /\
  (if h then lists_matrices (pl_mat pl) equ else pl_mat pl = pl_mat pl0).
Proof.
  intros (q & P & T). destruct He as (Ho & Hls & Hc & Hp).
  destruct (search_classes n QuaternionType m (str_to_rowsum_pairing pr) (e_ls e) (e_ord e) Hn (or_introl eq_refl) Hls Ho) as (f0 & H).
  { exists q. split; auto. apply (verify_type n); auto; lia. }
  exists f0. intros fuel pl0 Hf. destruct (H fuel (0 :: e_path e) Hf) as (f & c & r & Ew & Ej & Nd & A & B).
  assert (OC : one_per_class n QuaternionType r) by (apply one_per_class_intro; auto; lia).
  destruct (seq_lines_spec n r) as (out & Eo & Fo); [intros x Hx; now apply A|].
  assert (Eq : qseq_text r = Some (stacked (map quad_text r))) by (apply (qseq_text_spec n); intros x Hx; now apply A).
  destruct (matrices_spec (e_canon e) (e_same e) (e_hms e) n QuaternionType r out Hc Hp ltac:(lia) (or_introl eq_refl) OC Fo) as (equ & Ee & OM).
  destruct (qhms_spec n r out ltac:(lia)) as (k & s & Es & LQ); auto.
  { intros x Hx. destruct OC as (_ & O & _). destruct (O x Hx) as (? & ? & _). auto. }
  set (pl1 := set_seq (set_dirs pl0 (sortpairs f)) out (stacked (map quad_text r))).
  assert (Ea : Forall (fun q => is_amicable q = Some true) r).
  { apply Forall_forall. intros x Hx. destruct OC as (_ & O & _). destruct (O x Hx) as (Px & Tx & _).
    destruct (is_amicable_spec n x Px ltac:(lia)) as (b & -> & Hb). f_equal. apply Hb. now apply (QT_iff_WT n x Px ltac:(lia)). }
  eexists f, c, r, pl1, _, equ. split; [|split; [exact OC|split; [exact OM|]]].
  - constructor; auto.
    + unfold find_write_place. cbn [set_dirs pl_dirs]. rewrite Ej. cbn [bind]. destruct (amicable_notes r Ea) as (am & no & -> & _). cbn [bind]. rewrite Eo. cbn [bind]. rewrite Eq. reflexivity.
    + exists out. split; [reflexivity|]. exists out, k, s. split; [reflexivity|]. split; [exact Es|]. reflexivity.
  - rewrite Ee. destruct h; reflexivity.
Qed.
Theorem steps_WT m pr h : (exists q, pm_quad n q /\ is_WT q) -> exists fuel0, forall fuel pl0, fuel0 <= fuel -> exists f k r r' pl1 pl equ,
  steps fuel e n WilliamsonType m pr h pl0 f k r pl1 pl /\ one_per_class n WilliamsonType r /\ one_per_class n QuaternionType r' /\
  (exists out', pl_qts pl = Some out' /\ length out' = length r') /\ one_matrix_per_class n WilliamsonType equ /\
  (if h then lists_matrices (pl_mat pl) equ else pl_mat pl = pl_mat pl0).
Proof.
  intros (q & P & T). destruct He as (Ho & Hls & Hc & Hp). assert (Hn1 := proj1 Hn).
  destruct (search_classes n WilliamsonType m (str_to_rowsum_pairing pr) (e_ls e) (e_ord e) Hn (or_intror eq_refl) Hls Ho) as (f0 & H).
  { exists q. split; auto. now apply (verify_type n). }
  exists (max f0 (class_fuel n)). intros fuel pl0 Hf.
  destruct (H fuel (0 :: e_path e) ltac:(lia)) as (f & c & r & Ew & Ej & Nd & A & B).
  assert (OC : one_per_class n WilliamsonType r) by (apply one_per_class_intro; auto; lia).
  destruct (seq_lines_spec n r) as (out & Eo & Fo); [intros x Hx; now apply A|].
  assert (Eq : qseq_text r = Some (stacked (map quad_text r))) by (apply (qseq_text_spec n); intros x Hx; now apply A).
  assert (Hne : r <> []).
  { intros ->. destruct (B q P) as (x & [] & _). now apply (verify_type n). }
  destruct (wts_to_qts_at n (e_ord e) r Ho Hn Hne) as (l' & El & R).
  { apply Forall_forall. intros x Hx. destruct (A x Hx) as (? & ? & _). auto. }
  { intros z Pz Vz. destruct (B z Pz Vz) as (x & I & Rx & _). eauto. }
  destruct (R fuel (1 :: e_path e) ltac:(lia)) as (r' & Er' & Nd' & A' & B').
  assert (OC' : one_per_class n QuaternionType r') by (apply one_per_class_intro; auto; lia).
  destruct (seq_lines_spec n r') as (out' & Eo' & Fo'); [intros x Hx; now apply A'|].
  assert (Eq' : qseq_text r' = Some (stacked (map quad_text r'))) by (apply (qseq_text_spec n); intros x Hx; now apply A').
  set (pl1 := set_qts (set_seq (set_dirs pl0 (sortpairs f)) out (stacked (map quad_text r))) out' (stacked (map quad_text r'))).
  destruct (matrices_spec (e_canon e) (e_same e) (e_hms e) n WilliamsonType r' out' Hc Hp Hn1 (or_intror eq_refl) OC' Fo') as (equ & Ee & OM).
  destruct (qhms_spec n r out Hn1) as (k & s & Es & LQ); auto.
  { intros x Hx. destruct OC as (_ & O & _). destruct (O x Hx) as (? & ? & _). split; auto. now apply (QT_iff_WT n). }
  eexists f, c, r, r', pl1, _, equ. split; [|split; [exact OC|split; [exact OC'|split; [|split; [exact OM|]]]]].
  - constructor; auto; [|discriminate|].
    + unfold find_write_place. cbn [set_dirs pl_dirs]. rewrite Ej. cbn [bind]. rewrite Eo. cbn [bind]. rewrite Eq. cbn [bind].
      rewrite El. cbn [bind]. rewrite Er'. cbn [bind]. rewrite Eo'. cbn [bind]. rewrite Eq'. reflexivity.
    + exists out'. split; [reflexivity|]. exists out, k, s. split; [reflexivity|]. split; [exact Es|]. reflexivity.
  - exists out'. split; [rewrite Ee; destruct h; reflexivity|]. eapply traverse_length. exact Eo'.
  - rewrite Ee. destruct h; reflexivity.
Qed.
Theorem steps_W m pr h : (exists q, pm_quad n q /\ is_W q) -> exists fuel0, forall fuel pl0, fuel0 <= fuel -> exists f k r pl1 pl,
  steps fuel e n Williamson m pr h pl0 f k r pl1 pl.
Proof.
  intros (q & P & T). destruct He as (Ho & Hls & Hc & Hp). assert (Hn1 := proj1 Hn).
  destruct (search_classes_W n m (str_to_rowsum_pairing pr) (e_ls e) (e_ord e) Hn Hls Ho) as (f0 & H).
  { exists q. split; auto. now apply (verify_type n). }
  exists f0. intros fuel pl0 Hf. destruct (H fuel (0 :: e_path e) Hf) as (f & c & r & Ew & Ej & Nd & A & B).
  assert (VT : forall x, In x r -> pm_quad n x /\ is_WT x).
  { intros x Hx. destruct (A x Hx) as (z & Pz & Vz & Rz & _). apply (W_WT_verify n) in Vz; auto.
    assert (G := reach_type n WilliamsonType z x Pz Hn1 Rz). destruct G as [G1 G2]; [now apply (verify_type n)|]. split; auto. }
  destruct (seq_lines_spec n r) as (out & Eo & Fo); [intros x Hx; now apply VT|].
  assert (Eq : qseq_text r = Some (stacked (map quad_text r))) by (apply (qseq_text_spec n); intros x Hx; now apply VT).
  destruct (qhms_spec n r out Hn1) as (k & s & Es & LQ); auto.
  { intros x Hx. destruct (VT x Hx). split; auto. now apply (QT_iff_WT n). }
  set (pl1 := set_seq (set_dirs pl0 (sortpairs f)) out (stacked (map quad_text r))).
  eexists f, c, r, pl1, _. constructor; auto; [|discriminate|].
  - unfold find_write_place. cbn [set_dirs pl_dirs]. rewrite Ej. cbn [bind]. rewrite Eo. cbn [bind]. rewrite Eq. reflexivity.
  - exists out. split; [reflexivity|]. exists out, k, s. split; [reflexivity|]. split; [exact Es|]. reflexivity.
Qed.

Theorem table_QT c pr h (d : bool) w log : d = true \/ pl_dirs (place_of w (chars "qts") y) = [] -> (exists q, pm_quad n q /\ is_QT q) ->
  exists fuel0, forall fuel, fuel0 <= fuel -> exists w' pl lg r equ,
    driver_flags_log ck fuel e (chars "qts") y c pr h d w log = (w', Some lg) /\ w' = driver_flags fuel e (chars "qts") y c pr h d w /\ w' (chars "qts") y = Some pl /\
    one_per_class n QuaternionType r /\ one_matrix_per_class n QuaternionType equ /\
    row_qts (collect pl lg) = Z.of_nat (length r) /\ row_wts (collect pl lg) = (-1)%Z /\
    row_mat (collect pl lg) = (if h then Z.of_nat (length equ) else matrix_count (pl_mat (place_of w (chars "qts") y))) /\
    row_pairs (collect pl lg) = Z.of_nat (countpairs (pl_dirs pl)) /\
    row_runtimes (collect pl lg) = [seconds (tm_pairs ck); seconds (tm_sort ck); seconds (tm_match ck)] /\
    row_qt_time (collect pl lg) = Some (seconds (tm_reduce ck)) /\ row_hm_time (collect pl lg) = (if h then Some (seconds (tm_hm ck)) else None).
Proof.
  intros Hd Hq. destruct (flags_start _ _ d w Hd) as (_ & _ & M). destruct (steps_QT (if c then CORRELATION else PSD) (match pr with Some r => r | None => lit "WZ" end) h Hq) as (f0 & H).
  exists f0. intros fuel Hf. destruct (H fuel (place_of (if d then cleanup (type_word QuaternionType) y w else w) (type_word QuaternionType) y) Hf) as (f & k & r & pl1 & pl & equ & S & OC & OM & Lm).
  destruct (flags_log fuel QuaternionType c pr h d w log f k r pl1 pl (or_introl eq_refl) Hd S) as (w' & lg & (E1 & E2 & _ & E3) & _ & K & R).
  exists w', pl, lg, r, equ. rewrite collect_reading, R. cbn [row_qts row_wts row_mat row_pairs row_runtimes row_qt_time row_hm_time rd_qts rd_wts rd_pairs rd_times rd_red rd_hm whole or_minus1].
  do 7 (split; auto). split; [|auto]. destruct h; [now apply matrix_rows|]. rewrite Lm. f_equal. exact M.
Qed.
Theorem table_WT c pr h (d : bool) w log : d = true \/ pl_dirs (place_of w (chars "wts") y) = [] -> (exists q, pm_quad n q /\ is_WT q) ->
  exists fuel0, forall fuel, fuel0 <= fuel -> exists w' pl lg r r' equ,
    driver_flags_log ck fuel e (chars "wts") y c pr h d w log = (w', Some lg) /\ w' = driver_flags fuel e (chars "wts") y c pr h d w /\ w' (chars "wts") y = Some pl /\
    one_per_class n WilliamsonType r /\ one_per_class n QuaternionType r' /\ one_matrix_per_class n WilliamsonType equ /\
    row_wts (collect pl lg) = Z.of_nat (length r) /\ row_qts (collect pl lg) = Z.of_nat (length r') /\
    row_mat (collect pl lg) = (if h then Z.of_nat (length equ) else matrix_count (pl_mat (place_of w (chars "wts") y))) /\
    row_pairs (collect pl lg) = Z.of_nat (countpairs (pl_dirs pl)) /\
    row_runtimes (collect pl lg) = [seconds (tm_pairs ck); seconds (tm_sort ck); seconds (tm_match ck)] /\
    row_qt_time (collect pl lg) = Some (seconds (tm_reduce ck)) /\ row_hm_time (collect pl lg) = (if h then Some (seconds (tm_hm ck)) else None).
Proof.
  intros Hd Hq. destruct (flags_start _ _ d w Hd) as (_ & _ & M). destruct (steps_WT (if c then CORRELATION else PSD) (match pr with Some r => r | None => lit "WZ" end) h Hq) as (f0 & H).
  exists f0. intros fuel Hf. destruct (H fuel (place_of (if d then cleanup (type_word WilliamsonType) y w else w) (type_word WilliamsonType) y) Hf) as (f & k & r & r' & pl1 & pl & equ & S & OC & OC' & (out' & Eq & Lq) & OM & Lm).
  destruct (flags_log fuel WilliamsonType c pr h d w log f k r pl1 pl (or_intror (or_introl eq_refl)) Hd S) as (w' & lg & (E1 & E2 & _ & E3) & _ & K & R).
  exists w', pl, lg, r, r', equ. rewrite collect_reading, R. cbn [row_qts row_wts row_mat row_pairs row_runtimes row_qt_time row_hm_time rd_qts rd_wts rd_pairs rd_times rd_red rd_hm whole or_minus1].
  do 7 (split; auto). split; [rewrite Eq; cbn [option_map or_minus1]; now rewrite Lq|]. split; [|auto]. destruct h; [now apply matrix_rows|]. rewrite Lm. f_equal. exact M.
Qed.
Theorem table_W c pr h (d : bool) w log : d = true \/ pl_dirs (place_of w (chars "ws") y) = [] -> (exists q, pm_quad n q /\ is_W q) ->
  exists fuel0, forall fuel, fuel0 <= fuel -> exists w' pl lg,
    driver_flags_log ck fuel e (chars "ws") y c pr h d w log = (w', Some lg) /\ w' = driver_flags fuel e (chars "ws") y c pr h d w /\ w' (chars "ws") y = Some pl /\
    row_wts (collect pl lg) = (-1)%Z /\ row_qts (collect pl lg) = (-1)%Z /\ row_pairs (collect pl lg) = Z.of_nat (countpairs (pl_dirs pl)).
Proof.
  intros Hd Hq. destruct (steps_W (if c then CORRELATION else PSD) (match pr with Some r => r | None => lit "WZ" end) h Hq) as (f0 & H).
  exists f0. intros fuel Hf. destruct (H fuel (place_of (if d then cleanup (type_word Williamson) y w else w) (type_word Williamson) y) Hf) as (f & k & r & pl1 & pl & S).
  destruct (flags_log fuel Williamson c pr h d w log f k r pl1 pl (or_intror (or_intror eq_refl)) Hd S) as (w' & lg & (E1 & E2 & _ & E3) & _ & K & R).
  exists w', pl, lg. rewrite collect_reading, R. do 5 (split; auto).
Qed.
End Rows.
Theorem table_WT_time : forall (L : Type) ck (e : Env L) n y, clock_ok ck -> seconds (tm_reduce ck) <> seconds (tm_qts ck) -> 1 <= n <= 31 -> env_ok e -> canonical_numeral y n ->
  forall c pr h (d : bool) w log, d = true \/ pl_dirs (place_of w (chars "wts") y) = [] -> (exists q, pm_quad n q /\ is_WT q) ->
  exists fuel0, forall fuel, fuel0 <= fuel -> exists w' pl lg,
    driver_flags_log ck fuel e (chars "wts") y c pr h d w log = (w', Some lg) /\ w' (chars "wts") y = Some pl /\
    row_qt_time (collect pl lg) <> Some (seconds (tm_qts ck)).
Proof.
  intros L ck e n y Hck Hne Hn He Hy c pr h d w log Hd Hq. destruct (table_WT ck e n y Hck Hn He Hy c pr h d w log Hd Hq) as (f0 & H). exists f0. intros fuel Hf.
  destruct (H fuel Hf) as (w' & pl & lg & r & r' & equ & E1 & _ & E2 & _ & _ & _ & _ & _ & _ & _ & _ & E3 & _). exists w', pl, lg. rewrite E3. repeat split; auto. congruence.
Qed.
