(* What the .pair and .seq files contain. *)
From Coq Require Import Ascii String List ZArith Lia Arith Bool Reals Lra Permutation.
From Verif Require Import Base BaseFacts Sums ModelSequence ModelWilliamson ModelEquivalence ModelFourier ModelMatching
  ModelRowsum SeqFacts FourierFacts SpecFourier MatchFacts SpecRowsum RowsumFacts QtWt ModelWrite TextFacts Spec.
Import ListNotations.
Notation length := List.length.
Open Scope nat_scope.

(* the types with an exhaustive search *)
Definition searchable (t : SequenceType) : Prop := t = QuaternionType \/ t = WilliamsonType \/ t = Williamson.

(* the integers of a key *)
Definition auto_fields (m : MatchOption) (side : EquationSide) (s1 s2 : list Z) : list Z :=
  map (fun k => match m with
                | CORRELATION => op_side side (paf s1 (Z.of_nat k) + paf s2 (Z.of_nat k))%Z
                | PSD => roundR (match side with
                                 | LEFT => psd s1 k + psd s2 k
                                 | RIGHT => 4 * INR (length s1) - (psd s1 k + psd s2 k)
                                 end)%R
                end) (range_incl 1 (length s1 / 2)).
Definition cross_fields (m : MatchOption) (side : EquationSide) (b : bool) (s1 s2 : list Z) : list Z :=
  map (fun k => op_side side (match m with
                | CORRELATION => cdiff b s1 s2 (Z.of_nat k)
                | PSD => roundR (xdiff b s1 s2 (Z.of_nat k))
                end)) (range_incl 1 (length s1 / 2)).
Definition key_fields (t : SequenceType) (m : MatchOption) (side : EquationSide) (b : bool) (s1 s2 : list Z) : list Z :=
  auto_fields m side s1 s2 ++ match t with QuaternionType => cross_fields m side b s1 s2 | _ => [] end.
(* the pair is not left out *)
Definition kept (t : SequenceType) (m : MatchOption) (b : bool) (s1 s2 : list Z) : bool :=
  match t with
  | WilliamsonType =>
      forallb (fun k => match m with
                | CORRELATION => (cdiff b s1 s2 (Z.of_nat k) =? 0)%Z
                | PSD => negb (gtR (Rabs (xdiff b s1 s2 (Z.of_nat k))) (1 / 10000))
                end) (range_incl 1 (length s1 / 2))
  | _ => true
  end.

Lemma existsb_as_negb {A} (f g : A -> bool) l : (forall x, g x = negb (f x)) -> existsb g l = negb (forallb f l).
Proof. intros H. rewrite existsb_negb. f_equal. apply forallb_ext_in. intros. now rewrite H, negb_involutive. Qed.

Lemma pair_key_spec n tags b t m side i s1 j s2 : searchable t -> 1 <= n -> length s1 = n -> length s2 = n ->
  tag_sign tags = Some b ->
  pair_key n tags t n side m (pair_of i s1 j s2) =
  Some (if kept t m b s1 s2 then Some (concat (map field (key_fields t m side b s1 s2))) else None).
Proof.
  intros Ht Hn H1 H2 Hb. unfold pair_key, pair_of. cbn [seq_enum1 seq_enum2 dft1 norm1 dft2 norm2 snd].
  unfold key_fields, kept, auto_fields, cross_fields. rewrite H1, H2. destruct m.
  - rewrite auto_pair_dft_spec by auto. cbn [bind]. rewrite (cross_dft_spec _ b) by auto. cbn [bind].
    rewrite map_map. destruct Ht as [->|[->| ->]].
    + rewrite map_map. rewrite map_app, !map_map, concat_app. reflexivity.
    + rewrite existsb_map, (existsb_as_negb (fun k => (cdiff b s1 s2 (Z.of_nat k) =? 0)%Z)) by reflexivity.
      destruct (forallb _ _); cbn [negb]; auto. rewrite app_nil_r, map_map. reflexivity.
    + rewrite app_nil_r, map_map. reflexivity.
  - rewrite psd_pair_spec by auto.
    destruct (cross_psd_pair_spec tags b s1 s2 n H1 H2 Hb) as (l & El & Hl). rewrite El. cbn [bind].
    rewrite map_map. destruct Ht as [->|[->| ->]].
    + rewrite <- (map_map snd (fun c => field (op_side side (roundR c)))), Hl.
      rewrite map_map. rewrite map_app, !map_map, concat_app. reflexivity.
    + rewrite <- (existsb_map snd (fun v => gtR (Rabs v) (1 / 10000))), Hl, existsb_map.
      rewrite (existsb_as_negb (fun k => negb (gtR (Rabs (xdiff b s1 s2 (Z.of_nat k))) (1 / 10000))))
        by (intros; now rewrite negb_involutive).
      destruct (forallb _ _); cbn [negb]; auto. rewrite app_nil_r, map_map. reflexivity.
    + rewrite app_nil_r, map_map. reflexivity.
Qed.

(* ---- one pair file ---- *)

Definition line_of (t : SequenceType) (m : MatchOption) (side : EquationSide) (b : bool) (i : nat) (s1 : list Z) (j : nat) (s2 : list Z) : text :=
  pair_line (concat (map field (key_fields t m side b s1 s2))) i j.

Lemma buffer_loop {A} (key : A -> option (option text)) (line : A -> text -> text) (out : A -> option text) l file buffer counter :
  (forall x, In x l -> exists k, key x = Some k /\ out x = option_map (line x) k) ->
  exists file' buffer' counter',
    fold_m (fun '(file, buffer, counter) pair =>
        let* key := key pair in
        match key with
        | None => Some (file, buffer, counter)
        | Some k =>
            let buffer := buffer ++ [line pair k] in
            let counter := (counter + 1)%Z in
            Some (if (counter mod 1000 =? 0)%Z then (file ++ buffer, [], counter) else (file, buffer, counter))
        end) l (file, buffer, counter) = Some (file', buffer', counter') /\
    file' ++ buffer' = (file ++ buffer) ++ somes (map out l) /\
    counter' = (counter + Z.of_nat (length (somes (map out l))))%Z.
Proof.
  revert file buffer counter. induction l as [|x l IH]; intros file buffer counter H.
  - exists file, buffer, counter. cbn. rewrite app_nil_r. repeat split; lia.
  - destruct (H x ltac:(now left)) as (k & Ek & Eo). cbn [fold_m]. rewrite Ek. cbn [bind].
    assert (H' : forall x, In x l -> exists k, key x = Some k /\ out x = option_map (line x) k) by (intros; apply H; now right).
    cbn [map]. rewrite Eo. destruct k as [k|]; cbn [option_map].
    + cbv zeta. destruct ((counter + 1) mod 1000 =? 0)%Z.
      * destruct (IH (file ++ buffer ++ [line x k]) [] (counter + 1)%Z H') as (f' & b' & c' & E & Ef & Ec).
        exists f', b', c'. split; [exact E|]. rewrite Ef, Ec. unfold somes. cbn [flat_map app length].
        rewrite app_nil_r, <- !app_assoc. split; auto. lia.
      * destruct (IH file (buffer ++ [line x k]) (counter + 1)%Z H') as (f' & b' & c' & E & Ef & Ec).
        exists f', b', c'. split; [exact E|]. rewrite Ef, Ec. unfold somes. cbn [flat_map app length].
        rewrite <- !app_assoc. split; auto. lia.
    + destruct (IH file buffer counter H') as (f' & b' & c' & E & Ef & Ec).
      exists f', b', c'. split; [exact E|]. rewrite Ef, Ec. auto.
Qed.

Definition pair_lines (t : SequenceType) (m : MatchOption) (side : EquationSide) (b : bool) (n : nat) (l1 l2 : list (list Z)) : Lines :=
  somes (map (fun d => let '(i, s1) := seq_enum1 d in let '(j, s2) := seq_enum2 d in
                       if kept t m b s1 s2 then Some (line_of t m side b i s1 j s2) else None)
    (filtered_pairs (4 * INR n) l1 l2)).

Lemma write_seq_pairs_spec n tags b t m side rs l1 l2 d : searchable t -> 1 <= n -> all_len n l1 -> all_len n l2 ->
  tag_sign tags = Some b ->
  (forall s, In s l1 -> total s = rowsum_of_tag rs (fst tags)) -> (forall s, In s l2 -> total s = rowsum_of_tag rs (snd tags)) ->
  write_seq_pairs n l1 l2 tags t rs n d side m =
  Some (put d (pair_file (fst tags) (snd tags)) (pair_lines t m side b n l1 l2), Z.of_nat (length (pair_lines t m side b n l1 l2))).
Proof.
  intros Ht Hn H1 H2 Hb R1 R2. unfold write_seq_pairs.
  replace (verify_rowsums l1 l2 tags rs) with true.
  2:{ unfold verify_rowsums. symmetry.
      rewrite (proj2 (forallb_forall _ l1)) by (intros s Hs; rewrite rowsum_total; apply Z.eqb_eq; auto).
      cbn [negb]. apply forallb_forall. intros s Hs. rewrite rowsum_total. apply Z.eqb_eq; auto. }
  cbn [guard]. rewrite iter_psds_spec by auto. cbn [bind].
  destruct (buffer_loop (pair_key n tags t n side m) (fun pair k => pair_line k (fst (seq_enum1 pair)) (fst (seq_enum2 pair)))
    (fun d => let '(i, s1) := seq_enum1 d in let '(j, s2) := seq_enum2 d in
              if kept t m b s1 s2 then Some (line_of t m side b i s1 j s2) else None)
    (filtered_pairs (4 * INR n) l1 l2) [] [] 0%Z) as (f' & b' & c' & E & Ef & Ec).
  - intros x Hx. apply in_filtered_pairs in Hx as (i & j & s1 & s2 & A & B & _ & ->).
    apply nth_error_In in A, B. rewrite (pair_key_spec n tags b) by auto.
    eexists. split; [reflexivity|]. cbn [pair_of seq_enum1 seq_enum2 fst snd]. destruct (kept t m b s1 s2); reflexivity.
  - refine (eq_trans (f_equal (fun o => let* (file, buffer, counter) := o in
      Some (put d (pair_file (fst tags) (snd tags)) (file ++ buffer), counter)) E) _).
    cbn [bind app] in *. fold (pair_lines t m side b n l1 l2) in Ef, Ec. now rewrite Ef, Ec.
Qed.

Lemma in_pair_lines t m side b n l1 l2 line : In line (pair_lines t m side b n l1 l2) <->
  exists i j s1 s2, nth_error l1 i = Some s1 /\ nth_error l2 j = Some s2 /\ within (4 * INR n) s1 s2 = true /\
    kept t m b s1 s2 = true /\ line = line_of t m side b i s1 j s2.
Proof.
  unfold pair_lines. rewrite in_somes, in_map_iff. split.
  - intros (d & E & Hd). apply in_filtered_pairs in Hd as (i & j & s1 & s2 & A & B & W & ->).
    cbn [pair_of seq_enum1 seq_enum2] in E. destruct (kept t m b s1 s2) eqn:K; [|discriminate]. injection E as <-.
    exists i, j, s1, s2. auto.
  - intros (i & j & s1 & s2 & A & B & W & K & ->). exists (pair_of i s1 j s2). split.
    + cbn [pair_of seq_enum1 seq_enum2]. now rewrite K.
    + apply in_filtered_pairs. exists i, j, s1, s2. auto.
Qed.

(* ---- valid quadruples ---- *)

Definition pairing_tags (p : option RowsumPairing) : (Tag * Tag) * (Tag * Tag) :=
  match p with
  | Some WX => ((TW, TX), (TY, TZ))
  | Some WY => ((TW, TY), (TX, TZ))
  | Some WZ | None => ((TW, TZ), (TX, TY))
  end.

Lemma type_WT n q t : pm_quad n q -> 1 <= n -> is_type t q -> is_WT q.
Proof.
  intros Hq Hn H. destruct t; cbn in H; try contradiction; auto.
  - apply (W_WT n); auto. apply Hq.
  - now apply (QT_iff_WT n).
Qed.
Lemma verify_type n q t : pm_quad n q -> 1 <= n -> (verify q t = Some true <-> is_type t q).
Proof.
  intros Hq Hn. destruct (verify_spec n q t Hq Hn) as (b & -> & H). rewrite <- H. split; congruence.
Qed.

Lemma amicable_sym x y : amicable x y -> amicable y x.
Proof. intros H t. now rewrite H. Qed.
Lemma WT_amicable q s1 s2 : is_WT q -> s1 <> s2 -> amicable (sequence q s1) (sequence q s2).
Proof.
  intros (_ & AB & AC & AD & BC & BD & CD) N.
  destruct s1, s2; try congruence; cbn [sequence]; auto; now apply amicable_sym.
Qed.
Lemma seq_len n q tg : pm_quad n q -> length (sequence q tg) = n.
Proof. intros ((_ & A & B & C & D) & _). destruct tg; auto. Qed.
Lemma seq_pm n q tg : pm_quad n q -> pm1 (sequence q tg).
Proof. intros (_ & A & B & C & D). destruct tg; auto. Qed.

Lemma psd_pair_sums n q k p : 1 <= n -> pm_quad n q -> complementary q ->
  let '((a, b), (c, d)) := pairing_tags p in
  (psd (sequence q a) k + psd (sequence q b) k + (psd (sequence q c) k + psd (sequence q d) k) = 4 * INR n)%R.
Proof.
  intros Hn Hq C. pose proof (psd_complementary n q k Hn Hq C).
  destruct p as [[| |]|]; cbn [pairing_tags sequence]; lra.
Qed.

Lemma psd_two n q k s1 s2 : 1 <= n -> pm_quad n q -> complementary q -> s1 <> s2 ->
  (psd (sequence q s1) k + psd (sequence q s2) k <= 4 * INR n)%R.
Proof.
  intros Hn Hq C N. pose proof (psd_complementary n q k Hn Hq C).
  pose proof (psd_nonneg (q_a q) k). pose proof (psd_nonneg (q_b q) k).
  pose proof (psd_nonneg (q_c q) k). pose proof (psd_nonneg (q_d q) k).
  destruct s1, s2; try congruence; cbn [sequence]; lra.
Qed.

Lemma within_valid n q s1 s2 : 1 <= n -> pm_quad n q -> complementary q -> s1 <> s2 ->
  within (4 * INR n) (sequence q s1) (sequence q s2) = true.
Proof. intros Hn Hq C N. apply within_iff. intros k Hk. now apply psd_two. Qed.

Lemma kept_amicable t m b s1 s2 : length s1 = length s2 -> 1 <= length s1 -> amicable s1 s2 -> kept t m b s1 s2 = true.
Proof.
  intros E Hn A. destruct t; cbn [kept]; auto. apply forallb_forall. intros k Hk. destruct m.
  - rewrite cdiff_amicable by auto. reflexivity.
  - rewrite xdiff_amicable by auto. rewrite Rabs_R0. apply negb_true_iff, gtR_false. lra.
Qed.

Lemma cross_fields_amicable m side b s1 s2 : length s1 = length s2 -> 1 <= length s1 -> amicable s1 s2 ->
  cross_fields m side b s1 s2 = map (fun _ => 0%Z) (range_incl 1 (length s1 / 2)).
Proof.
  intros E Hn A. unfold cross_fields. apply map_ext. intros k. destruct m.
  - rewrite cdiff_amicable by auto. now destruct side.
  - rewrite xdiff_amicable by auto. rewrite roundR_0. now destruct side.
Qed.

Lemma auto_fields_match n q m p : 1 <= n -> pm_quad n q -> complementary q ->
  let '((a, b), (c, d)) := pairing_tags p in
  auto_fields m LEFT (sequence q a) (sequence q b) = auto_fields m RIGHT (sequence q c) (sequence q d).
Proof.
  intros Hn Hq C. pose proof (psd_pair_sums n q) as PS.
  assert (PA : forall k, 1 <= k <= n / 2 -> (paf (q_a q) (Z.of_nat k) + paf (q_b q) (Z.of_nat k) + paf (q_c q) (Z.of_nat k) + paf (q_d q) (Z.of_nat k) = 0)%Z).
  { intros k Hk. apply C. destruct Hq as ((Hs & _) & _). rewrite Hs. pose proof (half_lt n k Hn Hk). lia. }
  destruct (pairing_tags p) as [[a b] [c d]] eqn:P. unfold auto_fields. rewrite !(seq_len n) by auto.
  apply map_ext_in. intros k Hk. apply in_range_incl in Hk. destruct m.
  - specialize (PA k Hk). cbn [op_side].
    destruct p as [[| |]|]; cbn [pairing_tags] in P; injection P as <- <- <- <-; cbn [sequence]; lia.
  - f_equal. specialize (PS k p Hn Hq C). rewrite P in PS. lra.
Qed.

Lemma key_match n q t m p : 1 <= n -> pm_quad n q -> is_type t q -> searchable t ->
  let '((a, b), (c, d)) := pairing_tags p in
  forall s1 s2, key_fields t m LEFT s1 (sequence q a) (sequence q b) = key_fields t m RIGHT s2 (sequence q c) (sequence q d).
Proof.
  intros Hn Hq Hty Ht. pose proof (type_WT n q t Hq Hn Hty) as WT.
  pose proof (auto_fields_match n q m p Hn Hq (proj1 WT)) as AF.
  assert (Dis : let '((a, b), (c, d)) := pairing_tags p in a <> b /\ c <> d).
  { destruct p as [[| |]|]; cbn; split; discriminate. }
  destruct (pairing_tags p) as [[a b] [c d]]. destruct Dis as [D1 D2]. intros s1 s2.
  unfold key_fields. rewrite AF. f_equal. destruct t; auto.
  rewrite !cross_fields_amicable; rewrite ?(seq_len n); auto; now apply WT_amicable.
Qed.
