(* Proofs about +-1 matrices (HM). *)
From Coq Require Import List ZArith Lia Arith Bool.
From Verif Require Import Base BaseFacts Sums Quat ModelSequence ModelWilliamson Spec SeqFacts GroupRing QtWt
  TypeFacts EquivThms ModelMatrices SpecMatrix MatFacts.
Import ListNotations.
Open Scope nat_scope.

(* ---- verification ---- *)
Lemma wrap8_add a b : wrap8 (wrap8 a + b) = wrap8 (a + b).
Proof.
  unfold wrap8. f_equal. replace ((a + 128) mod 256 - 128 + b + 128)%Z with ((a + 128) mod 256 + b)%Z by lia.
  rewrite Zplus_mod_idemp_l. f_equal. lia.
Qed.
Lemma wrap8_0 z : wrap8 z = 0%Z <-> (z mod 256 = 0)%Z.
Proof.
  unfold wrap8. pose proof (Z.div_mod (z + 128) 256). pose proof (Z.div_mod z 256).
  pose proof (Z.mod_pos_bound (z + 128) 256). pose proof (Z.mod_pos_bound z 256). lia.
Qed.
Lemma hm_inner_spec n x y : length x = n -> length y = n -> pm1 x -> pm1 y -> hm_inner n x y = Some (wrap8 (dot x y)).
Proof.
  intros Lx Ly Px Py. unfold hm_inner, dot. rewrite Lx.
  apply for_m_states with (st := fun k => wrap8 (sumZ k (fun i => nth i x 0 * nth i y 0)%Z)); auto.
  intros i Hi. rewrite (vget_nth x i 0%Z), (vget_nth y i 0%Z) by lia. cbn [bind]. f_equal.
  rewrite mul8_pm1 by (apply pm1_nth; auto; lia). unfold add8. rewrite wrap8_add. replace (i + 1) with (S i) by lia. now rewrite sumZ_S.
Qed.
Lemma pm_matrix_row n m i : pm_matrix n m -> i < n -> length (nth i m []) = n /\ pm1 (nth i m []).
Proof.
  intros [[L S] P] Hi. split; [apply (proj1 (Forall_forall _ _) S)|apply (proj1 (Forall_forall _ _) P)]; apply nth_In; lia.
Qed.
Lemma dot_comm n x y : length x = n -> length y = n -> dot x y = dot y x.
Proof. intros Lx Ly. unfold dot. rewrite Lx, Ly. apply sumZ_ext. intros. lia. Qed.
Lemma HM_verify_spec n h : hm_size h = n -> pm_matrix n (hm_matrix h) ->
  exists b, HM_verify h = Some b /\
  (b = true <-> forall i j, i < n -> j < n -> i <> j -> (dot (nth i (hm_matrix h) []) (nth j (hm_matrix h) []) mod 256 = 0)%Z).
Proof.
  intros Hs Hp. unfold HM_verify. rewrite Hs.
  rewrite (all_m_forallb _ (fun i => forallb (fun j => Z.eqb (wrap8 (dot (nth i (hm_matrix h) []) (nth j (hm_matrix h) []))) 0) (range (i + 1) n))).
  - eexists. split; [reflexivity|]. rewrite forallb_forall. split.
    + intros H.
      assert (forall i j, i < j -> j < n -> (dot (nth i (hm_matrix h) []) (nth j (hm_matrix h) []) mod 256 = 0)%Z) as H'.
      { intros i j Hij Hj. specialize (H i ltac:(apply in_range; lia)). rewrite forallb_forall in H.
        specialize (H j ltac:(apply in_range; lia)). apply Z.eqb_eq in H. now apply wrap8_0. }
      intros i j Hi Hj Hij. destruct (Nat.lt_gt_cases i j) as [[|] _]; auto.
      rewrite (dot_comm n); [now apply H'|apply (pm_matrix_row n)..]; auto.
    + intros H i Hi. apply in_range in Hi. apply forallb_forall. intros j Hj. apply in_range in Hj.
      apply Z.eqb_eq. apply wrap8_0. apply H; lia.
  - intros i Hi. apply in_range in Hi. apply all_m_forallb. intros j Hj. apply in_range in Hj.
    assert (length (hm_matrix h) = n) as Lm by apply Hp.
    unfold HM_row. rewrite (vget_nth (hm_matrix h) i []), (vget_nth (hm_matrix h) j []) by lia. cbn [bind].
    destruct (pm_matrix_row n (hm_matrix h) i), (pm_matrix_row n (hm_matrix h) j); auto; try lia.
    rewrite hm_inner_spec by auto. reflexivity.
Qed.
Lemma dot_bound n x y : length x = n -> length y = n -> pm1 x -> pm1 y -> (Z.abs (dot x y) <= Z.of_nat n)%Z.
Proof.
  intros Lx Ly Px Py. unfold dot. rewrite Lx, <- (Z.mul_1_r (Z.of_nat n)). apply sumZ_bound. intros i Hi.
  destruct (pm1_nth x i), (pm1_nth y i); auto; try lia; rewrite H, H0; lia.
Qed.
Lemma HM_verify_exact n h : hm_size h = n -> pm_matrix n (hm_matrix h) -> n <= 255 ->
  exists b, HM_verify h = Some b /\ (b = true <-> orthogonal_rows n (hm_matrix h)).
Proof.
  intros Hs Hp Hn. destruct (HM_verify_spec n h Hs Hp) as (b & E & H). exists b. split; auto. rewrite H.
  split; intros K i j Hi Hj Hij; [|now rewrite K].
  specialize (K i j Hi Hj Hij). destruct (pm_matrix_row n (hm_matrix h) i Hp Hi), (pm_matrix_row n (hm_matrix h) j Hp Hj).
  pose proof (dot_bound n (nth i (hm_matrix h) []) (nth j (hm_matrix h) [])) as B.
  assert (Z.abs (dot (nth i (hm_matrix h) []) (nth j (hm_matrix h) [])) <= Z.of_nat n)%Z as B' by auto.
  apply Z.mod_divide in K as [c Hc]; lia.
Qed.
Lemma pm_matrix_tab n f : (forall i j, i < n -> j < n -> f i j = 1%Z \/ f i j = (-1)%Z) -> pm_matrix n (tab n f).
Proof.
  intros H. split; [apply tab_square|]. apply Forall_forall. intros r Hr. apply in_map_iff in Hr as (i & <- & Hi).
  apply in_seq in Hi. apply Forall_forall. intros x Hx. apply in_map_iff in Hx as (j & <- & Hj). apply in_seq in Hj. apply H; lia.
Qed.
Lemma dot_tab n f i j : i < n -> j < n -> dot (nth i (tab n f) []) (nth j (tab n f) []) = sumZ n (fun k => f i k * f j k)%Z.
Proof.
  intros Hi Hj. unfold dot. rewrite !tab_row, map_length, seq_length by auto. apply sumZ_ext. intros k Hk.
  now rewrite !nth_map_seq by auto.
Qed.
Lemma all_ones_accepted n : n mod 256 = 0 -> HM_verify (HM_new n) = Some true.
Proof.
  intros Hn. assert (hm_matrix (HM_new n) = tab n (fun _ _ => 1%Z)) as E by apply mconst_tab.
  destruct (HM_verify_spec n (HM_new n)) as (b & Eb & H); auto.
  - rewrite E. apply pm_matrix_tab. auto.
  - rewrite Eb. f_equal. apply H. intros i j Hi Hj _. rewrite E, dot_tab by auto.
    rewrite sumZ_const. replace (Z.of_nat n * (1 * 1))%Z with (Z.of_nat n) by lia.
    change 256%Z with (Z.of_nat 256). rewrite <- Nat2Z.inj_mod. now rewrite Hn.
Qed.
Lemma all_ones_not_orthogonal n : 2 <= n -> ~ orthogonal_rows n (hm_matrix (HM_new n)).
Proof.
  intros Hn H. specialize (H 0 1 ltac:(lia) ltac:(lia) ltac:(lia)). cbn [hm_matrix HM_new] in H.
  rewrite mconst_tab, dot_tab, sumZ_const in H by lia. lia.
Qed.

(* ---- construction ---- *)
Definition circ (s : list Z) (i j : nat) : Z := entry s (Z.of_nat j - Z.of_nat i).
Lemma add_sub_mod n i k : i < n -> k < n -> ((i + k) mod n + n - i) mod n = k.
Proof.
  intros Hi Hk. destruct (Nat.lt_ge_cases (i + k) n).
  - rewrite (Nat.mod_small (i + k)) by lia. replace (i + k + n - i) with (k + 1 * n) by lia. rewrite Nat.mod_add by lia. now apply Nat.mod_small.
  - assert ((i + k) mod n = i + k - n) as -> by (symmetry; apply (Nat.mod_unique _ _ 1); lia).
    replace (i + k - n + n - i) with k by lia. now apply Nat.mod_small.
Qed.
Lemma sub_add_mod n i j : i < n -> j < n -> (i + (j + n - i) mod n) mod n = j.
Proof.
  intros Hi Hj. rewrite Nat.add_mod_idemp_r by lia. replace (i + (j + n - i)) with (j + 1 * n) by lia.
  rewrite Nat.mod_add by lia. now apply Nat.mod_small.
Qed.
Definition circ_done n k l i j := ((j + n - i) mod n <? k) || ((j + n - i) mod n =? k) && (i <? l).
Lemma from_sequence_spec s : HM_from_sequence s = Some (mkHM (length s) (tab (length s) (circ s))).
Proof.
  unfold HM_from_sequence. set (n := length s). destruct (Nat.eq_dec n 0) as [E|E].
  { rewrite E. reflexivity. }
  assert (forall i j, i < n -> j < n -> (j + n - i) mod n < n) as Hlt by (intros; apply Nat.mod_upper_bound; lia).
  rewrite (for_m_ext n _ (fun hm index => for_m n (fun hm i => HM_set_value hm i ((i + index) mod n) (nth index s 0%Z)) hm)).
  2:{ intros a i Hi. now rewrite (vget_nth s i 0%Z) by auto. }
  unfold HM_new. rewrite mconst_tab.
  rewrite (sweep_w (mkHM n) n n n (fun _ _ => 1%Z) (circ s) (circ_done n)
     (fun hm index i => HM_set_value hm i ((i + index) mod n) (nth index s 0%Z))).
  - f_equal. f_equal. apply tab_ext. intros i j Hi Hj. unfold mix, circ_done. pose proof (Hlt i j Hi Hj). cases.
  - intros i j Hi Hj. unfold circ_done. cases.
  - intros k i j Hk Hi Hj. unfold circ_done. cases.
  - intros k l Hk Hl. unfold HM_set_value. cbn [hm_matrix hm_size].
    assert ((l + k) mod n < n) as Hm by (apply Nat.mod_upper_bound; lia).
    rewrite (mset_tab_as n _ (mix (circ_done n k (l + 1)) (circ s) (fun _ _ => 1%Z))); auto.
    + unfold mix, circ_done. rewrite add_sub_mod by auto. cases. unfold circ. rewrite <- (entry_mod s). fold n.
      rewrite Nat2Z.inj_mod, Zminus_mod_idemp_l. replace (Z.of_nat (l + k) - Z.of_nat l)%Z with (Z.of_nat k) by lia.
      rewrite Z.mod_small by lia. now apply entry_nat.
    + intros a b Ha Hb Hab. unfold mix, circ_done.
      assert (a = l -> (b + n - a) mod n = k -> False) as Hne.
      { intros -> Hk'. destruct Hab as [|Hab]; auto. apply Hab. rewrite <- Hk'. now rewrite sub_add_mod. }
      cases.
Qed.

Definition opval (op : OpMat) (f : nat -> nat -> Z) (i j : nat) : Z :=
  match op with OpNone => f i j | OpMinus => neg8 (f i j) | OpTranspose => f j i | OpMinusTranspose => neg8 (f j i) end.
Definition in_block n ro co i j := (ro <=? i) && (i <? ro + n) && ((co <=? j) && (j <? co + n)).
Definition blk n ro co op b f i j : Z := if in_block n ro co i j then opval op b (i - ro) (j - co) else f i j.
Definition blk_done n ro co k l i j := in_block n ro co i j && ((i <? ro + k) || (i =? ro + k) && (j <? co + l)).
Lemma copy_block_spec N n f b ro co op : ro + n <= N -> co + n <= N ->
  HM_copy_block_to (mkHM N (tab N f)) (mkHM n (tab n b)) ro co op = Some (mkHM N (tab N (blk n ro co op b f))).
Proof.
  intros Hro Hco. unfold HM_copy_block_to. cbn [hm_size].
  rewrite (for_m_ext n _ (fun h row => for_m n (fun h col => HM_set_value h (row + ro) (col + co) (opval op b row col)) h)).
  2:{ intros a i Hi. apply for_m_ext. intros a' j Hj. destruct op; cbn [HM_get_with_op_mat hm_matrix]; rewrite mget_tab by auto; reflexivity. }
  rewrite (sweep_w (mkHM N) n n N f (fun i j => opval op b (i - ro) (j - co)) (blk_done n ro co)
     (fun h row col => HM_set_value h (row + ro) (col + co) (opval op b row col))).
  - f_equal. f_equal. apply tab_ext. intros i j Hi Hj. unfold mix, blk_done, blk, in_block. cases.
  - intros i j Hi Hj. unfold blk_done, in_block. cases.
  - intros k i j Hk Hi Hj. unfold blk_done, in_block. cases.
  - intros k l Hk Hl. unfold HM_set_value. cbn [hm_matrix hm_size].
    rewrite (mset_tab_as N _ (mix (blk_done n ro co k (l + 1)) (fun i j => opval op b (i - ro) (j - co)) f)); auto; try lia.
    + unfold mix, blk_done, in_block. replace (k + ro - ro) with k by lia. replace (l + co - co) with l by lia. cases.
    + intros a c Ha Hc Hab. unfold mix, blk_done, in_block. cases.
Qed.

Lemma blk_at n ro co bi' bj' op b f bi bj i j : ro = bi' * n -> co = bj' * n -> i < n -> j < n ->
  blk n ro co op b f (bi * n + i) (bj * n + j) =
  if (bi =? bi') && (bj =? bj') then opval op b i j else f (bi * n + i) (bj * n + j).
Proof.
  intros -> -> Hi Hj. unfold blk.
  assert (in_block n (bi' * n) (bj' * n) (bi * n + i) (bj * n + j) = (bi =? bi') && (bj =? bj')) as ->.
  { assert (forall x y k, k < n -> (y * n <=? x * n + k) && (x * n + k <? y * n + n) = (x =? y)) as H.
    { intros x y k Hk. destruct (Nat.eqb_spec x y) as [->|E]; [cases|].
      destruct (Nat.lt_gt_cases x y) as [[L|L] _]; auto.
      - assert (S x * n <= y * n) by (apply Nat.mul_le_mono_r; lia). cases.
      - assert (S y * n <= x * n) by (apply Nat.mul_le_mono_r; lia). cases. }
    unfold in_block. now rewrite !H. }
  destruct (Nat.eqb_spec bi bi') as [->|]; destruct (Nat.eqb_spec bj bj') as [->|]; cbn [andb]; auto.
  f_equal; lia.
Qed.

(* the block structure: sign and sequence of each block *)
Definition bsign (bi bj : nat) : Z :=
  match bi, bj with 1, 1 | 1, 2 | 2, 2 | 2, 3 | 3, 1 | 3, 3 => -1 | _, _ => 1 end.
Definition bseq (q : QuadSeq) (bi bj : nat) : list Z :=
  match bi, bj with
  | 0, 0 | 1, 1 | 2, 2 | 3, 3 => q_a q
  | 0, 1 | 1, 0 | 2, 3 | 3, 2 => q_b q
  | 0, 2 | 2, 0 | 1, 3 | 3, 1 => q_c q
  | _, _ => q_d q
  end.
Definition bmat (n : nat) (q : QuadSeq) (i j : nat) : Z :=
  (bsign (i / n) (j / n) * circ (bseq q (i / n) (j / n)) (i mod n) (j mod n))%Z.

Lemma circ_pm l i j : pm1 l -> length l <> 0 -> circ l i j = 1%Z \/ circ l i j = (-1)%Z.
Proof. intros H Hl. apply entry_pm; auto. Qed.
Lemma circ_neg l i j : pm1 l -> length l <> 0 -> neg8 (circ l i j) = (- circ l i j)%Z.
Proof. intros H Hl. destruct (circ_pm l i j H Hl) as [-> | ->]; reflexivity. Qed.

Lemma block_split n k : 1 <= n -> k < 4 * n -> exists b i, k = b * n + i /\ b < 4 /\ i < n /\ k / n = b /\ k mod n = i.
Proof.
  intros Hn Hk. exists (k / n), (k mod n). pose proof (Nat.div_mod k n). pose proof (Nat.mod_upper_bound k n).
  repeat split; try lia. apply Nat.div_lt_upper_bound; lia.
Qed.

Lemma from_williamson_spec n q : pm_quad n q -> 1 <= n ->
  HM_from_williamson q QuaternionType = Some (mkHM (4 * n) (tab (4 * n) (bmat n q))).
Proof.
  intros ((Hs & La & Lb & Lc & Ld) & Pa & Pb & Pc & Pd) Hn. unfold HM_from_williamson, sequence. rewrite !from_sequence_spec. cbn [bind].
  rewrite Hs, La, Lb, Lc, Ld. unfold HM_new. rewrite mconst_tab.
  do 15 (rewrite copy_block_spec by lia; cbn [bind]). rewrite copy_block_spec by lia.
  f_equal. f_equal. apply tab_ext. intros i j Hi Hj.
  destruct (block_split n i Hn Hi) as (bi & i' & Ei & Bi & Hi' & Di & Mi).
  destruct (block_split n j Hn Hj) as (bj & j' & Ej & Bj & Hj' & Dj & Mj).
  unfold bmat. rewrite Di, Dj, Mi, Mj, Ei, Ej.
  rewrite (blk_at n (3 * n) (3 * n) 3 3) by lia. rewrite (blk_at n (2 * n) (3 * n) 2 3) by lia.
  rewrite (blk_at n n (3 * n) 1 3) by lia. rewrite (blk_at n 0 (3 * n) 0 3) by lia.
  rewrite (blk_at n (3 * n) (2 * n) 3 2) by lia. rewrite (blk_at n (2 * n) (2 * n) 2 2) by lia.
  rewrite (blk_at n n (2 * n) 1 2) by lia. rewrite (blk_at n 0 (2 * n) 0 2) by lia.
  rewrite (blk_at n (3 * n) n 3 1) by lia. rewrite (blk_at n (2 * n) n 2 1) by lia.
  rewrite (blk_at n n n 1 1) by lia. rewrite (blk_at n 0 n 0 1) by lia.
  rewrite (blk_at n (3 * n) 0 3 0) by lia. rewrite (blk_at n (2 * n) 0 2 0) by lia.
  rewrite (blk_at n n 0 1 0) by lia. rewrite (blk_at n 0 0 0 0) by lia.
  destruct bi as [|[|[|[|bi]]]]; [..|lia]; destruct bj as [|[|[|[|bj]]]]; try lia;
    cbn [Nat.eqb andb opval bsign bseq]; rewrite ?circ_neg by (auto; lia); lia.
Qed.

(* inner products of rows *)
Lemma sumZ_blocks n f : sumZ (4 * n) f = (sumZ n f + sumZ n (fun k => f (n + k)%nat) +
  sumZ n (fun k => f (2 * n + k)%nat) + sumZ n (fun k => f (3 * n + k)%nat))%Z.
Proof.
  replace (4 * n) with (n + (n + (n + n))) by lia. rewrite !sumZ_split.
  assert (forall g h : nat -> Z, (forall k, k < n -> g k = h k) -> sumZ n g = sumZ n h) as E by (intros; now apply sumZ_ext).
  rewrite (E (fun j => f (n + (n + j))) (fun k => f (2 * n + k))) by (intros; f_equal; lia).
  rewrite (E (fun j => f (n + (n + (n + j)))) (fun k => f (3 * n + k))) by (intros; f_equal; lia). lia.
Qed.
Lemma circ_dot n x y i j : length x = n -> length y = n -> n <> 0 ->
  sumZ n (fun k => circ x i k * circ y j k)%Z = ccf x y (Z.of_nat j - Z.of_nat i).
Proof.
  intros Lx Ly Hn. unfold ccf. rewrite Lx.
  rewrite <- (sumZ_shift n (fun k => entry x k * entry y (k - (Z.of_nat j - Z.of_nat i)))%Z (- Z.of_nat i)).
  - apply sumZ_ext. intros k Hk. unfold circ. f_equal; f_equal; lia.
  - rewrite <- Lx at 1. apply mul_periodic.
    + apply entry_periodic.
    + intros a b Hab. apply entry_periodic. rewrite Ly, <- Lx. unfold Z.sub. now apply mod_add_cong.
Qed.
Lemma bmat_block n q bi i bj j : i < n -> j < n -> bmat n q (bi * n + i) (bj * n + j) = (bsign bi bj * circ (bseq q bi bj) i j)%Z.
Proof.
  intros Hi Hj. unfold bmat.
  assert (forall b k, k < n -> (b * n + k) / n = b /\ (b * n + k) mod n = k) as H.
  { intros b k Hk. split; [rewrite Nat.div_add_l, Nat.div_small by lia; lia|].
    rewrite Nat.add_comm, Nat.mod_add by lia. now apply Nat.mod_small. }
  destruct (H bi i Hi) as [-> ->], (H bj j Hj) as [-> ->]. reflexivity.
Qed.
Lemma bmat_dot n q bi i bi' i' : wf n q -> 1 <= n -> i < n -> i' < n ->
  sumZ (4 * n) (fun k => bmat n q (bi * n + i) k * bmat n q (bi' * n + i') k)%Z =
  (bsign bi 0 * bsign bi' 0 * ccf (bseq q bi 0) (bseq q bi' 0) (Z.of_nat i' - Z.of_nat i) +
   bsign bi 1 * bsign bi' 1 * ccf (bseq q bi 1) (bseq q bi' 1) (Z.of_nat i' - Z.of_nat i) +
   bsign bi 2 * bsign bi' 2 * ccf (bseq q bi 2) (bseq q bi' 2) (Z.of_nat i' - Z.of_nat i) +
   bsign bi 3 * bsign bi' 3 * ccf (bseq q bi 3) (bseq q bi' 3) (Z.of_nat i' - Z.of_nat i))%Z.
Proof.
  intros (Hs & La & Lb & Lc & Ld) Hn Hi Hi'. rewrite sumZ_blocks.
  assert (forall a b, length (bseq q a b) = n) as L by (intros [|[|[|[|a]]]] [|[|[|[|b]]]]; cbn [bseq]; auto).
  assert (forall bj off, off = bj * n -> sumZ n (fun k => bmat n q (bi * n + i) (off + k)%nat * bmat n q (bi' * n + i') (off + k)%nat)%Z =
    (bsign bi bj * bsign bi' bj * ccf (bseq q bi bj) (bseq q bi' bj) (Z.of_nat i' - Z.of_nat i))%Z) as H.
  { intros bj off ->. rewrite <- (circ_dot n) by (auto; lia). rewrite <- sumZ_mul_l. apply sumZ_ext. intros k Hk.
    rewrite !bmat_block by auto. ring. }
  rewrite (H 1 n), (H 2 (2 * n)), (H 3 (3 * n)) by lia. rewrite <- (H 0 0) by lia. reflexivity.
Qed.
Lemma comp_paf n q t : wf n q -> complementary q -> (t mod Z.of_nat n <> 0)%Z -> 1 <= n ->
  (ccf (q_a q) (q_a q) t + ccf (q_b q) (q_b q) t + ccf (q_c q) (q_c q) t + ccf (q_d q) (q_d q) t = 0)%Z.
Proof.
  intros (Hs & La & Lb & Lc & Ld) H Ht Hn.
  rewrite <- (Z.opp_involutive t), <- !paf_ccf, !paf_opp.
  rewrite <- (paf_mod (q_a q)), <- (paf_mod (q_b q)), <- (paf_mod (q_c q)), <- (paf_mod (q_d q)), La, Lb, Lc, Ld.
  apply H. rewrite Hs. pose proof (Z.mod_pos_bound t (Z.of_nat n)). lia.
Qed.
Lemma bmat_orthogonal n q : pm_quad n q -> 1 <= n -> is_QT q -> orthogonal_rows (4 * n) (tab (4 * n) (bmat n q)).
Proof.
  intros Hq Hn Ht i j Hi Hj Hij. rewrite dot_tab by auto.
  destruct (QT_WT n Hn q) as (Hc & A1 & A2 & A3 & A4 & A5 & A6); auto.
  destruct (block_split n i Hn Hi) as (bi & i' & Ei & Bi & Hi' & _ & _).
  destruct (block_split n j Hn Hj) as (bj & j' & Ej & Bj & Hj' & _ & _). rewrite Ei, Ej.
  rewrite bmat_dot by (auto; apply Hq). set (t := (Z.of_nat j' - Z.of_nat i')%Z).
  destruct (Nat.eq_dec bi bj) as [<-|Hb].
  - assert (t mod Z.of_nat n <> 0)%Z as Ht'.
    { assert (i' <> j') by congruence. unfold t. intros K. apply Z.mod_divide in K as [c Hc']; [|lia].
      destruct (Z.eq_dec c 0); [lia|]. assert (Z.of_nat n <= Z.abs (c * Z.of_nat n))%Z by (rewrite Z.abs_mul; nia). lia. }
    pose proof (comp_paf n q t (proj1 Hq) Hc Ht' Hn) as E.
    destruct bi as [|[|[|[|bi]]]]; [..|lia]; cbn [bsign bseq]; lia.
  - specialize (A1 t). specialize (A2 t). specialize (A3 t). specialize (A4 t). specialize (A5 t). specialize (A6 t).
    destruct bi as [|[|[|[|bi]]]]; [..|lia]; destruct bj as [|[|[|[|bj]]]]; try lia; cbn [bsign bseq]; lia.
Qed.
Lemma bmat_pm n q : pm_quad n q -> 1 <= n -> pm_matrix (4 * n) (tab (4 * n) (bmat n q)).
Proof.
  intros ((Hs & La & Lb & Lc & Ld) & Pa & Pb & Pc & Pd) Hn. apply pm_matrix_tab. intros i j _ _. unfold bmat.
  assert (forall a b, bsign a b = 1%Z \/ bsign a b = (-1)%Z) as S by (intros [|[|[|[|a]]]] [|[|[|[|b]]]]; cbn; auto).
  assert (forall a b, pm1 (bseq q a b) /\ length (bseq q a b) = n) as P by (intros [|[|[|[|a]]]] [|[|[|[|b]]]]; cbn [bseq]; auto).
  destruct (P (i / n) (j / n)) as [P1 P2]. 
  destruct (S (i / n) (j / n)) as [-> | ->], (circ_pm (bseq q (i / n) (j / n)) (i mod n) (j mod n)) as [-> | ->]; auto; lia.
Qed.
Lemma get_qts_bmat n q : pm_quad n q -> 1 <= n -> HM_get_qts (mkHM (4 * n) (tab (4 * n) (bmat n q))) = Some q.
Proof.
  intros ((Hs & La & Lb & Lc & Ld) & _) Hn. unfold HM_get_qts. cbn [hm_size].
  replace (4 * n / 4) with n by (rewrite Nat.mul_comm, Nat.div_mul; lia).
  assert (forall bi l off, bi < 4 -> off = bi * n -> length l = n -> bsign bi 0 = 1%Z -> bseq q bi 0 = l ->
    vbuild n (fun i => HM_get {| hm_size := 4 * n; hm_matrix := tab (4 * n) (bmat n q) |} off i) = Some l) as H.
  { intros bi l off Hb -> Ll Sg Sq. rewrite (vbuild_map n _ (fun i => nth i l 0%Z)).
    - rewrite <- Ll at 1. now rewrite map_nth_seq.
    - intros i Hi. unfold HM_get. cbn [hm_matrix]. assert (bi * n <= 3 * n) by (apply Nat.mul_le_mono_r; lia).
      rewrite mget_tab by lia. pose proof (bmat_block n q bi 0 0 i) as E. rewrite Nat.add_0_r in E. cbn [Nat.mul Nat.add] in E.
      rewrite E by lia. rewrite Sg, Sq. unfold circ. rewrite Z.sub_0_r, entry_nat by lia. f_equal. lia. }
  rewrite (H 0 (q_a q) 0), (H 1 (q_b q) n), (H 2 (q_c q) (2 * n)), (H 3 (q_d q) (3 * n)) by (auto; lia). cbn [bind].
  unfold set_all_values, Quad_new. cbn. destruct q; cbn in *; congruence.
Qed.
Lemma from_williamson_hadamard n q t : pm_quad n q -> 1 <= n -> verify q t = Some true ->
  exists h, HM_from_williamson q QuaternionType = Some h /\ hm_size h = 4 * n /\ hadamard (4 * n) (hm_matrix h) /\
    HM_verify h = Some true /\ HM_get_qts h = Some q.
Proof.
  intros Hq Hn Hv. apply (verify_true n) in Hv; auto.
  assert (is_QT q) as HQ.
  { destruct t; try contradiction; auto; apply WT_QT; auto. now apply (W_WT n); [apply Hq|]. }
  exists (mkHM (4 * n) (tab (4 * n) (bmat n q))). split; [now apply from_williamson_spec|]. split; auto.
  pose proof (bmat_pm n q Hq Hn) as P. pose proof (bmat_orthogonal n q Hq Hn HQ) as O. cbn [hm_matrix].
  split; [split; auto|]. split; [|now apply get_qts_bmat].
  destruct (HM_verify_spec (4 * n) (mkHM (4 * n) (tab (4 * n) (bmat n q)))) as (b & -> & H); auto. f_equal. apply H.
  intros i j Hi Hj Hij. cbn [hm_matrix]. now rewrite O.
Qed.

(* ---- dephasing ---- *)
Definition c1 := cell 1%Z.
Lemma pm_cell n m i j : pm_matrix n m -> i < n -> j < n -> c1 m i j = 1%Z \/ c1 m i j = (-1)%Z.
Proof.
  intros H Hi Hj. destruct (pm_matrix_row n m i H Hi) as [L P]. unfold c1, cell. rewrite nth_indep with (d' := 0%Z) by lia.
  apply pm1_nth; auto; lia.
Qed.
Lemma HM_dephase_spec n m : pm_matrix n m ->
  HM_dephase (mkHM n m) = Some (mkHM n (tab n (fun i j => (c1 m 0 0 * c1 m i 0) * (c1 m 0 j * c1 m i j))%Z)).
Proof.
  intros Hp. unfold HM_dephase. cbn [hm_size hm_matrix].
  rewrite (square_tab n m 1%Z) at 1 by apply Hp.
  rewrite (sweep n n n (cell 1%Z m) (fun i j => mul8 (cell 1%Z m 0 j) (cell 1%Z m i j)) (tri_irow n)
    (fun m inv_row col => let* x := mget m 0 col in let* y := mget m (n - 1 - inv_row) col in mset m (n - 1 - inv_row) col (mul8 x y)))
    by (auto using tri_irow_0, tri_irow_r; sweep_step tri_irow).
  cbn [bind].
  set (g := fun i j => mul8 (cell 1%Z m 0 j) (cell 1%Z m i j)).
  rewrite (tab_ext n (mix (tri_irow n n 0) g (cell 1%Z m)) g).
  2:{ intros i j Hi Hj. unfold mix. destruct (tri_end n i j Hi Hj) as (_ & _ & -> & _). reflexivity. }
  rewrite (sweep n n n g (fun i j => mul8 (g i 0) (g i j)) (tri_icol n)
    (fun m inv_col row => let* x := mget m row 0 in let* y := mget m row (n - 1 - inv_col) in mset m row (n - 1 - inv_col) (mul8 x y)))
    by (auto using tri_icol_0, tri_icol_r; sweep_step tri_icol).
  cbn [bind]. f_equal. f_equal. apply tab_ext. intros i j Hi Hj. unfold mix. destruct (tri_end n i j Hi Hj) as (_ & _ & _ & ->).
  unfold g. fold c1. pose proof (pm_cell n m 0 0 Hp ltac:(lia) ltac:(lia)). pose proof (pm_cell n m i 0 Hp Hi ltac:(lia)).
  pose proof (pm_cell n m 0 j Hp ltac:(lia) Hj). pose proof (pm_cell n m i j Hp Hi Hj).
  rewrite !mul8_pm1; auto; rewrite ?mul8_pm1; auto; [lia|..]; repeat match goal with H : _ \/ _ |- _ => destruct H as [-> | ->] end; lia.
Qed.
Lemma HM_dephased_tab n f : (forall i j, i < n -> j < n -> f i j = 1%Z \/ f i j = (-1)%Z) ->
  HM_dephased (mkHM n (tab n f)) = Some (mkHM n (tab n (fun i j => f i 0%nat * f i j)%Z)).
Proof.
  intros Hp. unfold HM_dephased. cbn [hm_size hm_matrix]. rewrite mconst_tab.
  rewrite (sweep n n n (fun _ _ => 1%Z) (fun i j => mul8 (f 0 j) (f i j)) (tri_irow n)
    (fun m' inv_row col => let* x := mget (tab n f) 0 col in let* y := mget (tab n f) (n - 1 - inv_row) col in
       mset m' (n - 1 - inv_row) col (mul8 x y)))
    by (auto using tri_irow_0, tri_irow_r; sweep_step tri_irow).
  cbn [bind].
  rewrite (sweep n n n _ (fun i j => mul8 (f i 0) (f i j)) (tri_icol n)
    (fun m' inv_col row => let* x := mget (tab n f) row 0 in let* y := mget (tab n f) row (n - 1 - inv_col) in
       mset m' row (n - 1 - inv_col) (mul8 x y)))
    by (auto using tri_icol_0, tri_icol_r; sweep_step tri_icol).
  cbn [bind]. f_equal. f_equal. apply tab_ext. intros i j Hi Hj. unfold mix at 1. destruct (tri_end n i j Hi Hj) as (_ & _ & _ & ->).
  apply mul8_pm1; apply Hp; lia.
Qed.
Lemma HM_dephased_spec n m : pm_matrix n m ->
  HM_dephased (mkHM n m) = Some (mkHM n (tab n (fun i j => c1 m i 0 * c1 m i j)%Z)).
Proof.
  intros Hp. rewrite (square_tab n m 1%Z) at 1 by apply Hp. apply HM_dephased_tab. intros; now apply (pm_cell n m).
Qed.

Lemma signed_orthogonal n f (r c : nat -> Z) :
  (forall i, i < n -> r i = 1%Z \/ r i = (-1)%Z) -> (forall i, i < n -> c i = 1%Z \/ c i = (-1)%Z) ->
  orthogonal_rows n (tab n f) <-> orthogonal_rows n (tab n (fun i j => r i * c j * f i j)%Z).
Proof.
  intros Hr Hc. unfold orthogonal_rows.
  assert (forall i j, i < n -> j < n -> dot (nth i (tab n (fun i j => r i * c j * f i j)%Z) []) (nth j (tab n (fun i j => r i * c j * f i j)%Z) [])
    = (r i * r j * dot (nth i (tab n f) []) (nth j (tab n f) []))%Z) as E.
  { intros i j Hi Hj. rewrite !dot_tab, <- sumZ_mul_l by auto. apply sumZ_ext. intros k Hk.
    destruct (Hc k Hk) as [-> | ->]; ring. }
  split; intros H i j Hi Hj Hij; specialize (H i j Hi Hj Hij); [rewrite E by auto; rewrite H; lia|].
  rewrite E in H by auto. destruct (Hr i Hi) as [E1 | E1], (Hr j Hj) as [E2 | E2]; rewrite E1, E2 in H; lia.
Qed.
Ltac pmc := repeat match goal with H : ?a < ?b -> _ |- _ => specialize (H ltac:(lia)) end;
  repeat match goal with H : c1 _ _ _ = 1%Z \/ _ |- _ => let E := fresh in destruct H as [E|E]; rewrite ?E end; lia.
Lemma dephase_good n h : hm_size h = n -> pm_matrix n (hm_matrix h) ->
  exists d, HM_dephase h = Some d /\ hm_size d = n /\ pm_matrix n (hm_matrix d) /\
    normalised 1%Z n (hm_matrix d) /\
    (orthogonal_rows n (hm_matrix d) <-> orthogonal_rows n (hm_matrix h)).
Proof.
  destruct h as [n' m]. cbn [hm_size hm_matrix]. intros -> Hp.
  eexists. split; [now apply HM_dephase_spec|]. cbn [hm_size hm_matrix]. split; auto.
  assert (forall i j, i < n -> j < n -> c1 m i j = 1%Z \/ c1 m i j = (-1)%Z) as C by (intros; now apply (pm_cell n m)).
  split; [|split].
  - apply pm_matrix_tab. intros i j Hi Hj.
    pose proof (C 0 0). pose proof (C i 0). pose proof (C 0 j). pose proof (C i j). pmc.
  - intros k Hk. rewrite !cell_tab by lia.
    split.
    + pose proof (C 0 0). pose proof (C 0 k). pmc.
    + pose proof (C 0 0). pose proof (C k 0). pmc.
  - assert (orthogonal_rows n m <-> orthogonal_rows n (tab n (c1 m))) as -> by (unfold c1; rewrite <- (square_tab n m 1%Z) by apply Hp; reflexivity).
    rewrite (signed_orthogonal n (c1 m) (fun i => c1 m 0 0 * c1 m i 0)%Z (fun j => c1 m 0 j)).
    + rewrite (tab_ext n (fun i j => c1 m 0 0 * c1 m i 0 * (c1 m 0 j * c1 m i j))%Z (fun i j => c1 m 0 0 * c1 m i 0 * c1 m 0 j * c1 m i j)%Z); [tauto|].
      intros; ring.
    + intros i Hi. pose proof (C 0 0). pose proof (C i 0). pmc.
    + intros. apply C; lia.
Qed.
Lemma dephased_exact n h : hm_size h = n -> pm_matrix n (hm_matrix h) ->
  exists d, HM_dephased h = Some d /\ hm_size d = n /\ pm_matrix n (hm_matrix d) /\
    (forall i j, i < n -> j < n -> cell 1%Z (hm_matrix d) i j = (cell 1%Z (hm_matrix h) i 0 * cell 1%Z (hm_matrix h) i j)%Z) /\
    (orthogonal_rows n (hm_matrix d) <-> orthogonal_rows n (hm_matrix h)) /\
    (normalised 1%Z n (hm_matrix d) <-> forall j, j < n -> cell 1%Z (hm_matrix h) 0 j = cell 1%Z (hm_matrix h) 0 0).
Proof.
  destruct h as [n' m]. cbn [hm_size hm_matrix]. intros -> Hp.
  eexists. split; [now apply HM_dephased_spec|]. cbn [hm_size hm_matrix]. split; auto.
  assert (forall i j, i < n -> j < n -> c1 m i j = 1%Z \/ c1 m i j = (-1)%Z) as C by (intros; now apply (pm_cell n m)).
  split; [|split; [|split]].
  - apply pm_matrix_tab. intros i j Hi Hj. pose proof (C i 0). pose proof (C i j). pmc.
  - intros i j Hi Hj. now rewrite cell_tab.
  - assert (orthogonal_rows n m <-> orthogonal_rows n (tab n (c1 m))) as -> by (unfold c1; rewrite <- (square_tab n m 1%Z) by apply Hp; reflexivity).
    rewrite (signed_orthogonal n (c1 m) (fun i => c1 m i 0)%Z (fun j => 1%Z)).
    + rewrite (tab_ext n (fun i j => c1 m i 0 * c1 m i j)%Z (fun i j => c1 m i 0 * 1 * c1 m i j)%Z); [tauto|].
      intros; ring.
    + intros i Hi. apply C; lia.
    + auto.
  - fold c1. unfold normalised. split.
    + intros H j Hj. destruct (H j Hj) as [H1 _]. fold (c1 (tab n (fun i j => c1 m i 0 * c1 m i j)%Z) 0 j) in H1.
      unfold c1 in H1 at 1. rewrite cell_tab in H1 by lia. pose proof (C 0 0 ltac:(lia) ltac:(lia)) as K1. pose proof (C 0 j ltac:(lia) Hj) as K2. destruct K1 as [E | E], K2 as [E' | E']; rewrite E, E' in *; lia.
    + intros H k Hk. rewrite !cell_tab by lia. rewrite (H k Hk).
      pose proof (C 0 0). pose proof (C k 0). split; pmc.
Qed.
Lemma verify_256_refuted : exists h, hm_size h = 256 /\ pm_matrix 256 (hm_matrix h) /\
  HM_verify h = Some true /\ ~ orthogonal_rows 256 (hm_matrix h).
Proof.
  exists (HM_new 256). split; auto. split; [|split].
  - cbn [hm_matrix HM_new]. rewrite mconst_tab. apply pm_matrix_tab. auto.
  - apply all_ones_accepted. reflexivity.
  - apply all_ones_not_orthogonal. lia.
Qed.
Lemma dephased_refuted : exists h d, hadamard 2 (hm_matrix h) /\ hm_size h = 2 /\
  HM_dephased h = Some d /\ ~ normalised 1%Z 2 (hm_matrix d).
Proof.
  exists (mkHM 2 [[1; -1]; [1; 1]]%Z), (mkHM 2 [[1; -1]; [1; 1]]%Z). split; [split; [split; [split|]|]|split; [auto|split; [reflexivity|]]].
  - reflexivity.
  - repeat constructor.
  - unfold pm1. repeat (apply Forall_cons || apply Forall_nil); (left; reflexivity) || (right; reflexivity).
  - intros [|[|i]] [|[|j]] Hi Hj N; try lia; reflexivity.
  - intros H. destruct (H 1 ltac:(lia)) as [H1 _]. discriminate.
Qed.
