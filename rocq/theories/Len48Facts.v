(* Lengths 33 to 63: the symbols from 129 on become negative as an i8, and none becomes 0. *)
From Coq Require Import List ZArith Lia Arith Bool Permutation Relations.
From Verif Require Import Base BaseFacts Sums ModelSequence ModelWilliamson ModelEquivalence Spec SpecEquiv
  SeqFacts OpFacts EquivFacts TypeFacts FastFacts OrderFacts CanonFacts NsFacts ReduceFacts.
Import ListNotations.
Open Scope Z_scope.

(* ---- substituting one symbol ---- *)

(* where the symbol -128 is looked up *)
Definition back (n : nat) : nat :=
  Z.to_nat ((127 - (2 ^ 64 - 129) mod Z.of_nat n) / Z.of_nat n * Z.of_nat n + 127 mod Z.of_nat n).
Definition fidx (n : nat) (z : Z) : nat := if z =? -128 then back n else Z.to_nat (Z.abs z - 1).
Definition psi (n : nat) (q : QuadSeq) (z : Z) : Z := sneg (z <? 0) (nth (fidx n z) (flat q) 0).
(* the symbols that occur *)
Definition sym (z : Z) : Prop := i8 z /\ z <> 0.

Lemma pick n q k r : wf n q -> 0 <= k < 4 -> 0 <= r < Z.of_nat n ->
  (let* s := (if k =? 0 then Some (q_a q) else if k =? 1 then Some (q_b q)
              else if k =? 2 then Some (q_c q) else if k =? 3 then Some (q_d q) else None) in vget s (Z.to_nat r))
  = Some (nth (Z.to_nat (k * Z.of_nat n + r)) (flat q) 0).
Proof.
  intros Hw Hk Hr.
  assert ((if k =? 0 then Some (q_a q) else if k =? 1 then Some (q_b q)
           else if k =? 2 then Some (q_c q) else if k =? 3 then Some (q_d q) else None)
          = Some (slot q (tag_of k))) as ->.
  { unfold tag_of. destruct (k =? 0) eqn:?, (k =? 1) eqn:?, (k =? 2) eqn:?, (k =? 3) eqn:?; cbn; auto.
    exfalso. lia. }
  cbn [bind]. apply wf_slots in Hw as Hw'. destruct Hw' as [_ Hl].
  rewrite (vget_nth _ _ 0) by (rewrite Hl; lia). f_equal.
  rewrite <- (nth_flat n) by (auto; lia). f_equal.
  assert (tag_no (tag_of k) = Z.to_nat k) as ->.
  { unfold tag_of. destruct (k =? 0) eqn:?, (k =? 1) eqn:?, (k =? 2) eqn:?; cbn; lia. }
  nia.
Qed.

Lemma fast_element_48 n q z : wf n q -> (33 <= n <= 63)%nat -> sym z -> fast_element q z = Some (psi n q z).
Proof.
  intros Hw Hn [H8 Hz]. pose proof (proj1 Hw) as Hs. unfold fast_element. rewrite Hs.
  set (N := Z.of_nat n) in *. assert (33 <= N <= 63) as HN by (unfold N; lia).
  assert (exists a r, 0 <= a <= 127 /\ 0 <= r < N /\ r <= a /\ wrap8 (abs8 z - 1) = a /\
    as_usize (as_usize (abs8 z) - 1) mod N = r /\ Z.of_nat (fidx n z) = (a - r) / N * N + a mod N) as (a & r & Ha & Hr & Hra & E1 & E2 & E3).
  { unfold fidx. destruct (Z.eqb_spec z (-128)) as [->|E].
    - exists 127, ((2 ^ 64 - 129) mod N). assert (0 <= (2 ^ 64 - 129) mod N < N) as Hr by (apply Z.mod_pos_bound; lia).
      split; [lia|]. split; [exact Hr|]. split; [lia|]. split; [reflexivity|]. split; [reflexivity|].
      unfold back. fold N. rewrite Z2Nat.id; [reflexivity|].
      assert (0 <= (127 - (2 ^ 64 - 129) mod N) / N) by (apply Z.div_pos; lia).
      assert (0 <= 127 mod N) by (apply Z.mod_pos_bound; lia). nia.
    - exists (Z.abs z - 1), ((Z.abs z - 1) mod N). unfold i8 in *. set (a := Z.abs z - 1).
      assert (0 <= a mod N < N) as Hm by (apply Z.mod_pos_bound; lia). pose proof (Z.div_mod a N ltac:(lia)) as Hdm.
      assert (0 <= a / N) by (apply Z.div_pos; lia).
      split; [lia|]. split; [exact Hm|]. split; [nia|].
      unfold abs8. rewrite (wrap8_id (Z.abs z)) by (unfold i8; lia). fold a. split; [apply wrap8_id; lia|]. split.
      + f_equal. unfold as_usize. rewrite (Z.mod_small (Z.abs z)) by lia. apply Z.mod_small. lia.
      + replace (a - a mod N) with (a / N * N) by lia. rewrite Z.div_mul by lia. lia. }
  rewrite E1, E2, (wrap8_id r), wrap8_id by lia.
  unfold as_usize. change (2 ^ 64) with 18446744073709551616. rewrite (Z.mod_small (a - r)), (Z.mod_small a) by lia.
  assert (0 <= (a - r) / N < 4) as Hk by (split; [apply Z.div_pos; lia|apply Z.div_lt_upper_bound; lia]).
  assert (0 <= a mod N < N) as Hm by (apply Z.mod_pos_bound; lia).
  pose proof (pick n q ((a - r) / N) (a mod N) Hw Hk Hm) as P. fold N in P.
  destruct (if (a - r) / N =? 0 then _ else _) as [s|]; cbn [bind] in *; [|discriminate]. rewrite P. cbn [bind].
  unfold psi, sneg. rewrite <- E3, Nat2Z.id. reflexivity.
Qed.

Lemma fast_apply_gen n q s f : wf n q -> wf n s -> (forall t z, In z (slot s t) -> fast_element q z = Some (f z)) ->
  fast_apply q s = Some (qmap f s).
Proof.
  intros Hw Hs Hd. unfold fast_apply. rewrite (proj1 Hw).
  rewrite (traverse_map _ f).
  2:{ intros z Hz. rewrite !in_app_iff in Hz.
      destruct Hz as [H|[H|[H|H]]]; [apply (Hd TW)|apply (Hd TX)|apply (Hd TY)|apply (Hd TZ)]; exact H. }
  cbn [bind]. rewrite !map_app.
  apply wf_slots in Hs as [Hss Hl].
  pose proof (Hl TW) as Ha. pose proof (Hl TX) as Hb. pose proof (Hl TY) as Hc. pose proof (Hl TZ) as He.
  cbn [slot] in *.
  set (A := map f (q_a s)). set (B := map f (q_b s)). set (C := map f (q_c s)). set (D := map f (q_d s)).
  assert (length A = n /\ length B = n /\ length C = n /\ length D = n) as (LA & LB & LC & LD)
    by (unfold A, B, C, D; rewrite !map_length; auto).
  assert (slice (A ++ B ++ C ++ D) 0 n = Some A) as -> by (apply (slice_app [] A); cbn; lia).
  assert (slice (A ++ B ++ C ++ D) n (2 * n) = Some B) as -> by (apply (slice_app A B); lia).
  assert (slice (A ++ B ++ C ++ D) (2 * n) (3 * n) = Some C) as ->.
  { rewrite (app_assoc A). apply (slice_app (A ++ B) C); rewrite ?app_length; lia. }
  assert (slice (A ++ B ++ C ++ D) (3 * n) (4 * n) = Some D) as ->.
  { rewrite <- (app_nil_r D) at 1. rewrite (app_assoc A), (app_assoc (A ++ B)).
    apply (slice_app ((A ++ B) ++ C) D); rewrite ?app_length; lia. }
  cbn [bind]. f_equal. unfold qmap. rewrite Hss. reflexivity.
Qed.

(* ---- the symbols stay different from 0 ---- *)

Definition sym_quad (n : nat) (s : QuadSeq) : Prop := wf n s /\ forall t, Forall sym (slot s t).

Lemma sym_neg8 z : sym z -> sym (neg8 z).
Proof.
  unfold sym, i8, neg8. intros [H1 H2]. destruct (Z.eq_dec z (-128)) as [->|E]; [cbn; lia|]. rewrite wrap8_id; lia.
Qed.

Lemma entry_sym l i : length l <> 0%nat -> Forall sym l -> sym (entry l i).
Proof. intros Hl H. unfold entry. rewrite Forall_forall in H. apply H, nth_In. now apply pos_lt. Qed.

Lemma lact_sym f l : Forall sym l -> Forall sym (lact f l).
Proof.
  intros H. destruct (len0 l) as [->|Hl]; [auto|]. apply Forall_forall. intros x Hx.
  apply in_map_iff in Hx as (i & <- & _). unfold sneg.
  destruct (lneg f (Z.of_nat i)); [apply sym_neg8|]; now apply entry_sym.
Qed.

Lemma wact_sym n w s : sym_quad n s -> sym_quad n (wact w s).
Proof.
  revert s. induction w as [|g w IH]; cbn; intros s [Hw Hd]; [now split|]. apply IH. split; [now apply gact_wf|].
  intros t. rewrite gact_slot. destruct g; try destruct (tag_eq t t0); auto using lact_sym.
Qed.

Lemma wrap8_high z : 128 <= z <= 255 -> wrap8 z = z - 256.
Proof.
  intros H. unfold wrap8. replace (z + 128) with (z - 128 + 1 * 256) by lia.
  rewrite Z.mod_add, Z.mod_small by lia. lia.
Qed.

Lemma symbolic_sym n : (n <= 63)%nat -> sym_quad n (symbolic_quad n).
Proof.
  intros Hn. split; [apply symbolic_wf|]. intros t. rewrite symbolic_slot. apply Forall_forall.
  intros z Hz. apply in_map_iff in Hz as (i & <- & Hi). apply in_seq in Hi. pose proof (tag_no_lt t).
  assert (i + tag_no t * n + 1 <= 252)%nat by nia. split; [apply wrap8_range|].
  destruct (Nat.le_gt_cases (i + tag_no t * n + 1) 127); [rewrite wrap8_id|rewrite wrap8_high]; lia.
Qed.

(* ---- what the substitution makes of the identity ---- *)

Definition fold_quad (n : nat) (q : QuadSeq) : QuadSeq := qmap (psi n q) (symbolic_quad n).
(* position i of the four sequences written one after another *)
Definition fold_entry (n : nat) (l : list Z) (i : nat) : Z :=
  if (i <? 127)%nat then nth i l 0 else - nth (if (i =? 127)%nat then back n else (254 - i)%nat) l 0.

Lemma fold_wf n q : wf n (fold_quad n q).
Proof.
  apply wf_slots. split; [reflexivity|]. intros t. unfold fold_quad, qmap.
  rewrite slot_of_slots, map_length. pose proof (symbolic_wf n) as H. apply wf_slots in H. apply H.
Qed.

Lemma back_lt n : (33 <= n <= 63)%nat -> (back n < 128)%nat.
Proof.
  intros Hn. unfold back. set (N := Z.of_nat n). assert (33 <= N <= 63) as HN by (unfold N; lia).
  assert (0 <= (2 ^ 64 - 129) mod N < N) as Hr by (apply Z.mod_pos_bound; lia). set (r := (2 ^ 64 - 129) mod N) in *.
  pose proof (Z.div_mod 127 N ltac:(lia)). assert ((127 - r) / N <= 127 / N) by (apply Z.div_le_mono; lia). nia.
Qed.

Lemma flat_length n q : wf n q -> length (flat q) = (4 * n)%nat.
Proof.
  intros Hw. apply wf_slots in Hw as [_ Hl]. pose proof (Hl TW). pose proof (Hl TX). pose proof (Hl TY). pose proof (Hl TZ).
  cbn [slot] in *. unfold flat. rewrite !app_length. lia.
Qed.

Lemma flat_pm n q i : pm_quad n q -> (i < 4 * n)%nat -> nth i (flat q) 0 = 1 \/ nth i (flat q) 0 = -1.
Proof.
  intros Hq Hi. assert (Forall (fun x => x = 1 \/ x = -1) (flat q)) as F.
  { destruct Hq as (_ & A & B & C & D). unfold flat. unfold pm1 in *. now rewrite !Forall_app. }
  rewrite Forall_forall in F. apply F, nth_In. now rewrite (flat_length n) by apply Hq.
Qed.

Lemma fold_slot n q t i : pm_quad n q -> (33 <= n <= 63)%nat -> (i < n)%nat ->
  nth i (slot (fold_quad n q) t) 0 = fold_entry n (flat q) (tag_no t * n + i).
Proof.
  intros Hq Hn Hi. unfold fold_quad, qmap. rewrite slot_of_slots, symbolic_slot, map_map, nth_map_seq by auto.
  pose proof (tag_no_lt t) as Ht. cbn [Nat.add]. replace (i + tag_no t * n + 1)%nat with (tag_no t * n + i + 1)%nat by lia.
  assert (tag_no t * n + i < 4 * n)%nat as Hp by nia. generalize dependent (tag_no t * n + i)%nat. intros p Hp.
  unfold fold_entry, psi. destruct (Nat.ltb_spec p 127).
  - rewrite wrap8_id by lia. replace (Z.of_nat (p + 1) <? 0) with false by (symmetry; apply Z.ltb_ge; lia). cbn [sneg]. unfold fidx.
    replace (Z.of_nat (p + 1) =? -128) with false by (symmetry; apply Z.eqb_neq; lia). f_equal. lia.
  - rewrite wrap8_high by lia. replace (Z.of_nat (p + 1) - 256 <? 0) with true by (symmetry; apply Z.ltb_lt; lia). cbn [sneg].
    assert (fidx n (Z.of_nat (p + 1) - 256) = if (p =? 127)%nat then back n else (254 - p)%nat) as ->.
    { unfold fidx. destruct (Nat.eqb_spec p 127) as [->|]; [reflexivity|].
      replace (Z.of_nat (p + 1) - 256 =? -128) with false by (symmetry; apply Z.eqb_neq; lia). lia. }
    apply neg8_pm, (flat_pm n); auto. pose proof (back_lt n Hn). destruct (p =? 127)%nat; lia.
Qed.

Lemma fold_flat n q i : pm_quad n q -> (33 <= n <= 63)%nat -> (i < 4 * n)%nat ->
  nth i (flat (fold_quad n q)) 0 = fold_entry n (flat q) i.
Proof.
  intros Hq Hn Hi. pose proof (Nat.div_mod i n ltac:(lia)) as Hdm. pose proof (Nat.mod_upper_bound i n ltac:(lia)) as Hm.
  assert (i / n < 4)%nat as Hk by (apply Nat.div_lt_upper_bound; lia).
  assert (exists t, tag_no t = i / n)%nat as [t Ht].
  { clear Hdm. generalize dependent (i / n)%nat. intros k Hk. destruct k as [|[|[|[|k]]]]; [exists TW|exists TX|exists TY|exists TZ|lia]; reflexivity. }
  replace i with (tag_no t * n + i mod n)%nat by lia. rewrite (nth_flat n) by (auto using fold_wf). now apply fold_slot.
Qed.

Lemma fold_entry_pm n q i : pm_quad n q -> (33 <= n <= 63)%nat -> (i < 4 * n)%nat ->
  fold_entry n (flat q) i = 1 \/ fold_entry n (flat q) i = -1.
Proof.
  intros Hq Hn Hi. unfold fold_entry. pose proof (back_lt n Hn). destruct (Nat.ltb_spec i 127); [now apply (flat_pm n)|].
  destruct (flat_pm n q (if (i =? 127)%nat then back n else (254 - i)%nat) Hq) as [->| ->]; [|lia|lia].
  destruct (i =? 127)%nat; lia.
Qed.

Lemma fold_pm n q : pm_quad n q -> (33 <= n <= 63)%nat -> pm_quad n (fold_quad n q).
Proof.
  intros Hq Hn. apply pm_slots. split; [apply fold_wf|]. intros t. unfold pm1. apply Forall_forall. intros z Hz.
  pose proof (fold_wf n q) as Hw. apply wf_slots in Hw as [_ Hl].
  apply (In_nth _ _ 0) in Hz as (i & Hi & <-). rewrite Hl in Hi. rewrite fold_slot by auto.
  apply fold_entry_pm; auto. pose proof (tag_no_lt t). nia.
Qed.

Lemma flat_ext n x y : wf n x -> wf n y -> (forall i, (i < 4 * n)%nat -> nth i (flat x) 0 = nth i (flat y) 0) -> x = y.
Proof.
  intros Hx Hy H. pose proof Hx as Hx'. pose proof Hy as Hy'. apply wf_slots in Hx' as [Sx Lx]. apply wf_slots in Hy' as [Sy Ly].
  apply quad_ext; [congruence|]. intros t. apply list_ext with (d := 0); [now rewrite Lx, Ly|]. intros i Hi. rewrite Lx in Hi.
  rewrite <- !(nth_flat n) by auto. apply H. pose proof (tag_no_lt t). nia.
Qed.

(* ---- odd lengths: the operations only move positions ---- *)

Definition plain (g : gen) : Prop := exists f, g = All f /\ forall i, lneg f i = false.

Lemma plain_natural f g s : plain g -> qmap f (gact g s) = gact g (qmap f s).
Proof.
  intros (o & -> & Ho). apply quad_ext; auto. intros t. unfold qmap. rewrite slot_of_slots, !gact_slot, slot_of_slots.
  destruct (len0 (slot s t)) as [->|Hl]; [reflexivity|]. unfold lact. rewrite map_map, map_length.
  apply map_ext. intros i. rewrite Ho. cbn [sneg]. now rewrite entry_map.
Qed.

Lemma plain_wact f w s : Forall plain w -> qmap f (wact w s) = wact w (qmap f s).
Proof.
  intros H. revert s. induction H as [|g w Hg Hw IH]; intros s; auto. cbn. rewrite IH. now rewrite plain_natural.
Qed.

Lemma pos_plain t n w : Nat.odd n = true -> opword (pos_ops t) n w -> Forall plain w.
Proof.
  intros Hn H. assert (Nat.even n = false) as He by (rewrite <- Nat.negb_odd, Hn; reflexivity).
  induction H as [|w o v Hw IH Ho Hv]; [constructor|]. apply Forall_app. split; auto.
  assert (o = Automorphism \/ o = UniformShift \/ variants o n = []) as Hc.
  { destruct t; cbn in Ho; repeat (destruct Ho as [<-|Ho]; [cbn [variants]; rewrite ?He; tauto|]); destruct Ho. }
  destruct Hc as [->|[->|E]]; [| |rewrite E in Hv; destruct Hv]; cbn [variants] in Hv;
    apply in_map_iff in Hv as (k & <- & _); (constructor; [|constructor]); eexists; split; reflexivity.
Qed.

Lemma fast_48 n ord p t q G : ord_ok ord -> (33 <= n <= 63)%nat -> Nat.odd n = true -> pm_quad n q ->
  (forall y, In y G <-> reach (pos_ops t) (symbolic_quad n) y) ->
  exists r, generate_equivalence_class_fast ord p q G = Some r /\ NoDup r /\
            forall y, In y r <-> reach (pos_ops t) (fold_quad n q) y.
Proof.
  intros Ho Hn Hodd Hq HG. unfold generate_equivalence_class_fast.
  assert (forall g, In g (ord p G) -> exists w, opword (pos_ops t) n w /\ g = wact w (symbolic_quad n)) as Hg.
  { intros g Hg. apply ord_in in Hg; auto. apply HG in Hg. now apply (reach_word n) in Hg. }
  assert (forall w, opword (pos_ops t) n w -> qmap (psi n q) (wact w (symbolic_quad n)) = wact w (fold_quad n q)) as Hnat.
  { intros w Hw. unfold fold_quad. apply plain_wact. eapply pos_plain; eauto. }
  rewrite (traverse_map _ (qmap (psi n q))).
  2:{ intros g H. destruct (Hg g H) as (w & Hw & ->).
      pose proof (wact_sym n w _ (symbolic_sym n ltac:(lia))) as [Ws Ss].
      apply (fast_apply_gen n); [apply Hq|exact Ws|]. intros u z Hz. apply fast_element_48; [apply Hq|lia|].
      specialize (Ss u). rewrite Forall_forall in Ss. auto. }
  cbn [bind]. eexists. split; [reflexivity|]. split; [apply insert_all_nodup; constructor|].
  intros y. rewrite insert_all_in, in_map_iff, (reach_word n) by apply fold_wf. split.
  - intros [(g & <- & H)|[]]. destruct (Hg g H) as (w & Hw & ->). exists w. auto.
  - intros (w & Hw & ->). left. exists (wact w (symbolic_quad n)). split; auto.
    apply ord_in; auto. apply HG. apply (reach_word n); eauto.
Qed.

Open Scope nat_scope.

Lemma qt_canonical_from n ord p q x t G : ord_ok ord -> supported t -> pm_quad n x -> 1 <= n ->
  (exists r, generate_equivalence_class_fast ord (0 :: p) q G = Some r /\ forall y, In y r <-> reach (pos_ops t) x y) ->
  exists m, qt_canonical ord p q G t = Some m /\ least (reach (type_ops (rep_type t)) x) m.
Proof.
  intros Ho Ht Hx0 Hn (r & Er & Hr).
  assert (qt_canonical ord p q G t =
    (let* class := generate_equivalence_class_fast ord (0 :: p) q G in
     let* l := traverse (canon_of t) (ord (1 :: p) class) in
     let* m := min_by (ord (2 :: p) (insert_all l [])) in m)) as ->.
  { destruct Ht as [->|[->| ->]]; reflexivity. }
  rewrite Er. cbn [bind].
  assert (forall y, In y r -> pm_quad n y) as Pr by (intros y Hy; apply Hr in Hy; eapply reach_pm; eauto).
  destruct (traverse_total (canon_of t) (ord (1 :: p) r)) as (l & -> & Hl).
  { intros y Hy. apply (ord_in ord) in Hy; auto. destruct (canon_of_spec n t y Ht) as (c & E & _); eauto. }
  cbn [bind]. set (L := ord (2 :: p) (insert_all l [])).
  assert (forall y, In y L <-> exists x, In x r /\ canon_of t x = Some y) as HL.
  { intros y. unfold L. rewrite (ord_in ord) by auto. rewrite insert_all_in, Hl. split.
    - intros [(u & Hu & E)|[]]. exists u. rewrite (ord_in ord) in Hu; auto.
    - intros (u & Hu & E). left. exists u. rewrite (ord_in ord); auto. }
  assert (forall y, In y L -> pm_quad n y) as PL.
  { intros y Hy. apply HL in Hy as (u & Hu & E).
    destruct (canon_of_spec n t u Ht (Pr u Hu)) as (c & E' & Hc & _); [lia|].
    rewrite E in E'. injection E' as <-. eapply reach_pm; [apply (Pr u Hu)|apply Hc]. }
  pose proof (min_by_spec n L (fun u Hu => proj1 (PL u Hu))) as HM.
  assert (exists m, min_by L = Some (Some m) /\ least (fun x => In x L) m) as (m & -> & Hm & Hmin).
  { destruct L as [|x0 L0] eqn:EL; auto. exfalso.
    assert (In x r) as Hqr by (apply Hr, rt_refl).
    destruct (canon_of_spec n t x Ht Hx0) as (c & E & _); [lia|].
    assert (In c []) as [] by (apply HL; eauto). }
  exists m. split; auto. split.
  - apply HL in Hm as (u & Hu & E).
    destruct (canon_of_spec n t u Ht (Pr u Hu)) as (c & E' & Hc & _); [lia|].
    rewrite E in E'. injection E' as <-. apply (rep_factor n); auto. exists u. split; auto. now apply Hr.
  - intros y Hy. apply (rep_factor n) in Hy as (u & RS & RN); auto.
    assert (In u r) as Hu by now apply Hr.
    destruct (canon_of_spec n t u Ht (Pr u Hu)) as (c & E & _ & Hc); [lia|].
    eapply quad_le_trans; [apply Hmin, HL; eauto|]. now apply Hc.
Qed.

Theorem reduce_48 n ord p l t fuel : ord_ok ord -> supported t -> 33 <= n <= 63 -> Nat.odd n = true -> l <> [] ->
  Forall (pm_quad n) l -> class_fuel n <= fuel ->
  exists r, reduce_to_canonical_reps fuel ord p l t = Some r /\ NoDup r /\
    forall m, In m r <-> exists x, In x l /\ least (reach (type_ops (rep_type t)) (fold_quad n x)) m.
Proof.
  intros Ho Ht Hn Hodd Hne Hl Hf. unfold reduce_to_canonical_reps.
  destruct l as [|q0 l0] eqn:El; [congruence|]. cbn [vget nth_error bind].
  assert (q_size q0 = n) as -> by (inversion Hl; subst; now destruct H1 as [[? _] _]).
  rewrite <- El in *. clear El q0 l0. rewrite canonical_ops_impl.
  destruct (symmetry_group_spec n ord (0 :: p) (pos_ops t) fuel Ho) as (G & -> & _ & HG); auto.
  { apply small_ok. lia. }
  cbn [bind].
  assert (forall l i acc, Forall (pm_quad n) l -> exists reps,
    foldi_from i (fun i acc q => let* c := qt_canonical ord (i :: 1 :: p) q G t in Some (acc ++ [c])) l acc
      = Some (acc ++ reps) /\
    forall m, In m reps <-> exists x, In x l /\ least (reach (type_ops (rep_type t)) (fold_quad n x)) m) as H.
  { clear l Hne Hl. induction l as [|q l IH]; intros i acc Hl; cbn [foldi_from].
    - exists []. rewrite app_nil_r. split; auto. intros m. split; [intros []|intros (x & [] & _)].
    - inversion Hl; subst.
      destruct (qt_canonical_from n ord (i :: 1 :: p) q (fold_quad n q) t G Ho Ht) as (m & -> & Hm); auto using fold_pm; [lia| |].
      { destruct (fast_48 n ord (0 :: i :: 1 :: p) t q G) as (r & E & _ & R); eauto. }
      cbn [bind]. destruct (IH (S i) (acc ++ [m]) H2) as (reps & -> & Hr). exists (m :: reps).
      rewrite <- app_assoc. split; auto. intros m'. cbn [In]. rewrite Hr. split.
      + intros [<-|(x & Hx & H)]; [exists q; auto|exists x; auto].
      + intros (x & [<-|Hx] & H); [left; eapply least_unique; eauto|right; eauto]. }
  unfold foldi. destruct (H l 0 [] Hl) as (reps & -> & Hr). cbn [bind app].
  exists (unique reps). split; auto. destruct (unique_spec reps) as [H1 H2]. split; auto.
  intros m. rewrite H2. apply Hr.
Qed.
