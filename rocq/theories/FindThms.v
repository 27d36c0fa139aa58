(* The sequences listed by the searches, in terms of the specification. *)
From Coq Require Import List ZArith Lia Arith Bool Permutation QArith Qcanon.
From Verif Require Import Base BaseFacts Quat ModelSequence ModelWilliamson Spec ModelFind SpecFind SearchFacts FindFacts.
Import ListNotations.
Open Scope nat_scope.
Notation length := List.length.

Lemma lists_ext P P' r : (forall v, P v <-> P' v) -> lists_exactly P r -> lists_exactly P' r.
Proof. intros H (L & H1 & H2 & H3 & H4). exists L. split; auto. split; auto. intros v. now rewrite H2. Qed.

Lemma hd_nth (v : list quat) : v <> [] -> nth 0 v Q0 = hd Q1 v.
Proof. destruct v; [congruence|reflexivity]. Qed.

Lemma listed_none n al v : listed None n al v <-> length v = n /\ incl v al /\ hd Q1 v = Q1 /\ perfect v.
Proof.
  unfold listed. cbn [ssize partner twist]. split.
  - intros (H1 & H2 & _ & H4 & H5). split; auto. split; auto. split; auto.
    destruct v as [|x v]; auto. apply (H4 0); [cbn in H1; lia|]. intros k Hk. cbn [partner]. lia.
  - intros (H1 & H2 & H3 & H5). split; auto. split; auto. split; auto. split; auto.
    intros j Hj Hu. assert (j = 0) as -> by (destruct j; auto; destruct (Hu (S j)); lia).
    rewrite hd_nth; auto. intros ->. cbn in H1. lia.
Qed.

Lemma nth_Q1 n (v : list quat) j : length v = n -> (forall (H : j < n), nth j v Q0 = Q1) <-> nth j v Q1 = Q1.
Proof.
  intros Hv. destruct (lt_dec j n) as [H|H].
  - rewrite (nth_indep v Q1 Q0) by lia. firstorder.
  - rewrite (nth_overflow v Q1) by lia. split; auto. intros _ H'. lia.
Qed.

Lemma untouched_iff s n j : j < n -> (untouched ((n + 1) / 2) (partner (Some s) n) 1 j <->
  j = 0 \/ match s with SymI => j = n - 1 | _ => Nat.even n = true /\ j = n / 2 end).
Proof.
  intros Hj. pose proof (half2 (n + 1)). pose proof (half2 n). unfold untouched.
  assert (Nat.even n = true <-> n = 2 * (n / 2)) as He.
  { rewrite Nat.even_spec. split; [intros (k & ->); rewrite Nat.mul_comm, Nat.div_mul; lia|intros E; exists (n / 2); lia]. }
  split.
  - intros Hu. destruct (Nat.eq_dec j 0) as [|Hj0]; auto. right.
    destruct s; cbn [partner] in Hu; try (split; [apply He|]).
    + destruct (Nat.eq_dec j (n - 1)); auto. exfalso. destruct (le_lt_dec ((n + 1) / 2) j).
      * destruct (Hu (n - 1 - j)); lia.
      * destruct (Hu j); lia.
    + destruct (Nat.eq_dec n (2 * (n / 2))); auto. exfalso. destruct (le_lt_dec ((n + 1) / 2) j); [destruct (Hu (j - n / 2))|destruct (Hu j)]; lia.
    + destruct (Nat.eq_dec j (n / 2)); auto. exfalso. destruct (le_lt_dec ((n + 1) / 2) j); [destruct (Hu (j - n / 2))|destruct (Hu j)]; lia.
    + destruct (Nat.eq_dec n (2 * (n / 2))); auto. exfalso. destruct (le_lt_dec ((n + 1) / 2) j); [destruct (Hu (j - n / 2))|destruct (Hu j)]; lia.
    + destruct (Nat.eq_dec j (n / 2)); auto. exfalso. destruct (le_lt_dec ((n + 1) / 2) j); [destruct (Hu (j - n / 2))|destruct (Hu j)]; lia.
    + destruct (Nat.eq_dec n (2 * (n / 2))); auto. exfalso. destruct (le_lt_dec ((n + 1) / 2) j); [destruct (Hu (j - n / 2))|destruct (Hu j)]; lia.
    + destruct (Nat.eq_dec j (n / 2)); auto. exfalso. destruct (le_lt_dec ((n + 1) / 2) j); [destruct (Hu (j - n / 2))|destruct (Hu j)]; lia.
  - intros [->|Hs] k Hk; destruct s; cbn [partner] in *; try lia; destruct Hs as [E ->]; apply He in E; lia.
Qed.

Lemma listed_some s n al v : listed (Some s) n al v <-> listed_sym s n al v.
Proof.
  unfold listed, listed_sym. cbn [ssize].
  assert ((forall k, 1 <= k < (n + 1) / 2 -> nth (partner (Some s) n k) v Q0 = twist (Some s) k (nth k v Q0)) <->
          (forall i, 1 <= i < (n + 1) / 2 -> symmetric_at s n v i)) as E.
  { destruct s; reflexivity. }
  rewrite E. clear E.
  assert (length v = n -> ((forall j, j < n -> untouched ((n + 1) / 2) (partner (Some s) n) 1 j -> nth j v Q0 = Q1) <->
    fixed_entries s n v)) as F.
  { intros Hv. unfold fixed_entries.
    assert ((forall j, j < n -> untouched ((n + 1) / 2) (partner (Some s) n) 1 j -> nth j v Q0 = Q1) <->
       nth 0 v Q1 = Q1 /\ match s with SymI => nth (n - 1) v Q1 = Q1 | _ => Nat.even n = true -> nth (n / 2) v Q1 = Q1 end) as ->.
    { rewrite <- (nth_Q1 n v 0 Hv). split.
      - intros H. split; [intros H0; apply H; auto; apply untouched_iff; auto|].
        destruct s; [apply (nth_Q1 n v (n - 1) Hv)|intros He; apply (nth_Q1 n v (n / 2) Hv)..];
          intros Hj; apply H; auto; apply untouched_iff; auto.
      - intros [H0 Hs] j Hj Hu. apply untouched_iff in Hu as [->|Hu]; auto.
        destruct s; [subst j|destruct Hu as [He ->]; specialize (Hs He)..];
          rewrite (nth_indep v Q0 Q1) by lia; auto. }
    destruct v; cbn; tauto. }
  split; intros (H1 & H2 & H3 & H4 & H5); specialize (F H1); tauto.
Qed.

(* the relation at index 0 *)
Lemma fixed_symmetric_0 s n v : length v = n -> 1 <= n -> fixed_entries s n v ->
  match s with SymI => True | SymII | SymIII => Nat.even n = true | SymIV => False end -> symmetric_at s n v 0.
Proof.
  intros Hv Hn [H0 H1] Hs. assert (nth 0 v Q0 = Q1) as E0 by (rewrite hd_nth; auto; intros ->; cbn in Hv; lia).
  pose proof (half2 n). destruct s; cbn [symmetric_at]; [|rewrite Nat.add_0_r..|contradiction]; change (0 / 2) with 0; cbn [sign Nat.even].
  - rewrite Nat.sub_0_r, E0. rewrite (nth_indep v Q0 Q1) by lia. auto.
  - rewrite E0. rewrite (nth_indep v Q0 Q1) by lia. auto.
  - rewrite E0. rewrite (nth_indep v Q0 Q1) by lia. auto.
Qed.

Lemma sym_everywhere s n al v : 1 <= n ->
  match s with SymI => True | SymII | SymIII => Nat.even n = true | SymIV => False end ->
  (listed_sym s n al v <->
   length v = n /\ incl v al /\ hd Q1 v = Q1 /\ (forall i, i < (n + 1) / 2 -> symmetric_at s n v i) /\ perfect v).
Proof.
  intros Hn Hs. unfold listed_sym. split.
  - intros (H1 & H2 & H3 & H4 & H5). split; auto. split; auto. split; [apply H3|]. split; auto.
    intros [|i] Hi; [|apply H4; lia]. now apply fixed_symmetric_0.
  - intros (H1 & H2 & H3 & H4 & H5). split; auto. split; auto. split; [|split; auto]; [|intros i Hi; apply H4; lia].
    split; auto. pose proof (half2 (n + 1)). pose proof (half2 n).
    assert (nth 0 v Q0 = Q1) as E0 by (rewrite hd_nth; auto; intros ->; cbn in H1; lia).
    specialize (H4 0). assert (0 < (n + 1) / 2) as Hp by lia. specialize (H4 Hp). destruct s; cbn [symmetric_at] in H4; change (0 / 2) with 0 in H4; cbn [sign Nat.even] in H4; try contradiction.
    + rewrite Nat.sub_0_r in H4. rewrite (nth_indep v Q1 Q0) by lia. congruence.
    + intros _. rewrite Nat.add_0_r in H4. rewrite (nth_indep v Q1 Q0) by lia. congruence.
    + intros _. rewrite Nat.add_0_r in H4. rewrite (nth_indep v Q1 Q0) by lia. congruence.
Qed.

Lemma sym_IV_middle n al v : 1 <= n -> Nat.even n = true -> listed_sym SymIV n al v ->
  nth (n / 2) v Q0 = Q1 /\ ~ symmetric_at SymIV n v 0.
Proof.
  intros Hn He (H1 & _ & [H0 H2] & _). assert (nth 0 v Q0 = Q1) as E0 by (rewrite hd_nth; auto; intros ->; cbn in H1; lia).
  pose proof (half2 n). assert (nth (n / 2) v Q0 = Q1) as E by (rewrite (nth_indep v Q0 Q1) by lia; auto).
  split; auto. cbn [symmetric_at]. rewrite Nat.add_0_r, E, E0. intros C. apply (f_equal q_s) in C. vm_compute in C. discriminate.
Qed.

Lemma naive_none n : exists r, naive_find n None = Some r /\
  lists_exactly (fun v => length v = n /\ incl v QPLUS /\ hd Q1 v = Q1 /\ perfect v) r.
Proof.
  destruct (naive_find_spec None n QPLUS QPLUS_ok eq_refl) as (r & E & H). exists r. split; auto.
  revert H. apply lists_ext. intros v. apply listed_none.
Qed.
Lemma optim_none sc n : schedule_ok sc -> exists r, optim_find sc n None = Some r /\
  lists_exactly (fun v => length v = n /\ incl v QPLUS /\ hd Q1 v = Q1 /\ perfect v) r.
Proof.
  intros Hs. destruct (optim_find_spec None n QPLUS QPLUS_ok sc Hs) as (r & E & H). exists r. split; auto.
  revert H. apply lists_ext. intros v. apply listed_none.
Qed.
Lemma optim24_none sc n : schedule_ok sc -> exists r, optim_find_q24 sc n None = Some r /\
  lists_exactly (fun v => length v = n /\ incl v Q24 /\ hd Q1 v = Q1 /\ perfect v) r.
Proof.
  intros Hs. destruct (optim_find_spec None n Q24 Q24_ok sc Hs) as (r & E & H). exists r. split; auto.
  revert H. apply lists_ext. intros v. apply listed_none.
Qed.
Lemma lists_perm P r r' : lists_exactly P r -> lists_exactly P r' -> fst r = fst r' /\ Permutation (snd r) (snd r').
Proof.
  intros (L & N & H & E & F) (L' & N' & H' & E' & F').
  assert (Permutation L L') as HP by (apply NoDup_Permutation; auto; intros v; now rewrite H, H').
  split; [rewrite E, E'; now apply Permutation_length|].
  assert (forall l s, Forall2 prints l s -> s = map str l) as G.
  { intros l s HF. induction HF as [|v t l s Hp HF IH]; cbn; auto. rewrite <- IH. f_equal. unfold str. unfold prints in Hp. now rewrite Hp. }
  rewrite (G _ _ F), (G _ _ F'). now apply Permutation_map.
Qed.
Lemma naive_optim sc n s : schedule_ok sc -> exists r r', naive_find n s = Some r /\ optim_find sc n s = Some r' /\
  fst r = fst r' /\ Permutation (snd r) (snd r').
Proof.
  intros Hs. destruct (naive_find_spec s n QPLUS QPLUS_ok eq_refl) as (r & E & H).
  destruct (optim_find_spec s n QPLUS QPLUS_ok sc Hs) as (r' & E' & H'). exists r, r'. split; auto. split; auto.
  eapply lists_perm; eauto.
Qed.
Lemma naive_some s n : exists r, naive_find n (Some s) = Some r /\ lists_exactly (listed_sym s n QPLUS) r.
Proof.
  destruct (naive_find_spec (Some s) n QPLUS QPLUS_ok eq_refl) as (r & E & H). exists r. split; auto.
  revert H. apply lists_ext. intros v. apply listed_some.
Qed.
Lemma naive_everywhere s n : 1 <= n ->
  match s with SymI => True | SymII | SymIII => Nat.even n = true | SymIV => False end ->
  exists r, naive_find n (Some s) = Some r /\ lists_exactly (fun v => length v = n /\ incl v QPLUS /\ hd Q1 v = Q1 /\
    (forall i, i < (n + 1) / 2 -> symmetric_at s n v i) /\ perfect v) r.
Proof.
  intros Hn Hs. destruct (naive_some s n) as (r & E & H). exists r. split; auto. revert H. apply lists_ext.
  intros v. now apply sym_everywhere.
Qed.
Lemma optim_some sc s n al r : alphabet_ok al -> schedule_ok sc ->
  optim_find_recursive (n + 1) sc [] al (QS_new n (Some s)) 1 = Some r -> lists_exactly (listed_sym s n al) r.
Proof.
  intros Ha Hs E. destruct (optim_find_spec (Some s) n al Ha sc Hs) as (r' & E' & H). rewrite E in E'. injection E' as <-.
  revert H. apply lists_ext. intros v. apply listed_some.
Qed.
Lemma naive_IV n : 1 <= n -> Nat.even n = true -> exists r, naive_find n (Some SymIV) = Some r /\
  lists_exactly (listed_sym SymIV n QPLUS) r /\
  (forall v, listed_sym SymIV n QPLUS v -> nth (n / 2) v Q0 = Q1 /\ ~ symmetric_at SymIV n v 0).
Proof.
  intros Hn He. destruct (naive_some SymIV n) as (r & E & H). exists r. split; auto. split; auto.
  intros v Hv. eapply sym_IV_middle; eauto.
Qed.
