(* Every write of a job has at least two bytes, so the end of the disk can fall within it. *)
From Coq Require Import Ascii String List ZArith Lia Arith Bool Reals.
From Verif Require Import Base BaseFacts Quat ModelSequence ModelWilliamson ModelEquivalence ModelRowsum SpecRowsum RowsumFacts ModelFourier ModelMatching ModelWrite TextFacts WriteFacts FolderFacts ModelMain SpecPrint SpecMain ArgFacts MainFacts MainThms DriverMain
  SpecFiles SpecSearch SpecSplit SplitFacts SplitThms ModelJobs SpecJobs JobsFacts JobsThms ModelFull SpecFull FullFacts FullThms Spec.
Import ListNotations.
Notation length := List.length.
Open Scope nat_scope.

Definition wide (l : list Action) : Prop := forall d f o s, In (WriteAt d f o s) l -> s = [] \/ 2 <= length s.
Lemma wide_app l l' : wide l -> wide l' -> wide (l ++ l').
Proof. intros A B d f o s I. apply in_app_iff in I as [I|I]; [now apply (A d f o)|now apply (B d f o)]. Qed.
Lemma wide_put dir k c : (forall s, In s c -> s = [] \/ 2 <= length s) -> wide (put_acts dir k c).
Proof.
  intros H d f o s [I|I]; [discriminate|]. revert I. generalize 0 at 1. induction c as [|s0 c IH]; intros off I; [destruct I|]. cbn [writes] in I. destruct I as [I|I].
  - injection I as _ _ _ <-. apply H. now left.
  - apply (IH (fun s I => H s (or_intror I)) _ I).
Qed.
Lemma bytes_put dir k c : bytes_written (put_acts dir k c) = length (concat c).
Proof.
  unfold put_acts. cbn [bytes_written]. generalize 0 at 1. induction c as [|s c IH]; intros o; cbn [writes bytes_written concat]; auto. rewrite app_length, IH. reflexivity.
Qed.
Lemma seqs_wide dir s t a : (forall x, In x s -> x <> []) -> write_sequences_acts dir s t = Some a -> wide a /\ (s <> [] -> 0 < bytes_written a).
Proof.
  intros H E. unfold write_sequences_acts in E. destruct (traverse sequence_to_string s) as [lines|] eqn:T; [|discriminate]. cbn [bind] in E. injection E as <-. split.
  - apply wide_put. intros z I. apply in_map_iff in I as (l1 & <- & Il). right. rewrite app_length.
    destruct (traverse_in_some _ _ _ T l1 Il) as (x & Ix & Ex). unfold sequence_to_string in Ex. apply traverse_length in Ex. specialize (H x Ix). destruct x; [now elim H|]. cbn [length nl1] in *. rewrite Ex. cbn. lia.
  - intros Hs. rewrite bytes_put. apply traverse_length in T. destruct s; [now elim Hs|]. destruct lines as [|l0 lines]; [discriminate|]. cbn [map concat]. rewrite !app_length. cbn. lia.
Qed.
Lemma pairs_wide dir plan s1 s2 tags t rs p side m a : write_seq_pairs_acts dir plan s1 s2 tags t rs p side m = Some a -> wide a.
Proof.
  unfold write_seq_pairs_acts. destruct (verify_rowsums s1 s2 tags rs); cbn [guard]; [|discriminate].
  destruct (iter_over_enumerate_filtered_couples_psds plan s1 s2 (4 * INR p)%R) as [pairs|]; cbn [bind]; [|discriminate].
  match goal with |- context [fold_m ?F pairs ?S] => set (G := F); set (A := fold_m G pairs S) end. intros E.
  assert (K : forall ps ch bt co ch' bt' co', (forall s : text, In s ch -> s = [] \/ 2 <= length s) -> bt = [] \/ 2 <= length bt -> fold_m G ps (ch, bt, co) = Some (ch', bt', co') ->
    (forall s : text, In s ch' -> s = [] \/ 2 <= length s) /\ (bt' = [] \/ 2 <= length bt')).
  { clear. induction ps as [|q ps IH]; intros ch bt co ch' bt' co' Hc Hb F; cbn [fold_m] in F.
    - injection F as <- <- <-. auto.
    - destruct (G (ch, bt, co) q) as [[[ch1 bt1] co1]|] eqn:EG; cbn [bind] in F; [|discriminate].
      assert (H : (forall s : text, In s ch1 -> s = [] \/ 2 <= length s) /\ (bt1 = [] \/ 2 <= length bt1)); [|destruct H as [H1 H2]; now apply IH in F].
      clear F. unfold G in EG. destruct (pair_key plan tags t p side m q) as [[k|]|]; cbn [bind] in EG; [| |discriminate].
      + cbv zeta in EG. set (b0 := bt ++ pair_line k (fst (seq_enum1 q)) (fst (seq_enum2 q)) ++ nl1) in *. assert (L : 2 <= length b0).
        { unfold b0, pair_line. rewrite !app_length. cbn. lia. }
        destruct ((co + 1) mod 1000 =? 0)%Z; injection EG as <- <- <-; split; auto.
        intros s I. apply in_app_iff in I as [I|[<-|[]]]; auto.
      + injection EG as <- <- <-. auto. }
  destruct A as [[[ch bt] co]|] eqn:EA; [|discriminate]. cbn [bind] in E. injection E as <-.
  destruct (K pairs [] [] 0%Z ch bt co) as [K1 K2]; [intros s []|now left|exact EA|]. apply wide_put. intros s I. apply in_app_iff in I as [I|[<-|[]]]; auto.
Qed.

Lemma has_last l : 0 < bytes_written l -> exists pre d f o s post, l = pre ++ WriteAt d f o s :: post /\ s <> [] /\ idle post.
Proof.
  induction l as [|a l IH]; cbn [bytes_written]; [lia|]. intros H. destruct (Nat.eq_dec (bytes_written l) 0) as [Z|Z].
  - destruct a as [d|d f|d f o s]; try (rewrite Z in H; lia). exists [], d, f, o, s, l. split; auto. split; [intros ->; cbn in H; lia|now apply idle_bytes].
  - destruct (IH ltac:(lia)) as (pre & d & f & o & s & post & -> & Hs & Hi). exists (a :: pre), d, f, o, s, post. auto.
Qed.
Section Wide.
Context (n : nat) (t : SequenceType) (y : list ascii) (m : MatchOption) (pr : RowsumPairing).
Hypothesis Hn : 1 <= n.
Hypothesis Hn2 : (Z.of_nat n < 2 ^ 62)%Z.
Hypothesis Ht : searchable t.
Hypothesis Hy : canonical_numeral y n.

Lemma type_back : str_to_seqtype (seqtype_to_string t) = Some t.
Proof. destruct Ht as [->|[->| ->]]; reflexivity. Qed.
Lemma cands r : feasible n r -> forall tg, exists s, candidates t (rowsum_of_tag r tg) n = Some s /\ (forall x, In x s -> x <> []) /\
  forall q, pm_quad n q -> totals q = r -> (t = Williamson -> forall tg, symmetric (sequence q tg)) -> s <> [].
Proof.
  intros Hf tg. destruct (candidates_spec t (rowsum_of_tag r tg) n Hn (feasible_bound n r Hn2 Hf tg) Hn2) as (s & E & _ & H). exists s. split; auto. split.
  - intros x I ->. apply H in I as (I & _). cbn in I. lia.
  - intros q (W & Ma & Mb & Mc & Md) <- Sy Z. assert (I : In (sequence q tg) s); [|rewrite Z in I; destruct I].
    apply H. destruct W as (_ & La & Lb & Lc & Ld). destruct tg; cbn [sequence totals rowsum_of_tag]; (split; [assumption|split; [assumption|split; [reflexivity|]]]); intros T; [apply (Sy T TW)|apply (Sy T TX)|apply (Sy T TY)|apply (Sy T TZ)].
Qed.
Lemma job_wide r h args acts : feasible n r -> job_line t y m pr (r, h) args -> run_actions args = Some (type_word t, y, acts) -> wide acts /\
  ((exists q, pm_quad n q /\ totals q = r /\ (t = Williamson -> forall tg, symmetric (sequence q tg))) -> 0 < bytes_written acts).
Proof.
  intros Hf J E. destruct J as (a & b & c & d & Ha & ->). assert (La := numeral_length_arg y n Hy ltac:(lia)). unfold run_actions in E. cbn [fst snd] in *.
  assert (Hd : forall z dir, wide z -> wide (MakeDir dir :: z)) by (intros z dir Hz d' f o s [I|I]; [discriminate|now apply (Hz d' f o)]).
  destruct h.
  - assert (K := cl_pairs_rowsum (chars "rust") t y _ a b c d r m _ _ La Ha (pairing_word_arg pr)). apply parse_args_iff in K. rewrite K in E. cbn [bind] in E. rewrite Nat2Z.id in E.
    unfold pairs_rowsum_acts in E. rewrite type_back in E. cbn [bind] in E.
    destruct (cands r Hf TW) as (s0 & E0 & N0 & Q0), (cands r Hf TX) as (s1 & E1 & N1 & _), (cands r Hf TY) as (s2 & E2 & N2 & _), (cands r Hf TZ) as (s3 & E3 & N3 & _).
    rewrite E0, E1, E2, E3 in E. cbn [bind] in E.
    destruct (write_sequences_acts (rowsum_dir r) s0 TW) as [a0|] eqn:A0; [|discriminate]. destruct (write_sequences_acts (rowsum_dir r) s1 TX) as [a1|] eqn:A1; [|discriminate].
    destruct (write_sequences_acts (rowsum_dir r) s2 TY) as [a2|] eqn:A2; [|discriminate]. destruct (write_sequences_acts (rowsum_dir r) s3 TZ) as [a3|] eqn:A3; [|discriminate]. cbn [bind] in E.
    apply seqs_wide in A0 as [W0 B0]; auto. apply seqs_wide in A1 as [W1 _]; auto. apply seqs_wide in A2 as [W2 _]; auto. apply seqs_wide in A3 as [W3 _]; auto.
    match type of E with bind (bind ?x _) _ = _ => destruct x as [a4|] eqn:A4; [|discriminate] end. cbn [bind] in E. injection E as _ _ <-.
    assert (W4 : wide a4).
    { destruct pr; match type of A4 with bind ?x _ = _ => destruct x as [b1|] eqn:B1; [|discriminate] end; cbn [bind] in A4;
        match type of A4 with bind ?x _ = _ => destruct x as [b2|] eqn:B2; [|discriminate] end; injection A4 as <-; apply pairs_wide in B1; apply pairs_wide in B2; now apply wide_app. }
    split; [apply Hd; repeat apply wide_app; auto|]. intros (q & Pq & Tq & Sq). cbn [bytes_written]. rewrite bytes_app. specialize (B0 (Q0 q Pq Tq Sq)). lia.
  - assert (K := cl_pair_single (chars "rust") t y _ a b c d r m _ _ _ _ La Ha (pairing_word_arg pr) (one_byte n Hn)). apply parse_args_iff in K. rewrite K in E. cbn [bind] in E. rewrite Nat2Z.id in E.
    unfold pair_single_acts in E. rewrite type_back in E. cbn [bind] in E. change (Z.to_nat 1) with 1 in E.
    destruct (get_indices (Some pr) 1) as [[i0 i1]|] eqn:Ei; [|destruct pr; discriminate Ei].
    destruct (index_to_tag i0) as [t0|]; [|discriminate]. destruct (index_to_tag i1) as [t1|]; [|discriminate]. cbn [bind] in E.
    destruct (cands r Hf t0) as (s0 & E0 & N0 & Q0), (cands r Hf t1) as (s1 & E1 & N1 & _). rewrite E0, E1 in E. cbn [bind] in E.
    destruct (write_sequences_acts (rowsum_dir r) s0 t0) as [a0|] eqn:A0; [|discriminate]. destruct (write_sequences_acts (rowsum_dir r) s1 t1) as [a1|] eqn:A1; [|discriminate]. cbn [bind] in E.
    apply seqs_wide in A0 as [W0 B0]; auto. apply seqs_wide in A1 as [W1 _]; auto.
    match type of E with bind (bind ?x _) _ = _ => destruct x as [a4|] eqn:A4; [|discriminate] end. cbn [bind] in E. injection E as _ _ <-. apply pairs_wide in A4.
    split; [apply Hd; repeat apply wide_app; auto|]. intros (q & Pq & Tq & Sq). cbn [bytes_written]. rewrite bytes_app. specialize (B0 (Q0 q Pq Tq Sq)). lia.
  - assert (K := cl_pair_single (chars "rust") t y _ a b c d r m _ _ _ _ La Ha (pairing_word_arg pr) (two_byte n Hn)). apply parse_args_iff in K. rewrite K in E. cbn [bind] in E. rewrite Nat2Z.id in E.
    unfold pair_single_acts in E. rewrite type_back in E. cbn [bind] in E. change (Z.to_nat 2) with 2 in E.
    destruct (get_indices (Some pr) 2) as [[i0 i1]|] eqn:Ei; [|destruct pr; discriminate Ei].
    destruct (index_to_tag i0) as [t0|]; [|discriminate]. destruct (index_to_tag i1) as [t1|]; [|discriminate]. cbn [bind] in E.
    destruct (cands r Hf t0) as (s0 & E0 & N0 & Q0), (cands r Hf t1) as (s1 & E1 & N1 & _). rewrite E0, E1 in E. cbn [bind] in E.
    destruct (write_sequences_acts (rowsum_dir r) s0 t0) as [a0|] eqn:A0; [|discriminate]. destruct (write_sequences_acts (rowsum_dir r) s1 t1) as [a1|] eqn:A1; [|discriminate]. cbn [bind] in E.
    apply seqs_wide in A0 as [W0 B0]; auto. apply seqs_wide in A1 as [W1 _]; auto.
    match type of E with bind (bind ?x _) _ = _ => destruct x as [a4|] eqn:A4; [|discriminate] end. cbn [bind] in E. injection E as _ _ <-. apply pairs_wide in A4.
    split; [apply Hd; repeat apply wide_app; auto|]. intros (q & Pq & Tq & Sq). cbn [bytes_written]. rewrite bytes_app. specialize (B0 (Q0 q Pq Tq Sq)). lia.
Qed.
Theorem full_unnoticed job args : feasible n (fst job) -> job_line t y m pr job args ->
  (exists q, pm_quad n q /\ totals q = fst job /\ (t = Williamson -> forall tg, symmetric (sequence q tg))) ->
  exists acts free, run_actions args = Some (type_word t, y, acts) /\ free < bytes_written acts /\ forall st pos, fresh acts st -> exists k whole d f b lost,
    run_full acts (mkDisk st free pos) = (k, true) /\ perform acts st = Some whole /\
    contents whole d f = Some (b ++ lost) /\ lost <> [] /\ contents (d_store k) d f = Some b.
Proof.
  destruct job as [r h]. cbn [fst]. intros Hf J Hq. destruct (job_program n t y m pr Hn Hn2 Ht Hy (r, h) args Hf J) as (fl & E & _).
  match type of E with _ = Some (_, _, ?l) => set (acts := l) in * end. exists acts, (bytes_written acts - 1). split; [exact E|]. destruct (job_wide r h args _ Hf J E) as [W B]. specialize (B Hq). assert (Pr := calls_proper _ _ _ _ E).
  destruct (has_last _ B) as (pre & d & f & o & s & post & Ea & Hs & Hi). split; [lia|].
  assert (L2 : 2 <= length s) by (destruct (W d f o s) as [Z|Z]; auto; [rewrite Ea; apply in_app_iff; right; now left|contradiction]).
  intros st pos Fr. destruct (within_last _ Pr pre d f o s post Ea Hs Hi st (bytes_written acts - 1) pos Fr) as (k & whole & b & kept & lost & R & P & _ & _ & Hl & _ & C1 & C2 & _).
  - split; [|lia]. rewrite Ea, bytes_app. cbn [bytes_written]. lia.
  - exists k, whole, d, f, (b ++ kept), lost. split; [exact R|]. split; [exact P|]. split; [now rewrite <- app_assoc|]. auto.
Qed.
End Wide.
