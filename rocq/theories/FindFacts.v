(* The searches of find_naive.rs, find_optim.rs, find_williamson.rs and find_unique.rs. *)
From Coq Require Import List ZArith Lia Arith Bool Permutation QArith Qcanon Ascii.
From Verif Require Import Base BaseFacts Sums Quat ModelSequence ModelWilliamson Spec SeqFacts
  QuatFacts Convert ModelEquivalence ModelFind SpecFind SearchFacts.
Import ListNotations.
Open Scope nat_scope.
Notation length := List.length.

Definition partner (s : option Symmetry) (n k : nat) : nat :=
  match s with None => k | Some SymI => n - 1 - k | Some _ => n / 2 + k end.
Definition twist (s : option Symmetry) (k : nat) (x : quat) : quat :=
  match s with
  | None | Some SymI => x
  | Some SymII => sign k x
  | Some SymIII => sign (k / 2) x
  | Some SymIV => qneg x
  end.
Definition ssize (s : option Symmetry) (n : nat) : nat :=
  match s with Some _ => (n + 1) / 2 | None => n end.

Lemma half2 n : 2 * (n / 2) <= n < 2 * (n / 2) + 2.
Proof. pose proof (Nat.div_mod n 2). pose proof (Nat.mod_upper_bound n 2). lia. Qed.

Lemma ssize_le s n : ssize s n <= n.
Proof. destruct s; cbn [ssize]; auto. pose proof (half2 (n + 1)). destruct n; lia. Qed.

Lemma partner_ok s n k : 1 <= k < ssize s n ->
  partner s n k < n /\ ((partner s n k = k /\ forall x, twist s k x = x) \/ ssize s n <= partner s n k).
Proof.
  intros Hk. pose proof (half2 (n + 1)). pose proof (half2 n).
  destruct s as [[]|]; cbn [ssize partner twist] in *.
  - split; [lia|]. destruct (Nat.eq_dec (n - 1 - k) k); [left; auto|right; lia].
  - split; [lia|right; lia].
  - split; [lia|right; lia].
  - split; [lia|right; lia].
  - split; [lia|left; auto].
Qed.

Lemma partner_inj s n k k' : 1 <= k < ssize s n -> 1 <= k' < ssize s n -> partner s n k = partner s n k' -> k = k'.
Proof. intros Hk Hk'. pose proof (half2 (n + 1)). destruct s as [[]|]; cbn [ssize partner] in *; lia. Qed.

Lemma sign_scale k x : qscale (sign_pow k) x = sign k x.
Proof. unfold sign_pow, sign. destruct (Nat.even k); [apply qscale_1|symmetry; apply qneg_scale]. Qed.

Lemma upd_upd {A} (v : list A) : forall i x, upd (upd v i x) i x = upd v i x.
Proof. induction v; intros [|i] x; cbn; auto. now rewrite IHv. Qed.

Lemma set_value_spec s n v x k : length v = n -> 1 <= k < ssize s n ->
  QS_set_value (mkQS n v s) x k = Some (mkQS n (put (partner s n) (twist s) v k x) s).
Proof.
  intros Hv Hk. pose proof (ssize_le s n). destruct (partner_ok s n k Hk) as [Hp _].
  unfold QS_set_value, put. cbn [qs_values qs_size qs_symmetry]. rewrite (vset_upd v) by lia. cbn [bind].
  destruct s as [[]|]; cbn [partner twist] in *; rewrite ?sign_scale.
  - replace (k + 1 <=? n) with true by (symmetry; apply Nat.leb_le; lia). cbn [guard].
    rewrite vset_upd by (rewrite upd_length; lia). reflexivity.
  - rewrite vset_upd by (rewrite upd_length; lia). reflexivity.
  - rewrite vset_upd by (rewrite upd_length; lia). reflexivity.
  - rewrite vset_upd by (rewrite upd_length; lia). reflexivity.
  - cbn [bind]. now rewrite upd_upd.
Qed.

(* the test and the text at a leaf *)
Definition perfb (v : list quat) : bool :=
  match QS_is_perfect (mkQS (length v) v None) with Some b => b | None => false end.
Definition str (v : list quat) : list ascii :=
  match QS_to_string_raw (mkQS (length v) v None) with Some t => t | None => [] end.
Lemma perfb_spec v : perfb v = true <-> perfect v.
Proof.
  unfold perfb. destruct (is_perfect_spec (mkQS (length v) v None) eq_refl) as (b & -> & H). exact H.
Qed.
Lemma is_perfect_perfb n v s : length v = n -> QS_is_perfect (mkQS n v s) = Some (perfb v).
Proof.
  intros <-. unfold perfb. destruct (is_perfect_spec (mkQS (length v) v None) eq_refl) as (b & E & _).
  change (QS_is_perfect (mkQS (length v) v s)) with (QS_is_perfect (mkQS (length v) v None)). now rewrite E.
Qed.
Lemma to_string_str n v s : incl v Q24 -> QS_to_string_raw (mkQS n v s) = Some (str v).
Proof.
  intros H. unfold str. destruct (from_str_to_string (mkQS (length v) v None)) as (t & E & _); auto.
  change (QS_to_string_raw (mkQS n v s)) with (QS_to_string_raw (mkQS (length v) v None)). now rewrite E.
Qed.
Lemma prints_str v : incl v Q24 -> prints v (str v).
Proof. intros H. now apply to_string_str. Qed.

(* alphabets: closed under negation *)
Definition alphabet_ok (al : list quat) : Prop :=
  NoDup al /\ incl al Q24 /\ In Q1 al /\ forall x, In x al -> In (qneg x) al.
Lemma in_dec_b (al : list quat) x : existsb (quat_eqb x) al = true -> In x al.
Proof. intros H. apply existsb_exists in H as (y & Hy & E). apply quat_eqb_eq in E. now subst. Qed.
Fixpoint nodupb (l : list quat) : bool :=
  match l with [] => true | x :: r => negb (existsb (quat_eqb x) r) && nodupb r end.
Lemma nodupb_ok l : nodupb l = true -> NoDup l.
Proof.
  induction l as [|x l IH]; cbn; intros H; constructor; apply andb_prop in H as [H1 H2]; auto.
  intros Hin. apply negb_true_iff in H1. assert (existsb (quat_eqb x) l = true); [|congruence].
  apply existsb_exists. exists x. split; auto. now apply quat_eqb_eq.
Qed.
Lemma alphabet_check al : nodupb al && forallb (fun x => existsb (quat_eqb x) Q24 && existsb (quat_eqb (qneg x)) al) al
  && existsb (quat_eqb Q1) al = true -> alphabet_ok al.
Proof.
  intros H. apply andb_prop in H as [H H3]. apply andb_prop in H as [H1 H2]. rewrite forallb_forall in H2.
  split; [now apply nodupb_ok|]. split; [|split; [now apply in_dec_b|]].
  - intros x Hx. apply H2 in Hx. apply andb_prop in Hx as [Hx _]. now apply in_dec_b.
  - intros x Hx. apply H2 in Hx. apply andb_prop in Hx as [_ Hx]. now apply in_dec_b.
Qed.
Lemma QPLUS_ok : alphabet_ok QPLUS.
Proof. apply alphabet_check. vm_compute. reflexivity. Qed.
Lemma Q24_ok : alphabet_ok Q24.
Proof. apply alphabet_check. vm_compute. reflexivity. Qed.
Lemma twist_in al s k x : alphabet_ok al -> In x al -> In (twist s k x) al.
Proof.
  intros (_ & _ & _ & H) Hx. unfold twist, sign.
  destruct s as [[]|]; auto; [destruct (Nat.even k)|destruct (Nat.even (k / 2))]; auto.
Qed.
Lemma put_incl al s n v k x : alphabet_ok al -> In x al -> incl v al -> incl (put (partner s n) (twist s) v k x) al.
Proof.
  intros Ha Hx Hv y Hy. unfold put in Hy. apply upd_in in Hy as [->|Hy]; [now apply twist_in|].
  apply upd_in in Hy as [->|Hy]; auto.
Qed.
Lemma fill_incl al s n w : alphabet_ok al -> incl w al -> forall v i, incl v al ->
  incl (fill (partner s n) (twist s) v i w) al.
Proof.
  intros Ha. induction w as [|x w IH]; intros Hw v i Hv; cbn; auto. apply IH; auto.
  - intros y Hy. apply Hw. now right.
  - apply put_incl; auto. apply Hw. now left.
Qed.

Lemma filter_flat_map {A B} (p : B -> bool) (f : A -> list B) l :
  filter p (flat_map f l) = flat_map (fun x => filter p (f x)) l.
Proof. induction l; cbn; auto. rewrite filter_app. now f_equal. Qed.

Section Sym.
  Context (s : option Symmetry) (n : nat) (al : list quat) (Hal : alphabet_ok al).
  Notation m := (ssize s n).
  Notation FILL := (fill (partner s n) (twist s)).
  Notation PUT := (put (partner s n) (twist s)).
  Notation AGREE := (agree Q0 n m (partner s n)).
  Definition leaves (v : list quat) (i : nat) : list (list quat) :=
    filter perfb (map (FILL v i) (words al (m - i))).

  Lemma leaves_step v i : i < m -> leaves v i = flat_map (fun x => leaves (PUT v i x) (S i)) al.
  Proof.
    intros Hi. unfold leaves. replace (m - i) with (S (m - S i)) by lia. rewrite fill_words.
    apply filter_flat_map.
  Qed.
  Lemma leaves_leaf v i : m <= i -> leaves v i = if perfb v then [v] else [].
  Proof. intros Hi. unfold leaves. replace (m - i) with 0 by lia. cbn. reflexivity. Qed.
  Lemma leaves_agree v v' i : 1 <= i <= m -> AGREE i v v' -> leaves v i = leaves v' i.
  Proof.
    intros Hi Ha. unfold leaves. f_equal. apply map_ext_in. intros w Hw. apply words_in in Hw as [Hw _].
    apply (fill_agree Q0 n m 1); auto using ssize_le, partner_ok; lia.
  Qed.
  Lemma leaves_length v i u : length v = n -> In u (leaves v i) -> length u = n.
  Proof.
    intros Hv H. apply filter_In in H as [H _]. apply in_map_iff in H as (w & <- & _). now rewrite fill_length.
  Qed.
  Lemma leaves_incl v i u : incl v al -> In u (leaves v i) -> incl u al.
  Proof.
    intros Hv H. apply filter_In in H as [H _]. apply in_map_iff in H as (w & <- & Hw).
    apply words_in in Hw as [_ Hw]. now apply fill_incl.
  Qed.

  (* ---- find_naive.rs ---- *)
  Lemma naive_spec : al = QPLUS -> forall fuel i v count out, 1 <= i -> length v = n -> incl v al -> m - i < fuel ->
    exists v', naive_find_recursive fuel (mkQS n v s) i count out
      = Some (mkQS n v' s, count + length (leaves v i), out ++ map str (leaves v i)) /\
      length v' = n /\ incl v' al /\ (i <= m -> AGREE i v v').
  Proof.
    intros Eal. induction fuel as [|fuel IH]; intros i v count out Hi Hv Hin Hf; [lia|].
    cbn [naive_find_recursive].
    change (QS_search_size (mkQS n v s)) with m.
    destruct (Nat.leb_spec m i) as [Hm|Hm].
    - rewrite is_perfect_perfb by auto. cbn [bind]. rewrite leaves_leaf by auto.
      exists v. destruct (perfb v).
      + rewrite to_string_str by (intros x Hx; apply Hal; auto). cbn. split; [do 3 f_equal|]. auto using agree_refl.
      + cbn. rewrite Nat.add_0_r, app_nil_r. auto using agree_refl.
    - rewrite leaves_step by auto. rewrite <- Eal.
      assert (forall l v1 c o, incl l al -> length v1 = n -> incl v1 al -> AGREE i v v1 ->
        exists v', fold_m (fun '(pqs, count, out) x =>
                  let* pqs' := QS_set_value pqs x i in
                  naive_find_recursive fuel pqs' (i + 1) count out) l (mkQS n v1 s, c, o)
          = Some (mkQS n v' s, c + length (flat_map (fun x => leaves (PUT v i x) (S i)) l),
                  o ++ map str (flat_map (fun x => leaves (PUT v i x) (S i)) l)) /\
          length v' = n /\ incl v' al /\ AGREE i v v') as H.
      { induction l as [|x l IHl]; intros v1 c o Hl Hv1 Hin1 Ha.
        - exists v1. cbn. rewrite Nat.add_0_r, app_nil_r. auto.
        - assert (In x al) as Hx by (apply Hl; now left).
          cbn [fold_m flat_map]. rewrite set_value_spec by (auto; lia). cbn [bind].
          destruct (IH (i + 1) (PUT v1 i x) c o) as (v2 & -> & L2 & I2 & A2); try lia.
          { now rewrite put_length. }
          { now apply put_incl. }
          cbn [bind]. rewrite (leaves_agree (PUT v1 i x) (PUT v i x)); [|lia|].
          2:{ rewrite Nat.add_1_r. apply (put_agree Q0 n m 1 _ _ (ssize_le s n) (partner_ok s n)); [lia|].
              destruct Ha as (A & B & C). split; auto. split; auto. intros; symmetry; auto. }
          replace (leaves (PUT v i x) (i + 1)) with (leaves (PUT v i x) (S i)) by (f_equal; lia).
          destruct (IHl v2 (c + length (leaves (PUT v i x) (S i))) (o ++ map str (leaves (PUT v i x) (S i))))
            as (v3 & E3 & L3 & I3 & A3); auto.
          { intros y Hy. apply Hl. now right. }
          { apply (agree_trans Q0 n m _ _ _ v1); auto.
            apply (agree_trans Q0 n m _ _ _ (PUT v1 i x)); [apply (agree_put Q0 n m 1 _ _ (ssize_le s n) (partner_ok s n)); auto; lia|].
            rewrite Nat.add_1_r in A2. apply agree_S; [apply ssize_le|]. apply A2. lia. }
          exists v3. rewrite app_length, map_app, !app_assoc, Nat.add_assoc. split; [exact E3|]. auto. }
      destruct (H al v count out) as (v' & E & L & I & A); auto using incl_refl, agree_refl.
      exists v'. auto.
  Qed.

  (* ---- find_optim.rs ---- *)
  Lemma par_sum_spec sp : forall l, par_sum sp l = list_sum l.
  Proof.
    induction sp as [|k a IHa b IHb]; intros l; cbn [par_sum].
    - rewrite fold_symmetric by lia. reflexivity.
    - rewrite IHa, IHb, <- list_sum_app, firstn_skipn. reflexivity.
  Qed.

  Lemma optim_spec sc : schedule_ok sc -> forall fuel path i v, 1 <= i -> length v = n -> incl v al -> m - i < fuel ->
    exists out, optim_find_recursive fuel sc path al (mkQS n v s) i = Some (length (leaves v i), out) /\
      Permutation out (map str (leaves v i)).
  Proof.
    intros Hsc. induction fuel as [|fuel IH]; intros path i v Hi Hv Hin Hf; [lia|].
    cbn [optim_find_recursive]. change (QS_search_size (mkQS n v s)) with m.
    destruct (Nat.leb_spec m i) as [Hm|Hm].
    - rewrite is_perfect_perfb by auto. cbn [bind]. rewrite leaves_leaf by auto. destruct (perfb v).
      + rewrite to_string_str by (intros x Hx; apply Hal; auto). cbn. eauto.
      + cbn. eauto.
    - rewrite leaves_step by auto.
      assert (forall l, incl l al -> exists rs, traverse (fun x => let* pqs' := QS_set_value (mkQS n v s) x i in
                 optim_find_recursive fuel sc (x :: path) al pqs' (i + 1)) l = Some rs /\
               list_sum (map fst rs) = length (flat_map (fun x => leaves (PUT v i x) (S i)) l) /\
               Permutation (concat (map snd rs)) (map str (flat_map (fun x => leaves (PUT v i x) (S i)) l))) as H.
      { induction l as [|x l IHl]; intros Hl; cbn [traverse].
        - exists []. auto.
        - rewrite set_value_spec by (auto; lia). cbn [bind].
          destruct (IH (x :: path) (i + 1) (PUT v i x)) as (o & -> & Ho); try lia.
          { now rewrite put_length. }
          { apply put_incl; auto. apply Hl. now left. }
          cbn [bind]. destruct IHl as (rs & -> & E1 & E2); [intros y Hy; apply Hl; now right|].
          rewrite Nat.add_1_r in *. cbn [bind]. eexists. split; [reflexivity|]. cbn [map fst snd flat_map concat].
          split; [rewrite app_length, <- E1; reflexivity|rewrite map_app; now apply Permutation_app]. }
      destruct (H al (incl_refl _)) as (rs & -> & E1 & E2). cbn [bind]. rewrite par_sum_spec, E1.
      eexists. split; [reflexivity|]. eapply Permutation_trans; [apply Hsc|apply E2].
  Qed.

  (* ---- the leaves from the initial sequence ---- *)
  Lemma leaves_char u : In u (leaves (repeat Q1 n) 1) <->
    length u = n /\ incl u al /\
    (forall k, 1 <= k < m -> nth (partner s n k) u Q0 = twist s k (nth k u Q0)) /\
    (forall j, j < n -> untouched m (partner s n) 1 j -> nth j u Q0 = Q1) /\ perfect u.
  Proof.
    destruct (le_lt_dec 1 m) as [Hm|Hm].
    - unfold leaves. rewrite filter_In, perfb_spec.
      rewrite (leaves_in Q0 n m 1 _ _ (ssize_le s n) (partner_ok s n) (partner_inj s n)); auto using repeat_length.
      split.
      + intros [(H1 & H2 & H3) H4]. split; auto.
        assert (forall j, j < n -> untouched m (partner s n) 1 j -> nth j u Q0 = Q1) as H5.
        { intros j Hj Hu. rewrite H3 by auto. rewrite nth_indep with (d' := Q1) by now rewrite repeat_length.
          now rewrite nth_repeat. }
        split; [|split; [|split; auto]].
        * intros x Hx. apply (In_nth _ _ Q0) in Hx as (j & Hj & <-). rewrite H1 in Hj.
          destruct (in_dec Nat.eq_dec j (seq 1 (m - 1))) as [H|H].
          { apply in_seq in H. apply H2. lia. }
          destruct (in_dec Nat.eq_dec j (map (partner s n) (seq 1 (m - 1)))) as [H'|H'].
          { apply in_map_iff in H' as (k & <- & H'). apply in_seq in H'. destruct (H2 k) as [Ha Hb]; [lia|].
            rewrite Hb. now apply twist_in. }
          rewrite H5; auto; [apply Hal|]. intros k Hk'. split; intros ->.
          { apply H, in_seq. lia. }
          { apply H', in_map, in_seq. lia. }
        * intros k Hk. now apply H2.
      + intros (H1 & H2 & H3 & H4 & H5). split; auto. split; auto. split.
        * intros k Hk. split; auto. apply H2, nth_In. pose proof (ssize_le s n). lia.
        * intros j Hj. destruct (lt_dec j n).
          { rewrite H4 by auto. rewrite nth_indep with (d' := Q1) by now rewrite repeat_length. now rewrite nth_repeat. }
          rewrite !nth_overflow; auto; rewrite ?repeat_length; lia.
    - assert (n = 0) as En by (pose proof (half2 (n + 1)); destruct s; cbn [ssize] in *; lia).
      rewrite leaves_leaf by lia. replace (repeat Q1 n) with (@nil quat) by now rewrite En.
      assert (perfb [] = true) as -> by (vm_compute; reflexivity). split.
      + intros [<-|[]]. split; auto. split; [intros ? []|]. split; [intros; lia|]. split; [intros; lia|].
        intros t Ht. cbn in Ht. lia.
      + intros (H & _). left. destruct u; [auto|cbn in H; lia].
  Qed.
  Lemma leaves_nodup' : NoDup (leaves (repeat Q1 n) 1).
  Proof.
    unfold leaves. apply NoDup_filter. destruct (le_lt_dec 1 m).
    - apply (leaves_nodup Q0 n m 1 _ _ (ssize_le s n) (partner_ok s n) (partner_inj s n)); auto using repeat_length. apply Hal.
    - replace (m - 1) with 0 by lia. cbn. repeat constructor. intros [].
  Qed.
  Lemma leaves_print L : Permutation L (leaves (repeat Q1 n) 1) -> Forall2 prints L (map str L).
  Proof.
    intros HP. assert (forall u, In u L -> incl u Q24) as H.
    { intros u Hu. apply (Permutation_in _ HP) in Hu. apply leaves_char in Hu as (_ & Hu & _).
      intros x Hx. apply Hal. auto. }
    clear HP. induction L; cbn; constructor; auto using prints_str, in_eq, in_cons.
  Qed.
  Definition listed (u : list quat) : Prop :=
    length u = n /\ incl u al /\
    (forall k, 1 <= k < m -> nth (partner s n k) u Q0 = twist s k (nth k u Q0)) /\
    (forall j, j < n -> untouched m (partner s n) 1 j -> nth j u Q0 = Q1) /\ perfect u.

  Lemma repeat_incl : incl (repeat Q1 n) al.
  Proof. intros x Hx. apply repeat_spec in Hx as ->. apply Hal. Qed.

  Lemma naive_find_spec : al = QPLUS -> exists r, naive_find n s = Some r /\ lists_exactly listed r.
  Proof.
    intros Eal. unfold naive_find, QS_new.
    destruct (naive_spec Eal (n + 1) 1 (repeat Q1 n) 0 []) as (v' & -> & _);
      auto using repeat_length, repeat_incl; [pose proof (ssize_le s n); lia|].
    cbn [bind]. eexists. split; [reflexivity|]. exists (leaves (repeat Q1 n) 1). split; [apply leaves_nodup'|].
    split; [intros v; apply leaves_char|]. split; auto. cbn [snd app]. apply leaves_print. reflexivity.
  Qed.
  Lemma optim_find_spec sc : schedule_ok sc ->
    exists r, optim_find_recursive (n + 1) sc [] al (QS_new n s) 1 = Some r /\ lists_exactly listed r.
  Proof.
    intros Hsc. unfold QS_new.
    destruct (optim_spec sc Hsc (n + 1) [] 1 (repeat Q1 n)) as (out & -> & Ho);
      auto using repeat_length, repeat_incl; [pose proof (ssize_le s n); lia|].
    eexists. split; [reflexivity|]. apply Permutation_map_inv in Ho as (L & -> & HP).
    exists L. split; [eapply Permutation_NoDup; [apply HP|apply leaves_nodup']|].
    split; [intros v; unfold listed; rewrite <- leaves_char; split; apply Permutation_in; auto using Permutation_sym|].
    split; [cbn; apply Permutation_length; auto|]. apply leaves_print. now apply Permutation_sym.
  Qed.
End Sym.
