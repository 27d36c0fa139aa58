(* Matrices as functions of two indices, and nested loops writing them. *)
From Coq Require Import List ZArith Lia Arith Bool.
From Verif Require Import Base BaseFacts Sums Quat ModelSequence ModelWilliamson Spec ModelMatrices SpecMatrix.
Import ListNotations.
Open Scope nat_scope.

Definition tab {A} (n : nat) (f : nat -> nat -> A) : list (list A) :=
  map (fun i => map (f i) (seq 0 n)) (seq 0 n).

Section Tab.
  Context {A : Type}.
  Implicit Type f g : nat -> nat -> A.

  Lemma tab_ext n f g : (forall i j, i < n -> j < n -> f i j = g i j) -> tab n f = tab n g.
  Proof.
    intros H. apply map_ext_in. intros i Hi. apply in_seq in Hi. apply map_ext_in. intros j Hj. apply in_seq in Hj. apply H; lia.
  Qed.
  Lemma tab_length n f : length (tab n f) = n.
  Proof. unfold tab. now rewrite map_length, seq_length. Qed.
  Lemma tab_row n f i d : i < n -> nth i (tab n f) d = map (f i) (seq 0 n).
  Proof. intros. unfold tab. now rewrite nth_map_seq. Qed.
  Lemma tab_square n f : square n (tab n f).
  Proof.
    split; [apply tab_length|]. apply Forall_forall. intros r Hr. unfold tab in Hr. apply in_map_iff in Hr as (i & <- & _).
    now rewrite map_length, seq_length.
  Qed.
  Lemma cell_tab n f d i j : i < n -> j < n -> cell d (tab n f) i j = f i j.
  Proof. intros. unfold cell. rewrite tab_row by auto. now apply nth_map_seq. Qed.
  Lemma square_tab n (m : list (list A)) d : square n m -> m = tab n (cell d m).
  Proof.
    intros [Hl Hr]. apply (list_ext []); [now rewrite tab_length|]. rewrite Hl. intros i Hi. rewrite tab_row by auto.
    assert (length (nth i m []) = n) as L by (apply (proj1 (Forall_forall _ _) Hr); apply nth_In; lia).
    apply (list_ext d); [now rewrite map_length, seq_length|]. rewrite L. intros j Hj. now rewrite nth_map_seq.
  Qed.
  Lemma vget_tab n f i : i < n -> vget (tab n f) i = Some (map (f i) (seq 0 n)).
  Proof. intros. rewrite (vget_nth _ _ []) by now rewrite tab_length. now rewrite tab_row. Qed.
  Lemma vget_row n f i j : j < n -> vget (map (f i) (seq 0 n)) j = Some (f i j).
  Proof. intros. rewrite (vget_nth _ _ (f i 0)) by now rewrite map_length, seq_length. now rewrite nth_map_seq. Qed.
  Lemma mget_tab n f i j : i < n -> j < n -> mget (tab n f) i j = Some (f i j).
  Proof. intros. unfold mget. rewrite vget_tab by auto. cbn [bind]. now apply vget_row. Qed.
  Lemma vset_map_seq n (h : nat -> A) j x : j < n ->
    vset (map h (seq 0 n)) j x = Some (map (fun b => if b =? j then x else h b) (seq 0 n)).
  Proof.
    intros Hj. destruct (vset_some (map h (seq 0 n)) j x) as [r Er]; [now rewrite map_length, seq_length|].
    rewrite Er. f_equal. apply (list_ext x).
    - rewrite (vset_length _ _ _ _ Er). now rewrite !map_length.
    - rewrite (vset_length _ _ _ _ Er), map_length, seq_length. intros i Hi. rewrite (vset_nth _ _ _ _ _ _ Er).
      now rewrite !nth_map_seq by auto.
  Qed.
  Lemma mset_tab n f i j x : i < n -> j < n ->
    mset (tab n f) i j x = Some (tab n (fun a b => if (a =? i) && (b =? j) then x else f a b)).
  Proof.
    intros Hi Hj. unfold mset. rewrite vget_tab by auto. cbn [bind]. rewrite vset_map_seq by auto. cbn [bind].
    destruct (vset_some (tab n f) i (map (fun b => if b =? j then x else f i b) (seq 0 n))) as [r Er]; [now rewrite tab_length|].
    rewrite Er. f_equal. apply (list_ext []).
    - rewrite (vset_length _ _ _ _ Er). now rewrite !tab_length.
    - rewrite (vset_length _ _ _ _ Er), tab_length. intros a Ha. rewrite (vset_nth _ _ _ _ _ _ Er).
      rewrite !tab_row by auto. destruct (Nat.eqb_spec a i) as [->|E]; cbn [andb]; auto.
  Qed.
  Lemma mset_tab_as n f g i j x : i < n -> j < n -> g i j = x ->
    (forall a b, a < n -> b < n -> (a <> i \/ b <> j) -> g a b = f a b) -> mset (tab n f) i j x = Some (tab n g).
  Proof.
    intros Hi Hj Hx H. rewrite mset_tab by auto. f_equal. apply tab_ext. intros a b Ha Hb.
    destruct (Nat.eqb_spec a i) as [->|]; [destruct (Nat.eqb_spec b j) as [->|]|]; cbn [andb]; auto; symmetry; apply H; auto.
  Qed.
  Lemma mconst_tab n (x : A) : mconst n x = tab n (fun _ _ => x).
  Proof.
    unfold mconst, tab. assert (forall k (y : list A), repeat y k = map (fun _ => y) (seq 0 k)) as H.
    { intros k y. generalize 0. induction k; intros s; cbn; auto. now f_equal. }
    rewrite H. apply map_ext. intros _. clear. generalize 0. induction n; intros s; cbn; auto. now f_equal.
  Qed.
End Tab.

Lemma fold_m_seq {S} (body : S -> nat -> option S) n : forall (st : nat -> S) k,
  (forall i, k <= i < k + n -> body (st i) i = Some (st (i + 1))) ->
  fold_m body (seq k n) (st k) = Some (st (k + n)).
Proof.
  induction n as [|n IH]; intros st k H; cbn [seq fold_m]; [now rewrite Nat.add_0_r|].
  rewrite H by lia. cbn [bind]. replace (Datatypes.S k) with (k + 1) by lia. rewrite IH; [f_equal; f_equal; lia|].
  intros i Hi. apply H. lia.
Qed.
Lemma for_m_states {S} (body : S -> nat -> option S) n (st : nat -> S) s r :
  s = st 0 -> r = st n -> (forall i, i < n -> body (st i) i = Some (st (i + 1))) -> for_m n body s = Some r.
Proof.
  intros -> -> H. unfold for_m, range. rewrite Nat.sub_0_r. apply (fold_m_seq body n st 0). intros i Hi. apply H. lia.
Qed.
Lemma for_m_ext {S} n (f g : S -> nat -> option S) s : (forall a i, i < n -> f a i = g a i) -> for_m n f s = for_m n g s.
Proof.
  intros H. unfold for_m. assert (forall i, In i (range 0 n) -> i < n) as Hin by (intros i Hi; apply in_range in Hi; lia).
  revert s. induction (range 0 n) as [|x l IH]; intros s; cbn [fold_m]; auto. rewrite H by (apply Hin; cbn; auto).
  destruct (g s x); cbn [bind]; auto. apply IH. intros i Hi. apply Hin. cbn; auto.
Qed.

(* cells marked by [done] hold g, the others f *)
Definition mix {A} (done : nat -> nat -> bool) (g f : nat -> nat -> A) : nat -> nat -> A :=
  fun i j => if done i j then g i j else f i j.

Lemma sweep_w {A T} (W : list (list A) -> T) a b n (f g : nat -> nat -> A) (done : nat -> nat -> nat -> nat -> bool)
  (body : T -> nat -> nat -> option T) :
  (forall i j, i < n -> j < n -> done 0 0 i j = false) ->
  (forall k i j, k < a -> i < n -> j < n -> done k b i j = done (k + 1) 0 i j) ->
  (forall k l, k < a -> l < b ->
     body (W (tab n (mix (done k l) g f))) k l = Some (W (tab n (mix (done k (l + 1)) g f)))) ->
  for_m a (fun m k => for_m b (fun m l => body m k l) m) (W (tab n f)) = Some (W (tab n (mix (done a 0) g f))).
Proof.
  intros H0 Hr Hb. apply for_m_states with (st := fun k => W (tab n (mix (done k 0) g f))); auto.
  - f_equal. apply tab_ext. intros i j Hi Hj. unfold mix. now rewrite H0.
  - intros k Hk. apply for_m_states with (st := fun l => W (tab n (mix (done k l) g f))); auto.
    f_equal. apply tab_ext. intros i j Hi Hj. unfold mix. now rewrite Hr.
Qed.
Definition sweep {A} := @sweep_w A _ (fun m => m).

(* evaluates the comparisons occurring in the goal *)
Ltac cases := repeat (first
  [ match goal with |- context [?x <? ?y] => destruct (Nat.ltb_spec x y) end
  | match goal with |- context [?x <=? ?y] => destruct (Nat.leb_spec x y) end
  | match goal with |- context [?x =? ?y] => destruct (Nat.eqb_spec x y) end ]; cbn [andb orb negb]; try (exfalso; lia));
  auto; try lia.

Definition tri_col n k l i j := (j <? k) || (j =? k) && (n - l <=? i).
Definition tri_row n k l i j := (i <? k) || (i =? k) && (n - l <=? j).
Definition tri_irow n k l i j := (n - k <=? i) || (i =? n - 1 - k) && (j <? l).
Definition tri_icol n k l i j := (n - k <=? j) || (j =? n - 1 - k) && (i <? l).
Lemma tri_col_0 n i j : i < n -> j < n -> tri_col n 0 0 i j = false. Proof. intros. unfold tri_col. cases. Qed.
Lemma tri_row_0 n i j : i < n -> j < n -> tri_row n 0 0 i j = false. Proof. intros. unfold tri_row. cases. Qed.
Lemma tri_irow_0 n i j : i < n -> j < n -> tri_irow n 0 0 i j = false. Proof. intros. unfold tri_irow. cases. Qed.
Lemma tri_icol_0 n i j : i < n -> j < n -> tri_icol n 0 0 i j = false. Proof. intros. unfold tri_icol. cases. Qed.
Lemma tri_col_r n k i j : k < n -> i < n -> j < n -> tri_col n k n i j = tri_col n (k + 1) 0 i j. Proof. intros. unfold tri_col. cases. Qed.
Lemma tri_row_r n k i j : k < n -> i < n -> j < n -> tri_row n k n i j = tri_row n (k + 1) 0 i j. Proof. intros. unfold tri_row. cases. Qed.
Lemma tri_irow_r n k i j : k < n -> i < n -> j < n -> tri_irow n k n i j = tri_irow n (k + 1) 0 i j. Proof. intros. unfold tri_irow. cases. Qed.
Lemma tri_icol_r n k i j : k < n -> i < n -> j < n -> tri_icol n k n i j = tri_icol n (k + 1) 0 i j. Proof. intros. unfold tri_icol. cases. Qed.
Lemma tri_end n i j : i < n -> j < n -> tri_col n n 0 i j = true /\ tri_row n n 0 i j = true /\ tri_irow n n 0 i j = true /\ tri_icol n n 0 i j = true.
Proof. intros. unfold tri_col, tri_row, tri_irow, tri_icol. repeat split; cases. Qed.

Ltac sweep_step D := intros k l Hk Hl; unfold mix, D; rewrite ?mget_tab by lia; cbn [bind];
  apply mset_tab_as; [lia|lia|cases|intros a b Ha Hb Hab; cases].
