(* The quadratic equations. *)
From Coq Require Import Ascii String List ZArith Arith Bool Lia.
From Verif Require Import Base BaseFacts Sums ModelSequence ModelWilliamson ModelEquivalence ModelRowsum ModelWrite TextFacts
  ModelEquations SeqFacts SpecRowsum Spec SpecEquations EquationText EquationFacts.
Import ListNotations.
Notation length := List.length.
Open Scope nat_scope.

(* chunks that may be preceded by a plus sign *)
Definition pchunk (txt : text) (ts : list (Z * list nat)) : Prop := chunk txt ts /\ chunk (lit "+" ++ txt) ts.
Lemma pchunk_app t1 a t2 b : pchunk t1 a -> chunk t2 b -> pchunk (t1 ++ t2) (a ++ b).
Proof.
  intros [H1 H2] H. split; [now apply chunk_app|]. rewrite app_assoc. now apply chunk_app.
Qed.

Definition plain_terms (i j : nat) : list (Z * list nat) := [(4, [i; j]); (-2, [i]); (-2, [j])]%Z.
Definition minus_terms (i j : nat) : list (Z * list nat) := [(-4, [i; j]); (2, [i]); (2, [j])]%Z.
Lemma plain_chunk i j : pchunk (product_plain i j) (plain_terms i j).
Proof.
  assert (E : product_plain i j = unwords (isize_to_string 4 :: map var [i; j]) ++
    unwords (isize_to_string (-2) :: map var [i]) ++ unwords (isize_to_string (-2) :: map var [j])).
  { unfold product_plain, unwords. cbn [map concat]. rewrite ?app_nil_r, <- ?app_assoc. reflexivity. }
  rewrite E. split.
  - apply (chunk_app _ [_] _ [_; _]); [apply chunk_int|]. apply (chunk_app _ [_] _ [_]); apply chunk_int.
  - rewrite app_assoc. apply (chunk_app _ [_] _ [_; _]).
    + exact (chunk_plus 4 [i; j] ltac:(lia)).
    + apply (chunk_app _ [_] _ [_]); apply chunk_int.
Qed.
Lemma minus_chunk i j : chunk (product_minus i j) (minus_terms i j).
Proof.
  assert (E : product_minus i j = unwords (isize_to_string (-4) :: map var [i; j]) ++
    unwords (("+"%char :: isize_to_string 2) :: map var [i]) ++ unwords (("+"%char :: isize_to_string 2) :: map var [j])).
  { unfold product_minus, unwords. cbn [map concat]. rewrite ?app_nil_r, <- ?app_assoc. reflexivity. }
  rewrite E. apply (chunk_app _ [_] _ [_; _]); [apply chunk_int|].
  apply (chunk_app _ [_] _ [_]); apply chunk_plus; lia.
Qed.

Lemma blocks_chunk size block ts : (forall i, pchunk (block i) (ts i)) ->
  chunk (blocks size block) (concat (map ts (seq 1 size))).
Proof.
  intros H. unfold blocks, range_incl. replace (S size - 1) with size by lia.
  assert (G : forall l r f, exists x, fst (fold_left (fun '(result, first_time) index =>
         ((if negb first_time then result ++ lit "+" else result) ++ block index, false)) l (r, f)) = r ++ x /\
         chunk x (concat (map ts l))).
  { induction l as [|i l IH]; intros r f.
    - exists []. cbn. rewrite app_nil_r. split; [reflexivity|apply chunk_nil].
    - cbn [fold_left]. destruct (H i) as [H1 H2].
      destruct f; cbn [negb].
      + destruct (IH (r ++ block i) false) as (x & E & C). exists (block i ++ x). split.
        * etransitivity; [exact E|]. now rewrite app_assoc.
        * cbn [map concat]. now apply chunk_app.
      + destruct (IH ((r ++ lit "+") ++ block i) false) as (x & E & C). exists ((lit "+" ++ block i) ++ x). split.
        * etransitivity; [exact E|]. now rewrite <- !app_assoc.
        * cbn [map concat]. now apply chunk_app. }
  destruct (G (seq 1 size) [] true) as (x & E & C). unfold text in *. rewrite E. exact C.
Qed.
Lemma blocks_nonempty size block : 1 <= size -> block 1 <> [] -> blocks size block <> [].
Proof.
  intros Hs Hb. destruct size as [|size]; [lia|]. unfold blocks, range_incl.
  replace (S (S size) - 1) with (S size) by lia. cbn [seq fold_left negb app].
  assert (G : forall l r f, r <> [] -> fst (fold_left (fun '(result, first_time) index =>
         ((if negb first_time then result ++ lit "+" else result) ++ block index, false)) l (r, f)) <> []).
  { induction l as [|i l IH]; intros r f Hr; [exact Hr|]. cbn [fold_left]. apply IH. destruct f, r; cbn; congruence. }
  apply G. exact Hb.
Qed.

(* the terms of the equations *)
Definition auto_terms (n o : nat) : list (Z * list nat) :=
  concat (map (fun i => let j := (i + o) mod n in plain_terms i j ++ plain_terms (i + n) (j + n)) (seq 1 n)).
Definition cross_terms (op : OpType) (n o : nat) : list (Z * list nat) :=
  concat (map (fun i => let j := (i + o) mod n in
    match op with
    | LeftMinus => plain_terms i (j + n) ++ minus_terms (i + n) j
    | RightMinus => plain_terms (i + n) j ++ minus_terms i (j + n)
    | _ => plain_terms i (j + n) ++ plain_terms (i + n) j
    end) (seq 1 n)).

Lemma plain_nonempty i j r : product_plain i j ++ r <> [].
Proof. discriminate. Qed.
Lemma auto_opb n o r : 1 <= n -> opb (generate_equation_autocorrelation n o r) [mkEquation (auto_terms n o) (r - 2 * Z.of_nat n)].
Proof.
  intros Hn. unfold generate_equation_autocorrelation. apply opb_line.
  - apply blocks_chunk. intros i. apply pchunk_app; [apply plain_chunk|]. apply plain_chunk.
  - apply blocks_nonempty; [exact Hn|apply plain_nonempty].
Qed.
Lemma nonlinear_opb op n o r : 1 <= n ->
  opb (generate_equation_non_linear_crosscorrelation n o op r) [mkEquation (cross_terms op n o) r].
Proof.
  intros Hn. unfold generate_equation_non_linear_crosscorrelation. apply opb_line.
  - apply blocks_chunk. intros i. unfold line_generator.
    destruct op; (apply pchunk_app; [apply plain_chunk|]); first [apply minus_chunk|apply plain_chunk].
  - apply blocks_nonempty; [exact Hn|]. destruct op; apply plain_nonempty.
Qed.

(* their value *)
Definition value (v : nat -> Z) (ts : list (Z * list nat)) : Z := fold_right Z.add 0%Z (map (term_value v) ts).
Lemma value_app v a b : value v (a ++ b) = (value v a + value v b)%Z.
Proof. unfold value. rewrite map_app. induction (map (term_value v) a) as [|x l IH]; cbn; lia. Qed.
Lemma value_concat v (f : nat -> list (Z * list nat)) l :
  value v (concat (map f l)) = fold_right Z.add 0%Z (map (fun i => value v (f i)) l).
Proof. induction l as [|i l IH]; [reflexivity|]. cbn [map concat fold_right]. now rewrite value_app, IH. Qed.
Lemma plain_value v i j : value v (plain_terms i j) = (sign_of v i * sign_of v j - 1)%Z.
Proof. unfold value, plain_terms, term_value, sign_of. cbn [map fold_right fst snd]. ring. Qed.
Lemma minus_value v i j : value v (minus_terms i j) = (1 - sign_of v i * sign_of v j)%Z.
Proof. unfold value, minus_terms, term_value, sign_of. cbn [map fold_right fst snd]. ring. Qed.
Lemma seq1_sum n (f : nat -> Z) : fold_right Z.add 0%Z (map f (seq 1 n)) = sumZ n (fun i => f (S i)).
Proof. unfold sumZ. now rewrite <- seq_shift, map_map. Qed.

Lemma auto_value v n o : value v (auto_terms n o) =
  (sumZ n (fun i => let j := ((S i + o) mod n)%nat in
     (sign_of v (S i) * sign_of v j + sign_of v (S i + n)%nat * sign_of v (j + n)%nat)%Z) - 2 * Z.of_nat n)%Z.
Proof.
  unfold auto_terms. rewrite value_concat, seq1_sum.
  replace (2 * Z.of_nat n)%Z with (sumZ n (fun _ => 2%Z)) by (rewrite sumZ_const; lia).
  rewrite <- sumZ_sub. apply sumZ_ext. intros i _. cbn zeta. rewrite value_app, !plain_value. ring.
Qed.
Lemma cross_value v op n o : op = LeftMinus \/ op = RightMinus -> value v (cross_terms op n o) =
  sumZ n (fun i => let j := ((S i + o) mod n)%nat in
     match op with
     | LeftMinus => sign_of v (S i) * sign_of v (j + n)%nat - sign_of v (S i + n)%nat * sign_of v j
     | _ => sign_of v (S i + n)%nat * sign_of v j - sign_of v (S i) * sign_of v (j + n)%nat
     end)%Z.
Proof.
  intros H. unfold cross_terms. rewrite value_concat, seq1_sum. apply sumZ_ext. intros i _. cbn zeta.
  destruct H as [-> | ->]; rewrite value_app, plain_value, minus_value; ring.
Qed.

(* every quadratic equation mentions x0 *)
Lemma hits_zero n o : 2 <= n -> 1 <= o < n -> exists i, In i (seq 1 n) /\ (i + o) mod n = 0.
Proof.
  intros Hn Ho. exists (n - o). split; [apply in_seq; lia|]. replace (n - o + o) with n by lia. apply Nat.mod_same. lia.
Qed.
Lemma auto_mentions n o z : 2 <= n -> 1 <= o < n -> mentions (mkEquation (auto_terms n o) z) 0.
Proof.
  intros Hn Ho. destruct (hits_zero n o Hn Ho) as (i & Hi & E).
  exists (4%Z, [i; 0]). split; [|now right; left]. cbn [eq_terms]. unfold auto_terms. apply in_concat.
  eexists. split; [apply in_map; exact Hi|]. cbn zeta. rewrite E. left. reflexivity.
Qed.
Lemma cross_mentions op n o z : 2 <= n -> 1 <= o < n -> mentions (mkEquation (cross_terms op n o) z) 0.
Proof.
  intros Hn Ho. destruct (hits_zero n o Hn Ho) as (i & Hi & E).
  assert (G : exists t, In t (cross_terms op n o) /\ In 0 (snd t)).
  2: { destruct G as (t & H1 & H2). exists t. auto. }
  unfold cross_terms. destruct op.
  - exists (4%Z, [i + n; 0]). split; [|now right; left]. apply in_concat. eexists. split; [apply in_map; exact Hi|].
    cbn zeta. rewrite E. apply in_or_app. right. now left.
  - exists ((-4)%Z, [i + n; 0]). split; [|now right; left]. apply in_concat. eexists. split; [apply in_map; exact Hi|].
    cbn zeta. rewrite E. apply in_or_app. right. now left.
  - exists (4%Z, [i + n; 0]). split; [|now right; left]. apply in_concat. eexists. split; [apply in_map; exact Hi|].
    cbn zeta. rewrite E. apply in_or_app. right. now left.
  - exists (4%Z, [i + n; 0]). split; [|now right; left]. apply in_concat. eexists. split; [apply in_map; exact Hi|].
    cbn zeta. rewrite E. apply in_or_app. left. now left.
Qed.

(* ---- the two families ---- *)
Lemma concat_singles {A B} (f : A -> B) l : concat (map (fun x => [f x]) l) = map f l.
Proof. induction l as [|x l IH]; [reflexivity|]. cbn [map concat app]. now rewrite IH. Qed.
Lemma autocorrelation_opb s1 s2 n : length s1 = n -> length s2 = n -> 1 <= n -> pm1 s1 -> pm1 s2 ->
  exists txt, equations_autocorrelation s1 s2 = Some txt /\
    opb txt (map (fun o => mkEquation (auto_terms n o) (- (paf s1 (Z.of_nat o) + paf s2 (Z.of_nat o)) - 2 * Z.of_nat n)) (seq 1 (n - 1))).
Proof.
  intros L1 L2 Hn P1 P2. unfold equations_autocorrelation. rewrite L1. unfold range.
  destruct (fold_text (fun result offset =>
    let* r1 := periodic_autocorrelation s1 offset in
    let* r2 := periodic_autocorrelation s2 offset in
    Some (result ++ generate_equation_autocorrelation n offset (- (r1 + r2))%Z))
    (fun o => [mkEquation (auto_terms n o) (- (paf s1 (Z.of_nat o) + paf s2 (Z.of_nat o)) - 2 * Z.of_nat n)])
    (seq 1 (n - 1))) with (r := @nil ascii) as (txt & E & O).
  - intros r o _. rewrite !periodic_autocorrelation_spec by auto. cbn [bind]. eexists. split; [reflexivity|].
    now apply auto_opb.
  - exists txt. split; [exact E|]. rewrite concat_singles in O. exact O.
Qed.
Lemma op_minus_zero s1 s2 n o : length s1 = n -> length s2 = n -> 1 <= n -> o < n -> pm1 s1 -> pm1 s2 -> op_minus s1 s2 o = Some 0%Z.
Proof.
  intros L1 L2 Hn Ho P1 P2. unfold op_minus. rewrite cross_correlation_spec by (auto; lia). cbn. f_equal. lia.
Qed.
Lemma nonlinear_crosscorrelation_opb s1 s2 o1 o2 n : length s1 = n -> length s2 = n -> 1 <= n -> pm1 s1 -> pm1 s2 ->
  o1 = LeftMinus \/ o1 = RightMinus ->
  exists txt, equations_nonlinear_crosscorrelation s1 s2 o1 o2 Plus = Some txt /\
    opb txt (map (fun o => mkEquation (cross_terms o2 n o) 0) (seq 1 (n - 1))).
Proof.
  intros L1 L2 Hn P1 P2 Ho. unfold equations_nonlinear_crosscorrelation. rewrite L1. unfold range.
  match goal with |- context [fold_m ?f _ _] => set (step := f) end.
  destruct (fold_text step (fun o => [mkEquation (cross_terms o2 n o) 0]) (seq 1 (n - 1))) with (r := @nil ascii) as (txt & E & O).
  - intros r o Hi. apply in_seq in Hi. unfold step.
    assert (Ez : (match o1 with LeftPlus | RightPlus => fun a b c => op_plus a b c | LeftMinus => fun a b c => op_minus a b c
                 | RightMinus => fun a b c => op_minus b a c end) s1 s2 o = Some 0%Z).
    { destruct Ho as [-> | ->]; apply (op_minus_zero _ _ n); auto; lia. }
    rewrite Ez. cbn [bind]. eexists. split; [reflexivity|]. now apply nonlinear_opb.
  - exists txt. split; [exact E|]. rewrite concat_singles in O. exact O.
Qed.
