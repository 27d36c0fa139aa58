(* equivalent returns the least rearrangement of the row sums. *)
From Coq Require Import List ZArith Lia Arith Bool.
From Verif Require Import Base BaseFacts Sums ModelWilliamson ModelRowsum SpecRowsum.
Import ListNotations.
Open Scope Z_scope.

Lemma lex_refl q : quad_lex_le q q.
Proof. destruct q as [[[a b] c] d]. cbn. lia. Qed.
Lemma lex_trans q r s : quad_lex_le q r -> quad_lex_le r s -> quad_lex_le q s.
Proof. destruct q as [[[a b] c] d], r as [[[a' b'] c'] d'], s as [[[a1 b1] c1] d1]. cbn. lia. Qed.
Lemma lex_antisym q r : quad_lex_le q r -> quad_lex_le r q -> q = r.
Proof. destruct q as [[[a b] c] d], r as [[[a' b'] c'] d']. cbn. intros. assert (a = a') by lia. assert (b = b') by lia. assert (c = c') by lia. assert (d = d') by lia. now subst. Qed.
Lemma better_true q r : better_than q r = true -> quad_lex_le q r.
Proof.
  destruct q as [[[a b] c] d], r as [[[a' b'] c'] d']. cbn.
  repeat (match goal with |- context [?x <? ?y] => destruct (Z.ltb_spec x y) end; try discriminate); intros _; lia.
Qed.
Lemma better_false q r : better_than q r = false -> quad_lex_le r q.
Proof.
  destruct q as [[[a b] c] d], r as [[[a' b'] c'] d']. cbn.
  repeat (match goal with |- context [?x <? ?y] => destruct (Z.ltb_spec x y) end; try discriminate); intros _; lia.
Qed.

(* the 24 rearrangements *)
Definition perms4 : list (list nat) :=
  [[0;1;2;3]; [0;1;3;2]; [0;2;1;3]; [0;2;3;1]; [0;3;1;2]; [0;3;2;1]; [1;0;2;3]; [1;0;3;2]; [1;2;0;3]; [1;2;3;0]; [1;3;0;2]; [1;3;2;0];
   [2;0;1;3]; [2;0;3;1]; [2;1;0;3]; [2;1;3;0]; [2;3;0;1]; [2;3;1;0]; [3;0;1;2]; [3;0;2;1]; [3;1;0;2]; [3;1;2;0]; [3;2;0;1]; [3;2;1;0]]%nat.
Lemma perms4_spec p : NoDup p -> incl p [0;1;2;3]%nat -> List.length p = 4%nat -> In p perms4.
Proof.
  intros Nd I L. destruct p as [|i [|j [|k [|l [|]]]]]; try discriminate.
  assert (Hi : In i [0;1;2;3]%nat) by (apply I; cbn; tauto). assert (Hj : In j [0;1;2;3]%nat) by (apply I; cbn; tauto).
  assert (Hk : In k [0;1;2;3]%nat) by (apply I; cbn; tauto). assert (Hl : In l [0;1;2;3]%nat) by (apply I; cbn; tauto).
  assert (N : (if in_dec Nat.eq_dec i [j; k; l] then true else if in_dec Nat.eq_dec j [k; l] then true else if Nat.eq_dec k l then true else false) = false).
  { inversion Nd as [|? ? A Nd1]; subst. inversion Nd1 as [|? ? B Nd2]; subst. inversion Nd2 as [|? ? C Nd3]; subst.
    destruct (in_dec Nat.eq_dec i [j; k; l]); [contradiction|]. destruct (in_dec Nat.eq_dec j [k; l]); [contradiction|].
    destruct (Nat.eq_dec k l) as [->|]; [|reflexivity]. exfalso. apply C. now left. }
  assert (F : (forallb (fun i => forallb (fun j => forallb (fun k => forallb (fun l =>
      (if in_dec Nat.eq_dec i [j; k; l] then true else if in_dec Nat.eq_dec j [k; l] then true else if Nat.eq_dec k l then true else false)
      || existsb (fun p => if list_eq_dec Nat.eq_dec [i; j; k; l] p then true else false) perms4)%bool
      [0;1;2;3]) [0;1;2;3]) [0;1;2;3]) [0;1;2;3] = true)%nat) by (vm_compute; reflexivity).
  rewrite forallb_forall in F. specialize (F i Hi). rewrite forallb_forall in F. specialize (F j Hj).
  rewrite forallb_forall in F. specialize (F k Hk). rewrite forallb_forall in F. specialize (F l Hl).
  rewrite N in F. cbn [orb] in F. apply existsb_exists in F as (p & Hp & E). destruct (list_eq_dec Nat.eq_dec [i; j; k; l] p) as [->|]; [auto|discriminate].
Qed.
Lemma perms4_ok p : In p perms4 -> NoDup p /\ incl p [0;1;2;3]%nat /\ List.length p = 4%nat.
Proof.
  intros H. cbn in H. repeat (destruct H as [<-|H]; [split; [repeat constructor; cbn; intuition discriminate|split; [|reflexivity]]; intros x; cbn; tauto|]).
  contradiction.
Qed.
Lemma rearranged_iff p q r : rearranged p q r <-> In p perms4 /\ quad_list r = map (fun i => nth i (quad_list q) 0) p.
Proof.
  unfold rearranged. split.
  - intros (A & B & C & D). split; auto. now apply perms4_spec.
  - intros [A B]. apply perms4_ok in A. tauto.
Qed.
Definition evenp (p : list nat) : bool := Nat.even (inversions p).
Definition comp (p p' : list nat) : list nat := map (fun i => nth i p 0%nat) p'.
Lemma list_nat_eqb_eq : forall x y : list nat, (if list_eq_dec Nat.eq_dec x y then true else false) = true -> x = y.
Proof. intros x y. destruct (list_eq_dec Nat.eq_dec x y); [auto|discriminate]. Qed.
Definition lmem (p : list nat) (l : list (list nat)) : bool := existsb (fun x => if list_eq_dec Nat.eq_dec p x then true else false) l.
Lemma lmem_in p l : lmem p l = true -> In p l.
Proof. intros H. apply existsb_exists in H as (x & Hx & E). apply list_nat_eqb_eq in E. now subst. Qed.
Lemma comp_ok p p' : In p perms4 -> In p' perms4 -> In (comp p p') perms4 /\ evenp (comp p p') = Bool.eqb (evenp p) (evenp p').
Proof.
  assert (F : forallb (fun p => forallb (fun p' => (lmem (comp p p') perms4 && Bool.eqb (evenp (comp p p')) (Bool.eqb (evenp p) (evenp p')))%bool) perms4) perms4 = true) by (vm_compute; reflexivity).
  intros H H'. rewrite forallb_forall in F. specialize (F p H). rewrite forallb_forall in F. specialize (F p' H').
  apply andb_true_iff in F as [A B]. split; [now apply lmem_in|now apply Bool.eqb_prop].
Qed.
Lemma inv_ok p : In p perms4 -> exists p', In p' perms4 /\ comp p p' = [0;1;2;3]%nat /\ evenp p' = evenp p.
Proof.
  assert (F : forallb (fun p => existsb (fun p' => ((if list_eq_dec Nat.eq_dec (comp p p') [0;1;2;3]%nat then true else false) && Bool.eqb (evenp p') (evenp p))%bool) perms4) perms4 = true) by (vm_compute; reflexivity).
  intros H. rewrite forallb_forall in F. specialize (F p H). apply existsb_exists in F as (p' & H' & F).
  apply andb_true_iff in F as [A B]. exists p'. split; auto. split; [now apply list_nat_eqb_eq|now apply Bool.eqb_prop].
Qed.
Lemma comp_map p p' (l l' l'' : list Z) : In p perms4 -> In p' perms4 -> l' = map (fun i => nth i l 0) p -> l'' = map (fun i => nth i l' 0) p' ->
  l'' = map (fun i => nth i l 0) (comp p p').
Proof.
  intros H H' -> ->. unfold comp. rewrite map_map. apply map_ext_in. intros i Hi.
  apply perms4_ok in H as (_ & _ & L). apply perms4_ok in H' as (_ & I' & _). apply I' in Hi.
  rewrite (nth_indep _ 0 (nth 0%nat l 0)) by (rewrite map_length, L; cbn in Hi; lia).
  rewrite (map_nth (fun i => nth i l 0) p 0%nat i). reflexivity.
Qed.
Lemma quad_list_id q : map (fun i => nth i (quad_list q) 0) [0;1;2;3]%nat = quad_list q.
Proof. destruct q as [[[a b] c] d]. reflexivity. Qed.
Lemma quad_list_inj q r : quad_list q = quad_list r -> q = r.
Proof. destruct q as [[[a b] c] d], r as [[[a' b'] c'] d']. cbn. intros E. now injection E as -> -> -> ->. Qed.

Lemma rearranged_sym p q r : rearranged p q r -> exists p', rearranged p' r q /\ evenp p' = evenp p.
Proof.
  rewrite rearranged_iff. intros [H E]. destruct (inv_ok p H) as (p' & H' & C & Ev). exists p'. split; auto. rewrite rearranged_iff. split; auto.
  assert (X := comp_map p p' (quad_list q) (quad_list r) _ H H' E eq_refl). rewrite C, quad_list_id in X. now symmetry.
Qed.
Lemma rearranged_trans p p' q r s : rearranged p q r -> rearranged p' r s -> rearranged (comp p p') q s /\ evenp (comp p p') = Bool.eqb (evenp p) (evenp p').
Proof.
  rewrite !rearranged_iff. intros [H E] [H' E']. destruct (comp_ok p p' H H') as [A B]. split; auto. split; auto.
  now apply (comp_map p p' (quad_list q) (quad_list r)).
Qed.
(* being free does not depend on the order *)
Lemma rearranged_in p q r x : rearranged p q r -> In x (quad_list r) -> In x (quad_list q).
Proof.
  rewrite rearranged_iff. intros [H E] I. rewrite E in I. apply in_map_iff in I as (i & <- & Hi). apply perms4_ok in H as (_ & I' & _). apply I' in Hi.
  destruct q as [[[a b] c] d]. cbn in Hi. destruct Hi as [<-|[<-|[<-|[<-|[]]]]]; cbn; tauto.
Qed.
Lemma rearranged_nodup p q r : rearranged p q r -> NoDup (quad_list r) -> NoDup (quad_list q).
Proof.
  intros R N. apply (NoDup_incl_NoDup N).
  - destruct q as [[[a b] c] d], r as [[[a' b'] c'] d']. cbn. lia.
  - intros x Hx. now apply (rearranged_in p q r).
Qed.
Lemma free_order_sym p t q r : rearranged p q r -> free_order t r -> free_order t q.
Proof.
  intros R [H|[H|H]]; [now left| |].
  - right. left. now apply (rearranged_in p q r).
  - right. right. intros N. apply H. destruct (rearranged_sym p q r R) as (p' & R' & _). now apply (rearranged_nodup p' r q).
Qed.
Lemma same_sums_refl t q : same_sums t q q.
Proof. exists [0;1;2;3]%nat. split; [|right; reflexivity]. rewrite rearranged_iff. split; [cbn; tauto|]. now rewrite quad_list_id. Qed.
Lemma same_sums_sym t q r : same_sums t q r -> same_sums t r q.
Proof.
  intros (p & R & H). destruct (rearranged_sym p q r R) as (p' & R' & E). exists p'. split; auto.
  destruct H as [H|H]; [left; now apply (free_order_sym p' t r q)|right]. unfold evenp in E. congruence.
Qed.
Lemma same_sums_trans t q r s : same_sums t q r -> same_sums t r s -> same_sums t q s.
Proof.
  intros (p & R & H) (p' & R' & H'). destruct (rearranged_trans p p' q r s R R') as [C E]. exists (comp p p'). split; auto.
  destruct H as [H|H]; auto. destruct H' as [H'|H']; [left; now apply (free_order_sym p t q r)|right].
  unfold evenp in E. rewrite E, H, H'. reflexivity.
Qed.

Lemma sort_case a b c d : exists w x y z,
  fold_m (fun v i =>
        let* min_ind := fold_m (fun min_ind j =>
            let* x := vget v j in let* y := vget v min_ind in
            Some (if x <? y then j else min_ind)) (range (i + 1) 4) i in
        if negb (Nat.eqb min_ind i) then
          let* temp := vget v i in
          let* m := vget v min_ind in
          let* v := vset v i m in
          vset v min_ind temp
        else Some v) (range 0 3) [a; b; c; d] = Some [w; x; y; z] /\
  (exists p, In p perms4 /\ [w; x; y; z] = map (fun i => nth i [a; b; c; d] 0) p) /\ w <= x <= y /\ y <= z.
Proof.
  cbn.
  repeat (match goal with |- context [?x <? ?y] => destruct (Z.ltb_spec x y) end; cbn);
    (do 4 eexists; split; [reflexivity|]; split; [|lia]);
    first [(exists [0;1;2;3]%nat; split; [|reflexivity]; apply (nth_error_In perms4 0); reflexivity) | (exists [0;1;3;2]%nat; split; [|reflexivity]; apply (nth_error_In perms4 1); reflexivity) | (exists [0;2;1;3]%nat; split; [|reflexivity]; apply (nth_error_In perms4 2); reflexivity) | (exists [0;2;3;1]%nat; split; [|reflexivity]; apply (nth_error_In perms4 3); reflexivity) | (exists [0;3;1;2]%nat; split; [|reflexivity]; apply (nth_error_In perms4 4); reflexivity) | (exists [0;3;2;1]%nat; split; [|reflexivity]; apply (nth_error_In perms4 5); reflexivity) | (exists [1;0;2;3]%nat; split; [|reflexivity]; apply (nth_error_In perms4 6); reflexivity) | (exists [1;0;3;2]%nat; split; [|reflexivity]; apply (nth_error_In perms4 7); reflexivity) | (exists [1;2;0;3]%nat; split; [|reflexivity]; apply (nth_error_In perms4 8); reflexivity) | (exists [1;2;3;0]%nat; split; [|reflexivity]; apply (nth_error_In perms4 9); reflexivity) | (exists [1;3;0;2]%nat; split; [|reflexivity]; apply (nth_error_In perms4 10); reflexivity) | (exists [1;3;2;0]%nat; split; [|reflexivity]; apply (nth_error_In perms4 11); reflexivity) | (exists [2;0;1;3]%nat; split; [|reflexivity]; apply (nth_error_In perms4 12); reflexivity) | (exists [2;0;3;1]%nat; split; [|reflexivity]; apply (nth_error_In perms4 13); reflexivity) | (exists [2;1;0;3]%nat; split; [|reflexivity]; apply (nth_error_In perms4 14); reflexivity) | (exists [2;1;3;0]%nat; split; [|reflexivity]; apply (nth_error_In perms4 15); reflexivity) | (exists [2;3;0;1]%nat; split; [|reflexivity]; apply (nth_error_In perms4 16); reflexivity) | (exists [2;3;1;0]%nat; split; [|reflexivity]; apply (nth_error_In perms4 17); reflexivity) | (exists [3;0;1;2]%nat; split; [|reflexivity]; apply (nth_error_In perms4 18); reflexivity) | (exists [3;0;2;1]%nat; split; [|reflexivity]; apply (nth_error_In perms4 19); reflexivity) | (exists [3;1;0;2]%nat; split; [|reflexivity]; apply (nth_error_In perms4 20); reflexivity) | (exists [3;1;2;0]%nat; split; [|reflexivity]; apply (nth_error_In perms4 21); reflexivity) | (exists [3;2;0;1]%nat; split; [|reflexivity]; apply (nth_error_In perms4 22); reflexivity) | (exists [3;2;1;0]%nat; split; [|reflexivity]; apply (nth_error_In perms4 23); reflexivity)].
Qed.

Lemma sorted_least w x y z p r : w <= x <= y -> y <= z -> rearranged p (w, x, y, z) r -> quad_lex_le (w, x, y, z) r.
Proof.
  intros H1 H2. rewrite rearranged_iff. intros [H E]. destruct r as [[[a b] c] d].
  cbn [perms4 In] in H. repeat (destruct H as [<-|H]; [cbn in E; injection E as -> -> -> ->; cbn; lia|]). contradiction.
Qed.

(* the least of a list *)
Lemma fold_better l q : fold_left (fun final test => if better_than test final then test else final) l q = q \/
  In (fold_left (fun final test => if better_than test final then test else final) l q) l.
Proof.
  revert q. induction l as [|x l IH]; intros q; [now left|]. cbn [fold_left]. destruct (better_than x q).
  - destruct (IH x) as [-> | H]; right; [now left|now right].
  - destruct (IH q) as [H|H]; [now left|right; now right].
Qed.
Lemma fold_better_le l q : quad_lex_le (fold_left (fun final test => if better_than test final then test else final) l q) q /\
  forall x, In x l -> quad_lex_le (fold_left (fun final test => if better_than test final then test else final) l q) x.
Proof.
  revert q. induction l as [|x l IH]; intros q; [split; [apply lex_refl|intros x []]|]. cbn [fold_left].
  destruct (better_than x q) eqn:B.
  - destruct (IH x) as [A C]. split; [apply lex_trans with x; auto using better_true|]. intros y [<-|Hy]; auto.
  - destruct (IH q) as [A C]. split; auto. intros y [<-|Hy]; auto. apply lex_trans with q; auto using better_false.
Qed.

Lemma free_order_dec q t : match t with QuaternionType => false | _ => true end || quad_contains_zero q || quad_contains_dup q = true <-> free_order t q.
Proof.
  destruct q as [[[a b] c] d]. unfold free_order, quad_contains_zero, quad_contains_dup. cbn [quad_list].
  rewrite !orb_true_iff, !Z.eqb_eq.
  assert (N : ~ NoDup [a; b; c; d] <-> a = b \/ a = c \/ a = d \/ b = c \/ b = d \/ c = d).
  { split.
    - intros H. destruct (Z.eq_dec a b), (Z.eq_dec a c), (Z.eq_dec a d), (Z.eq_dec b c), (Z.eq_dec b d), (Z.eq_dec c d); try tauto.
      exfalso. apply H. repeat constructor; cbn; intuition congruence.
    - intros H Nd. inversion Nd as [|? ? A Nd1]; subst. inversion Nd1 as [|? ? B Nd2]; subst. inversion Nd2 as [|? ? C Nd3]; subst. cbn in *.
      intuition congruence. }
  rewrite N. cbn [In]. clear N.
  destruct t; (split; [intros H; first [left; discriminate | right; repeat destruct H as [H|H]; try discriminate; subst; auto 10]|]);
    try (intros _; left; left; reflexivity).
  intros [H|[H|H]]; [now destruct H| |].
  - left. right. destruct H as [H|[H|[H|[H|[]]]]]; subst; auto 10.
  - right. repeat (destruct H as [H|H]; [subst; auto 10|]). subst; auto 10.
Qed.

Lemma even_case q : exists r,
  fold_m (fun final swaps =>
        let '(i, j, k, l) := swaps in
        let* test := quad_swap q i j in
        let* test := quad_swap test k l in
        Some (if better_than test final then test else final))
      [(0,1,0,1); (0,1,0,2); (0,1,0,3); (0,1,1,2); (0,1,1,3); (0,1,2,3); (0,2,0,3); (0,2,1,3); (0,2,2,3);
       (0,3,1,2); (1,2,2,3); (1,3,3,2)]%nat q = Some r /\
  (exists p, rearranged p q r /\ evenp p = true) /\
  forall p s, rearranged p q s -> evenp p = true -> quad_lex_le r s.
Proof.
  destruct q as [[[a b] c] d].
  set (l := [(a,b,c,d); (c,a,b,d); (d,a,c,b); (b,c,a,d); (b,d,c,a); (b,a,d,c); (d,b,a,c); (c,d,a,b); (c,b,d,a); (d,c,b,a); (a,c,d,b); (a,d,b,c)]).
  exists (fold_left (fun final test => if better_than test final then test else final) l (a, b, c, d)).
  split; [reflexivity|]. split.
  - destruct (fold_better l (a, b, c, d)) as [-> | H].
    + exists [0;1;2;3]%nat. split; [|reflexivity]. rewrite rearranged_iff. split; [cbn; tauto|reflexivity].
    + revert H. generalize (fold_left (fun final test => if better_than test final then test else final) l (a, b, c, d)). intros r H.
      assert (G : forall p s, s = r -> In p perms4 -> quad_list s = map (fun i => nth i [a; b; c; d] 0) p -> evenp p = true -> exists p, rearranged p (a, b, c, d) r /\ evenp p = true).
      { intros p s -> Hp E Ev. exists p. split; auto. rewrite rearranged_iff. auto. }
      unfold l in H. cbn [In] in H. clear l.
      repeat (destruct H as [H|H]; [first [(apply (G [0;1;2;3]%nat _ H); [|reflexivity|reflexivity]; apply (nth_error_In perms4 0); reflexivity) | (apply (G [0;1;3;2]%nat _ H); [|reflexivity|reflexivity]; apply (nth_error_In perms4 1); reflexivity) | (apply (G [0;2;1;3]%nat _ H); [|reflexivity|reflexivity]; apply (nth_error_In perms4 2); reflexivity) | (apply (G [0;2;3;1]%nat _ H); [|reflexivity|reflexivity]; apply (nth_error_In perms4 3); reflexivity) | (apply (G [0;3;1;2]%nat _ H); [|reflexivity|reflexivity]; apply (nth_error_In perms4 4); reflexivity) | (apply (G [0;3;2;1]%nat _ H); [|reflexivity|reflexivity]; apply (nth_error_In perms4 5); reflexivity) | (apply (G [1;0;2;3]%nat _ H); [|reflexivity|reflexivity]; apply (nth_error_In perms4 6); reflexivity) | (apply (G [1;0;3;2]%nat _ H); [|reflexivity|reflexivity]; apply (nth_error_In perms4 7); reflexivity) | (apply (G [1;2;0;3]%nat _ H); [|reflexivity|reflexivity]; apply (nth_error_In perms4 8); reflexivity) | (apply (G [1;2;3;0]%nat _ H); [|reflexivity|reflexivity]; apply (nth_error_In perms4 9); reflexivity) | (apply (G [1;3;0;2]%nat _ H); [|reflexivity|reflexivity]; apply (nth_error_In perms4 10); reflexivity) | (apply (G [1;3;2;0]%nat _ H); [|reflexivity|reflexivity]; apply (nth_error_In perms4 11); reflexivity) | (apply (G [2;0;1;3]%nat _ H); [|reflexivity|reflexivity]; apply (nth_error_In perms4 12); reflexivity) | (apply (G [2;0;3;1]%nat _ H); [|reflexivity|reflexivity]; apply (nth_error_In perms4 13); reflexivity) | (apply (G [2;1;0;3]%nat _ H); [|reflexivity|reflexivity]; apply (nth_error_In perms4 14); reflexivity) | (apply (G [2;1;3;0]%nat _ H); [|reflexivity|reflexivity]; apply (nth_error_In perms4 15); reflexivity) | (apply (G [2;3;0;1]%nat _ H); [|reflexivity|reflexivity]; apply (nth_error_In perms4 16); reflexivity) | (apply (G [2;3;1;0]%nat _ H); [|reflexivity|reflexivity]; apply (nth_error_In perms4 17); reflexivity) | (apply (G [3;0;1;2]%nat _ H); [|reflexivity|reflexivity]; apply (nth_error_In perms4 18); reflexivity) | (apply (G [3;0;2;1]%nat _ H); [|reflexivity|reflexivity]; apply (nth_error_In perms4 19); reflexivity) | (apply (G [3;1;0;2]%nat _ H); [|reflexivity|reflexivity]; apply (nth_error_In perms4 20); reflexivity) | (apply (G [3;1;2;0]%nat _ H); [|reflexivity|reflexivity]; apply (nth_error_In perms4 21); reflexivity) | (apply (G [3;2;0;1]%nat _ H); [|reflexivity|reflexivity]; apply (nth_error_In perms4 22); reflexivity) | (apply (G [3;2;1;0]%nat _ H); [|reflexivity|reflexivity]; apply (nth_error_In perms4 23); reflexivity)]|]). contradiction.
  - intros p s R Ev. rewrite rearranged_iff in R. destruct R as [Hp E]. destruct (fold_better_le l (a, b, c, d)) as [_ L]. apply L. clear L.
    destruct s as [[[a' b'] c'] d']. cbn [perms4 In] in Hp.
    repeat (destruct Hp as [<-|Hp]; [try (vm_compute in Ev; discriminate Ev); cbn in E; injection E as -> -> -> ->; unfold l; cbn [In]; tauto|]). contradiction.
Qed.

Theorem equivalent_least q t : exists r, equivalent q t = Some r /\ same_sums t q r /\ forall s, same_sums t q s -> quad_lex_le r s.
Proof.
  unfold equivalent. destruct (match t with QuaternionType => false | _ => true end || quad_contains_zero q || quad_contains_dup q) eqn:F.
  - apply free_order_dec in F. destruct q as [[[a b] c] d].
    destruct (sort_case a b c d) as (w & x & y & z & E & (p & Hp & Ep) & H1 & H2). rewrite E. cbn [bind vget nth_error].
    exists (w, x, y, z). split; [reflexivity|].
    assert (R : rearranged p (a, b, c, d) (w, x, y, z)) by (rewrite rearranged_iff; auto). split; [exists p; auto|].
    intros s (p' & R' & _). destruct (rearranged_sym p _ _ R) as (p1 & R1 & _). destruct (rearranged_trans p1 p' _ _ _ R1 R') as [C _].
    now apply (sorted_least w x y z (comp p1 p')).
  - destruct (even_case q) as (r & E & (p & R & Ev) & L). exists r. split; [exact E|]. split; [exists p; auto|].
    intros s (p' & R' & [H|H]); [apply free_order_dec in H; congruence|]. now apply (L p').
Qed.
Theorem equivalent_class q q' t r r' : equivalent q t = Some r -> equivalent q' t = Some r' -> (r = r' <-> same_sums t q q').
Proof.
  intros E E'. destruct (equivalent_least q t) as (r1 & A & S & L). destruct (equivalent_least q' t) as (r1' & A' & S' & L').
  assert (r1 = r) by congruence. assert (r1' = r') by congruence. subst r1 r1'. split.
  - intros <-. apply (same_sums_trans t q r q'); auto. now apply same_sums_sym.
  - intros H. apply lex_antisym.
    + apply L. now apply (same_sums_trans t q q' r').
    + apply L'. apply (same_sums_trans t q' q r); auto. now apply same_sums_sym.
Qed.
