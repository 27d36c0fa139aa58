(* The size of a class and the symmetries that fix one of its members. *)
From Coq Require Import List ZArith Lia Arith Bool Permutation Relations.
From Verif Require Import Base BaseFacts Sums Quat ModelSequence ModelWilliamson SeqFacts
  ModelEquivalence SpecEquiv OpFacts EquivFacts TypeFacts OrderFacts FastFacts EquivThms Spec.
Import ListNotations.
Notation length := List.length.
Open Scope nat_scope.

Lemma wact_app w v q : wact (w ++ v) q = wact v (wact w q).
Proof. unfold wact. now rewrite fold_left_app. Qed.
Lemma opword_app ops n w v : opword ops n w -> opword ops n v -> opword ops n (w ++ v).
Proof. intros Hw Hv. induction Hv as [|v o u Hv IH Ho Hu]; [now rewrite app_nil_r|]. rewrite app_assoc. econstructor; eauto. Qed.
Lemma phi_nat n q w : n <= 31 -> i8_quad n q -> qmap (phi q) (wact w (symbolic_quad n)) = wact w q.
Proof.
  intros Hn Hq. rewrite (wact_natural n).
  - now rewrite phi_symbolic by (auto; apply Hq).
  - intros z. now apply phi_odd.
  - apply symbolic_dom. lia.
Qed.
Lemma symbolic_size n : q_size (symbolic_quad n) = n.
Proof. apply symbolic_wf. Qed.

Lemma inverse_word n ops u : n <= 31 -> opword ops n u ->
  exists v, opword ops n v /\ forall q, i8_quad n q -> wact v (wact u q) = q.
Proof.
  intros Hn Hu. set (s := symbolic_quad n). assert (R : reach ops s (wact u s)) by (apply (reach_word n); [apply symbolic_size|eauto]).
  apply (reach_sym n) in R; [|apply symbolic_i8]. apply (reach_word n) in R as (v & Hv & E); [|rewrite wact_size; apply symbolic_size].
  exists v. split; auto. intros q Hq. rewrite <- wact_app, <- (phi_nat n q) by auto. rewrite wact_app. fold s. rewrite <- E. apply phi_symbolic; [apply Hq|lia].
Qed.
Lemma wact_injective n ops u x y : n <= 31 -> opword ops n u -> i8_quad n x -> i8_quad n y -> wact u x = wact u y -> x = y.
Proof. intros Hn Hu Hx Hy E. destruct (inverse_word n ops u Hn Hu) as (v & _ & H). rewrite <- (H x Hx), <- (H y Hy). now f_equal. Qed.

Lemma filter_split {A} (f : A -> bool) l : length l = length (filter f l) + length (filter (fun x => negb (f x)) l).
Proof. induction l as [|x l IH]; auto. cbn [filter]. destruct (f x); cbn [negb length]; lia. Qed.
(* counting by fibres *)
Lemma fibres {A B} (dec : forall x y : B, {x = y} + {x <> y}) (F : A -> B) (G : list A) (C : list B) k : NoDup C ->
  (forall g, In g G -> In (F g) C) -> (forall y, In y C -> length (filter (fun g => if dec (F g) y then true else false) G) = k) ->
  length G = length C * k.
Proof.
  intros N. revert G. induction N as [|y C Hy N IH]; intros G HG Hk.
  - destruct G as [|g G]; auto. destruct (HG g (or_introl eq_refl)).
  - cbn [length Nat.mul].
    rewrite (filter_split (fun g => if dec (F g) y then true else false) G), (Hk y (or_introl eq_refl)). f_equal.
    apply IH.
    + intros g Hg. apply filter_In in Hg as [Hg Hf]. destruct (dec (F g) y) as [|Hne]; [discriminate|]. destruct (HG g Hg); auto. congruence.
    + intros z Hz. rewrite <- (Hk z (or_intror Hz)). f_equal. clear - Hz Hy. induction G as [|g G IH]; auto. cbn [filter].
      destruct (dec (F g) y) as [E|E]; cbn [negb filter].
      * destruct (dec (F g) z) as [E'|E']; auto. exfalso. apply Hy. congruence.
      * destruct (dec (F g) z); [f_equal|]; apply IH.
Qed.

Theorem orbit_stabilizer n ord ord' ord'' ops q : ord_ok ord -> ord_ok ord' -> ord_ok ord'' -> n <= 31 -> i8_quad n q ->
  exists fuel0, forall fuel p p' p'', fuel0 <= fuel -> exists G c stab,
    generate_symmetry_group fuel ord p n (map impl ops) = Some G /\
    generate_equivalence_class fuel ord' p' q (map impl ops) = Some c /\
    NoDup stab /\ (forall g, In g stab <-> In g G /\ generate_equivalence_class_fast ord'' p'' q [g] = Some [q]) /\
    1 <= length stab /\ length G = length c * length stab.
Proof.
  intros Ho Ho' Ho'' Hn Hq. exists (class_fuel n). intros fuel p p' p'' Hf.
  destruct (symmetry_group_spec n ord p ops fuel Ho) as (G & EG & NG & HG); auto; [apply small_ok; lia|].
  destruct (class_spec n ord' p' ops q fuel Ho') as (c & Ec & Nc & Hc); auto; [apply small_ok; lia|].
  set (F := qmap (phi q)). set (fib := fun y => filter (fun g => if quad_eq_dec (F g) y then true else false) G).
  assert (GW : forall g, In g G <-> exists w, opword ops n w /\ g = wact w (symbolic_quad n)).
  { intros g. rewrite HG. apply reach_word, symbolic_size. }
  assert (FW : forall w, F (wact w (symbolic_quad n)) = wact w q) by (intros w; now apply phi_nat).
  assert (G8 : forall g, In g G -> i8_quad n g) by (intros g Hg; apply GW in Hg as (w & _ & ->); apply wact_i8, symbolic_i8).
  assert (In q c) as Hqc by (apply Hc, rt_refl).
  assert (T : forall x y, In x c -> In y c -> length (fib x) <= length (fib y)).
  { intros x y Hx Hy. apply Hc in Hx, Hy. apply (reach_sym n) in Hx as Hx'; auto.
    assert (R : reach ops x y) by (eapply rt_trans; eauto). pose proof (reach_i8 n ops q x Hq Hx) as Ix.
    apply (reach_word n) in R as (u & Hu & ->); [|apply Ix].
    rewrite <- (map_length (wact u) (fib x)). apply NoDup_incl_length.
    - assert (N : NoDup (fib x)) by (now apply NoDup_filter).
      assert (S8 : forall g, In g (fib x) -> i8_quad n g) by (intros g Hg; apply filter_In in Hg as [Hg _]; auto). revert N S8.
      induction (fib x) as [|g l IH]; intros N S8; cbn [map]; constructor; inversion N as [|? ? N1 N2]; subst.
      + intros Hi. apply in_map_iff in Hi as (h & E & Hh). apply N1. replace g with h; auto.
        apply (wact_injective n ops u); auto; apply S8; [now right|now left].
      + apply IH; auto. intros h Hh. apply S8. now right.
    - intros g' Hg'. apply in_map_iff in Hg' as (g & <- & Hg). apply filter_In in Hg as [Hg Hx2]. destruct (quad_eq_dec (F g) x) as [E|]; [|discriminate].
      apply GW in Hg as (w & Hw & ->). apply filter_In. rewrite <- wact_app. split; [apply GW; exists (w ++ u); split; auto using opword_app|].
      rewrite FW, wact_app. rewrite FW in E. rewrite E. destruct (quad_eq_dec (wact u x) (wact u x)); congruence. }
  exists G, c, (fib q). split; auto. split; auto. split; [now apply NoDup_filter|]. split; [|split].
  - intros g. unfold fib. rewrite filter_In. split; intros [Hg E]; (split; [auto|]);
      (assert (EF : generate_equivalence_class_fast ord'' p'' q [g] = Some [F g]);
       [unfold generate_equivalence_class_fast; replace (ord'' p'' [g]) with [g] by (symmetry; apply Permutation_length_1_inv; symmetry; apply Ho'');
        apply GW in Hg as (w & _ & ->); cbn [traverse]; rewrite (fast_apply_spec n q _ (proj1 Hq) ltac:(lia) (wact_dom n w _ (symbolic_dom n ltac:(lia)))); reflexivity|]);
      rewrite EF in *.
    + destruct (quad_eq_dec (F g) q) as [->|]; [auto|discriminate].
    + injection E as E. destruct (quad_eq_dec (F g) q); congruence.
  - assert (In (symbolic_quad n) (fib q)) as H.
    { apply filter_In. split; [apply HG, rt_refl|]. rewrite (FW [] : F (symbolic_quad n) = q). destruct (quad_eq_dec q q); congruence. }
    destruct (fib q); [destruct H|cbn; lia].
  - apply (fibres quad_eq_dec F); auto.
    + intros g Hg. apply GW in Hg as (w & Hw & ->). rewrite FW. apply Hc, (reach_word n); [apply Hq|eauto].
    + intros y Hy. apply Nat.le_antisymm; apply T; auto.
Qed.
