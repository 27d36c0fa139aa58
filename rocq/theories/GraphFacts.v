(* Graphs of Hadamard matrices: isomorphism is Hadamard equivalence. *)
From Coq Require Import List ZArith Lia Bool Arith.
From Verif Require Import Base BaseFacts Sums Spec ModelMatrices SpecMatrix MatFacts HmFacts ModelGraph SpecGraph.
Import ListNotations.
Open Scope nat_scope.

Definition pm_fun (n : nat) (f : nat -> nat -> Z) : Prop := forall i j, i < n -> j < n -> sign (f i j).
Definition two_edges (n : nat) (f : nat -> nat -> Z) (r c : nat) : list (nat * nat) :=
  if (f r c =? 1)%Z then [(r, 2 * n + c); (n + r, 3 * n + c)] else [(r, 3 * n + c); (n + r, 2 * n + c)].
Definition row_edges n f r k := flat_map (two_edges n f r) (seq 0 k).
Definition hm_edges (n : nat) (f : nat -> nat -> Z) : list (nat * nat) :=
  map (fun i => (i, i)) (seq 0 (2 * n)) ++ flat_map (fun r => row_edges n f r n) (seq 0 n).
Lemma flat_map_snoc {A B} (h : A -> list B) l x : flat_map h (l ++ [x]) = flat_map h l ++ h x.
Proof. rewrite flat_map_app. cbn. now rewrite app_nil_r. Qed.
Lemma graph_from_hm_tab n f : graph_from_hm (mkHM n (tab n f)) = Some (mkGraph (4 * n) (hm_edges n f)).
Proof.
  unfold graph_from_hm. cbn [hm_size hm_matrix].
  rewrite (for_m_states _ (4 * n) (fun k => mkGraph k (map (fun i => (i, i)) (seq 0 (Nat.min k (2 * n)))))
    graph_new (mkGraph (4 * n) (map (fun i => (i, i)) (seq 0 (2 * n))))); cbn [bind].
  - apply for_m_states with (st := fun r => mkGraph (4 * n) (map (fun i => (i, i)) (seq 0 (2 * n)) ++ flat_map (fun r => row_edges n f r n) (seq 0 r))).
    + cbn [seq flat_map]. now rewrite app_nil_r.
    + reflexivity.
    + intros r Hr. set (E := map _ _ ++ flat_map _ _).
      apply for_m_states with (st := fun c => mkGraph (4 * n) (E ++ row_edges n f r c)).
      * unfold row_edges. cbn [seq flat_map]. now rewrite app_nil_r.
      * unfold E. rewrite Nat.add_1_r, seq_S, flat_map_snoc, app_assoc. reflexivity.
      * intros c Hc. rewrite mget_tab by auto. cbn [bind].
        assert (forall a b e, a < 4 * n -> b < 4 * n -> add_edge (mkGraph (4 * n) e) a b = Some (mkGraph (4 * n) (e ++ [(a, b)]))) as AE.
        { intros a b e Ha Hb. unfold add_edge. cbn [g_nodes g_edges].
          rewrite (proj2 (Nat.ltb_lt a _) Ha), (proj2 (Nat.ltb_lt b _) Hb). reflexivity. }
        replace (row_edges n f r (c + 1)) with (row_edges n f r c ++ two_edges n f r c).
        2:{ unfold row_edges. now rewrite Nat.add_1_r, seq_S, flat_map_snoc. }
        unfold two_edges. destruct (f r c =? 1)%Z; rewrite AE by lia; cbn [bind]; rewrite AE by lia; now rewrite <- !app_assoc.
  - reflexivity.
  - rewrite Nat.min_r by lia. reflexivity.
  - intros i Hi. cbn [add_node]. unfold add_node. cbn [g_nodes g_edges]. destruct (Nat.ltb_spec i (2 * n)).
    + unfold add_edge. cbn [g_nodes g_edges]. rewrite (proj2 (Nat.ltb_lt i (S i))) by lia. cbn [andb guard].
      rewrite !Nat.min_l by lia. rewrite !Nat.add_1_r, seq_S, map_app. reflexivity.
    + rewrite !Nat.min_r by lia. now rewrite Nat.add_1_r.
Qed.

(* block k of the node numbers: 0, 1 rows with sign +, -; 2, 3 columns with sign +, - *)
Definition sg (k : nat) : Z := if Nat.even k then 1%Z else (-1)%Z.
Lemma block_uniq n k i l j : i < n -> j < n -> k * n + i = l * n + j -> k = l /\ i = j.
Proof. intros Hi Hj E. assert (k = l) by nia. subst. lia. Qed.
Lemma block_of n u : u < 4 * n -> exists k i, u = k * n + i /\ k < 4 /\ i < n.
Proof.
  intros H. assert (n <> 0) by lia. exists (u / n), (u mod n). split; [rewrite Nat.mul_comm; now apply Nat.div_mod|].
  split; [apply Nat.div_lt_upper_bound; lia|now apply Nat.mod_upper_bound].
Qed.
Lemma in_hm_edges n f u v : In (u, v) (hm_edges n f) <->
  (u = v /\ u < 2 * n) \/ exists r c, r < n /\ c < n /\ In (u, v) (two_edges n f r c).
Proof.
  unfold hm_edges. rewrite in_app_iff, in_map_iff, in_flat_map. split.
  - intros [(i & E & Hi)|(r & Hr & H)].
    + apply in_seq in Hi. injection E as <- <-. left. lia.
    + unfold row_edges in H. apply in_flat_map in H as (c & Hc & H). apply in_seq in Hr, Hc. right. exists r, c. split; [lia|]. split; [lia|auto].
  - intros [[<- H]|(r & c & Hr & Hc & H)].
    + left. exists u. split; auto. apply in_seq. lia.
    + right. exists r. split; [apply in_seq; lia|]. apply in_flat_map. exists c. split; [apply in_seq; lia|auto].
Qed.
Lemma sign_m1 z : sign z -> (z =? 1)%Z = false -> z = (-1)%Z.
Proof. intros [->| ->] H; [discriminate|reflexivity]. Qed.
Lemma edge_blocks n f k i l j : pm_fun n f -> k < 4 -> l < 4 -> i < n -> j < n ->
  (In (k * n + i, l * n + j) (hm_edges n f) <-> (k < 2 /\ k = l /\ i = j) \/ (k < 2 /\ 2 <= l /\ f i j = (sg k * sg l)%Z)).
Proof.
  intros P Hk Hl Hi Hj. rewrite in_hm_edges. split.
  - intros [[E H]|(r & c & Hr & Hc & H)].
    + left. destruct (block_uniq n k i l j Hi Hj E) as [<- <-]. split; auto. nia.
    + right. unfold two_edges in H.
      assert (forall k' l', (k' * n + r, l' * n + c) = (k * n + i, l * n + j) -> k' = k /\ r = i /\ l' = l /\ c = j) as U.
      { intros k' l' [= E1 E2]. destruct (block_uniq n k' r k i Hr Hi E1), (block_uniq n l' c l j Hc Hj E2). auto. }
      destruct (f r c =? 1)%Z eqn:Ef.
      * apply Z.eqb_eq in Ef. destruct H as [H|[H|[]]].
        -- destruct (U 0 2 ltac:(rewrite <- H; reflexivity)) as (<- & <- & <- & <-). rewrite Ef. repeat split; lia.
        -- destruct (U 1 3 ltac:(rewrite <- H; f_equal; lia)) as (<- & <- & <- & <-). rewrite Ef. repeat split; lia.
      * apply sign_m1 in Ef; [|apply P; auto]. destruct H as [H|[H|[]]].
        -- destruct (U 0 3 ltac:(rewrite <- H; reflexivity)) as (<- & <- & <- & <-). rewrite Ef. repeat split; lia.
        -- destruct (U 1 2 ltac:(rewrite <- H; f_equal; lia)) as (<- & <- & <- & <-). rewrite Ef. repeat split; lia.
  - intros [(Hk2 & <- & <-)|(Hk2 & Hl2 & E)].
    + left. split; auto. nia.
    + right. exists i, j. split; auto. split; auto. unfold two_edges. rewrite E.
      destruct k as [|[|k]]; [| |lia]; (destruct l as [|[|[|[|l]]]]; try lia); cbn [sg Nat.even Z.mul Z.eqb Pos.eqb In];
        [left|left|right; left|right; left]; f_equal; lia.
Qed.
Lemma adjacent_blocks n f k i l j : pm_fun n f -> k < 4 -> l < 4 -> i < n -> j < n ->
  (adjacent (mkGraph (4 * n) (hm_edges n f)) (k * n + i) (l * n + j) <->
   (k < 2 /\ k = l /\ i = j) \/ (k < 2 /\ 2 <= l /\ f i j = (sg k * sg l)%Z) \/ (l < 2 /\ 2 <= k /\ f j i = (sg k * sg l)%Z)).
Proof.
  intros P Hk Hl Hi Hj. unfold adjacent. cbn [g_edges]. rewrite !edge_blocks by auto. rewrite (Z.mul_comm (sg l)). split.
  - intros [[H|H]|[(H1 & H2 & H3)|H]]; subst; auto.
  - intros [H|[H|H]]; auto.
Qed.
Lemma hm_edges_nodup n f : NoDup (hm_edges n f).
Proof.
  assert (forall r c, r < n -> NoDup (two_edges n f r c)) as T.
  { intros r c Hr. unfold two_edges. destruct (f r c =? 1)%Z; (apply NoDup_cons; [cbn; intros [[= E]|[]]; lia|apply NoDup_cons; [cbn; tauto|constructor]]). }
  assert (forall r c x, In x (two_edges n f r c) -> c < n -> r < n -> (fst x = r \/ fst x = n + r) /\ (snd x = 2 * n + c \/ snd x = 3 * n + c)) as D.
  { intros r c x H Hc. unfold two_edges in H. destruct (f r c =? 1)%Z; destruct H as [<-|[<-|[]]]; cbn; lia. }
  assert (forall A B (h : A -> list B) l, NoDup l -> (forall x, In x l -> NoDup (h x)) ->
    (forall x y z, In x l -> In y l -> In z (h x) -> In z (h y) -> x = y) -> NoDup (flat_map h l)) as FM.
  { intros A B h l N. induction N as [|x l Hx N IH]; intros H1 H2; [constructor|]. cbn [flat_map].
    assert (forall a b : list B, NoDup a -> NoDup b -> (forall z, In z a -> In z b -> False) -> NoDup (a ++ b)) as NA.
    { intros a b Na Nb Hd. induction Na as [|y a Hy Na IHa]; auto. cbn. constructor.
      - rewrite in_app_iff. intros [K|K]; auto. apply (Hd y); cbn; auto.
      - apply IHa. intros z K1 K2. apply (Hd z); cbn; auto. }
    apply NA.
    - apply H1. cbn; auto.
    - apply IH; [intros; apply H1; cbn; auto|]. intros. eapply H2; eauto; cbn; auto.
    - intros z Hz K. apply in_flat_map in K as (y & Hy & K). assert (x = y) by (eapply H2; eauto; cbn; auto). now subst. }
  unfold hm_edges.
  assert (forall a b : list (nat * nat), NoDup a -> NoDup b -> (forall z, In z a -> In z b -> False) -> NoDup (a ++ b)) as NA.
  { intros a b Na Nb Hd. induction Na as [|y a Hy Na IHa]; auto. cbn. constructor.
    - rewrite in_app_iff. intros [K|K]; auto. apply (Hd y); cbn; auto.
    - apply IHa. intros z K1 K2. apply (Hd z); cbn; auto. }
  apply NA.
  - apply FinFun.Injective_map_NoDup; [intros x y [= ->]; auto|apply seq_NoDup].
  - apply FM; [apply seq_NoDup| |].
    + intros r Hr. apply in_seq in Hr. unfold row_edges. apply FM; [apply seq_NoDup|intros; apply T; lia|].
      intros c c' z Hc Hc' H H'. apply in_seq in Hc, Hc'. apply D in H, H'; lia.
    + intros r r' z Hr Hr' H H'. apply in_seq in Hr, Hr'. unfold row_edges in *. apply in_flat_map in H as (c & Hc & H), H' as (c' & Hc' & H').
      apply in_seq in Hc, Hc'. apply D in H, H'; lia.
  - intros z H K. apply in_map_iff in H as (i & <- & Hi). apply in_flat_map in K as (r & Hr & K). unfold row_edges in K.
    apply in_flat_map in K as (c & Hc & K). apply in_seq in Hi, Hr, Hc. apply D in K; cbn in K; lia.
Qed.

(* ---- columns of a Hadamard matrix are orthogonal ---- *)
Lemma sumZ_nonneg_zero n f : (forall i, i < n -> (0 <= f i)%Z) -> sumZ n f = 0%Z -> forall i, i < n -> f i = 0%Z.
Proof.
  induction n as [|n IH]; intros H E i Hi; [lia|]. rewrite sumZ_S in E.
  assert (0 <= sumZ n f)%Z by (apply sumZ_nonneg; intros; apply H; lia). assert (0 <= f n)%Z by (apply H; lia).
  destruct (Nat.eq_dec i n) as [->|]; [lia|]. apply IH; [intros; apply H; lia|lia|lia].
Qed.
Lemma sumZ_delta n k (x : Z) : k < n -> sumZ n (fun j => if j =? k then x else 0%Z) = x.
Proof.
  intros H. induction n as [|n IH]; [lia|]. rewrite sumZ_S. destruct (Nat.eq_dec k n) as [->|].
  - rewrite Nat.eqb_refl, sumZ_zero; [lia|]. intros i Hi. destruct (Nat.eqb_spec i n); [lia|auto].
  - rewrite IH by lia. destruct (Nat.eqb_spec n k); [lia|lia].
Qed.
Lemma columns_orthogonal n f : pm_fun n f ->
  (forall i j, i < n -> j < n -> i <> j -> sumZ n (fun k => f i k * f j k)%Z = 0%Z) ->
  forall j k, j < n -> k < n -> j <> k -> sumZ n (fun i => f i j * f i k)%Z = 0%Z.
Proof.
  intros P H. set (G := fun j k => sumZ n (fun i => f i j * f i k)%Z). set (N := Z.of_nat n).
  assert (forall x, sign x -> (x * x = 1)%Z) as Sq by (intros x [->| ->]; reflexivity).
  assert (sumZ n (fun j => sumZ n (fun k => G j k * G j k)%Z) = N * (N * N))%Z as T.
  { set (R := fun i l => sumZ n (fun k => f i k * f l k)%Z).
    assert (forall j k, (G j k * G j k = sumZ n (fun i => sumZ n (fun l => f i j * f l j * (f i k * f l k))))%Z) as E1.
    { intros j k. unfold G at 1. rewrite <- sumZ_mul_r. apply sumZ_ext. intros i Hi. unfold G. rewrite <- sumZ_mul_l. apply sumZ_ext. intros. ring. }
    transitivity (sumZ n (fun i => sumZ n (fun l => R i l * R i l)%Z)).
    - transitivity (sumZ n (fun j => sumZ n (fun i => sumZ n (fun l => f i j * f l j * R i l)))%Z).
      + apply sumZ_ext. intros j Hj. rewrite (sumZ_ext n _ (fun k => sumZ n (fun i => sumZ n (fun l => f i j * f l j * (f i k * f l k)))%Z)) by (intros; apply E1).
        rewrite sumZ_swap. apply sumZ_ext. intros i Hi. rewrite sumZ_swap. apply sumZ_ext. intros l Hl. now rewrite sumZ_mul_l.
      + rewrite sumZ_swap. apply sumZ_ext. intros i Hi. rewrite sumZ_swap. apply sumZ_ext. intros l Hl. now rewrite sumZ_mul_r.
    - rewrite (sumZ_ext n _ (fun i => N * N)%Z); [now rewrite sumZ_const|]. intros i Hi.
      rewrite (sumZ_ext n _ (fun l => if Nat.eqb l i then (N * N)%Z else 0%Z)); [now apply sumZ_delta|].
      intros l Hl. destruct (Nat.eqb_spec l i) as [->|Hne].
      + unfold R. rewrite (sumZ_ext n _ (fun _ => 1%Z)) by (intros; apply Sq, P; auto). rewrite sumZ_const. unfold N. ring.
      + unfold R. rewrite H by auto. reflexivity. }
  assert (forall j, j < n -> G j j = N) as Dg.
  { intros j Hj. unfold G. rewrite (sumZ_ext n _ (fun _ => 1%Z)) by (intros; apply Sq, P; auto). rewrite sumZ_const. unfold N. ring. }
  set (e := fun j k => (G j k * G j k - (if Nat.eqb k j then N * N else 0))%Z).
  assert (forall j k, j < n -> k < n -> (0 <= e j k)%Z) as Ne.
  { intros j k Hj Hk. unfold e. destruct (Nat.eqb_spec k j) as [->|]; [rewrite Dg by auto; lia|]. pose proof (Z.square_nonneg (G j k)). lia. }
  assert (sumZ n (fun j => sumZ n (e j)) = 0)%Z as Z0.
  { unfold e. rewrite (sumZ_ext n _ (fun j => sumZ n (fun k => G j k * G j k) - N * N)%Z).
    - rewrite sumZ_sub, T, sumZ_const. fold N. lia.
    - intros j Hj. now rewrite sumZ_sub, sumZ_delta. }
  intros j k Hj Hk Hne. change (G j k = 0%Z).
  assert (e j k = 0)%Z as E0.
  { apply (sumZ_nonneg_zero n (e j)); auto. apply (sumZ_nonneg_zero n (fun j => sumZ n (e j))); auto. intros. now apply sumZ_nonneg; auto. }
  unfold e in E0. destruct (Nat.eqb_spec k j); [congruence|]. rewrite Z.sub_0_r in E0. now apply Z.mul_eq_0 in E0 as [E0|E0].
Qed.

(* ---- isomorphism <-> equivalence ---- *)
Definition flip (k : nat) (s : Z) : nat := if (s =? 1)%Z then k else match k with 0 => 1 | 1 => 0 | 2 => 3 | _ => 2 end.
Lemma sg_sign k : sign (sg k). Proof. unfold sg, sign. destruct (Nat.even k); auto. Qed.
Lemma flip_facts k s : k < 4 -> sign s -> flip k s < 4 /\ sg (flip k s) = (s * sg k)%Z /\ (flip k s < 2 <-> k < 2).
Proof. intros Hk [->| ->]; (destruct k as [|[|[|[|]]]]; [| | | |lia]); cbn; repeat split; lia. Qed.
Lemma flip_inj k l s : k < 4 -> l < 4 -> flip k s = flip l s -> k = l.
Proof. unfold flip. destruct (s =? 1)%Z; auto. intros Hk Hl. destruct k as [|[|[|[|]]]], l as [|[|[|[|]]]]; auto; lia. Qed.
Lemma sgn_eq3 a x y : sign a -> sign x -> sign y -> forall p q, sign p -> sign q -> ((a = p * q)%Z <-> (x * y * a = (x * p) * (y * q))%Z).
Proof. intros [->| ->] [->| ->] [->| ->] p q [->| ->] [->| ->]; cbn; intuition congruence. Qed.

Lemma equiv_iso n a b : pm_fun n a -> pm_fun n b -> hadamard_equivalent n (tab n a) (tab n b) ->
  isomorphic (mkGraph (4 * n) (hm_edges n b)) (mkGraph (4 * n) (hm_edges n a)).
Proof.
  intros Pa Pb (r & c & s & t & [Hr Ir] & [Hc Ic] & Hst & E). split; auto. cbn [g_nodes].
  set (F := fun u => let k := u / n in let i := u mod n in
     if k <? 2 then flip k (s i) * n + r i else flip k (t i) * n + c i).
  assert (forall k i, i < n -> F (k * n + i) = if k <? 2 then flip k (s i) * n + r i else flip k (t i) * n + c i) as FE.
  { intros k i Hi. unfold F. rewrite Nat.div_add_l, Nat.div_small, Nat.add_0_r by lia.
    rewrite (Nat.add_comm (k * n)), Nat.mod_add, Nat.mod_small by lia. reflexivity. }
  assert (forall i j, i < n -> j < n -> b i j = (s i * t j * a (r i) (c j))%Z) as E'.
  { intros i j Hi Hj. specialize (E i j Hi Hj). rewrite !cell_tab in E by auto. exact E. }
  exists F. split; [split|].
  - intros u Hu. destruct (block_of n u Hu) as (k & i & -> & Hk & Hi). rewrite FE by auto. destruct (Hst i Hi) as [S1 S2].
    destruct (flip_facts k (s i) Hk S1) as (L1 & _), (flip_facts k (t i) Hk S2) as (L2 & _).
    pose proof (Hr i Hi). pose proof (Hc i Hi). destruct (k <? 2); nia.
  - intros u v Hu Hv. destruct (block_of n u Hu) as (k & i & -> & Hk & Hi), (block_of n v Hv) as (l & j & -> & Hl & Hj).
    rewrite !FE by auto. destruct (Hst i Hi) as [S1 S2], (Hst j Hj) as [S3 S4].
    destruct (flip_facts k (s i) Hk S1) as (_ & _ & L1), (flip_facts k (t i) Hk S2) as (_ & _ & L2),
      (flip_facts l (s j) Hl S3) as (_ & _ & L3), (flip_facts l (t j) Hl S4) as (_ & _ & L4).
    destruct (Nat.ltb_spec k 2), (Nat.ltb_spec l 2); intros K; apply block_uniq in K as [K1 K2]; auto; try lia.
    + apply Ir in K2; auto. subst j. apply flip_inj in K1; [now subst|auto|auto].
    + apply Ic in K2; auto. subst j. apply flip_inj in K1; [now subst|auto|auto].
  - intros u v Hu Hv. destruct (block_of n u Hu) as (k & i & -> & Hk & Hi), (block_of n v Hv) as (l & j & -> & Hl & Hj).
    rewrite adjacent_blocks, !FE by auto. destruct (Hst i Hi) as [S1 S2], (Hst j Hj) as [S3 S4].
    destruct (flip_facts k (s i) Hk S1) as (L1 & G1 & B1), (flip_facts k (t i) Hk S2) as (L2 & G2 & B2),
      (flip_facts l (s j) Hl S3) as (L3 & G3 & B3), (flip_facts l (t j) Hl S4) as (L4 & G4 & B4).
    destruct (Nat.ltb_spec k 2), (Nat.ltb_spec l 2); rewrite adjacent_blocks by auto.
    + split.
      * intros [(_ & -> & ->)|[K|K]]; [|lia|lia]. left. split; [lia|auto].
      * intros [(_ & K1 & K2)|[K|K]]; [|lia|lia]. apply Ir in K2; auto. subst j. apply flip_inj in K1; auto. 
    + rewrite E', G1, G4 by auto. pose proof (sgn_eq3 (a (r i) (c j)) (s i) (t j) ltac:(apply Pa; auto) S1 S4 (sg k * s i)%Z (sg l * t j)%Z) as Q.
      assert (forall x y, sign x -> sign y -> sign (x * y)) as SM by (intros x y [->| ->] [->| ->]; cbn; unfold sign; auto).
      specialize (Q ltac:(apply SM; auto using sg_sign) ltac:(apply SM; auto using sg_sign)).
      replace (s i * (sg k * s i) * (t j * (sg l * t j)))%Z with (sg k * sg l)%Z in Q by (destruct S1 as [->| ->], S4 as [->| ->]; ring).
      replace (sg k * s i * (sg l * t j))%Z with (s i * sg k * (t j * sg l))%Z in Q by ring.
      split; (intros [K|[(K1 & K2 & K3)|K]]; [lia| |lia]); right; left; (split; [lia|]; split; [lia|]; tauto).
    + rewrite (E' j i), G2, G3 by auto. pose proof (sgn_eq3 (a (r j) (c i)) (s j) (t i) ltac:(apply Pa; auto) S3 S2 (sg l * s j)%Z (sg k * t i)%Z) as Q.
      assert (forall x y, sign x -> sign y -> sign (x * y)) as SM by (intros x y [->| ->] [->| ->]; cbn; unfold sign; auto).
      specialize (Q ltac:(apply SM; auto using sg_sign) ltac:(apply SM; auto using sg_sign)).
      replace (s j * (sg l * s j) * (t i * (sg k * t i)))%Z with (sg k * sg l)%Z in Q by (destruct S3 as [->| ->], S2 as [->| ->]; ring).
      replace (sg l * s j * (sg k * t i))%Z with (t i * sg k * (s j * sg l))%Z in Q by ring.
      split; (intros [K|[K|(K1 & K2 & K3)]]; [lia|lia|]); right; right; (split; [lia|]; split; [lia|]; tauto).
    + split; intros [K|[K|K]]; lia.
Qed.

Definition pairwise_independent (n : nat) (f : nat -> nat -> Z) : Prop :=
  (forall i j, i < n -> j < n -> i <> j -> sumZ n (fun k => f i k * f j k)%Z = 0%Z) /\
  (forall i j, i < n -> j < n -> i <> j -> sumZ n (fun k => f k i * f k j)%Z = 0%Z).
Lemma opposite_contra n (x y : nat -> Z) : 1 <= n -> (forall k, k < n -> sign (x k)) -> (forall k, k < n -> y k = (- x k)%Z) ->
  sumZ n (fun k => x k * y k)%Z <> 0%Z.
Proof.
  intros Hn Hx Hy. rewrite (sumZ_ext n _ (fun _ => (-1)%Z)); [rewrite sumZ_const; lia|].
  intros k Hk. rewrite Hy by auto. destruct (Hx k Hk) as [->| ->]; reflexivity.
Qed.
Lemma sg_block k : k < 4 -> sg k = if k =? 0 then 1%Z else if k =? 2 then 1%Z else (-1)%Z.
Proof. intros H. destruct k as [|[|[|[|]]]]; auto; lia. Qed.
Lemma sg_eq_iff a p q p' : sign a -> sign p -> sign q -> sign p' -> p <> p' -> (a = p * q)%Z <-> ~ (a = p' * q)%Z.
Proof. intros [->| ->] [->| ->] [->| ->] [->| ->]; cbn; intuition congruence. Qed.
Lemma iso_equiv n a b : pm_fun n a -> pm_fun n b -> pairwise_independent n b ->
  isomorphic (mkGraph (4 * n) (hm_edges n b)) (mkGraph (4 * n) (hm_edges n a)) -> hadamard_equivalent n (tab n a) (tab n b).
Proof.
  intros Pa Pb [Or Oc] [_ (F & [Fb Fi] & Fa)]. cbn [g_nodes] in *.
  destruct n as [|n']; [exists (fun i => i), (fun i => i), (fun _ => 1%Z), (fun _ => 1%Z); repeat split; intros; lia|]. set (n := S n') in *.
  set (R := fun u => F u mod n). set (K := fun u => F u / n).
  assert (forall u, u < 4 * n -> F u = K u * n + R u /\ K u < 4 /\ R u < n) as FE.
  { intros u Hu. unfold K, R. split; [rewrite Nat.mul_comm; apply Nat.div_mod; unfold n; lia|].
    split; [apply Nat.div_lt_upper_bound; [unfold n; lia|]; pose proof (Fb u Hu); lia|apply Nat.mod_upper_bound; unfold n; lia]. }
  assert (forall k i, k < 4 -> i < n -> k * n + i < 4 * n) as Bd by (intros; nia).
  assert (forall k i l j, k < 4 -> i < n -> l < 4 -> j < n ->
    ((k < 2 /\ k = l /\ i = j) \/ (k < 2 /\ 2 <= l /\ b i j = (sg k * sg l)%Z) \/ (l < 2 /\ 2 <= k /\ b j i = (sg k * sg l)%Z)) <->
    (let u := k * n + i in let v := l * n + j in
     (K u < 2 /\ K u = K v /\ R u = R v) \/ (K u < 2 /\ 2 <= K v /\ a (R u) (R v) = (sg (K u) * sg (K v))%Z) \/
     (K v < 2 /\ 2 <= K u /\ a (R v) (R u) = (sg (K u) * sg (K v))%Z))) as A.
  { intros k i l j Hk Hi Hl Hj. cbv zeta. set (u := k * n + i). set (v := l * n + j). specialize (Fa u v (Bd _ _ Hk Hi) (Bd _ _ Hl Hj)). unfold u in Fa at 1. unfold v in Fa at 1.
    rewrite adjacent_blocks in Fa by auto. destruct (FE u (Bd _ _ Hk Hi)) as (E1 & L1 & M1), (FE v (Bd _ _ Hl Hj)) as (E2 & L2 & M2).
    rewrite E1, E2 in Fa. rewrite adjacent_blocks in Fa by auto. exact Fa. }
  assert (forall k i, k < 4 -> i < n -> (k < 2 <-> K (k * n + i) < 2)) as Kb.
  { intros k i Hk Hi. specialize (A k i k i Hk Hi Hk Hi). cbv zeta in A. split; intros H.
    - destruct (proj1 A) as [H'|[H'|H']]; lia.
    - destruct (proj2 A) as [H'|[H'|H']]; lia. }
  assert (forall k l i j u v, k < 2 -> 2 <= l < 4 -> i < n -> j < n -> u = k * n + i -> v = l * n + j ->
    (b i j = (sg k * sg l)%Z <-> a (R u) (R v) = (sg (K u) * sg (K v))%Z)) as Bl.
  { intros k l i j u v Hk Hl Hi Hj -> ->. specialize (A k i l j ltac:(lia) Hi ltac:(lia) Hj). cbv zeta in A.
    pose proof (Kb k i ltac:(lia) Hi). pose proof (Kb l j ltac:(lia) Hj). split; intros H'.
    - destruct (proj1 A) as [Q|[Q|Q]]; try tauto; try lia.
    - destruct (proj2 A) as [Q|[Q|Q]]; try tauto; try lia. }
  set (C := fun j => 2 * n + j).
  exists R, (fun j => R (C j)), (fun i => sg (K i)), (fun j => sg (K (C j))).
  assert (forall i, i < n -> K i < 2 /\ R i < n /\ F i = K i * n + R i) as Row.
  { intros i Hi. pose proof (proj1 (Kb 0 i ltac:(lia) Hi) ltac:(lia)). cbn [Nat.mul Nat.add] in H. destruct (FE i ltac:(lia)) as (E & _ & L). auto. }
  assert (forall j, j < n -> 2 <= K (C j) < 4 /\ R (C j) < n /\ F (C j) = K (C j) * n + R (C j)) as Col.
  { intros j Hj. destruct (FE (C j) ltac:(unfold C; lia)) as (E & L1 & L). split; [split; auto|auto].
    destruct (Nat.lt_ge_cases (K (C j)) 2) as [H|H]; auto. apply (proj2 (Kb 2 j ltac:(lia) Hj)) in H. lia. }
  assert (forall i j, i < n -> j < n -> b i j = (sg (K i) * sg (K (C j)) * a (R i) (R (C j)))%Z) as Main.
  { intros i j Hi Hj. pose proof (Bl 0 2 i j i (C j) ltac:(lia) ltac:(lia) Hi Hj eq_refl eq_refl) as Q.
    change (sg 0 * sg 2)%Z with 1%Z in Q.
    destruct (Row i Hi) as (_ & L1 & _), (Col j Hj) as (_ & L2 & _). pose proof (Pa _ _ L1 L2) as Sa. pose proof (Pb _ _ Hi Hj) as Sb.
    revert Q. destruct (sg_sign (K i)) as [->| ->], (sg_sign (K (C j))) as [->| ->], Sa as [->| ->], Sb as [->| ->]; cbn; intuition congruence. }
  split; [split|split; [split|split]].
  - intros i Hi. apply Row; auto.
  - intros i j Hi Hj E. destruct (Nat.eq_dec i j) as [|Hne]; auto. exfalso.
    destruct (Row i Hi) as (L1 & _ & E1), (Row j Hj) as (L2 & _ & E2).
    assert (K i <> K j) as HK by (intros K0; apply Hne, Fi; [lia|lia|rewrite E1, E2, K0, E; auto]).
    apply (opposite_contra n (b i) (b j)); [unfold n; lia|intros; apply Pb; auto| |apply Or; auto].
    intros k Hk. rewrite !Main by auto. rewrite E. set (k1 := K i) in *. set (k2 := K j) in *.
    replace (sg k2) with (- sg k1)%Z; [ring|]. clearbody k1 k2. destruct k1 as [|[|]], k2 as [|[|]]; try lia; reflexivity.
  - intros j Hj. apply Col; auto.
  - intros i j Hi Hj E. destruct (Nat.eq_dec i j) as [|Hne]; auto. exfalso.
    destruct (Col i Hi) as (L1 & _ & E1), (Col j Hj) as (L2 & _ & E2).
    assert (K (C i) <> K (C j)) as HK.
    { intros K0. assert (C i = C j) as CE by (apply Fi; [unfold C; lia|unfold C; lia|rewrite E1, E2, K0, E; auto]). unfold C in CE. lia. }
    apply (opposite_contra n (fun k => b k i) (fun k => b k j)); [unfold n; lia|intros; apply Pb; auto| |apply Oc; auto].
    intros k Hk. rewrite !Main by auto. rewrite E. set (k1 := K (C i)) in *. set (k2 := K (C j)) in *.
    replace (sg k2) with (- sg k1)%Z; [ring|]. clearbody k1 k2. destruct k1 as [|[|[|[|]]]], k2 as [|[|[|[|]]]]; try lia; reflexivity.
  - intros i Hi. split; apply sg_sign.
  - intros i j Hi Hj. rewrite !cell_tab; auto; [apply Row; auto|apply Col; auto].
Qed.
