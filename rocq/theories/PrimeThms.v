(* Odd prime lengths have no ties: the computed search finds every solution. *)
From Coq Require Import Ascii String List ZArith Znumtheory Lia Arith Bool Reals Lra Relations.
From Verif Require Import Base BaseFacts Sums ModelSequence ModelWilliamson ModelEquivalence SpecEquiv OrderFacts SeqFacts ModelFourier ModelMatching ModelRowsum
  FourierFacts SpecFourier MatchFacts SpecRowsum RowsumFacts ReduceFacts WsFacts TypeFacts QtWt GraphFacts ModelWrite WriteFacts FolderFacts SpecSearch KernelFacts ModelNoise SpecNoise EquivFacts NoiseFacts NoiseThms PrimeFacts Spec.
Import ListNotations.
Notation length := List.length.
Open Scope R_scope.

Lemma total_parity s : pm1 s -> exists m, (total s = Z.of_nat (length s) + 2 * m)%Z.
Proof.
  induction 1 as [|y s Hy Hs (m & IH)]; [exists 0%Z; reflexivity|]. cbn [total fold_right length]. fold (total s).
  destruct Hy as [->| ->]; [exists m|exists (m - 1)%Z]; lia.
Qed.
Lemma total_bound s : pm1 s -> (- Z.of_nat (length s) <= total s <= Z.of_nat (length s))%Z.
Proof.
  induction 1 as [|y s Hy Hs IH]; [cbn; lia|]. cbn [total fold_right length]. fold (total s). destruct Hy as [->| ->]; lia.
Qed.

Theorem prime_constant n s k : prime (Z.of_nat n) -> (3 <= n)%nat -> length s = n -> pm1 s -> psd s k = 0 ->
  total s = Z.of_nat n \/ total s = (- Z.of_nat n)%Z.
Proof.
  intros Hp H3 L P Z0. rewrite <- psd_norm in Z0. unfold norm_sqr, dft_at in Z0. cbn [fst snd] in Z0.
  assert (R0 : dft_re s (Z.of_nat k) = 0) by nra. assert (I0 : dft_im s (Z.of_nat k) = 0) by nra.
  pose proof (divides_total n Hp H3 s L (Z.of_nat k) R0 I0) as D. unfold c in D. rewrite <- L in D. rewrite <- total_sum in D. rewrite L in D.
  destruct D as (q & E). pose proof (total_bound s P) as B. rewrite L in B. destruct (total_parity s P) as (m & Em). rewrite L in Em.
  pose proof (odd_n n Hp H3 s L) as O.
  assert (Od : exists h, Z.of_nat n = (2 * h + 1)%Z).
  { destruct (Z.Even_or_Odd (Z.of_nat n)) as [[h Eh]|[h Eh]]; [|exists h; auto]. exfalso. rewrite Eh, Z.pow_mul_r in O by lia.
    change ((-1) ^ 2)%Z with 1%Z in O. rewrite Z.pow_1_l in O by lia. lia. }
  destruct Od as (h & Eh). assert (-1 <= q <= 1)%Z by nia. assert (q = -1 \/ q = 0 \/ q = 1)%Z as [->|[->| ->]] by lia; [right|exfalso|left]; lia.
Qed.

(* a coefficient of a sequence that is not constant does not vanish *)
Lemma prime_nonzero n s k : prime (Z.of_nat n) -> (3 <= n)%nat -> length s = n -> pm1 s -> psd s k = 0 -> forall x y, In x s -> In y s -> x = y.
Proof.
  intros Hp H3 L P Z0. assert (A : forall s, pm1 s -> total s = Z.of_nat (length s) -> forall x, In x s -> x = 1%Z).
  { clear. intros s P. induction P as [|y s Hy Hs IH]; intros T x Hx; [destruct Hx|]. cbn [total fold_right length] in T. fold (total s) in T.
    pose proof (total_bound s Hs). destruct Hy as [->| ->]; [|lia]. destruct Hx as [<-|Hx]; auto. apply IH; auto. lia. }
  assert (B : forall s, pm1 s -> total s = (- Z.of_nat (length s))%Z -> forall x, In x s -> x = (-1)%Z).
  { clear. intros s P. induction P as [|y s Hy Hs IH]; intros T x Hx; [destruct Hx|]. cbn [total fold_right length] in T. fold (total s) in T.
    pose proof (total_bound s Hs). destruct Hy as [->| ->]; [lia|]. destruct Hx as [<-|Hx]; auto. apply IH; auto. lia. }
  intros x y Hx Hy. destruct (prime_constant n s k Hp H3 L P Z0) as [T|T]; rewrite <- L in T.
  - now rewrite (A s P T x Hx), (A s P T y Hy).
  - now rewrite (B s P T x Hx), (B s P T y Hy).
Qed.

(* a solution of an odd prime length has no ties *)
Theorem no_tie n p q : prime (Z.of_nat n) -> (3 <= n)%nat -> pm_quad n q -> complementary q -> ~ tie n p q.
Proof.
  intros Hp H3 Pq C (a & b & k & Hab & Hk & E). pose proof (psd_complementary n q k ltac:(lia) Pq C) as S.
  assert (K : forall a b, a <> b -> psd (sequence q a) k = 0 -> psd (sequence q b) k = 0 -> False).
  { clear a b Hab E. intros a b N Za Zb. pose proof (good_seq n q a Pq) as [La Pa]. pose proof (good_seq n q b Pq) as [Lb Pb].
    pose proof (prime_constant n _ k Hp H3 La Pa Za) as Ta. pose proof (prime_constant n _ k Hp H3 Lb Pb Zb) as Tb.
    pose proof (complementary_rowsums n q Pq ltac:(lia) C) as F. unfold feasible, totals in F. destruct F as [F _].
    destruct a, b; try congruence; cbn [sequence] in Ta, Tb; destruct Ta as [Ta|Ta], Tb as [Tb|Tb]; rewrite Ta, Tb in F; nia. }
  pose proof (psd_nonneg (q_a q) k). pose proof (psd_nonneg (q_b q) k). pose proof (psd_nonneg (q_c q) k). pose proof (psd_nonneg (q_d q) k).
  destruct p as [[| |]|]; destruct Hab as [Eq|Eq]; cbn [pairs_of fst snd] in Eq; injection Eq as -> ->; cbn [sequence] in E;
    match type of E with
    | psd (q_a q) _ + psd (q_b q) _ = _ => apply (K TY TZ)
    | psd (q_c q) _ + psd (q_d q) _ = _ => apply (K TW TX)
    | psd (q_a q) _ + psd (q_c q) _ = _ => apply (K TX TZ)
    | psd (q_b q) _ + psd (q_d q) _ = _ => apply (K TW TY)
    | psd (q_a q) _ + psd (q_d q) _ = _ => apply (K TX TY)
    | psd (q_b q) _ + psd (q_c q) _ = _ => apply (K TW TZ)
    end; cbn [sequence]; try discriminate; lra.
Qed.

Theorem prime_search n : prime (Z.of_nat n) -> (3 <= n)%nat -> (Z.of_nat n < 2 ^ 62)%Z -> exists e, 0 < e /\ forall A, accurate n e A ->
  forall t m p ls, three_types t -> any_listing ls ->
  exists fuel0, forall fuel, (fuel0 <= fuel)%nat -> exists f c r,
    write_pairs_f A fuel n t m p [] = Some (f, c) /\ match_pairs ls t (sortpairs f) = Some r /\
    (forall q, In q r <-> pm_quad n q /\ is_type t q /\ normal_rowsums t (totals q)).
Proof.
  intros Hp H3 Hn2. destruct (computed_search n ltac:(lia) Hn2) as (e & He & H). exists e. split; auto.
  intros A HA t m p ls Ht Hls. destruct (H A HA t m p ls Ht Hls) as (f0 & HF). exists f0. intros fuel Hf.
  destruct (HF fuel Hf) as (f & c & r & Ew & Em & Snd & Cmp). exists f, c, r. split; auto. split; auto. intros q. split; [apply Snd|].
  intros (Pq & Tq & Nq). apply Cmp; auto. apply no_tie; auto. exact (proj1 (type_WT n q t Pq ltac:(lia) Tq)).
Qed.

Theorem prime_classes n : prime (Z.of_nat n) -> (3 <= n <= 31)%nat -> exists e, 0 < e /\ forall A, accurate n e A ->
  forall t m p ls ord, t = QuaternionType \/ t = WilliamsonType -> any_listing ls -> ord_ok ord ->
  (exists q, pm_quad n q /\ verify q t = Some true) ->
  exists fuel0, forall fuel path, (fuel0 <= fuel)%nat -> exists f c r, write_pairs_f A fuel n t m p [] = Some (f, c) /\
    join_pairs fuel ord path ls t (sortpairs f) = Some r /\ NoDup r /\
    (forall x, In x r -> pm_quad n x /\ verify x t = Some true /\ least (reach (type_ops t) x) x) /\
    (forall q, pm_quad n q -> verify q t = Some true ->
       exists x, In x r /\ reach (type_ops t) q x /\ forall x', In x' r -> reach (type_ops t) q x' -> x' = x).
Proof.
  intros Hp Hn. destruct (computed_classes n ltac:(lia)) as (e & He & H). exists e. split; auto.
  intros A HA t m p ls ord Ht Hls Ho (q0 & P0 & V0).
  assert (VT : forall q, pm_quad n q -> (verify q t = Some true <-> is_type t q)) by (intros q Pq; apply (verify_type n); [exact Pq|lia]).
  assert (N : forall q, pm_quad n q -> verify q t = Some true -> exists y, reach (type_ops t) q y /\ pm_quad n y /\ verify y t = Some true /\
    normal_rowsums t (totals y) /\ ~ tie n p y).
  { intros q Pq Vq. apply VT in Vq; auto. destruct (normal_reach n t q ltac:(lia) Pq Vq) as (y & R & Py & Ty & Ny). exists y.
    split; auto. split; auto. split; [now apply VT|]. split; auto. apply no_tie; auto; [lia|]. exact (proj1 (type_WT n y t Py ltac:(lia) Ty)). }
  destruct (H A HA t m p ls ord Ht Hls Ho) as (f0 & HF).
  { destruct (N q0 P0 V0) as (y & _ & Py & Vy & Ny & Ty). exists y. auto. }
  exists f0. intros fuel path Hf. destruct (HF fuel path Hf) as (f & c & r & Ew & Ej & Nd & Snd & Cmp). exists f, c, r.
  repeat (split; auto). intros q Pq Vq. destruct (N q Pq Vq) as (y & R & _ & _ & Ny & Ty). exact (Cmp q y Pq Vq R Ny Ty).
Qed.
