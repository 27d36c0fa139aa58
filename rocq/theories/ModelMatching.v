(* Model of rust/src/sequences/matching.rs.  Sums are unbounded; f64 is modelled by R. *)
From Coq Require Import List ZArith Bool Arith Reals.
From Verif Require Import Base ModelSequence ModelWilliamson ModelEquivalence ModelFourier.
Import ListNotations.

(* EquationSide and MatchOption, find_write.rs:33-41 *)
Inductive EquationSide := LEFT | RIGHT.
Inductive MatchOption := CORRELATION | PSD.

(* f64::round, which rounds halves away from zero, and "as isize" *)
Definition roundR (x : R) : Z :=
  (if Rlt_dec x 0 then - Int_part (- x + / 2)%R else Int_part (x + / 2)%R)%Z.

(* compute_auto_correlation, matching.rs:31-38 *)
Definition compute_auto_correlation (s : list Z) : option (list Z) :=
  traverse (periodic_autocorrelation s) (range_incl 1 (length s / 2)).

(* compute_auto_correlation_pair, matching.rs:41-51 *)
Definition compute_auto_correlation_pair (s1 s2 : list Z) : option (list Z) :=
  let* auto1 := compute_auto_correlation s1 in
  let* auto2 := compute_auto_correlation s2 in
  Some (map (fun '(x, y) => (x + y)%Z) (combine auto1 auto2)).

(* compute_auto_correlation_dft, matching.rs:53-58 *)
Definition compute_auto_correlation_dft (plan : nat) (psd : list R) (len : nat) : option (list Z) :=
  let complex_psd := map (fun elm => (elm, 0%R)) psd in
  let* r := inverse_dft plan complex_psd len in
  Some (map roundR r).

(* compute_auto_correlation_pair_dft, matching.rs:60-70 *)
Definition compute_auto_correlation_pair_dft (plan : nat) (psd1 : list R) (len1 : nat) (psd2 : list R) (len2 : nat)
    : option (list Z) :=
  let* auto1 := compute_auto_correlation_dft plan psd1 len1 in
  let* auto2 := compute_auto_correlation_dft plan psd2 len2 in
  traverse (fun offset => let* x := vget auto1 offset in let* y := vget auto2 offset in Some (x + y)%Z)
    (range_incl 1 (length auto1 / 2)).

(* compute_psd_pair, matching.rs:72-77 *)
Definition compute_psd_pair (psd1 psd2 : list R) (len : nat) (side : EquationSide) : list R :=
  match side with
  | LEFT => map (fun '(a, b) => (a + b)%R) (combine (skipn 1 psd1) (skipn 1 psd2))
  | RIGHT => map (fun '(a, b) => (INR (4 * len) - (a + b))%R) (combine (skipn 1 psd1) (skipn 1 psd2))
  end.

(* the match on the tags at matching.rs:81-90, 106-114, 130-138 and 170-179: true when the
   cross-correlation (s1,s2) is counted positively, a panic for two equal tags other than Z *)
Definition tag_sign (tags : Tag * Tag) : option bool :=
  match tags with
  | (TZ, _) | (TW, TX) | (TX, TY) | (TY, TW) => Some true
  | (_, TZ) | (TX, TW) | (TY, TX) | (TW, TY) => Some false
  | _ => None
  end.

(* compute_cross_correlations, matching.rs:79-97 *)
Definition crossc_at (b : bool) (s1 s2 : list Z) (offset : nat) : option Z :=
  if b then sub_m (cross_correlation s1 s2 offset) (cross_correlation s2 s1 offset)
  else sub_m (cross_correlation s2 s1 offset) (cross_correlation s1 s2 offset).
Definition compute_cross_correlations (s1 s2 : list Z) (tags : Tag * Tag) : option (list Z) :=
  let* b := tag_sign tags in
  traverse (crossc_at b s1 s2) (range_incl 1 (length s1 / 2)).

(* seq_multiply_pointwise_complex, sequence.rs:198-200 *)
Definition seq_multiply_pointwise_complex (x y : list CR) : list CR :=
  map (fun '(a, b) => cr_mul a b) (combine x y).

(* compute_cross_correlations_dft, matching.rs:99-123 *)
Definition compute_cross_correlations_dft (plan : nat) (d1 d2 : list CR) (tags : Tag * Tag) (len : nat)
    : option (list Z) :=
  let* cross1 := inverse_dft plan (seq_multiply_pointwise_complex d1 (map cr_conj d2)) len in
  let* cross2 := inverse_dft plan (seq_multiply_pointwise_complex d2 (map cr_conj d1)) len in
  let* b := tag_sign tags in
  traverse (fun offset => let* x := vget cross1 offset in let* y := vget cross2 offset in
                          Some (roundR (if b then x - y else y - x)%R))
    (range_incl 1 (len / 2)).

(* compute_cross_psd, matching.rs:151-156 *)
Definition compute_cross_psd (d1 d2 : list CR) : list CR :=
  map (fun '(a, b) => cr_mul a (cr_conj b)) (combine d1 d2).

(* compute_cross_psd_pair, matching.rs:126-147 *)
Definition compute_cross_psd_pair (d1 d2 : list CR) (tags : Tag * Tag) (len : nat) : option (list CR) :=
  let cross_psd1 := compute_cross_psd d1 d2 in
  let cross_psd2 := compute_cross_psd d2 d1 in
  let* b := tag_sign tags in
  traverse (fun offset => let* x := vget cross_psd1 offset in let* y := vget cross_psd2 offset in
                          Some (if b then cr_sub x y else cr_sub y x))
    (range_incl 1 (len / 2)).

(* compute_complementary_auto_correlations, matching.rs:159-166 *)
Definition compute_complementary_auto_correlations (s1 s2 : list Z) : option (list Z) :=
  traverse (fun offset => let* x := periodic_autocorrelation s1 offset in
                          let* y := periodic_autocorrelation s2 offset in Some (- (x + y))%Z)
    (range_incl 1 (length s1 / 2)).

(* compute_complementary_cross_correlations, matching.rs:168-186 *)
Definition compute_complementary_cross_correlations (s1 s2 : list Z) (tags : Tag * Tag) : option (list Z) :=
  let* b := tag_sign tags in
  traverse (fun offset => let* c := crossc_at b s1 s2 offset in Some (- c)%Z) (range_incl 1 (length s1 / 2)).

(* verify_cross_correlation, matching.rs:191-257: the last of the four sequences with the given tag,
   then two of the three identities, selected by the first two tags *)
Definition with_tag (sequences : list (list Z)) (tags : list Tag) (t : Tag) : option (list Z) :=
  let* r := fold_m (fun res i =>
      let* ti := vget tags i in
      if tag_eqb ti t then let* s := vget sequences i in Some (Some s) else Some res) (range 0 4) None in
  r.
Definition cross_condition (q : list Z * list Z * list Z * list Z) (offset : nat) : option bool :=
  let '(a, b, c, d) := q in
  let cc := fun s t => cross_correlation s t offset in
  let* x1 := cc a b in let* x2 := cc b a in let* x3 := cc c d in let* x4 := cc d c in
  Some (negb (x1 - x2 + x3 - x4 =? 0)%Z).
Definition matching_verify_cross_correlation (sequences : list (list Z)) (tags : list Tag) : option bool :=
  let* seqw := with_tag sequences tags TW in
  let* seqx := with_tag sequences tags TX in
  let* seqy := with_tag sequences tags TY in
  let* seqz := with_tag sequences tags TZ in
  let* t0 := vget tags 0 in
  let* t1 := vget tags 1 in
  let* (cond1, cond2) :=
    match t0, t1 with
    | TW, TX | TX, TW | TZ, TY | TY, TZ => Some ((seqz, seqw, seqx, seqy), (seqz, seqx, seqy, seqw))
    | TW, TY | TY, TW | TZ, TX | TX, TZ => Some ((seqz, seqw, seqx, seqy), (seqz, seqy, seqw, seqx))
    | TW, TZ | TZ, TW | TX, TY | TY, TX => Some ((seqz, seqx, seqy, seqw), (seqz, seqy, seqw, seqx))
    | _, _ => None
    end in
  let* s0 := vget sequences 0 in
  all_m (fun offset =>
    let* bad := (let* b := cross_condition cond1 offset in
                 if b then Some true else cross_condition cond2 offset) in
    Some (negb bad)) (range 0 (length s0)).

(* MatchData, matching.rs:10-27, with derive(PartialEq) *)
Definition MatchData : Type := list Z * list Z.
Definition MatchData_from (s1 s2 : list Z) (tags : Tag * Tag) : option MatchData :=
  let* a := compute_auto_correlation_pair s1 s2 in
  let* c := compute_cross_correlations s1 s2 tags in
  Some (a, c).
Definition match_eqb (x y : MatchData) : bool := list_eqb (fst x) (fst y) && list_eqb (snd x) (snd y).

(* HashMap<MatchData, Vec<..>>: an association list with distinct keys *)
Definition MatchTable : Type := list (MatchData * list (list Z * list Z)).
Fixpoint table_get (m : MatchTable) (k : MatchData) : option (list (list Z * list Z)) :=
  match m with
  | [] => None
  | (k', v) :: r => if match_eqb k' k then Some v else table_get r k
  end.
Fixpoint table_push (m : MatchTable) (k : MatchData) (c : list Z * list Z) : MatchTable :=
  match m with
  | [] => []
  | (k', v) :: r => if match_eqb k' k then (k', v ++ [c]) :: r else (k', v) :: table_push r k c
  end.

(* generate_matching_table, matching.rs:263-279 *)
Definition generate_matching_table (plan : nat) (sequences1 sequences2 : list (list Z)) (tags : Tag * Tag) (p : nat)
    : option MatchTable :=
  let* couples := iter_over_filtered_couples plan sequences1 sequences2 (4 * INR p)%R in
  fold_m (fun table '(s1, s2) =>
      let* match_data := MatchData_from s1 s2 tags in
      Some (match table_get table match_data with
            | Some _ => table_push table match_data (s1, s2)
            | None => table ++ [(match_data, [])]
            end)) couples [].
