(* The pair files as they are written with computed floating-point numbers: the same functions of
   fourier.rs, matching.rs and find_write.rs as in ModelFourier.v, ModelMatching.v and ModelWrite.v,
   but every operation on f64 and both transforms of FFTW go through a record of operations, which
   may round as they like.  Kept exact, as they are in IEEE arithmetic: the conversion of small
   integers, negation, abs, comparisons, fract, round and the conversion of its result to isize.
   NaN and infinities are not modelled. *)
From Coq Require Import Ascii String List ZArith Bool Arith Reals.
From Verif Require Import Base ModelSequence ModelWilliamson ModelEquivalence ModelFourier ModelMatching ModelRowsum ModelWrite.
Import ListNotations.
Notation length := List.length.
Open Scope nat_scope.

(* The operations: the forward transform of fourier.rs:12-27 on the entries of a sequence, the
   inverse transform of fourier.rs:29-43 with its division by n, +, - and * of f64, and the constant
   0.0001 of find_write.rs:209. *)
Record Arith := mkArith {
  a_dft : list Z -> list CR;
  a_idft : nat -> list CR -> list R;
  a_add : R -> R -> R; a_sub : R -> R -> R; a_mul : R -> R -> R;
  a_tiny : R }.

(* without rounding errors: the operations of the exact model *)
Definition exact_arith : Arith := mkArith (fun s => r2c (map IZR s)) (fun n X => map (fun x => (x / INR n)%R) (c2r n X))
  Rplus Rminus Rmult (1 / 10000).

Section Computed.
Context (A : Arith).

(* num_complex: Mul, Sub and norm_sqr of Complex<f64> *)
Definition cr_mul_f (x y : CR) : CR :=
  (a_sub A (a_mul A (fst x) (fst y)) (a_mul A (snd x) (snd y)), a_add A (a_mul A (fst x) (snd y)) (a_mul A (snd x) (fst y))).
Definition cr_sub_f (x y : CR) : CR := (a_sub A (fst x) (fst y), a_sub A (snd x) (snd y)).
Definition norm_sqr_f (x : CR) : R := a_add A (a_mul A (fst x) (fst x)) (a_mul A (snd x) (snd x)).

(* dft_sequence, fourier.rs:12-27 *)
Definition dft_sequence_f (plan : nat) (s : list Z) : option (list CR) :=
  guard ((1 <=? plan) && (length s =? plan)) (Some (a_dft A s)).
(* inverse_dft, fourier.rs:29-43 *)
Definition inverse_dft_f (plan : nat) (freq : list CR) (n : nat) : option (list R) :=
  guard ((1 <=? plan) && (n =? plan))
    (let* a := vbuild (n / 2 + 1) (vget freq) in Some (a_idft A n a)).

(* iter_over_enumerate_filtered_couples_psds, fourier.rs:96-121 *)
Definition couple_psds_f (plan : nat) (bound : R) (e1 e2 : nat * list Z) : option (option SequencePairData) :=
  let* d1 := dft_sequence_f plan (snd e1) in
  let* d2 := dft_sequence_f plan (snd e2) in
  let n1 := map norm_sqr_f d1 in
  let n2 := map norm_sqr_f d2 in
  let bound_exceeded :=
    existsb (fun '((i1, x1), (i2, x2)) => negb (i1 =? 0) && negb (i2 =? 0) && gtR (a_add A x1 x2) bound)
      (combine (enumerate n1) (enumerate n2)) in
  Some (if bound_exceeded then None else Some (mkPair e1 e2 d1 n1 d2 n2)).
Definition iter_psds_f (plan : nat) (sequences1 sequences2 : list (list Z)) (bound : R) : option (list SequencePairData) :=
  let* l := traverse (fun '(e1, e2) => couple_psds_f plan bound e1 e2)
              (iproduct (enumerate sequences1) (enumerate sequences2)) in
  Some (somes l).

(* compute_auto_correlation_dft, matching.rs:53-58 *)
Definition compute_auto_correlation_dft_f (plan : nat) (psd : list R) (len : nat) : option (list Z) :=
  let complex_psd := map (fun elm => (elm, 0%R)) psd in
  let* r := inverse_dft_f plan complex_psd len in
  Some (map roundR r).
(* compute_auto_correlation_pair_dft, matching.rs:60-70 *)
Definition compute_auto_correlation_pair_dft_f (plan : nat) (psd1 : list R) (len1 : nat) (psd2 : list R) (len2 : nat)
    : option (list Z) :=
  let* auto1 := compute_auto_correlation_dft_f plan psd1 len1 in
  let* auto2 := compute_auto_correlation_dft_f plan psd2 len2 in
  traverse (fun offset => let* x := vget auto1 offset in let* y := vget auto2 offset in Some (x + y)%Z)
    (range_incl 1 (length auto1 / 2)).
(* compute_psd_pair, matching.rs:72-77 *)
Definition compute_psd_pair_f (psd1 psd2 : list R) (len : nat) (side : EquationSide) : list R :=
  match side with
  | LEFT => map (fun '(a, b) => a_add A a b) (combine (skipn 1 psd1) (skipn 1 psd2))
  | RIGHT => map (fun '(a, b) => a_sub A (INR (4 * len)) (a_add A a b)) (combine (skipn 1 psd1) (skipn 1 psd2))
  end.
(* seq_multiply_pointwise_complex, sequence.rs:198-200 *)
Definition seq_multiply_pointwise_complex_f (x y : list CR) : list CR :=
  map (fun '(a, b) => cr_mul_f a b) (combine x y).
(* compute_cross_correlations_dft, matching.rs:99-123 *)
Definition compute_cross_correlations_dft_f (plan : nat) (d1 d2 : list CR) (tags : Tag * Tag) (len : nat)
    : option (list Z) :=
  let* cross1 := inverse_dft_f plan (seq_multiply_pointwise_complex_f d1 (map cr_conj d2)) len in
  let* cross2 := inverse_dft_f plan (seq_multiply_pointwise_complex_f d2 (map cr_conj d1)) len in
  let* b := tag_sign tags in
  traverse (fun offset => let* x := vget cross1 offset in let* y := vget cross2 offset in
                          Some (roundR (if b then a_sub A x y else a_sub A y x)))
    (range_incl 1 (len / 2)).
(* compute_cross_psd, matching.rs:151-156 *)
Definition compute_cross_psd_f (d1 d2 : list CR) : list CR :=
  map (fun '(a, b) => cr_mul_f a (cr_conj b)) (combine d1 d2).
(* compute_cross_psd_pair, matching.rs:126-147 *)
Definition compute_cross_psd_pair_f (d1 d2 : list CR) (tags : Tag * Tag) (len : nat) : option (list CR) :=
  let cross_psd1 := compute_cross_psd_f d1 d2 in
  let cross_psd2 := compute_cross_psd_f d2 d1 in
  let* b := tag_sign tags in
  traverse (fun offset => let* x := vget cross_psd1 offset in let* y := vget cross_psd2 offset in
                          Some (if b then cr_sub_f x y else cr_sub_f y x))
    (range_incl 1 (len / 2)).

(* one iteration of the loop of write_seq_pairs, find_write.rs:151-220 *)
Definition pair_key_f (plan : nat) (tags : Tag * Tag) (t : SequenceType) (p : nat) (side : EquationSide)
    (m : MatchOption) (pair : SequencePairData) : option (option text) :=
  let len1 := length (snd (seq_enum1 pair)) in
  let len2 := length (snd (seq_enum2 pair)) in
  match m with
  | CORRELATION =>
      let* autoc := compute_auto_correlation_pair_dft_f plan (norm1 pair) len1 (norm2 pair) len2 in
      let* crossc := compute_cross_correlations_dft_f plan (dft1 pair) (dft2 pair) tags len1 in
      let result := concat (map (fun a => field (op_side side a)) autoc) in
      match t with
      | QuaternionType => Some (Some (result ++ concat (map (fun c => field (op_side side c)) crossc)))
      | WilliamsonType => Some (if existsb (fun v => negb (v =? 0)%Z) crossc then None else Some result)
      | Williamson => Some (Some result)
      | _ => None
      end
  | PSD =>
      let psd := compute_psd_pair_f (norm1 pair) (norm2 pair) p side in
      let* cpsd := compute_cross_psd_pair_f (dft1 pair) (dft2 pair) tags len1 in
      let result := concat (map (fun a => field (roundR a)) psd) in
      match t with
      | QuaternionType =>
          Some (Some (result ++ concat (map (fun c => field (op_side side (roundR (snd c)))) cpsd)))
      | WilliamsonType =>
          Some (if existsb (fun v => gtR (Rabs (snd v)) (a_tiny A)) cpsd then None else Some result)
      | Williamson => Some (Some result)
      | _ => None
      end
  end.

(* write_seq_pairs, find_write.rs:128-251 *)
Definition write_seq_pairs_f (plan : nat) (s1 s2 : list (list Z)) (tags : Tag * Tag) (t : SequenceType) (rs : Quad)
    (p : nat) (d : Dir) (side : EquationSide) (m : MatchOption) : option (Dir * Z) :=
  guard (verify_rowsums s1 s2 tags rs) (
    let* pairs := iter_psds_f plan s1 s2 (4 * INR p)%R in
    let* (file, buffer, counter) := fold_m (fun '(file, buffer, counter) pair =>
        let* key := pair_key_f plan tags t p side m pair in
        match key with
        | None => Some (file, buffer, counter)
        | Some k =>
            let buffer := buffer ++ [pair_line k (fst (seq_enum1 pair)) (fst (seq_enum2 pair))] in
            let counter := (counter + 1)%Z in
            Some (if (counter mod 1000 =? 0)%Z then (file ++ buffer, [], counter) else (file, buffer, counter))
        end) pairs ([], [], 0%Z) in
    Some (put d (pair_file (fst tags) (snd tags)) (file ++ buffer), counter)).

(* f64::fract: x - trunc(x), with the sign of x *)
Definition fractR (x : R) : R := if Rlt_dec x 0 then (- frac_part (- x))%R else frac_part x.
(* f64::EPSILON.sqrt(), find_write.rs:136 *)
Definition tolerance : R := (/ 2 ^ 26)%R.
(* the loop that keeps the smallest difference, find_write.rs:181-186 and 195-200 *)
Definition min_difference (m : R) (values : list R) : R :=
  fold_left (fun m a => let d := Rabs (a_sub A (fractR a) (1 / 2)) in if Rlt_dec d m then d else m) values m.
(* find_write.rs:236-241 for the option PSD: whether the two warnings are printed after the loop over
   the pairs; the second minimum only changes for quaternion-type *)
Definition warnings (plan : nat) (s1 s2 : list (list Z)) (tags : Tag * Tag) (t : SequenceType) (p : nat) (side : EquationSide)
    : option (bool * bool) :=
  let* pairs := iter_psds_f plan s1 s2 (4 * INR p)%R in
  let* (m1, m2) := fold_m (fun '(m1, m2) pair =>
      let psd := compute_psd_pair_f (norm1 pair) (norm2 pair) p side in
      let* cpsd := compute_cross_psd_pair_f (dft1 pair) (dft2 pair) tags (length (snd (seq_enum1 pair))) in
      Some (min_difference m1 psd, match t with QuaternionType => min_difference m2 (map snd cpsd) | _ => m2 end))
    pairs (1%R, 1%R) in
  Some (gtR tolerance m1, gtR tolerance m2).

(* write_pairs_rowsum, find_write.rs:402-473 *)
Definition write_pairs_rowsum_f (plan : nat) (folder : text) (rs : Quad) (p : nat) (m : MatchOption)
    (pairing : option RowsumPairing) (f : Folder) : option (Folder * Z) :=
  let name := rowsum_dir rs in
  let d := open_dir f name in
  let* t := str_to_seqtype folder in
  let* s0 := candidates t (rowsum_of_tag rs TW) p in
  let* s1 := candidates t (rowsum_of_tag rs TX) p in
  let* s2 := candidates t (rowsum_of_tag rs TY) p in
  let* s3 := candidates t (rowsum_of_tag rs TZ) p in
  let* d := write_sequences s0 d TW in
  let* d := write_sequences s1 d TX in
  let* d := write_sequences s2 d TY in
  let* d := write_sequences s3 d TZ in
  let* (d, counter) :=
    match pairing with
    | Some WX =>
        let* (d, c1) := write_seq_pairs_f plan s0 s1 (TW, TX) t rs p d LEFT m in
        let* (d, c2) := write_seq_pairs_f plan s2 s3 (TY, TZ) t rs p d RIGHT m in
        Some (d, (c1 + c2)%Z)
    | Some WY =>
        let* (d, c1) := write_seq_pairs_f plan s0 s2 (TW, TY) t rs p d LEFT m in
        let* (d, c2) := write_seq_pairs_f plan s1 s3 (TX, TZ) t rs p d RIGHT m in
        Some (d, (c1 + c2)%Z)
    | Some WZ | None =>
        let* (d, c1) := write_seq_pairs_f plan s0 s3 (TW, TZ) t rs p d LEFT m in
        let* (d, c2) := write_seq_pairs_f plan s1 s2 (TX, TY) t rs p d RIGHT m in
        Some (d, (c1 + c2)%Z)
    end in
  Some (put f name d, counter).

(* write_pairs, find_write.rs:377-400 *)
Definition write_pairs_f (fuel : nat) (p : nat) (t : SequenceType) (m : MatchOption)
    (pairing : option RowsumPairing) (f : Folder) : option (Folder * Z) :=
  let* rowsums := generate_rowsums fuel p t in
  let folder := seqtype_to_string t in
  fold_m (fun '(f, counter) rs =>
            let* (f, c) := write_pairs_rowsum_f p folder rs p m pairing f in Some (f, (counter + c)%Z))
    rowsums (f, 0%Z).
End Computed.
