(* Model of a debug build with its overflow checks: besides the assertions (ModelDebug) the arithmetic of i8 panics when a
   result is out of range.  Modelled are the functions whose operands can be other numbers than 1 and -1: the operations on
   the symbolic quadruples, the application of a symmetry, HM::verify.  The other i8 operations of the commands multiply or
   negate entries of sequences, which are 1 or -1 (matching and write_seq_pairs work on sequences made by
   generate_sequences_with_rowsum or read by string_to_sequence, the matrices on entries of QUADRUPLETS), so that their
   checks pass; sums of type isize and lengths of type usize are far from their limits (DESIGN.md, Integers). *)
From Coq Require Import Ascii String List ZArith Bool Arith.
From Verif Require Import Base Quat ModelSequence ModelWilliamson ModelEquivalence ModelFind ModelMatrices ModelGraph ModelRowsum ModelMatching ModelWrite ModelMain ModelDebug.
Import ListNotations.
Open Scope nat_scope.
Notation length := List.length.

(* the result of an operation of type i8 *)
Definition chk8 (z : Z) : option Z := guard ((-128 <=? z) && (z <=? 127))%Z (Some z).

(* negated, equivalence.rs:656-662 *)
Definition checked_negated (s : list Z) : option (list Z) := traverse (fun x => chk8 (- x)%Z) s.
(* alt_negated, equivalence.rs:664-677 *)
Definition checked_alt_negated (s : list Z) (frequency : nat) : option (list Z) :=
  traverse (fun p => if fst p mod frequency =? frequency - 1 then chk8 (- snd p)%Z else Some (snd p)) (combine (seq 0 (length s)) s).

(* an operation of ModelDebug that also negates: it panics if one of the negations does.  As the other steps of the
   operation are the same, only the calls of negated and alt_negated are repeated *)
Definition negating {A} (calls : QuadSeq -> option A) (op : DebugOp) : DebugOp := fun t symmetry_group q => let* _ := calls q in op t symmetry_group q.
(* equivalence.rs:411-442: negated(seq) for every couple and every tag *)
Definition calls_negate_swap (q : QuadSeq) := traverse (fun p => checked_negated (sequence q (snd p))) (list_prod couples tags).
(* equivalence.rs:680-707: one call for every tag *)
Definition calls_negate (q : QuadSeq) := traverse (fun tag => checked_negated (sequence q tag)) tags.
(* equivalence.rs:710-742: two calls for every couple *)
Definition calls_double_negate (q : QuadSeq) :=
  traverse (fun couple => let* _ := checked_negated (sequence q (fst couple)) in checked_negated (sequence q (snd couple))) couples.
(* equivalence.rs:745-767: every sequence, with frequency 2 *)
Definition calls_alternated (q : QuadSeq) := traverse (fun tag => checked_alt_negated (sequence q tag) 2) tags.
(* equivalence.rs:770-796: odd lengths return early *)
Definition calls_even_alternated (q : QuadSeq) := if q_size q mod 2 =? 1 then Some [] else calls_alternated q.

Definition checked_negate_swap : DebugOp := negating calls_negate_swap debug_negate_swap.
Definition checked_negate : DebugOp := negating calls_negate debug_negate.
Definition checked_double_negate : DebugOp := negating calls_double_negate debug_double_negate.
Definition checked_alternated_negation : DebugOp := negating calls_alternated debug_alternated_negation.
Definition checked_even_alternated_negation : DebugOp := negating calls_even_alternated debug_even_alternated_negation.
(* SequenceType::equivalences, symmetries.rs:22-29 *)
Definition checked_equivalences (t : SequenceType) : list DebugOp :=
  match t with
  | QuaternionType => [debug_uniform_shift; checked_even_alternated_negation; debug_automorphism; checked_negate_swap; debug_dual_half_shift]
  | WilliamsonType => [checked_negate; debug_uniform_shift; debug_reorder; checked_even_alternated_negation; debug_automorphism; debug_single_half_shift]
  | Williamson => [checked_negate; debug_reorder; checked_even_alternated_negation; debug_automorphism; debug_single_half_shift]
  | _ => []
  end.

(* the body of the inner loop of generate_equivalence_class_fast, equivalence.rs:212-233.  "abs" and the two subtractions of
   line 214 are of type i8, the subtraction within them of type usize; "as i8" is not checked *)
Definition checked_fast_element (q : QuadSeq) (elm : Z) : option Z :=
  let n := Z.of_nat (q_size q) in
  let* a := chk8 (Z.abs elm) in
  let* a1 := chk8 (a - 1)%Z in
  guard (1 <=? a)%Z
    (let r := wrap8 ((a - 1) mod n) in
     let* d := chk8 (a1 - r)%Z in
     let tag_ind := (ModelEquivalence.as_usize d / n)%Z in
     let* sub_seq :=
       (if tag_ind =? 0 then Some (q_a q) else if tag_ind =? 1 then Some (q_b q)
        else if tag_ind =? 2 then Some (q_c q) else if tag_ind =? 3 then Some (q_d q) else None)%Z in
     let seq_ind := Z.to_nat (ModelEquivalence.as_usize a1 mod n) in
     let* v := vget sub_seq seq_ind in
     if (elm <? 0)%Z then chk8 (- v)%Z else Some v).
(* generate_equivalence_class_fast, equivalence.rs:203-243 *)
Definition checked_fast_apply (q symmetry : QuadSeq) : option QuadSeq :=
  let n := q_size q in
  let* v := traverse (checked_fast_element q) (q_a symmetry ++ q_b symmetry ++ q_c symmetry ++ q_d symmetry) in
  let* w := slice v 0 n in let* x := slice v n (2 * n) in
  let* y := slice v (2 * n) (3 * n) in let* z := slice v (3 * n) (4 * n) in
  Some (set_sequence (set_sequence (set_sequence (set_sequence (Quad_new n) w TW) x TX) y TY) z TZ).
Definition checked_class_fast (ord : Order) (p : list nat) (q : QuadSeq) (symmetries : list QuadSeq) : option (list QuadSeq) :=
  let* l := traverse (checked_fast_apply q) (ord p symmetries) in Some (insert_all l []).

(* qt_canonical, equivalence.rs:288-310 *)
Definition checked_qt_canonical (ord : Order) (p : list nat) (q : QuadSeq) (symmetries : list QuadSeq) (t : SequenceType) : option QuadSeq :=
  let* canon := match t with
                | QuaternionType => Some ns_canonical
                | WilliamsonType | Williamson => Some sn_ss_canonical
                | _ => None
                end in
  let* class := checked_class_fast ord (0 :: p) q symmetries in
  let* l := traverse canon (ord (1 :: p) class) in
  let* m := min_by (ord (2 :: p) (insert_all l [])) in
  m.
(* reduce_to_canonical_reps, find_unique.rs:189-198 *)
Definition checked_canonical_ops (t : SequenceType) : list DebugOp :=
  match t with
  | QuaternionType => [debug_automorphism; checked_even_alternated_negation; debug_uniform_shift; debug_dual_half_shift]
  | _ => [debug_automorphism; checked_even_alternated_negation; debug_uniform_shift; debug_uniform_half_shift]
  end.
Definition checked_reduce_to_canonical_reps (fuel : nat) (ord : Order) (p : list nat) (l : list QuadSeq) (t : SequenceType) : option (list QuadSeq) :=
  let* q0 := vget l 0 in
  let* symmetries := debug_symmetry_group fuel ord (0 :: p) (q_size q0) t (checked_canonical_ops t) in
  let* reps := foldi (fun i acc q => let* c := checked_qt_canonical ord (i :: 1 :: p) q symmetries t in Some (acc ++ [c])) l [] in
  Some (unique reps).
(* equiv, equivalence.rs:123-142 *)
Definition checked_equiv (fuel : nat) (ord : Order) (p : list nat) (q1 q2 : QuadSeq) (t : SequenceType) : option bool :=
  let* v1 := verify q1 t in guard v1 (
  let* v2 := verify q2 t in guard v2 (
  match t with
  | QuaternionType =>
      let* c1 := ns_canonical q1 in let* c2 := ns_canonical q2 in
      let* r := checked_reduce_to_canonical_reps fuel ord p [c1; c2] t in Some (length r =? 1)
  | WilliamsonType | Williamson =>
      let* c1 := sn_ss_canonical q1 in let* c2 := sn_ss_canonical q2 in
      let* r := checked_reduce_to_canonical_reps fuel ord p [c1; c2] t in Some (length r =? 1)
  | _ => Some false
  end)).
(* reduce_to_equivalence, find_unique.rs:160-187 *)
Definition checked_reduce_to_equivalence (fuel : nat) (ord : Order) (p : list nat) (sequences : list QuadSeq) (t : SequenceType) (ops : list DebugOp) : option (list QuadSeq) :=
  let* q0 := vget sequences 0 in
  let* group := debug_symmetry_group fuel ord (0 :: p) (q_size q0) t ops in
  let* classes := collect_classes (fun i q =>
      let* new_class := checked_class_fast ord (i :: 1 :: p) q group in
      let* slow := debug_class fuel ord (i :: 3 :: p) q t ops false in
      guard (same_hashset new_class slow) (Some new_class)) sequences in
  minima ord (2 :: p) classes.

(* join_pairs, find_write.rs:490-549 *)
Definition checked_join_pairs (fuel : nat) (ord : Order) (p : list nat) (ls : Listing) (t : SequenceType) (f : Folder) : option (list QuadSeq) :=
  let* result := match_pairs ls t f in
  guard (forallb has_sorted_rowsums result)
    (let* filtered :=
       match t with
       | QuaternionType => let* l := traverse ns_canonical result in Some (unique l)
       | WilliamsonType | Williamson => let* l := traverse sn_ss_canonical result in Some (unique l)
       | _ => None
       end in
     checked_reduce_to_canonical_reps fuel ord p filtered t).
(* find_write_quad_seq, main.rs:92-169 *)
Definition checked_find_write_place (fuel : nat) (ord : Order) (p : list nat) (ls : Listing) (i : nat) (t : SequenceType) (pl : Place) : option Place :=
  let* result := checked_join_pairs fuel ord (0 :: p) ls t (pl_dirs pl) in
  let* _ := match t with
            | QuaternionType => traverse (fun q => let* b := verify_qts q in guard b (is_amicable q)) result
            | _ => Some []
            end in
  let* out := seq_lines result in
  let* qout := qseq_text result in
  let pl := set_seq pl out qout in
  match t with
  | WilliamsonType =>
      let* l := debug_extend_wts i result in
      let* qt_reduced := checked_reduce_to_canonical_reps fuel ord (1 :: p) l QuaternionType in
      let* out' := seq_lines qt_reduced in
      let* qout' := qseq_text qt_reduced in
      Some (set_qts pl out' qout')
  | _ => Some pl
  end.
(* main, main.rs:335-456: of the commands that driver.sh calls, only join applies symmetries *)
Definition checked_exec {L} (fuel : nat) (e : Env L) (c : Command) (w : World) : option World :=
  let name t := seqtype_to_string t in
  let num p := usize_to_string p in
  match c with
  | Join t p =>
      let* pl := w (name t) (num p) in
      let* pl := checked_find_write_place fuel (e_ord e) (e_path e) (e_ls e) (Z.to_nat p) t pl in
      Some (write w (name t) (num p) pl)
  | _ => debug_exec fuel e c w
  end.
Definition checked_main {L} (fuel : nat) (e : Env L) (args : list text) (w : World) : option World :=
  let* c := parse_args args in checked_exec fuel e c w.
Definition checked_run_on {L} (fuel : nat) (e : Env L) (args : list text) (w : World) : World :=
  match checked_main fuel e (lit "rust" :: args) w with Some w' => w' | None => w end.
(* driver.sh:38-136 with such a build as the program *)
Definition checked_driver_sh {L} (fuel : nat) (e : Env L) (x y m pairing : text) (hadamard : bool) (w : World) : World :=
  if negb (length (pl_dirs (place_of w x y)) =? 0) then w
  else
    let w := match w x y with Some _ => w | None => write w x y new_place end in
    let w := checked_run_on fuel e [lit "pairs"; x; y; m; pairing] w in
    let w := sort_place x y w in
    let w := checked_run_on fuel e [lit "join"; x; y] w in
    let w := if hadamard then checked_run_on fuel e [lit "convert"; lit "hm"; x; y] w else w in
    checked_run_on fuel e [lit "convert"; lit "qhm"; x; y] w.
Definition checked_driver_flags {L} (fuel : nat) (e : Env L) (x y : text) (c : bool) (pairing : option text) (h d : bool) (w : World) : World :=
  let w := if d then cleanup x y w else w in
  checked_driver_sh fuel e x y (if c then lit "correlation" else lit "psd") (match pairing with Some r => r | None => lit "WZ" end) h w.

(* HM::verify, matrices.rs:449-472: products and sums of type i8 *)
Definition checked_inner (n : nat) (r1 r2 : list Z) : option Z :=
  for_m n (fun result i => let* x := vget r1 i in let* y := vget r2 i in let* m := chk8 (x * y)%Z in chk8 (result + m)%Z) 0%Z.
Definition checked_HM_verify (h : HM) : option bool :=
  let n := hm_size h in
  all_m (fun row1 => all_m (fun row2 =>
    let* row1_vec := HM_row h row1 in
    let* row2_vec := HM_row h row2 in
    let* result := checked_inner n row1_vec row2_vec in
    Some (result =? 0)%Z) (range (row1 + 1) n)) (range 0 n).
