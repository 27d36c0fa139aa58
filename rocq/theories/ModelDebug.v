(* Model of a debug build: the assertions debug_assert! and debug_assert_eq! are executed.  The functions
   are those of the release build (the other model files) with a panic where an assertion fails; the
   text of the messages is left out, and so are the overflow checks of a debug build. *)
From Coq Require Import Ascii String List ZArith Bool Arith.
From Verif Require Import Base Quat ModelSequence ModelWilliamson ModelEquivalence ModelFind ModelMatrices ModelGraph ModelRowsum ModelMatching ModelWrite ModelMain.
Import ListNotations.
Open Scope nat_scope.
Notation length := List.length.

(* an operation of the release build with debug_assert!(q.verify(seqtype)) for each quadruple q in
   [tested]; the assertions are within "if !symmetry_group" *)
Definition asserting (tested : QuadSeq -> option (list QuadSeq)) (op : Equivalence) (t : SequenceType) (symmetry_group : bool) : Equivalence := fun q =>
  if symmetry_group then op q
  else let* l := tested q in let* ok := all_m (fun y => verify y t) l in guard ok (op q).

(* ---- the assertions of equivalence.rs ---- *)

(* equivalence.rs:434 *)
Definition tested_negate_swap (q : QuadSeq) : option (list QuadSeq) :=
  traverse (fun '(couple, tag) => swap (set_sequence q (negated (sequence q tag)) tag) (fst couple) (snd couple)) (list_prod couples tags).
(* equivalence.rs:459 *)
Definition tested_reorder (q : QuadSeq) : option (list QuadSeq) := traverse (fun couple => swap q (fst couple) (snd couple)) couples.
(* equivalence.rs:489 *)
Definition tested_double_reorder (q : QuadSeq) : option (list QuadSeq) :=
  traverse (fun '((s11, s12), (s21, s22)) =>
    if negb (tag_eqb s11 s21 && tag_eqb s12 s22) then let* q1 := swap q s11 s12 in swap q1 s21 s22 else Some q) (list_prod couples couples).
(* equivalence.rs:520 *)
Definition tested_uniform_half_shift (q : QuadSeq) : option (list QuadSeq) :=
  if q_size q mod 2 =? 1 then Some [] else traverse (fun tag => shift_slot q q (q_size q / 2) tag) tags.
(* equivalence.rs:545 *)
Definition tested_uniform_shift (q : QuadSeq) : option (list QuadSeq) :=
  let n := q_size q in
  traverse (fun offset => fold_m (fun s i => let* v := values q ((i + offset) mod n) in set_sequence_value s v i) (range 0 n) (Quad_new n)) (range 1 n).
(* equivalence.rs:578, 594 and 624 test the argument, not the result *)
Definition tested_half_shift (q : QuadSeq) : option (list QuadSeq) := if q_size q mod 2 =? 1 then Some [] else Some [q].
(* equivalence.rs:646 *)
Definition tested_reverse (q : QuadSeq) : option (list QuadSeq) :=
  let n := q_size q in
  let* s := fold_m (fun s i => let* v := values q (n - 1 - i) in set_sequence_value s v i) (range 0 n) (Quad_new n) in Some [s].
(* equivalence.rs:700 *)
Definition tested_negate (q : QuadSeq) : option (list QuadSeq) :=
  let '(a, b, c, d) := (q_a q, q_b q, q_c q, q_d q) in
  Some (map (fun tag =>
    let '(a', b', c', d') :=
      match tag with
      | TW => (negated a, b, c, d) | TX => (a, negated b, c, d) | TY => (a, b, negated c, d) | TZ => (a, b, c, negated d)
      end in set_all_values (Quad_new (q_size q)) a' b' c' d') tags).
(* equivalence.rs:735 *)
Definition tested_double_negate (q : QuadSeq) : option (list QuadSeq) :=
  let '(a, b, c, d) := (q_a q, q_b q, q_c q, q_d q) in
  traverse (fun couple =>
    let* (a', b', c', d') :=
      match couple with
      | (TW, TX) => Some (negated a, negated b, c, d) | (TW, TY) => Some (negated a, b, negated c, d)
      | (TW, TZ) => Some (negated a, b, c, negated d) | (TX, TY) => Some (a, negated b, negated c, d)
      | (TX, TZ) => Some (a, negated b, c, negated d) | (TY, TZ) => Some (a, b, negated c, negated d)
      | _ => None
      end in Some (set_all_values (Quad_new (q_size q)) a' b' c' d')) couples.
(* equivalence.rs:760 *)
Definition tested_alternated_negation (q : QuadSeq) : option (list QuadSeq) := Some [alt_negated_quad q].
(* equivalence.rs:789 *)
Definition tested_even_alternated_negation (q : QuadSeq) : option (list QuadSeq) := if q_size q mod 2 =? 1 then Some [] else Some [alt_negated_quad q].
(* equivalence.rs:846 *)
Definition tested_automorphism (q : QuadSeq) : option (list QuadSeq) :=
  let* ks := vget COPRIMES (q_size q) in
  traverse (fun k =>
    let* a := permute (q_a q) k in let* b := permute (q_b q) k in
    let* c := permute (q_c q) k in let* d := permute (q_d q) k in
    Some (set_all_values (Quad_new (q_size q)) a b c d)) ks.
(* equivalence.rs:882 *)
Definition tested_disjoint_swaps (q : QuadSeq) : option (list QuadSeq) :=
  traverse (fun '((s11, s12), (s21, s22)) => let* q1 := swap q s11 s12 in swap q1 s21 s22)
    [((TW, TX), (TY, TZ)); ((TW, TY), (TX, TZ)); ((TW, TZ), (TX, TY))].

Definition DebugOp := SequenceType -> bool -> Equivalence.
Definition debug_negate_swap : DebugOp := asserting tested_negate_swap equivalent_negate_swap.
Definition debug_reorder : DebugOp := asserting tested_reorder equivalent_reorder.
Definition debug_double_reorder : DebugOp := asserting tested_double_reorder equivalent_double_reorder.
Definition debug_uniform_half_shift : DebugOp := asserting tested_uniform_half_shift equivalent_uniform_half_shift.
Definition debug_uniform_shift : DebugOp := asserting tested_uniform_shift equivalent_uniform_shift.
Definition debug_dual_half_shift : DebugOp := asserting tested_half_shift equivalent_dual_half_shift.
Definition debug_single_half_shift : DebugOp := asserting tested_half_shift equivalent_single_half_shift.
Definition debug_reverse : DebugOp := asserting tested_reverse equivalent_reverse.
Definition debug_negate : DebugOp := asserting tested_negate equivalent_negate.
Definition debug_double_negate : DebugOp := asserting tested_double_negate equivalent_double_negate.
Definition debug_alternated_negation : DebugOp := asserting tested_alternated_negation equivalent_alternated_negation.
Definition debug_even_alternated_negation : DebugOp := asserting tested_even_alternated_negation equivalent_even_alternated_negation.
Definition debug_automorphism : DebugOp := asserting tested_automorphism equivalent_automorphism.
Definition debug_disjoint_swaps : DebugOp := asserting tested_disjoint_swaps equivalent_disjoint_swaps.
(* SequenceType::equivalences, symmetries.rs:22-29 *)
Definition debug_equivalences (t : SequenceType) : list DebugOp :=
  match t with
  | QuaternionType => [debug_uniform_shift; debug_even_alternated_negation; debug_automorphism; debug_negate_swap; debug_dual_half_shift]
  | WilliamsonType => [debug_negate; debug_uniform_shift; debug_reorder; debug_even_alternated_negation; debug_automorphism; debug_single_half_shift]
  | Williamson => [debug_negate; debug_reorder; debug_even_alternated_negation; debug_automorphism; debug_single_half_shift]
  | _ => []
  end.

(* generate_equivalence_class, equivalence.rs:158-187: every call gets the type and the flag *)
Definition debug_class (fuel : nat) (ord : Order) (p : list nat) (q : QuadSeq) (t : SequenceType) (ops : list DebugOp) (symmetry_group : bool) : option (list QuadSeq) :=
  generate_equivalence_class fuel ord p q (map (fun o => o t symmetry_group) ops).
(* generate_symmetry_group, equivalence.rs:190-200 *)
Definition debug_symmetry_group (fuel : nat) (ord : Order) (p : list nat) (len : nat) (t : SequenceType) (ops : list DebugOp) : option (list QuadSeq) :=
  debug_class fuel ord p (symbolic_quad len) t ops true.
(* QuadSeq::equivalent_to, williamson.rs:262-264 *)
Definition debug_equivalent_to (fuel : nat) (ord : Order) (p : list nat) (q1 q2 : QuadSeq) (t : SequenceType) : option bool :=
  let* class := debug_class fuel ord p q1 t (debug_equivalences t) false in Some (mem q2 class).
(* generate_canonical_representative, equivalence.rs:144-153 *)
Definition debug_canonical_representative (fuel : nat) (ord : Order) (p : list nat) (q : QuadSeq) (t : SequenceType) : option QuadSeq :=
  let* class := debug_class fuel ord (0 :: p) q t (debug_equivalences t) false in
  fold_m (fun mini elm => let* b := will_less_than elm mini in Some (if b then elm else mini)) (ord (1 :: p) class) q.
(* generate_equivalent_quad_seqs, equivalence.rs:247-263 *)
Definition debug_equivalent_quad_seqs (fuel : nat) (ord : Order) (p : list nat) (l : list QuadSeq) (t : SequenceType) : option (list QuadSeq) :=
  let* res := foldi (fun i res q =>
      if mem q res then Some res
      else let* class := debug_class fuel ord (0 :: i :: p) q t (debug_equivalences t) false in
           Some (insert_all (ord (1 :: i :: p) class) res)) l [] in
  Some (ord (2 :: p) res).
(* reduce_to_canonical_reps, find_unique.rs:189-198 *)
Definition debug_canonical_ops (t : SequenceType) : list DebugOp :=
  match t with
  | QuaternionType => [debug_automorphism; debug_even_alternated_negation; debug_uniform_shift; debug_dual_half_shift]
  | _ => [debug_automorphism; debug_even_alternated_negation; debug_uniform_shift; debug_uniform_half_shift]
  end.
Definition debug_reduce_to_canonical_reps (fuel : nat) (ord : Order) (p : list nat) (l : list QuadSeq) (t : SequenceType) : option (list QuadSeq) :=
  let* q0 := vget l 0 in
  let* symmetries := debug_symmetry_group fuel ord (0 :: p) (q_size q0) t (debug_canonical_ops t) in
  let* reps := foldi (fun i acc q => let* c := qt_canonical ord (i :: 1 :: p) q symmetries t in Some (acc ++ [c])) l [] in
  Some (unique reps).

(* equality of two HashSets *)
Definition same_hashset (l m : list QuadSeq) : bool := (length l =? length m) && forallb (fun x => mem x m) l.
(* reduce_to_equivalence, find_unique.rs:160-187 *)
Definition debug_reduce_to_equivalence (fuel : nat) (ord : Order) (p : list nat) (sequences : list QuadSeq) (t : SequenceType) (ops : list DebugOp) : option (list QuadSeq) :=
  let* q0 := vget sequences 0 in
  let* group := debug_symmetry_group fuel ord (0 :: p) (q_size q0) t ops in
  let* classes := collect_classes (fun i q =>
      let* new_class := generate_equivalence_class_fast ord (i :: 1 :: p) q group in
      let* slow := debug_class fuel ord (i :: 3 :: p) q t ops false in
      guard (same_hashset new_class slow) (Some new_class)) sequences in
  minima ord (2 :: p) classes.

(* half_shift, equivalence.rs:798-806 *)
Definition debug_half_shift (s : list Z) : option (list Z) := guard (length s mod 2 =? 0) (half_shift s).

(* ---- the assertions of the commands ---- *)

(* join_pairs, find_write.rs:490-549 with line 517 *)
Definition debug_join_pairs (fuel : nat) (ord : Order) (p : list nat) (ls : Listing) (t : SequenceType) (f : Folder) : option (list QuadSeq) :=
  let* result := match_pairs ls t f in
  guard (forallb has_sorted_rowsums result)
    (let* filtered :=
       match t with
       | QuaternionType => let* l := traverse ns_canonical result in Some (unique l)
       | WilliamsonType | Williamson => let* l := traverse sn_ss_canonical result in Some (unique l)
       | _ => None
       end in
     debug_reduce_to_canonical_reps fuel ord p filtered t).
(* main.rs:128-149 *)
Definition debug_extend_wts (i : nat) (result : list QuadSeq) : option (list QuadSeq) :=
  let* extra := traverse (fun q =>
      let q1 := set_sequence q (negated (sequence q TW)) TW in
      if (i mod 2 =? 0)%nat then
        let* h := debug_half_shift (sequence q TW) in
        Some [q1; set_sequence q h TW; set_sequence q (negated h) TW]
      else Some [q1]) result in
  Some (result ++ concat extra).
(* find_write_quad_seq, main.rs:92-169 with line 99 *)
Definition debug_find_write_place (fuel : nat) (ord : Order) (p : list nat) (ls : Listing) (i : nat) (t : SequenceType) (pl : Place) : option Place :=
  let* result := debug_join_pairs fuel ord (0 :: p) ls t (pl_dirs pl) in
  let* _ := match t with
            | QuaternionType => traverse (fun q => let* b := verify_qts q in guard b (is_amicable q)) result
            | _ => Some []
            end in
  let* out := seq_lines result in
  let* qout := qseq_text result in
  let pl := set_seq pl out qout in
  match t with
  | WilliamsonType =>
      let* l := debug_extend_wts i result in
      let* qt_reduced := debug_reduce_to_canonical_reps fuel ord (1 :: p) l QuaternionType in
      let* out' := seq_lines qt_reduced in
      let* qout' := qseq_text qt_reduced in
      Some (set_qts pl out' qout')
  | _ => Some pl
  end.
(* is_ns_canonical, matrix_equivalence.rs:68-70 *)
Definition is_ns_canonical (q : QuadSeq) : option bool := let* c := ns_canonical q in Some (quad_eqb c q).
(* hadamard_equivalence_from_file, matrix_equivalence.rs:72-123 with line 82 *)
Definition debug_hadamard_equivalence_from_file {L} (canon : Graph -> L) (same : L -> L -> bool) (ord : list HM -> list HM)
    (lines : Lines) (seqtype : SequenceType) : option (nat * text) :=
  let* ok := all_m (fun line => let* qs := QS_from_str line in let* q := from_pqs qs in is_ns_canonical q) lines in
  guard ok (hadamard_equivalence_from_file canon same ord lines seqtype).
(* qhm_write_all, main.rs:212-238 *)
Definition debug_qhm_write_all (fuel : nat) (ord : Order) (p : list nat) (t : SequenceType) (lines : Lines) : option text :=
  let* qts := traverse (fun line => let* pqs := QS_from_str line in from_pqs pqs) lines in
  let* _ := traverse QuadSeq_to_string qts in
  let* equ := debug_equivalent_quad_seqs fuel ord p qts t in
  fold_m (fun s seq =>
      let* pqs := to_qs seq in
      let* qhm := QHM_from_pqs pqs in
      let* qhm := QHM_dephased qhm in
      let* r := QHM_to_string qhm in
      Some (s ++ r ++ nl1 ++ nl1)) equ [].

(* main, main.rs:335-456: the other commands contain no assertion *)
Definition debug_exec {L} (fuel : nat) (e : Env L) (c : Command) (w : World) : option World :=
  let name t := seqtype_to_string t in
  let num p := usize_to_string p in
  match c with
  | QhmAll t p =>
      let* pl := w (name t) (num p) in
      let* lines := pl_seq pl in
      let* s := debug_qhm_write_all fuel (e_ord e) (e_path e) t lines in
      Some (write w (name t) (num p) (set_all pl s))
  | Join t p =>
      let* pl := w (name t) (num p) in
      let* pl := debug_find_write_place fuel (e_ord e) (e_path e) (e_ls e) (Z.to_nat p) t pl in
      Some (write w (name t) (num p) pl)
  | ConvertHm t p =>
      let* pl := w (name t) (num p) in
      let* lines := match t with WilliamsonType => pl_qts pl | _ => pl_seq pl end in
      let* (_, s) := debug_hadamard_equivalence_from_file (e_canon e) (e_same e) (e_hms e) lines t in
      Some (write w (name t) (num p) (set_mat pl s))
  | _ => exec fuel e c w
  end.
Definition debug_main {L} (fuel : nat) (e : Env L) (args : list text) (w : World) : option World :=
  let* c := parse_args args in debug_exec fuel e c w.
Definition debug_run_on {L} (fuel : nat) (e : Env L) (args : list text) (w : World) : World :=
  match debug_main fuel e (lit "rust" :: args) w with Some w' => w' | None => w end.
(* driver.sh:38-136 (ModelMain.driver_sh and driver_flags) with a debug build as the program *)
Definition debug_driver_sh {L} (fuel : nat) (e : Env L) (x y m pairing : text) (hadamard : bool) (w : World) : World :=
  if negb (length (pl_dirs (place_of w x y)) =? 0) then w
  else
    let w := match w x y with Some _ => w | None => write w x y new_place end in
    let w := debug_run_on fuel e [lit "pairs"; x; y; m; pairing] w in
    let w := sort_place x y w in
    let w := debug_run_on fuel e [lit "join"; x; y] w in
    let w := if hadamard then debug_run_on fuel e [lit "convert"; lit "hm"; x; y] w else w in
    debug_run_on fuel e [lit "convert"; lit "qhm"; x; y] w.
Definition debug_driver_flags {L} (fuel : nat) (e : Env L) (x y : text) (c : bool) (pairing : option text) (h d : bool) (w : World) : World :=
  let w := if d then cleanup x y w else w in
  debug_driver_sh fuel e x y (if c then lit "correlation" else lit "psd") (match pairing with Some r => r | None => lit "WZ" end) h w.
