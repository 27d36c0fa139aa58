(* Model of rust/src/sequences/equivalence.rs and SequenceType::equivalences of symmetries.rs.

   A HashSet<QuadSeq> is a duplicate-free list.  Every iteration over a hash set asks an order oracle
   [ord] for the order: [ord p s] is the order in which the set s is visited at the program point and
   time p (a path of loop counters), so the same set may be visited differently at different times.
   The parameters seqtype and symmetry_group of the operations are dropped: in a release build they
   are only passed on to debug_assert!, which is compiled out. *)
From Coq Require Import List ZArith Bool Arith.
From Verif Require Import Base Quat ModelSequence ModelWilliamson.
Import ListNotations.
Open Scope nat_scope.

(* ---- coprime table ---- *)

(* the while loop of coprime, equivalence.rs:19-21 *)
Definition coprime_step (st : nat * nat) : option ((nat * nat) + nat) :=
  let '(a, b) := st in if b =? 0 then Some (inr a) else Some (inl (b, a mod b)).
Definition coprime_init (a b : nat) : nat * nat := if b <? a then (b, a) else (a, b).
(* coprime, equivalence.rs:14-23; the loop never needs more than a+b+1 rounds (C46) *)
Definition coprime (a b : nat) : bool :=
  match loop (a + b + 2) coprime_step (coprime_init a b) with
  | Some (Some r) => r =? 1
  | _ => false
  end.
(* COPRIMES, equivalence.rs:25-49 *)
Definition COPRIMES : list (list nat) :=
  [] :: map (fun i => filter (fun j => coprime i j) (range_incl 1 i)) (range 1 101).

(* ---- orders ---- *)

(* seq_less_than, equivalence.rs:56-72 (and the identical copy williamson.rs:366-382) *)
Fixpoint seq_less_than (s1 s2 : list Z) : option bool :=
  match s1, s2 with
  | [], _ => Some false
  | _ :: _, [] => None
  | x :: r1, y :: r2 =>
      if (x <? y)%Z then Some true else if (x >? y)%Z then Some false else seq_less_than r1 r2
  end.

(* will_less_than_aux, equivalence.rs:75-95 *)
Fixpoint will_less_than_aux (s1 s2 : list Z) : option comparison :=
  match s1, s2 with
  | [], _ => Some Eq
  | _ :: _, [] => None
  | x :: r1, y :: r2 =>
      if (x <? y)%Z then Some Lt else if (x >? y)%Z then Some Gt else will_less_than_aux r1 r2
  end.

(* will_less_than, equivalence.rs:97-116 *)
Definition will_less_than (w1 w2 : QuadSeq) : option bool :=
  let* c1 := will_less_than_aux (q_a w1) (q_a w2) in
  match c1 with
  | Lt => Some true | Gt => Some false
  | Eq =>
    let* c2 := will_less_than_aux (q_b w1) (q_b w2) in
    match c2 with
    | Lt => Some true | Gt => Some false
    | Eq =>
      let* c3 := will_less_than_aux (q_c w1) (q_c w2) in
      match c3 with
      | Lt => Some true | Gt => Some false
      | Eq => seq_less_than (q_d w1) (q_d w2)
      end
    end
  end.

(* ---- hash sets ---- *)

Definition mem (x : QuadSeq) (s : list QuadSeq) : bool := existsb (quad_eqb x) s.
(* HashSet::insert *)
Definition hinsert (x : QuadSeq) (s : list QuadSeq) : list QuadSeq := if mem x s then s else x :: s.
Definition insert_all (l s : list QuadSeq) : list QuadSeq := fold_left (fun s x => hinsert x s) l s.
(* HashSet::remove *)
Definition hremove (x : QuadSeq) (s : list QuadSeq) : list QuadSeq :=
  filter (fun y => negb (quad_eqb x y)) s.

(* "for x in v { acc = f(acc, x) }" with the loop counter made visible *)
Fixpoint foldi_from {A B} (i : nat) (f : nat -> A -> B -> option A) (l : list B) (acc : A) : option A :=
  match l with
  | [] => Some acc
  | x :: r => let* acc' := f i acc x in foldi_from (S i) f r acc'
  end.
Definition foldi {A B} := @foldi_from A B 0.

Definition Order := list nat -> list QuadSeq -> list QuadSeq.

(* ---- the operations ---- *)

Definition tags : list Tag := [TW; TX; TY; TZ].
Definition tag_eqb (s t : Tag) : bool :=
  match s, t with TW, TW | TX, TX | TY, TY | TZ, TZ => true | _, _ => false end.
Definition couples : list (Tag * Tag) :=
  [(TW, TX); (TW, TY); (TW, TZ); (TX, TY); (TX, TZ); (TY, TZ)].

(* swap, equivalence.rs:269-285 *)
Definition swap (will : QuadSeq) (t1 t2 : Tag) : option QuadSeq :=
  let* (s1, s2) :=
    match t1, t2 with
    | TW, TX => Some (q_a will, q_b will)
    | TW, TY => Some (q_a will, q_c will)
    | TW, TZ => Some (q_a will, q_d will)
    | TX, TY => Some (q_b will, q_c will)
    | TX, TZ => Some (q_b will, q_d will)
    | TY, TZ => Some (q_c will, q_d will)
    | _, _ => None
    end in
  Some (set_sequence (set_sequence will s2 t1) s1 t2).

(* negated, equivalence.rs:656-662 *)
Definition negated (s : list Z) : list Z := map neg8 s.

(* alt_negated, equivalence.rs:664-677; frequency - 1 underflows for frequency 0, only 2 is used *)
Definition alt_negated (s : list Z) (frequency : nat) : list Z :=
  map (fun p => if fst p mod frequency =? frequency - 1 then neg8 (snd p) else snd p)
      (combine (seq 0 (length s)) s).

(* half_shift, equivalence.rs:798-806 *)
Definition half_shift (s : list Z) : option (list Z) :=
  let n := length s in vbuild n (fun i => vget s ((i + n / 2) mod n)).

(* permute, equivalence.rs:808-821 *)
Definition permute (s : list Z) (k : nat) : option (list Z) :=
  let n := length s in vbuild n (fun i => vget s ((i * k) mod n)).

Definition Equivalence := QuadSeq -> option (list QuadSeq).

(* equivalent_negate_swap, equivalence.rs:411-442 *)
Definition equivalent_negate_swap : Equivalence := fun q =>
  let* l := traverse (fun '(couple, tag) =>
              swap (set_sequence q (negated (sequence q tag)) tag) (fst couple) (snd couple))
            (list_prod couples tags) in
  Some (insert_all l [q]).

(* equivalent_reorder, equivalence.rs:445-466 *)
Definition equivalent_reorder : Equivalence := fun q =>
  let* l := traverse (fun couple => swap q (fst couple) (snd couple)) couples in
  Some (insert_all l [q]).

(* equivalent_double_reorder, equivalence.rs:469-497 *)
Definition equivalent_double_reorder : Equivalence := fun q =>
  let* l := traverse (fun '((s11, s12), (s21, s22)) =>
              if negb (tag_eqb s11 s21 && tag_eqb s12 s22)
              then let* q1 := swap q s11 s12 in swap q1 s21 s22
              else Some q)
            (list_prod couples couples) in
  Some (insert_all l [q]).

(* the inner loop writing tag_seq[(index+offset) % size] into one slot, equivalence.rs:514-516,
   589-591, 619-621; tag_seq is read from the original quadruple [q] *)
Definition shift_slot (q s : QuadSeq) (offset : nat) (tag : Tag) : option QuadSeq :=
  fold_m (fun s i => let* v := vget (sequence q tag) ((i + offset) mod q_size q) in
                     set_single_value s v tag i) (range 0 (q_size q)) s.

(* equivalent_uniform_half_shift, equivalence.rs:500-528 *)
Definition equivalent_uniform_half_shift : Equivalence := fun q =>
  if q_size q mod 2 =? 1 then Some [q]
  else let* l := traverse (fun tag => shift_slot q q (q_size q / 2) tag) tags in
       Some (insert_all l [q]).

(* equivalent_uniform_shift, equivalence.rs:531-552 *)
Definition equivalent_uniform_shift : Equivalence := fun q =>
  let n := q_size q in
  let* l := traverse (fun offset =>
              fold_m (fun s i => let* v := values q ((i + offset) mod n) in set_sequence_value s v i)
                     (range 0 n) (Quad_new n))
            (range 1 n) in
  Some (insert_all l [q]).

(* equivalent_dual_half_shift, equivalence.rs:555-601 *)
Definition equivalent_dual_half_shift : Equivalence := fun q =>
  let n := q_size q in
  if n mod 2 =? 1 then Some [q]
  else
    let offset := n / 2 in
    let* l := traverse (fun couple =>
                fold_m (fun s i =>
                          let* v0 := vget (sequence q (fst couple)) ((i + offset) mod n) in
                          let* s1 := set_single_value s v0 (fst couple) i in
                          let* v1 := vget (sequence q (snd couple)) ((i + offset) mod n) in
                          set_single_value s1 v1 (snd couple) i) (range 0 n) q) couples in
    let* s := fold_m (fun s tag => shift_slot q s offset tag) tags q in
    Some (hinsert s (insert_all l [q])).

(* equivalent_single_half_shift, equivalence.rs:604-631 *)
Definition equivalent_single_half_shift : Equivalence := fun q =>
  if q_size q mod 2 =? 1 then Some [q]
  else let* l := traverse (fun tag => shift_slot q q (q_size q / 2) tag) tags in
       Some (insert_all l [q]).

(* equivalent_reverse, equivalence.rs:634-652 *)
Definition equivalent_reverse : Equivalence := fun q =>
  let n := q_size q in
  let* s := fold_m (fun s i => let* v := values q (n - 1 - i) in set_sequence_value s v i)
                   (range 0 n) (Quad_new n) in
  Some (hinsert s [q]).

(* equivalent_negate, equivalence.rs:680-707 *)
Definition equivalent_negate : Equivalence := fun q =>
  let '(a, b, c, d) := (q_a q, q_b q, q_c q, q_d q) in
  let l := map (fun tag =>
             let '(a', b', c', d') :=
               match tag with
               | TW => (negated a, b, c, d) | TX => (a, negated b, c, d)
               | TY => (a, b, negated c, d) | TZ => (a, b, c, negated d)
               end in set_all_values (Quad_new (q_size q)) a' b' c' d') tags in
  Some (insert_all l [q]).

(* equivalent_double_negate, equivalence.rs:710-742 *)
Definition equivalent_double_negate : Equivalence := fun q =>
  let '(a, b, c, d) := (q_a q, q_b q, q_c q, q_d q) in
  let* l := traverse (fun couple =>
             let* (a', b', c', d') :=
               match couple with
               | (TW, TX) => Some (negated a, negated b, c, d)
               | (TW, TY) => Some (negated a, b, negated c, d)
               | (TW, TZ) => Some (negated a, b, c, negated d)
               | (TX, TY) => Some (a, negated b, negated c, d)
               | (TX, TZ) => Some (a, negated b, c, negated d)
               | (TY, TZ) => Some (a, b, negated c, negated d)
               | _ => None
               end in Some (set_all_values (Quad_new (q_size q)) a' b' c' d')) couples in
  Some (insert_all l [q]).

(* the quadruple with every second element negated, equivalence.rs:753-756, 782-785 *)
Definition alt_negated_quad (q : QuadSeq) : QuadSeq :=
  set_all_values (Quad_new (q_size q)) (alt_negated (q_a q) 2) (alt_negated (q_b q) 2)
    (alt_negated (q_c q) 2) (alt_negated (q_d q) 2).

(* equivalent_alternated_negation, equivalence.rs:745-767 *)
Definition equivalent_alternated_negation : Equivalence := fun q =>
  Some (hinsert (alt_negated_quad q) [q]).

(* equivalent_even_alternated_negation, equivalence.rs:770-796 *)
Definition equivalent_even_alternated_negation : Equivalence := fun q =>
  if q_size q mod 2 =? 1 then Some [q] else Some (hinsert (alt_negated_quad q) [q]).

(* equivalent_automorphism, equivalence.rs:827-855 *)
Definition equivalent_automorphism : Equivalence := fun q =>
  let* ks := vget COPRIMES (q_size q) in
  let* l := traverse (fun k =>
              let* a := permute (q_a q) k in let* b := permute (q_b q) k in
              let* c := permute (q_c q) k in let* d := permute (q_d q) k in
              Some (set_all_values (Quad_new (q_size q)) a b c d)) ks in
  Some (insert_all l [q]).

(* equivalent_disjoint_swaps, equivalence.rs:859-889 *)
Definition equivalent_disjoint_swaps : Equivalence := fun q =>
  let* l := traverse (fun '((s11, s12), (s21, s22)) =>
              let* q1 := swap q s11 s12 in swap q1 s21 s22)
            [((TW, TX), (TY, TZ)); ((TW, TY), (TX, TZ)); ((TW, TZ), (TX, TY))] in
  Some (insert_all l [q]).

(* SequenceType::equivalences, symmetries.rs:22-29 *)
Definition equivalences (t : SequenceType) : list Equivalence :=
  match t with
  | QuaternionType => [equivalent_uniform_shift; equivalent_even_alternated_negation;
      equivalent_automorphism; equivalent_negate_swap; equivalent_dual_half_shift]
  | WilliamsonType => [equivalent_negate; equivalent_uniform_shift; equivalent_reorder;
      equivalent_even_alternated_negation; equivalent_automorphism; equivalent_single_half_shift]
  | Williamson => [equivalent_negate; equivalent_reorder; equivalent_even_alternated_negation;
      equivalent_automorphism; equivalent_single_half_shift]
  | _ => []
  end.

(* ---- class generation ---- *)

(* one round of the loop of generate_equivalence_class, equivalence.rs:164-184.
   State: number of rounds so far and the class. *)
Definition class_step (ord : Order) (p : list nat) (ops : list Equivalence)
    (st : nat * list QuadSeq) : option ((nat * list QuadSeq) + list QuadSeq) :=
  let '(k, class) := st in
  let* new :=
    foldi (fun i new s =>
      foldi (fun j new (op : Equivalence) =>
        let* es := op s in
        fold_m (fun new e => Some (if mem e class then new else hinsert e new))
               (ord (j :: i :: 1 :: k :: p) es) new)
        ops new)
      (ord (0 :: k :: p) class) [] in
  if length new =? 0 then Some (inr class)
  else Some (inl (S k, insert_all (ord (2 :: k :: p) new) class)).

(* run a loop with the given amount of fuel; None = panic or not enough fuel *)
Definition run {S R} (fuel : nat) (step : S -> option (S + R)) (s : S) : option R :=
  match loop fuel step s with Some r => r | None => None end.

(* generate_equivalence_class, equivalence.rs:158-187 *)
Definition generate_equivalence_class (fuel : nat) (ord : Order) (p : list nat)
    (q : QuadSeq) (ops : list Equivalence) : option (list QuadSeq) :=
  run fuel (class_step ord p ops) (0, [q]).

(* QuadSeq::equivalent_to, williamson.rs:262-264 *)
Definition equivalent_to (fuel : nat) (ord : Order) (p : list nat)
    (q1 q2 : QuadSeq) (t : SequenceType) : option bool :=
  let* class := generate_equivalence_class fuel ord p q1 (equivalences t) in Some (mem q2 class).

(* generate_canonical_representative, equivalence.rs:144-153 *)
Definition generate_canonical_representative (fuel : nat) (ord : Order) (p : list nat)
    (q : QuadSeq) (t : SequenceType) : option QuadSeq :=
  let* class := generate_equivalence_class fuel ord (0 :: p) q (equivalences t) in
  fold_m (fun mini elm => let* b := will_less_than elm mini in Some (if b then elm else mini))
         (ord (1 :: p) class) q.

(* the symbolic quadruple of generate_symmetry_group, equivalence.rs:191-197: "as i8" wraps *)
Definition symbolic_quad (len : nat) : QuadSeq :=
  let w := fun k => map (fun ind => wrap8 (Z.of_nat (ind + k * len + 1))) (seq 0 len) in
  set_all_values (Quad_new len) (w 0) (w 1) (w 2) (w 3).

(* generate_symmetry_group, equivalence.rs:190-200 *)
Definition generate_symmetry_group (fuel : nat) (ord : Order) (p : list nat)
    (len : nat) (ops : list Equivalence) : option (list QuadSeq) :=
  generate_equivalence_class fuel ord p (symbolic_quad len) ops.

(* i8 as usize: sign extension to 64 bits *)
Definition as_usize (z : Z) : Z := (z mod 2 ^ 64)%Z.

(* the body of the inner loop of generate_equivalence_class_fast, equivalence.rs:212-233 *)
Definition fast_element (q : QuadSeq) (elm : Z) : option Z :=
  let n := Z.of_nat (q_size q) in
  let r := (as_usize (as_usize (abs8 elm) - 1) mod n)%Z in
  let tag_ind := (as_usize (wrap8 (wrap8 (abs8 elm - 1) - wrap8 r)) / n)%Z in
  let* sub_seq :=
    (if tag_ind =? 0 then Some (q_a q) else if tag_ind =? 1 then Some (q_b q)
     else if tag_ind =? 2 then Some (q_c q) else if tag_ind =? 3 then Some (q_d q) else None)%Z in
  let seq_ind := Z.to_nat (as_usize (wrap8 (abs8 elm - 1)) mod n) in
  let* v := vget sub_seq seq_ind in
  Some (if (elm <? 0)%Z then neg8 v else v).

(* &v[lo..hi].to_vec() *)
Definition slice {A} (v : list A) (lo hi : nat) : option (list A) :=
  guard (hi <=? length v) (Some (firstn (hi - lo) (skipn lo v))).

(* the body of the outer loop, equivalence.rs:208-240 (n = 0 has no elements, so no division by 0) *)
Definition fast_apply (q symmetry : QuadSeq) : option QuadSeq :=
  let n := q_size q in
  let* v := traverse (fast_element q) (q_a symmetry ++ q_b symmetry ++ q_c symmetry ++ q_d symmetry) in
  let* w := slice v 0 n in let* x := slice v n (2 * n) in
  let* y := slice v (2 * n) (3 * n) in let* z := slice v (3 * n) (4 * n) in
  Some (set_sequence (set_sequence (set_sequence (set_sequence (Quad_new n) w TW) x TX) y TY) z TZ).

(* generate_equivalence_class_fast, equivalence.rs:203-243 *)
Definition generate_equivalence_class_fast (ord : Order) (p : list nat)
    (q : QuadSeq) (symmetries : list QuadSeq) : option (list QuadSeq) :=
  let* l := traverse (fast_apply q) (ord p symmetries) in Some (insert_all l []).

(* generate_equivalent_quad_seqs, equivalence.rs:247-263 *)
Definition generate_equivalent_quad_seqs (fuel : nat) (ord : Order) (p : list nat)
    (l : list QuadSeq) (t : SequenceType) : option (list QuadSeq) :=
  let* res := foldi (fun i res q =>
      if mem q res then Some res
      else let* class := generate_equivalence_class fuel ord (0 :: i :: p) q (equivalences t) in
           Some (insert_all (ord (1 :: i :: p) class) res)) l [] in
  Some (ord (2 :: p) res).

(* ---- canonical forms ---- *)

(* negating a slot whose first entry is not -1, equivalence.rs:318-321 *)
Definition sn_step (c : QuadSeq) (tag : Tag) : option QuadSeq :=
  let s := sequence c tag in
  let* x := vget s 0 in
  Some (if negb (x =? -1)%Z then set_sequence c (negated s) tag else c).

(* the tag of the least of the given slots, first one on ties, equivalence.rs:325-330 *)
Definition min_tag (c : QuadSeq) (init : Tag) (rest : list Tag) : option Tag :=
  fold_m (fun m tag => let* b := seq_less_than (sequence c tag) (sequence c m) in
                       Some (if b then tag else m)) rest init.

(* sn_ss_canonical, equivalence.rs:313-352 *)
Definition sn_ss_canonical (q : QuadSeq) : option QuadSeq :=
  let* c := fold_m sn_step tags q in
  let* m := min_tag c TW [TX; TY; TZ] in
  let* c := if negb (tag_eqb m TW) then swap c TW m else Some c in
  let* m := min_tag c TX [TY; TZ] in
  let* c := if negb (tag_eqb m TX) then swap c TX m else Some c in
  let* b := seq_less_than (q_d c) (q_c c) in
  if b then swap c TY TZ else Some c.

(* one round of the loop 'outer of ns_canonical, equivalence.rs:359-369 *)
Fixpoint ns_find (c : QuadSeq) (l : list Tag) : option (option Tag) :=
  match l with
  | [] => Some None
  | tag :: r => let* x := vget (sequence c tag) 0 in
                if negb (x =? -1)%Z then Some (Some tag) else ns_find c r
  end.
Definition ns_step (c : QuadSeq) : option (QuadSeq + QuadSeq) :=
  let* f := ns_find c tags in
  match f with
  | Some tag =>
      let* c' := swap (set_sequence c (negated (sequence c tag)) tag) TW TX in Some (inl c')
  | None => Some (inr c)
  end.

(* ns_canonical, equivalence.rs:355-408; on +-1 quadruples the loop needs at most 5 rounds (C15) *)
Definition ns_canonical (q : QuadSeq) : option QuadSeq :=
  let* c := run 5 ns_step q in
  let* m := min_tag c TW [TX; TY; TZ] in
  let* c := if negb (tag_eqb m TW) then let* c := swap c TW m in swap c TY TZ else Some c in
  let* m := min_tag c TX [TY; TZ] in
  let* c := if negb (tag_eqb m TX) then let* c := swap c TX m in swap c TY TZ else Some c in
  let* b := seq_less_than (q_d c) (q_c c) in
  let* c := if b then swap (set_sequence c (negated (q_c c)) TY) TY TZ else Some c in
  let* z := vget (q_d c) 0 in
  Some (if (z =? 1)%Z && has_duplicate_seq c then set_sequence c (negated (q_d c)) TZ else c).

(* Iterator::min_by with will_less_than, equivalence.rs:301-305: a later element only replaces the
   current one if it is strictly less *)
Definition min_by (l : list QuadSeq) : option (option QuadSeq) :=
  match l with
  | [] => Some None
  | x :: r =>
      let* m := fold_m (fun m y => let* lt := will_less_than m y in
                          if lt then Some m
                          else let* gt := will_less_than y m in Some (if gt then y else m)) r x in
      Some (Some m)
  end.

(* qt_canonical, equivalence.rs:288-310 *)
Definition qt_canonical (ord : Order) (p : list nat) (q : QuadSeq) (symmetries : list QuadSeq)
    (t : SequenceType) : option QuadSeq :=
  let* canon := match t with
                | QuaternionType => Some ns_canonical
                | WilliamsonType | Williamson => Some sn_ss_canonical
                | _ => None
                end in
  let* class := generate_equivalence_class_fast ord (0 :: p) q symmetries in
  let* l := traverse canon (ord (1 :: p) class) in
  let* m := min_by (ord (2 :: p) (insert_all l [])) in
  m.

(* reduce_to_canonical_reps, find_unique.rs:189-198 ("unique" keeps first occurrences) *)
Definition canonical_ops (t : SequenceType) : list Equivalence :=
  match t with
  | QuaternionType => [equivalent_automorphism; equivalent_even_alternated_negation;
      equivalent_uniform_shift; equivalent_dual_half_shift]
  | _ => [equivalent_automorphism; equivalent_even_alternated_negation;
      equivalent_uniform_shift; equivalent_uniform_half_shift]
  end.
Definition unique (l : list QuadSeq) : list QuadSeq :=
  rev (fold_left (fun acc x => if mem x acc then acc else x :: acc) l []).
Definition reduce_to_canonical_reps (fuel : nat) (ord : Order) (p : list nat)
    (l : list QuadSeq) (t : SequenceType) : option (list QuadSeq) :=
  let* q0 := vget l 0 in
  let* symmetries := generate_symmetry_group fuel ord (0 :: p) (q_size q0) (canonical_ops t) in
  let* reps := foldi (fun i acc q => let* c := qt_canonical ord (i :: 1 :: p) q symmetries t in
                                     Some (acc ++ [c])) l [] in
  Some (unique reps).

(* equiv, equivalence.rs:123-142 *)
Definition equiv (fuel : nat) (ord : Order) (p : list nat) (q1 q2 : QuadSeq) (t : SequenceType)
    : option bool :=
  let* v1 := verify q1 t in guard v1 (
  let* v2 := verify q2 t in guard v2 (
  match t with
  | QuaternionType =>
      let* c1 := ns_canonical q1 in let* c2 := ns_canonical q2 in
      let* r := reduce_to_canonical_reps fuel ord p [c1; c2] t in Some (length r =? 1)
  | WilliamsonType | Williamson =>
      let* c1 := sn_ss_canonical q1 in let* c2 := sn_ss_canonical q2 in
      let* r := reduce_to_canonical_reps fuel ord p [c1; c2] t in Some (length r =? 1)
  | _ => Some false
  end)).
