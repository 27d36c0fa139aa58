(* Model of rust/src/find/find_unique.rs, find_naive.rs, find_optim.rs and find_williamson.rs, and of
   the conditions passed to find_williamson::find by rust/src/main.rs. *)
From Coq Require Import List ZArith Bool Arith Ascii.
From Verif Require Import Base Quat ModelSequence ModelWilliamson ModelEquivalence.
Import ListNotations.
Open Scope nat_scope.

(* Lines written with println! are collected in the order of writing. *)
Definition Lines := list (list ascii).
Definition newline : ascii := Ascii.ascii_of_nat 10.

(* ---- find_unique.rs ---- *)

(* find_minimum, find_unique.rs:36-52 *)
Definition find_minimum (ord : Order) (p : list nat) (class : list QuadSeq) : option QuadSeq :=
  let* mini := fold_m (fun mini elm =>
                 match mini with
                 | Some best => let* b := will_less_than elm best in Some (if b then Some elm else mini)
                 | None => Some (Some elm)
                 end) (ord p class) None in
  mini.

(* find_recursive, find_unique.rs:104-119.  The state is (will, sequences), both &mut.  The recursion
   depth is at most size + 1. *)
Fixpoint unique_find_recursive (fuel : nat) (will : QuadSeq) (size index : nat) (sequences : list QuadSeq)
    : option (QuadSeq * list QuadSeq) :=
  match fuel with
  | 0 => None
  | S k =>
      if size <=? index then
        let* qs := to_qs will in
        let* b := QS_is_perfect qs in
        Some (will, if b then sequences ++ [will] else sequences)
      else
        fold_m (fun '(will, sequences) v =>
                  let* will' := set_sequence_value will v index in
                  unique_find_recursive k will' size (index + 1) sequences)
               QUADRUPLETS (will, sequences)
  end.

(* find_aux, find_unique.rs:94-102 *)
Definition find_aux (size : nat) : option (list QuadSeq) :=
  let* (_, result) := unique_find_recursive (S size) (Quad_new size) size 0 [] in Some result.

(* the loop "for seq in sequences { ... classes.push(new_class) }", find_unique.rs:62-76 and 163-179 *)
Definition collect_classes (gen : nat -> QuadSeq -> option (list QuadSeq)) (sequences : list QuadSeq)
    : option (list (list QuadSeq)) :=
  foldi (fun i classes q =>
           if existsb (mem q) classes then Some classes
           else let* c := gen i q in Some (classes ++ [c])) sequences [].

(* "classes.iter().map(|c| find_minimum(c))", find_unique.rs:88 and 184-186 *)
Definition minima (ord : Order) (p : list nat) (classes : list (list QuadSeq)) : option (list QuadSeq) :=
  foldi (fun i acc c => let* m := find_minimum ord (i :: p) c in Some (acc ++ [m])) classes [].

(* find, find_unique.rs:56-91: the returned text.  The assert of line 81 is modelled, the progress
   messages on stderr are not (to_string_raw of line 82 is total on the values of to_qs). *)
Definition unique_find (fuel : nat) (ord : Order) (p : list nat) (size : nat) : option (list ascii) :=
  let* sequences := find_aux size in
  let* classes := collect_classes (fun i q =>
      generate_equivalence_class fuel ord (i :: 0 :: p) q (equivalences QuaternionType)) sequences in
  let* ok := all_m (fun c => all_m (fun e => let* qs := to_qs e in QS_is_perfect qs) c) classes in
  guard ok (
    let* reps := minima ord (1 :: p) classes in
    fold_m (fun s w => let* qs := to_qs w in let* t := QS_to_string_raw qs in
                       Some (s ++ t ++ [newline])) reps []).

(* reduce_to_equivalence_set_dif, find_unique.rs:123-139 *)
Definition reduce_to_equivalence_set_dif (fuel : nat) (ord : Order) (p : list nat)
    (sequences : list QuadSeq) (ops : list Equivalence) : option (list QuadSeq) :=
  let res := insert_all sequences [] in
  let* q0 := vget sequences 0 in
  let* group := generate_symmetry_group fuel ord (0 :: p) (q_size q0) ops in
  let* res := foldi (fun i res q =>
      let* class := generate_equivalence_class_fast ord (i :: 1 :: p) q group in
      let class := hremove q class in
      Some (fold_left (fun res e => hremove e res) (ord (i :: 2 :: p) class) res)) sequences res in
  Some (ord (3 :: p) res).

(* reduce_to_equivalence_par, find_unique.rs:142-157 *)
Definition reduce_to_equivalence_par (fuel : nat) (ord : Order) (p : list nat)
    (sequences : list QuadSeq) (ops : list Equivalence) : option (list QuadSeq) :=
  let* q0 := vget sequences 0 in
  let* group := generate_symmetry_group fuel ord (0 :: p) (q_size q0) ops in
  let* res := foldi (fun i res q =>
      let* class := generate_equivalence_class_fast ord (i :: 1 :: p) q group in
      let* m := find_minimum ord (i :: 2 :: p) class in
      Some (hinsert m res)) sequences [] in
  Some (ord (3 :: p) res).

(* reduce_to_equivalence, find_unique.rs:160-187 *)
Definition reduce_to_equivalence (fuel : nat) (ord : Order) (p : list nat)
    (sequences : list QuadSeq) (ops : list Equivalence) : option (list QuadSeq) :=
  let* q0 := vget sequences 0 in
  let* group := generate_symmetry_group fuel ord (0 :: p) (q_size q0) ops in
  let* classes := collect_classes (fun i q =>
      generate_equivalence_class_fast ord (i :: 1 :: p) q group) sequences in
  minima ord (2 :: p) classes.

(* ---- find_naive.rs ---- *)

(* find_recursive, find_naive.rs:14-29; the state is (pqs, count, printed lines) *)
Fixpoint naive_find_recursive (fuel : nat) (pqs : QS) (index : nat) (count : nat) (out : Lines)
    : option (QS * nat * Lines) :=
  match fuel with
  | 0 => None
  | S k =>
      if QS_search_size pqs <=? index then
        let* b := QS_is_perfect pqs in
        if b then let* s := QS_to_string_raw pqs in Some (pqs, count + 1, out ++ [s])
        else Some (pqs, count, out)
      else
        fold_m (fun '(pqs, count, out) v =>
                  let* pqs' := QS_set_value pqs v index in
                  naive_find_recursive k pqs' (index + 1) count out)
               QPLUS (pqs, count, out)
  end.
(* find, find_naive.rs:5-12; the recursion depth is at most size + 1 *)
Definition naive_find (size : nat) (sym : option Symmetry) : option (nat * Lines) :=
  let* (_, count, out) := naive_find_recursive (size + 1) (QS_new size sym) 1 0 [] in Some (count, out).

(* ---- find_optim.rs ---- *)

(* How Rayon cuts the items of a parallel iterator into consecutive pieces: the pieces are folded
   separately and the results are added up the tree. *)
Inductive Split := Whole | Cut (k : nat) (l r : Split).
Fixpoint par_sum (s : Split) (l : list nat) : nat :=
  match s with
  | Whole => fold_left Nat.add l 0
  | Cut k a b => par_sum a (firstn k l) + par_sum b (skipn k l)
  end.
(* A schedule: how the iterator at each node of the recursion (given by the values chosen so far) is
   cut, and in which order the lines of the parallel branches come out.  Every interleaving of the
   branches is a permutation of their concatenation. *)
Record Schedule := mkSchedule { cut : list quat -> Split; weave : list quat -> Lines -> Lines }.

(* find_recursive and find_recursive_q24, find_optim.rs:13-31 and 40-58, which differ in the alphabet *)
Fixpoint optim_find_recursive (fuel : nat) (sc : Schedule) (path : list quat) (alphabet : list quat)
    (pqs : QS) (index : nat) : option (nat * Lines) :=
  match fuel with
  | 0 => None
  | S k =>
      if QS_search_size pqs <=? index then
        let* b := QS_is_perfect pqs in
        if b then let* s := QS_to_string_raw pqs in Some (1, [s]) else Some (0, [])
      else
        let* rs := traverse (fun v => let* pqs' := QS_set_value pqs v index in
                                      optim_find_recursive k sc (v :: path) alphabet pqs' (index + 1))
                            alphabet in
        Some (par_sum (cut sc path) (map fst rs), weave sc path (concat (map snd rs)))
  end.
(* find, find_optim.rs:7-11 *)
Definition optim_find (sc : Schedule) (size : nat) (sym : option Symmetry) : option (nat * Lines) :=
  optim_find_recursive (size + 1) sc [] QPLUS (QS_new size sym) 1.
(* find_q24, find_optim.rs:34-38 *)
Definition optim_find_q24 (sc : Schedule) (size : nat) (sym : option Symmetry) : option (nat * Lines) :=
  optim_find_recursive (size + 1) sc [] Q24 (QS_new size sym) 1.

(* ---- find_williamson.rs ---- *)

(* find_recursive, find_williamson.rs:12-36; returns the count and the printed lines *)
Fixpoint will_find_recursive (fuel : nat) (condition : QuadSeq -> option bool) (will : QuadSeq) (index : nat)
    : option (nat * Lines) :=
  match fuel with
  | 0 => None
  | S k =>
      if q_size will <=? index then
        let* c := condition will in
        if c then
          let* qs := to_qs will in
          let* b := QS_is_perfect qs in
          if b then let* s := QS_to_string_raw qs in Some (1, [s]) else Some (0, [])
        else Some (0, [])
      else
        fold_m (fun '(count, out) v =>
                  let* will' := set_sequence_value will v index in
                  let* (c, o) := will_find_recursive k condition will' (index + 1) in
                  Some (count + c, out ++ o))
               QUADRUPLETS (0, [])
  end.
(* find, find_williamson.rs:6-10 *)
Definition will_find (size : nat) (condition : QuadSeq -> option bool) : option (nat * Lines) :=
  will_find_recursive (size + 1) condition (Quad_new size) 1.

(* the conditions of main.rs:55 and main.rs:70 *)
Definition williamson_condition (q : QuadSeq) : option bool :=
  and_m (is_symmetric q) (is_periodic_complementary q).
Definition williamson_type_condition (q : QuadSeq) : option bool :=
  and_m (is_amicable q) (is_periodic_complementary q).
(* find_williamson_of_size and find_williamson_type_of_size, main.rs:52-58 and 67-74: the printed count *)
Definition find_williamson_of_size (i : nat) : option (nat * Lines) := will_find i williamson_condition.
Definition find_williamson_type_of_size (i : nat) : option (nat * Lines) := will_find i williamson_type_condition.
