(* Model of rust/src/sequences/sequence.rs (QS) and the Symmetry enum of symmetries.rs. *)
From Coq Require Import List ZArith QArith Qcanon Bool Ascii String Arith.
From Verif Require Import Base Quat.
Import ListNotations.
Open Scope nat_scope.

(* symmetries.rs:6-8 *)
Inductive Symmetry := SymI | SymII | SymIII | SymIV.

(* sequence.rs:32-37 *)
Record QS := mkQS { qs_size : nat; qs_values : list quat; qs_symmetry : option Symmetry }.

(* sequence.rs:27-29, one-character strings as characters *)
Definition Q24_STRING : list ascii :=
  [ "+"; "-"; "i"; "I"; "j"; "J"; "k"; "K";
    "q"; "Q"; "x"; "X"; "y"; "Y"; "z"; "Z";
    "s"; "S"; "u"; "U"; "v"; "V"; "w"; "W" ]%char.

(* "iter().enumerate().filter(p).next()": the first index satisfying p
   (sequence.rs:59-60, 205-206; williamson.rs:47-48) *)
Fixpoint position {A} (p : A -> bool) (l : list A) : option nat :=
  match l with
  | [] => None
  | x :: r => if p x then Some 0 else option_map S (position p r)
  end.

(* QS::new, sequence.rs:44-50 *)
Definition QS_new (size : nat) (sym : option Symmetry) : QS := mkQS size (repeat Q1 size) sym.

(* QS::from_str, sequence.rs:52-70.  A string is its list of bytes; a non-ASCII character never
   equals one of the one-byte strings of Q24_STRING, so it panics here exactly as in the code. *)
Definition QS_from_str (s : list ascii) : option QS :=
  let* values := traverse (fun c => let* i := position (Ascii.eqb c) Q24_STRING in vget Q24 i) s in
  Some (mkQS (List.length s) values None).

(* (-1).pow(k) as f32, sequence.rs:82-83,124 *)
Definition sign_pow (k : nat) : Qc := if Nat.even k then 1%Qc else (- (1))%Qc.

(* QS::set_value, sequence.rs:77-87 *)
Definition QS_set_value (q : QS) (value : quat) (index : nat) : option QS :=
  let* v1 := vset (qs_values q) index value in
  let* v2 :=
    match qs_symmetry q with
    | Some SymI => guard (index + 1 <=? qs_size q) (vset v1 (qs_size q - 1 - index) value)
    | Some SymII => vset v1 (qs_size q / 2 + index) (qscale (sign_pow index) value)
    | Some SymIII => vset v1 (qs_size q / 2 + index) (qscale (sign_pow (index / 2)) value)
    | Some SymIV => vset v1 (qs_size q / 2 + index) (qneg value)
    | None => Some v1
    end in
  Some (mkQS (qs_size q) v2 (qs_symmetry q)).

(* QS::search_size, sequence.rs:90-97 *)
Definition QS_search_size (q : QS) : nat :=
  match qs_symmetry q with Some _ => (qs_size q + 1) / 2 | None => qs_size q end.

(* QS::periodic_autocorrelation, sequence.rs:110-117 *)
Definition QS_periodic_autocorrelation (q : QS) (t : nat) : option quat :=
  fold_m (fun acc i =>
            let* x := vget (qs_values q) i in
            let* y := vget (qs_values q) ((i + t) mod qs_size q) in
            Some (qadd acc (qmul x (qconj y))))
         (range 0 (qs_size q)) Q0.

(* QS::odd_periodic_autocorrelation, sequence.rs:119-128 *)
Definition QS_odd_periodic_autocorrelation (q : QS) (t : nat) : option quat :=
  fold_m (fun acc i =>
            let* x := vget (qs_values q) i in
            let* y := vget (qs_values q) ((i + t) mod qs_size q) in
            Some (qadd acc (qscale (sign_pow ((i + t) / qs_size q)) (qmul x (qconj y)))))
         (range 0 (qs_size q)) Q0.

(* QS::is_perfect, sequence.rs:131-140 *)
Definition QS_is_perfect (q : QS) : option bool :=
  if qs_size q =? 1 then Some true
  else all_m (fun t => let* r := QS_periodic_autocorrelation q t in Some (quat_eqb r Q0))
             (range_incl 1 ((qs_size q + 1) / 2)).

(* QS::is_odd_perfect, sequence.rs:142-151 *)
Definition QS_is_odd_perfect (q : QS) : option bool :=
  if qs_size q =? 1 then Some true
  else all_m (fun t => let* r := QS_odd_periodic_autocorrelation q t in Some (quat_eqb r Q0))
             (range_incl 1 ((qs_size q + 1) / 2)).

(* QS::is_symmetric, sequence.rs:153-162 *)
Definition QS_is_symmetric (q : QS) : option bool :=
  all_m (fun t => let* x := vget (qs_values q) t in
                  let* y := vget (qs_values q) (qs_size q - t) in
                  Some (quat_eqb x y))
        (range 1 ((qs_size q + 1) / 2)).

(* quaternion_to_string, sequence.rs:203-212 *)
Definition quaternion_to_string (q : quat) : option ascii :=
  let* i := position (fun p => quat_eqb p q) Q24 in vget Q24_STRING i.

(* QS::to_string_raw, sequence.rs:165-173 *)
Definition QS_to_string_raw (q : QS) : option (list ascii) :=
  traverse quaternion_to_string (qs_values q).

(* swap, sequence.rs:191-195 *)
Definition swap_elems {A} (v : list A) (i j : nat) : option (list A) :=
  let* temp := vget v i in
  let* y := vget v j in
  let* v1 := vset v i y in
  vset v1 j temp.

(* transpose, sequence.rs:179-188.  The loop state is (v, l, r).  "seq.len() - 1" underflows on the
   empty vector (panic in debug builds, unbounded index in release): None. *)
Definition transpose_step {A} (st : list A * nat * nat) : option ((list A * nat * nat) + list A) :=
  let '(v, l, r) := st in
  if l <? r then let* v' := swap_elems v l r in Some (inl (v', l + 1, r - 1)) else Some (inr v).
Definition transpose_init {A} (v : list A) : option (list A * nat * nat) :=
  guard (1 <=? List.length v) (Some (v, 1, List.length v - 1)).
