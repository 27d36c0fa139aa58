(* Independent specification of texts, of lists of representatives and of the output of a search. *)
From Coq Require Import Ascii String List ZArith Arith Relations Sorted Permutation.
From Verif Require Import Base Quat ModelSequence ModelWilliamson ModelEquivalence ModelMatching ModelWrite SpecEquiv Spec.
Import ListNotations.
Notation length := List.length.
Open Scope nat_scope.

Definition text_prefix (x y : list ascii) : Prop := exists r, y = x ++ r.
(* the order of the bytes: the first difference decides, and a prefix comes first *)
Definition byte_le (x y : list ascii) : Prop :=
  text_prefix x y \/
  exists p a b u v, x = p ++ a :: u /\ y = p ++ b :: v /\ nat_of_ascii a < nat_of_ascii b.
Definition text_sorted (l : list (list ascii)) : Prop := StronglySorted byte_le l.

(* no duplicates, only valid quadruples that are the least of their class, and exactly one of the
   class of every valid quadruple *)
Definition one_per_class (n : nat) (t : SequenceType) (r : list QuadSeq) : Prop :=
  NoDup r /\
  (forall x, In x r -> pm_quad n x /\ is_type t x /\ least (reach (type_ops t) x) x) /\
  (forall q, pm_quad n q -> is_type t q ->
     exists x, In x r /\ reach (type_ops t) q x /\ forall x', In x' r -> reach (type_ops t) q x' -> x' = x).

(* the same for Williamson sequences, which are represented by the least element of the larger
   Williamson-type class *)
Definition one_per_class_W (n : nat) (r : list QuadSeq) : Prop :=
  NoDup r /\
  (forall x, In x r -> exists q, pm_quad n q /\ is_type Williamson q /\ least (reach (type_ops WilliamsonType) q) x) /\
  (forall q, pm_quad n q -> is_type Williamson q ->
     exists x, In x r /\ reach (type_ops WilliamsonType) q x /\
       (forall x', In x' r -> reach (type_ops WilliamsonType) q x' -> x' = x) /\
       forall q', pm_quad n q' -> is_type Williamson q' ->
         (reach (type_ops Williamson) q q' <-> reach (type_ops WilliamsonType) q' x)).

(* a line that reads back as the quaternion sequence of a quadruple *)
Definition line_of_quad (q : QuadSeq) (line : list ascii) : Prop :=
  exists v, to_qs q = Some v /\ QS_to_string_raw v = Some line.

(* read_dir returns the entries in any order *)
Definition any_listing (ls : Listing) : Prop :=
  (forall f, Permutation (ls_folder ls f) f) /\
  (forall name d, Permutation (ls_seq ls name d) d) /\ (forall name d, Permutation (ls_pair ls name d) d).

Definition three_types (t : SequenceType) : Prop := t = QuaternionType \/ t = WilliamsonType \/ t = Williamson.

(* sequences of length n with entries +-1 *)
Definition seqs_ok (n : nat) (l : list (list Z)) : Prop := forall s, In s l -> length s = n /\ pm1 s.
(* every line of a file parses, and its indices are within the lists *)
Definition lines_within (file : Lines) (l1 l2 : list (list Z)) : Prop :=
  forall line, In line file -> exists k i j, get_line_from line = Some (k, (i, j)) /\ i < length l1 /\ j < length l2.

(* the lines of the .seq files have length n *)
Definition dir_len (n : nat) (d : Dir) : Prop :=
  forall name lines, In (name, lines) d -> ends_with name (lit ".seq") = true -> forall line, In line lines -> length line = n.

Definition match_dec (x y : MatchData) : {x = y} + {x <> y}.
Proof. unfold MatchData in *. decide equality; apply (list_eq_dec Z.eq_dec). Defined.

(* the pairs with a key, in their order *)
Definition with_key (key : list Z * list Z -> MatchData) (k : MatchData) (l : list (list Z * list Z)) : list (list Z * list Z) :=
  filter (fun c => if match_dec (key c) k then true else false) l.

Definition all_but_first {A} (l : list A) : option (list A) := match l with [] => None | _ :: r => Some r end.


(* the pairs of tags of the three pairings *)
Definition pairings : list ((Tag * Tag) * (Tag * Tag)) :=
  [((TW, TX), (TY, TZ)); ((TW, TY), (TX, TZ)); ((TW, TZ), (TX, TY))].

(* a file has a line with this key and these indices *)
Definition has_line (file : Lines) (k : list ascii) (i j : nat) : Prop :=
  exists line, In line file /\ get_line_from line = Some (k, (i, j)).
