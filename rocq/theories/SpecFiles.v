(* Independent specification of the files of a row sum directory. *)
From Coq Require Import Ascii String List ZArith Bool Arith Permutation.
From Verif Require Import Base ModelWilliamson ModelWrite SpecRowsum.
Import ListNotations.
Open Scope Z_scope.

(* the row sum of a component *)
Definition component (rs : Z * Z * Z * Z) (t : Tag) : Z :=
  let '(a, b, c, d) := rs in match t with TW => a | TX => b | TY => c | TZ => d end.
(* the four tags in an order of decreasing row sums *)
Definition decreasing_tags (rs : Z * Z * Z * Z) (l : list Tag) : Prop :=
  Permutation l [TW; TX; TY; TZ] /\
  match map (component rs) l with [a; b; c; d] => b <= a /\ c <= b /\ d <= c | _ => False end.

(* the pairing as positions in an ordered list of the tags *)
Definition paired (pr : RowsumPairing) (l : list Tag) : list (Tag * Tag) :=
  match l, pr with
  | [a; b; c; d], WX => [(a, b); (c, d)]
  | [a; b; c; d], WY => [(a, c); (b, d)]
  | [a; b; c; d], WZ => [(a, d); (b, c)]
  | _, _ => []
  end.
Definition letter (t : Tag) : string := match t with TW => "W" | TX => "X" | TY => "Y" | TZ => "Z" end.
(* the file of a pair *)
Definition pair_name (p : Tag * Tag) : text :=
  list_ascii_of_string ("pair_" ++ letter (fst p) ++ letter (snd p) ++ ".pair").

(* the two files written by pair_single carry the same names as the ones prepared by create *)
Definition usable (pr : RowsumPairing) (rs : Z * Z * Z * Z) : Prop :=
  let '(a, b, c, d) := rs in a = b /\ b = c /\ c = d \/ pr = WX /\ a = b /\ c = d.

(* equal up to the order of the files *)
Definition same_files (d d' : Dir) : Prop := NoDup (map fst d) /\ Permutation d d'.
(* no directory of this name *)
Definition no_dir (f : Folder) (name : text) : Prop := ~ In name (map fst f).
