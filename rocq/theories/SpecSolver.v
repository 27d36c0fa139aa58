(* Independent specification of the files of equations. *)
From Coq Require Import Ascii String List ZArith Bool Arith.
From Verif Require Import Base ModelSequence ModelWilliamson ModelEquivalence ModelRowsum ModelEquations SpecRowsum SpecPrint SpecMain SpecEquations Spec.
Import ListNotations.
Notation length := List.length.
Open Scope nat_scope.

(* the positions of the two largest of four normalised row sums: the last two, unless the last one is
   negative; of equal largest ones the first and the last *)
Definition best_positions (r : Z * Z * Z * Z) : Tag * Tag :=
  let '(a, b, c, d) := r in
  if (d <? 0)%Z then (TX, TY) else if (b <? d)%Z then (TY, TZ) else if (a <? b)%Z then (TX, TZ) else (TW, TZ).
(* the two positions with their row sums *)
Definition best_two (r : Z * Z * Z * Z) : (Tag * Z) * (Tag * Z) :=
  let '(t1, t2) := best_positions r in ((t1, of_tag r t1), (t2, of_tag r t2)).

Definition position_digit (t : Tag) : ascii :=
  match t with TW => "0"%char | TX => "1"%char | TY => "2"%char | TZ => "3"%char end.
Definition tag_letter (t : Tag) : ascii :=
  match t with TW => "W"%char | TX => "X"%char | TY => "Y"%char | TZ => "Z"%char end.
Definition signed_numeral (y : list ascii) (z : Z) : Prop :=
  (0 <= z)%Z /\ canonical_numeral y (Z.to_nat z) \/ (z < 0)%Z /\ exists y', y = "-"%char :: y' /\ canonical_numeral y' (Z.to_nat (- z)).

(* rowsum_7-9_at_2-3 *)
Definition equation_dir (r : Z * Z * Z * Z) (name : list ascii) : Prop :=
  let '((t1, r1), (t2, r2)) := best_two r in
  exists x y, canonical_numeral x (Z.to_nat r1) /\ canonical_numeral y (Z.to_nat r2) /\
    name = chars "rowsum_" ++ x ++ chars "-" ++ y ++ chars "_at_" ++ [position_digit t1] ++ chars "-" ++ [position_digit t2].
(* num_12.opb *)
Definition equation_file (k : nat) (name : list ascii) : Prop :=
  exists x, canonical_numeral x k /\ name = chars "num_" ++ x ++ chars ".opb".
(* "* rowsum: (5,5,7,9)" *)
Definition rowsum_line (r : Z * Z * Z * Z) (l : list ascii) : Prop :=
  let '(a, b, c, d) := r in
  exists x y z w, signed_numeral x a /\ signed_numeral y b /\ signed_numeral z c /\ signed_numeral w d /\
    l = chars "* rowsum: (" ++ x ++ chars "," ++ y ++ chars "," ++ z ++ chars "," ++ w ++ chars ")".

(* the two sequences given by a file, with the row sums r *)
Definition given (n : nat) (r : Z * Z * Z * Z) (s1 s2 : list Z) : Prop :=
  let '((_, r1), (_, r2)) := best_two r in
  length s1 = n /\ pm1 s1 /\ total s1 = r1 /\ length s2 = n /\ pm1 s2 /\ total s2 = r2.
(* a file: two lines for the given sequences, one for the row sums, then the equations *)
Definition equation_text (r : Z * Z * Z * Z) (s1 s2 : list Z) (f : list ascii) : Prop :=
  let '((t1, _), (t2, _)) := best_two r in
  exists l eqs, rowsum_line r l /\ generate_equations s1 t1 s2 t2 QuaternionType r = Some eqs /\
    f = chars "* " ++ [tag_letter t1] ++ chars ": " ++ map sign_char s1 ++ [line_break] ++
        chars "* " ++ [tag_letter t2] ++ chars ": " ++ map sign_char s2 ++ [line_break] ++ l ++ eqs.

(* no later row sums have the same two largest entries *)
Definition not_overwritten (rows : list (Z * Z * Z * Z)) (r : Z * Z * Z * Z) : Prop :=
  exists before after, rows = before ++ r :: after /\ forall r', In r' after -> best_two r' <> best_two r.

(* the text of the file f of the directory d *)
Fixpoint named {A} (l : list (list ascii * A)) (name : list ascii) : option A :=
  match l with [] => None | (x, a) :: r => if list_eq_dec ascii_dec x name then Some a else named r name end.
Definition file_at (tree : list (list ascii * list (list ascii * list ascii))) (d f : list ascii) : option (list ascii) :=
  match named tree d with Some l => named l f | None => None end.

(* the entries of four numbers, from position 0 on *)
Definition entry4 (r : Z * Z * Z * Z) (i : nat) : option Z := let '(a, b, c, d) := r in nth_error [a; b; c; d] i.
