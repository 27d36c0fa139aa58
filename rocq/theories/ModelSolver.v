(* Model of rust/src/find/find_with_rowsum.rs: the equations handed to a solver.

   The tree is results/equations/qts/find_<p>: it maps directory names to directories, and these map file
   names to texts.  Messages are left out, File::write is taken to write the whole buffer, and
   isize and usize values are unbounded.  sort (lines 103-119) is ModelWrite.sort. *)
From Coq Require Import Ascii String List ZArith Bool Arith Reals.
From Verif Require Import Base ModelSequence ModelWilliamson ModelEquivalence ModelRowsum ModelFourier ModelMatching ModelWrite ModelEquations.
Import ListNotations.
Notation length := List.length.
Open Scope nat_scope.

Definition Texts : Type := list (text * text).
Definition Tree : Type := list (text * Texts).

(* isize::MIN *)
Definition MIN : Z := (- 2 ^ 63)%Z.

(* get_two_best, find_with_rowsum.rs:8-26 *)
Definition get_two_best (quad : Quad) : (Z * nat) * (Z * nat) :=
  let '(a, b, c, d) := quad in
  let m := (a, 0) in
  let m := if (fst m <? b)%Z then (b, 1) else m in
  let m := if (fst m <? c)%Z then (c, 2) else m in
  let m := if (fst m <? d)%Z then (d, 3) else m in
  let m2 := (MIN, 4) in
  let m2 := if (fst m2 <=? a)%Z && negb (snd m =? 0) then (a, 0) else m2 in
  let m2 := if (fst m2 <=? b)%Z && negb (snd m =? 1) then (b, 1) else m2 in
  let m2 := if (fst m2 <=? c)%Z && negb (snd m =? 2) then (c, 2) else m2 in
  let m2 := if (fst m2 <=? d)%Z && negb (snd m =? 3) then (d, 3) else m2 in
  if snd m <? snd m2 then (m, m2) else (m2, m).

(* index_to_tag, find_with_rowsum.rs:29-37, is ModelWrite.index_to_tag *)

(* generate_comment, find_with_rowsum.rs:39-43 *)
Definition generate_comment (seq1 : list Z) (tag1 : Tag) (seq2 : list Z) (tag2 : Tag) (rowsum : Quad) : option text :=
  let '(a, b, c, d) := rowsum in
  let* s1 := sequence_to_string seq1 in
  let* s2 := sequence_to_string seq2 in
  Some (lit "* " ++ tag_to_string tag1 ++ lit ": " ++ s1 ++ nl ++ lit "* " ++ tag_to_string tag2 ++ lit ": " ++ s2 ++ nl
        ++ lit "* rowsum: (" ++ isize_to_string a ++ lit "," ++ isize_to_string b ++ lit "," ++ isize_to_string c ++ lit "," ++ isize_to_string d ++ lit ")").

(* the last component of string_path, line 66 *)
Definition equations_dir (m m2 : Z * nat) : text :=
  lit "rowsum_" ++ isize_to_string (fst m) ++ lit "-" ++ isize_to_string (fst m2) ++ lit "_at_" ++ num (snd m) ++ lit "-" ++ num (snd m2).
(* line 75 *)
Definition equations_file (count : nat) : text := lit "num_" ++ num count ++ lit ".opb".

(* the body of the two inner loops, lines 75-90; the state is the directory and count *)
Definition equations_step (tag1 tag2 : Tag) (t : SequenceType) (rs : Quad) (st : Texts * nat) (pair : list Z * list Z) : option (Texts * nat) :=
  let '(d, count) := st in
  let '(seq1, seq2) := pair in
  let* equations := generate_equations seq1 tag1 seq2 tag2 t rs in
  if length equations =? 0 then Some (d, count)
  else
    let* comment := generate_comment seq1 tag1 seq2 tag2 rs in
    Some (put d (equations_file count) (comment ++ equations), count + 1).

(* the body of the loop over the row sums, lines 60-98.  The inner iterator is created anew for each item of
   the outer one and gives the same items each time. *)
Definition equations_rowsum_step (p : nat) (t : SequenceType) (tree : Tree) (rs : Quad) : option Tree :=
  let '(m, m2) := get_two_best rs in
  let* tag1 := index_to_tag (snd m) in
  let* tag2 := index_to_tag (snd m2) in
  let* sequences_1 := generate_sequences_with_rowsum (fst m) p in
  let* sequences_2 := generate_sequences_with_rowsum (fst m2) p in
  let name := equations_dir m m2 in
  let d := match get tree name with Some d => d | None => [] end in
  let* l1 := iter_over_filtered_dft p sequences_1 (4 * INR p)%R in
  let* l2 := iter_over_filtered_dft p sequences_2 (4 * INR p)%R in
  let* (d, _) := fold_m (equations_step tag1 tag2 t rs) (list_prod l1 l2) (d, 0) in
  Some (put tree name d).

(* find, find_with_rowsum.rs:48-101 *)
Definition find_equations (fuel : nat) (p : nat) (t : SequenceType) (tree : Tree) : option Tree :=
  let* rowsums := generate_rowsums fuel p t in
  match t with
  | QuaternionType => fold_m (equations_rowsum_step p t) rowsums tree
  | _ => None
  end.
