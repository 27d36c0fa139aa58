(* Independent specification of the printed forms of matrices. *)
From Coq Require Import Ascii String List ZArith.
Import ListNotations.

Definition newline : ascii := Ascii.ascii_of_nat 10.
Definition chars (s : string) : list ascii := list_ascii_of_string s.
(* "| " then every entry followed by a blank, then "|" and a line break *)
Definition bar_line {A} (show : A -> ascii) (row : list A) : list ascii :=
  chars "| " ++ concat (map (fun x => [show x; " "%char]) row) ++ ["|"%char; newline].
Definition sign_char (x : Z) : ascii := if (x =? 1)%Z then "+"%char else "-"%char.
(* comma separated *)
Fixpoint join (sep : list ascii) (l : list (list ascii)) : list ascii :=
  match l with [] => [] | [x] => x | x :: r => x ++ sep ++ join sep r end.
Definition sign_word (x : Z) : list ascii := if (x =? 1)%Z then chars "1" else chars "-1".
Definition bracket_row (row : list Z) : list ascii := chars "[" ++ join (chars ",") (map sign_word row) ++ chars "]".
Definition magma_text (m : list (list Z)) : list ascii :=
  chars "M := Matrix([" ++ join (chars ",") (map bracket_row m) ++ chars "]);".
