(* Independent specification of systems of pseudo-Boolean equations, of the OPB notation for them and of
   the identities they are meant to express. *)
From Coq Require Import Ascii String List ZArith Arith Bool.
From Verif Require Import Base Sums ModelWilliamson Spec.
Import ListNotations.
Notation length := List.length.
Open Scope Z_scope.

(* a sum of integer multiples of products of variables that equals a number *)
Record equation := mkEquation { eq_terms : list (Z * list nat); eq_rhs : Z }.
Definition term_value (v : nat -> Z) (t : Z * list nat) : Z :=
  fst t * fold_right (fun i r => v i * r) 1 (snd t).
Definition holds (v : nat -> Z) (e : equation) : Prop :=
  fold_right Z.add 0 (map (term_value v) (eq_terms e)) = eq_rhs e.
Definition mentions (e : equation) (i : nat) : Prop := exists t, In t (eq_terms e) /\ In i (snd t).

(* ---- reading OPB ---- *)

(* the pieces of a text between occurrences of a character *)
Fixpoint pieces (c : ascii) (s : list ascii) : list (list ascii) :=
  match s with
  | [] => [[]]
  | a :: r => if Ascii.eqb a c then [] :: pieces c r
              else match pieces c r with p :: ps => (a :: p) :: ps | [] => [[a]] end
  end.
Definition is_nil {A} (l : list A) : bool := match l with [] => true | _ => false end.
Definition line_break : ascii := ascii_of_nat 10.
Definition words (s : list ascii) : list (list ascii) := filter (fun w => negb (is_nil w)) (pieces " "%char s).

Definition read_digit (c : ascii) : option Z :=
  let k := nat_of_ascii c in if ((48 <=? k) && (k <=? 57))%nat then Some (Z.of_nat k - 48) else None.
Fixpoint read_digits (acc : Z) (s : list ascii) : option Z :=
  match s with [] => Some acc | c :: r => let* d := read_digit c in read_digits (10 * acc + d) r end.
Definition read_number (s : list ascii) : option Z := if is_nil s then None else read_digits 0 s.
Definition read_integer (s : list ascii) : option Z :=
  match s with
  | "+"%char :: r => read_number r
  | "-"%char :: r => let* k := read_number r in Some (- k)
  | _ => read_number s
  end.

Inductive token := Coefficient (c : Z) | Variable_ (i : nat) | Equals | Final (z : Z).
Definition read_word (w : list ascii) : option token :=
  match w with
  | ["="%char] => Some Equals
  | "x"%char :: r => let* k := read_number r in Some (Variable_ (Z.to_nat k))
  | _ => if Ascii.eqb (last w " "%char) ";"%char
         then let* z := read_integer (removelast w) in Some (Final z)
         else let* c := read_integer w in Some (Coefficient c)
  end.
(* the variables before the first coefficient, the terms, and the right-hand side *)
Fixpoint read_terms (l : list token) : option (list nat * list (Z * list nat) * Z) :=
  match l with
  | [Equals; Final z] => Some ([], [], z)
  | Variable_ i :: r => let* (vs, ts, z) := read_terms r in Some (i :: vs, ts, z)
  | Coefficient c :: r => let* (vs, ts, z) := read_terms r in Some ([], (c, vs) :: ts, z)
  | _ => None
  end.
Definition read_equation (line : list ascii) : option equation :=
  let* l := traverse read_word (words line) in
  let* (vs, ts, z) := read_terms l in
  if is_nil vs then Some (mkEquation ts z) else None.
(* lines that are empty or start with * are skipped *)
Definition skipped (line : list ascii) : bool :=
  match line with [] => true | c :: _ => Ascii.eqb c "*"%char end.
Definition read_opb (s : list ascii) : option (list equation) :=
  traverse read_equation (filter (fun l => negb (skipped l)) (pieces line_break s)).

(* ---- meaning ---- *)

(* x_1, ..., x_n encode y and x_(n+1), ..., x_2n encode z, where x stands for 2x-1 *)
Definition encodes (n : nat) (y z : list Z) (v : nat -> Z) : Prop :=
  forall i, (i < n)%nat -> 2 * v (1 + i)%nat - 1 = nth i y 0 /\ 2 * v (1 + n + i)%nat - 1 = nth i z 0.

(* the two sequences missing from a quadruple, in the order of the variables (comments of
   equations.rs:32-67) *)
Definition missing (t1 t2 : Tag) : option (Tag * Tag) :=
  match t1, t2 with
  | TW, TX => Some (TZ, TY)
  | TW, TY => Some (TZ, TX)
  | TW, TZ => Some (TX, TY)
  | TX, TY => Some (TZ, TW)
  | TX, TZ => Some (TW, TY)
  | TY, TZ => Some (TW, TX)
  | _, _ => None
  end.

(* the difference of the two cross-correlations of x and y *)
Definition bracket (x y : list Z) (t : Z) : Z := ccf x y t - ccf y x t.
(* the three identities of right perfection: those of [quaternion_identities] with the other sign *)
Definition identity_WX (q : QuadSeq) (t : Z) : Prop := bracket (q_a q) (q_b q) t = bracket (q_c q) (q_d q) t.
Definition identity_WY (q : QuadSeq) (t : Z) : Prop := bracket (q_a q) (q_c q) t = bracket (q_d q) (q_b q) t.
Definition identity_WZ (q : QuadSeq) (t : Z) : Prop := bracket (q_a q) (q_d q) t = bracket (q_b q) (q_c q) t.
(* the two identities in which no cross-correlation of the two given sequences occurs *)
Definition mixed_identities (t1 t2 : Tag) (q : QuadSeq) (t : Z) : Prop :=
  match t1, t2 with
  | TW, TX | TY, TZ => identity_WY q t /\ identity_WZ q t
  | TW, TY | TX, TZ => identity_WX q t /\ identity_WZ q t
  | TW, TZ | TX, TY => identity_WX q t /\ identity_WY q t
  | _, _ => False
  end.

Definition of_tag (rs : Z * Z * Z * Z) (t : Tag) : Z :=
  let '(a, b, c, d) := rs in match t with TW => a | TX => b | TY => c | TZ => d end.

(* assignments of 0 and 1 *)
Definition boolean (v : nat -> Z) : Prop := forall i, v i = 0 \/ v i = 1.
(* the variable x_i as a sign *)
Definition sign_of (v : nat -> Z) (i : nat) : Z := 2 * v i - 1.
