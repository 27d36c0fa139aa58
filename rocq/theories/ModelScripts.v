(* The shell scripts that run the steps of the search one at a time: pairs.sh, sortpairs.sh,
   join_pairs.sh, convert_hm.sh and convert_qhm.sh, on the tree of ModelMain and with the file
   result.log of ModelLog.  As there, a command that panics leaves the files alone. *)
From Coq Require Import Ascii String List ZArith Bool Arith.
From Verif Require Import Base Quat ModelSequence ModelWilliamson ModelEquivalence ModelMatrices ModelGraph ModelRowsum ModelMatching ModelWrite ModelMain ModelLog.
Import ListNotations.
Open Scope nat_scope.
Notation length := List.length.

(* ---- the tree ---- *)

(* pairs.sh:29-75 with the flags -c, -p and -d: the existing directories are removed first (-d), or stop
   the script (lines 54-59); then mkdir -p and the command *)
Definition pairs_sh {L} (fuel : nat) (e : Env L) (x y : text) (c : bool) (pairing : option text) (d : bool) (w : World) : World :=
  let w := if d then cleanup x y w else w in
  if negb (length (pl_dirs (place_of w x y)) =? 0) then w
  else
    let w := match w x y with Some _ => w | None => write w x y new_place end in
    run_on fuel e [lit "pairs"; x; y; if c then lit "correlation" else lit "psd"; match pairing with Some r => r | None => lit "WZ" end] w.
(* sortpairs.sh:42-60 for one directory.  When no file matches *.pair the pattern itself is the name of
   the file: sort cannot open it, but the redirection has created the empty file *.pair.sorted (a
   redirection is not subject to pathname expansion in /bin/sh) *)
Definition sort_dir_sh (d : Dir) : Dir :=
  if existsb (fun e => ends_with (fst e) (lit ".pair")) d then sort_dir d else put d (lit "*.pair.sorted") [].
(* sortpairs.sh:37-62 *)
Definition sort_sh (x y : text) (w : World) : World :=
  match w x y with Some pl => write w x y (set_dirs pl (map (fun '(name, d) => (name, sort_dir_sh d)) (pl_dirs pl))) | None => w end.
(* join_pairs.sh:19-25: $? is the status of the assignment in line 22, so a panic is not noticed *)
Definition join_sh {L} (fuel : nat) (e : Env L) (x y : text) (w : World) : World := run_on fuel e [lit "join"; x; y] w.
(* convert_hm.sh:16-21 *)
Definition hm_sh {L} (fuel : nat) (e : Env L) (x y : text) (w : World) : World := run_on fuel e [lit "convert"; lit "hm"; x; y] w.
(* convert_qhm.sh:16-20 *)
Definition qhm_sh {L} (fuel : nat) (e : Env L) (x y : text) (w : World) : World := run_on fuel e [lit "convert"; lit "qhm"; x; y] w.

(* ---- the log ---- *)

(* whole seconds, as printed by expr and by $(( )) *)
Record Watch := mkWatch { tm_gen : Z; tm_join : Z }.
Definition append (log : option Lines) (l : Lines) : option Lines := Some (match log with Some l0 => l0 ++ l | None => l end).
(* pairs.sh:77-84: tee replaces the file; echo -e writes the line, a blank and an empty line *)
Definition pairs_sh_log {L} (ck : Clock) (st : Watch) (fuel : nat) (e : Env L) (x y : text) (c : bool) (pairing : option text) (d : bool) (w : World) (log : option Lines)
    : World * option Lines :=
  let w := if d then cleanup x y w else w in
  if negb (length (pl_dirs (place_of w x y)) =? 0) then (w, log)
  else
    let w := match w x y with Some _ => w | None => write w x y new_place end in
    let '(w, l, _) := run_log ck fuel e [lit "pairs"; x; y; if c then lit "correlation" else lit "psd"; match pairing with Some r => r | None => lit "WZ" end] w in
    (w, Some (l ++ [lit "Generating the .pair files took " ++ usize_to_string (tm_gen st) ++ lit " seconds. "; lit " "; []])).
(* sortpairs.sh:37-66: in a directory without *.pair files the pattern is announced *)
Definition sort_sh_log (ck : Clock) (x y : text) (w : World) (log : option Lines) : World * option Lines :=
  (sort_sh x y w,
   append log (sort_log ck x y (map (fun '(name, d) =>
     (name, if existsb (fun e => ends_with (fst e) (lit ".pair")) d then d else [(lit "*.pair", [])])) (pl_dirs (place_of w x y))))).
(* join_pairs.sh:19-25: echo -e writes the line and two empty lines *)
Definition join_sh_log {L} (ck : Clock) (st : Watch) (fuel : nat) (e : Env L) (x y : text) (w : World) (log : option Lines) : World * option Lines :=
  let '(w, l, s) := run_log ck fuel e [lit "join"; x; y] w in
  (w, append log (l ++ glue s [lit "Joining the files together took " ++ usize_to_string (tm_join st) ++ lit " seconds. "; []; []])).
(* convert_hm.sh:16-21 *)
Definition hm_sh_log {L} (ck : Clock) (fuel : nat) (e : Env L) (x y : text) (w : World) (log : option Lines) : World * option Lines :=
  let '(w, l, s) := run_log ck fuel e [lit "convert"; lit "hm"; x; y] w in
  (w, append log (l ++ glue s [lit "Converting to matrices up to Hadamard equivalence took " ++ seconds (tm_hm ck) ++ lit " seconds"])).
(* convert_qhm.sh:16-20 *)
Definition qhm_sh_log {L} (ck : Clock) (fuel : nat) (e : Env L) (x y : text) (w : World) (log : option Lines) : World * option Lines :=
  let '(w, l, s) := run_log ck fuel e [lit "convert"; lit "qhm"; x; y] w in
  (w, append log (l ++ glue s [lit "Converting to PQS to QHM took " ++ seconds (tm_qhm ck) ++ lit " seconds"])).
