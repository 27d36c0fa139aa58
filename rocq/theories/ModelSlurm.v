(* The flag -s of driver.sh, pairs.sh and sortpairs.sh, for jobs under SLURM: nothing is compiled, and sort
   is given the directory $SLURM_TMPDIR. *)
From Coq Require Import Ascii String List ZArith Bool Arith.
From Verif Require Import Base Quat ModelSequence ModelWilliamson ModelEquivalence ModelMatrices ModelGraph ModelRowsum ModelMatching ModelWrite ModelMain ModelScripts.
Import ListNotations.
Open Scope nat_scope.
Notation length := List.length.

(* sortpairs.sh:49: $SLURM_TMPDIR is not quoted, so the shell splits its value into words at blanks, tabs and
   ends of lines.  Simplification: the value has no wildcards, and IFS has its default value. *)
Definition is_blank (a : ascii) : bool := match a with " "%char | "009"%char | "010"%char => true | _ => false end.
Fixpoint words_from (s cur : text) : list text :=
  match s with
  | [] => match cur with [] => [] | _ => [cur] end
  | a :: r => if is_blank a then match cur with [] => words_from r [] | _ => cur :: words_from r [] end
              else words_from r (cur ++ [a])
  end.
Definition words_of (v : option text) : list text := match v with Some s => words_from s [] | None => [] end.
(* sortpairs.sh:49-50, sort --parallel=1 -S 1G -T $SLURM_TMPDIR $filename: what is written to the standard
   output, and whether the status is 0.  Without a word the option -T takes the name of the file, and sort
   sorts its standard input instead; with several words those after the first are files to sort.
   Simplifications: the standard input is empty (sbatch connects it to /dev/null), the words after the first are
   not names of files, so that sort stops with status 2, and the directory can hold sort's temporary files. *)
Definition slurm_sort (v : option text) (l : Lines) : Lines * bool :=
  match words_of v with
  | [] => ([], true)
  | [_] => (sort_lines l, true)
  | _ => ([], false)
  end.
(* sortpairs.sh:44-60 with -s: the redirection always creates the file, rm only follows a sort with status 0 *)
Definition slurm_sort_dir (v : option text) (d : Dir) : Dir :=
  fold_left (fun d e =>
      if ends_with (fst e) (lit ".pair")
      then let '(out, ok) := slurm_sort v (snd e) in
           put (if ok then filter (fun e' => negb (text_eqb (fst e') (fst e))) d else d) (fst e ++ lit ".sorted") out
      else d) d d.
(* in a directory without *.pair files, as in ModelScripts.sort_dir_sh *)
Definition slurm_sort_dir_sh (v : option text) (d : Dir) : Dir :=
  if existsb (fun e => ends_with (fst e) (lit ".pair")) d then slurm_sort_dir v d else put d (lit "*.pair.sorted") [].
(* sortpairs.sh:37-62 with -s *)
Definition slurm_sort_sh (v : option text) (x y : text) (w : World) : World :=
  match w x y with Some pl => write w x y (set_dirs pl (map (fun '(name, d) => (name, slurm_sort_dir_sh v d)) (pl_dirs pl))) | None => w end.
(* sortpairs.sh:37-62 with -s as a step of driver.sh, as ModelMain.sort_place: every directory then has *.pair
   files *)
Definition slurm_sort_place (v : option text) (x y : text) (w : World) : World :=
  match w x y with Some pl => write w x y (set_dirs pl (map (fun '(name, d) => (name, slurm_sort_dir v d)) (pl_dirs pl))) | None => w end.
(* driver.sh:78-83 and pairs.sh:64-69 with -s: if the program was not compiled, a line is printed and the
   script goes on; the commands are then not found, which the pipe to tee hides *)
Definition slurm_run {L} (binary : bool) (fuel : nat) (e : Env L) (args : list text) (w : World) : World :=
  if binary then run_on fuel e args w else w.
(* pairs.sh:29-81 with -s *)
Definition pairs_slurm {L} (binary : bool) (fuel : nat) (e : Env L) (x y : text) (c : bool) (pairing : option text) (d : bool) (w : World) : World :=
  let w := if d then cleanup x y w else w in
  if negb (length (pl_dirs (place_of w x y)) =? 0) then w
  else
    let w := match w x y with Some _ => w | None => write w x y new_place end in
    slurm_run binary fuel e [lit "pairs"; x; y; if c then lit "correlation" else lit "psd"; match pairing with Some r => r | None => lit "WZ" end] w.
(* driver.sh:36-136 with -s *)
Definition driver_slurm {L} (binary : bool) (v : option text) (fuel : nat) (e : Env L) (x y : text) (c : bool) (pairing : option text) (h d : bool) (w : World) : World :=
  let w := if d then cleanup x y w else w in
  if negb (length (pl_dirs (place_of w x y)) =? 0) then w
  else
    let w := match w x y with Some _ => w | None => write w x y new_place end in
    let w := slurm_run binary fuel e [lit "pairs"; x; y; if c then lit "correlation" else lit "psd"; match pairing with Some r => r | None => lit "WZ" end] w in
    let w := slurm_sort_place v x y w in
    let w := slurm_run binary fuel e [lit "join"; x; y] w in
    let w := if h then slurm_run binary fuel e [lit "convert"; lit "hm"; x; y] w else w in
    slurm_run binary fuel e [lit "convert"; lit "qhm"; x; y] w.
