(* The command line: main.rs and the shell script driver.sh on a tree of result directories.  Messages
   printed to the terminal and the file result.log are left out.  A file is the list of its lines or
   its text; opening, reading and writing an existing directory succeed. *)
From Coq Require Import Ascii String List ZArith Bool Arith.
From Verif Require Import Base Quat ModelSequence ModelWilliamson ModelEquivalence ModelMatrices ModelGraph ModelRowsum ModelMatching ModelWrite.
Import ListNotations.
Open Scope nat_scope.
Notation length := List.length.

(* ---- arguments ---- *)

(* str_to_usize, main.rs:321-326: str::parse::<usize> on a 64-bit target *)
Definition str_to_usize (s : text) : option Z :=
  let* z := parse_usize s in guard (z <? 2 ^ 64)%Z (Some z).
(* str_to_isize, main.rs:328-333: an optional sign, then at least one digit *)
Definition str_to_isize (s : text) : option Z :=
  match s with
  | c :: r =>
      if Ascii.eqb c "-"%char then
        guard (negb (length r =? 0)) (let* z := parse_digits r in guard (z <=? 2 ^ 63)%Z (Some (- z)%Z))
      else let* z := parse_usize s in guard (z <? 2 ^ 63)%Z (Some z)
  | [] => None
  end.
(* str::parse::<u8>, main.rs:445-448 *)
Definition str_to_u8 (s : text) : option Z :=
  let* z := parse_usize s in guard (z <? 256)%Z (Some z).
(* str_to_match_option, main.rs:300-306 *)
Definition str_to_match_option (s : text) : option MatchOption :=
  if text_eqb s (lit "correlation") then Some CORRELATION
  else if text_eqb s (lit "psd") then Some PSD
  else None.

Inductive Command :=
  | Help
  | QhmAll (t : SequenceType) (p : Z)
  | Amicable (p : Z)
  | Rowsums (t : SequenceType) (p : Z)
  | Join (t : SequenceType) (p : Z)
  | ConvertHm (t : SequenceType) (p : Z)
  | ConvertQhm (t : SequenceType) (p : Z)
  | Pairs (t : SequenceType) (p : Z) (m : MatchOption) (pairing : option RowsumPairing)
  | PairsRowsum (t : SequenceType) (p : Z) (rs : Quad) (m : MatchOption) (pairing : option RowsumPairing)
  | Create (t : SequenceType) (p : Z) (rs : Quad) (pairing : option RowsumPairing)
  | PairSingle (t : SequenceType) (p : Z) (rs : Quad) (m : MatchOption) (pairing : option RowsumPairing) (pair : Z)
  | Unrecognized.

(* the four row sums of the arguments 4 to 7, main.rs:410-413, 423-426 and 436-439 *)
Definition str_to_rowsums (args : list text) : option Quad :=
  let* a := vget args 4 in let* a := str_to_isize a in
  let* b := vget args 5 in let* b := str_to_isize b in
  let* c := vget args 6 in let* c := str_to_isize c in
  let* d := vget args 7 in let* d := str_to_isize d in
  Some (a, b, c, d).
(* the type and the length of the arguments i and i + 1 *)
Definition type_and_length (args : list text) (i : nat) : option (SequenceType * Z) :=
  let* t := vget args i in let* t := str_to_seqtype t in
  let* p := vget args (i + 1) in let* p := str_to_usize p in
  Some (t, p).
(* main, main.rs:335-456: the command chosen by the arguments; args[0] is the name of the program *)
Definition parse_args (args : list text) : option Command :=
  if length args =? 1 then Some Help
  else
    let* a := vget args 1 in
    if text_eqb a (lit "qhm-all") then
      guard (length args =? 4) (let* (t, p) := type_and_length args 2 in Some (QhmAll t p))
    else if text_eqb a (lit "amicable") then
      guard (length args =? 3) (let* p := vget args 2 in let* p := str_to_usize p in Some (Amicable p))
    else if text_eqb a (lit "rowsums") then
      guard (length args =? 4) (let* (t, p) := type_and_length args 2 in Some (Rowsums t p))
    else if text_eqb a (lit "join") then
      guard (length args =? 4) (let* (t, p) := type_and_length args 2 in Some (Join t p))
    else if text_eqb a (lit "convert") then
      guard (length args =? 5)
        (let* (t, p) := type_and_length args 3 in
         let* k := vget args 2 in
         if text_eqb k (lit "hm") then Some (ConvertHm t p)
         else if text_eqb k (lit "qhm") then Some (ConvertQhm t p)
         else None)
    else if text_eqb a (lit "pairs") then
      guard (length args =? 6)
        (let* (t, p) := type_and_length args 2 in
         let* m := vget args 4 in let* m := str_to_match_option m in
         let* r := vget args 5 in Some (Pairs t p m (str_to_rowsum_pairing r)))
    else if text_eqb a (lit "pairs_rowsum") then
      guard (length args =? 10)
        (let* (t, p) := type_and_length args 2 in
         let* rs := str_to_rowsums args in
         let* m := vget args 8 in let* m := str_to_match_option m in
         let* r := vget args 9 in Some (PairsRowsum t p rs m (str_to_rowsum_pairing r)))
    else if text_eqb a (lit "create") then
      (let* (t, p) := type_and_length args 2 in
       let* rs := str_to_rowsums args in
       let* r := vget args 8 in Some (Create t p rs (str_to_rowsum_pairing r)))
    else if text_eqb a (lit "pair_single") then
      guard (length args =? 11)
        (let* (t, p) := type_and_length args 2 in
         let* rs := str_to_rowsums args in
         let* m := vget args 8 in let* m := str_to_match_option m in
         let* r := vget args 9 in
         let* k := vget args 10 in let* k := str_to_u8 k in
         Some (PairSingle t p rs m (str_to_rowsum_pairing r) k))
    else Some Unrecognized.

(* ---- the commands working on one file ---- *)

Definition nl1 : text := [nl].

(* element_to_string, williamson.rs:328-334 *)
Definition element_to_string (x : Z) : option ascii :=
  if (x =? 1)%Z then Some "+"%char else if (x =? -1)%Z then Some "-"%char else None.
(* QuadSeq::to_string, williamson.rs:336-351 *)
Definition QuadSeq_to_string (q : QuadSeq) : option text :=
  let* body := fold_m (fun res seq =>
      let* line := traverse (fun i => let* x := vget seq i in element_to_string x) (range 0 (q_size q)) in
      Some (res ++ lit "  [" ++ line ++ lit "]" ++ nl1)) [q_a q; q_b q; q_c q; q_d q] (lit "[" ++ nl1) in
  Some (body ++ lit "]").
(* the text of a .qseq file, main.rs:118 and 165 *)
Definition qseq_text (l : list QuadSeq) : option text :=
  fold_m (fun s w => let* t := QuadSeq_to_string w in Some (s ++ t ++ nl1)) l [].

(* convert_qs_to_matrices, main.rs:178-209: the two numbers printed and the text of result.qhm *)
Definition convert_qs_to_matrices (lines : Lines) : option (nat * nat * text) :=
  fold_m (fun '(num_seq, num_non_commutative, result) line =>
      let* pqs := QS_from_str line in
      let* qhm := QHM_from_pqs pqs in
      let* qhm := QHM_dephase qhm in
      let* b := contains_non_commuting_elements qhm in
      let* s := QHM_to_string qhm in
      Some (num_seq + 1, (if b then num_non_commutative + 1 else num_non_commutative), result ++ s ++ nl1))
    lines (0, 0, []).

(* qhm_write_all, main.rs:212-238: the text of qhm_all.mat *)
Definition qhm_write_all (fuel : nat) (ord : Order) (p : list nat) (t : SequenceType) (lines : Lines) : option text :=
  let* qts := traverse (fun line => let* pqs := QS_from_str line in from_pqs pqs) lines in
  let* _ := traverse QuadSeq_to_string qts in
  let* equ := generate_equivalent_quad_seqs fuel ord p qts t in
  fold_m (fun s seq =>
      let* pqs := to_qs seq in
      let* qhm := QHM_from_pqs pqs in
      let* qhm := QHM_dephased qhm in
      let* r := QHM_to_string qhm in
      Some (s ++ r ++ nl1 ++ nl1)) equ [].

(* verify_qts_eq_wts, main.rs:267-289: Some when it ends with the message that all were checked *)
Definition verify_qts_eq_wts (lines : Lines) : option unit :=
  let* seqs := traverse QS_from_str lines in
  let* qts_list := traverse from_pqs seqs in
  fold_m (fun _ qts =>
      let* b := verify_qts qts in guard b
      (let* c := is_amicable qts in guard c (Some tt))) qts_list tt.

(* ---- the tree results/pairs ---- *)

(* one directory find_n: the directories rowsum_..., and the files written there *)
Record Place := mkPlace {
  pl_dirs : Folder;
  pl_quad : option Lines;      (* rowsums.quad *)
  pl_seq : option Lines;       (* result.seq *)
  pl_qseq : option text;       (* result.qseq *)
  pl_qts : option Lines;       (* result-qts.seq *)
  pl_qts_q : option text;      (* result-qts.qseq *)
  pl_mat : option text;        (* result.mat *)
  pl_qhm : option text;        (* result.qhm *)
  pl_all : option text         (* qhm_all.mat *)
}.
Definition new_place : Place := mkPlace [] None None None None None None None None.
(* results/pairs/<x>/find_<y> *)
Definition World : Type := text -> text -> option Place.
Definition write (w : World) (x y : text) (pl : Place) : World :=
  fun x' y' => if text_eqb x' x && text_eqb y' y then Some pl else w x' y'.
Definition place_of (w : World) (x y : text) : Place := match w x y with Some pl => pl | None => new_place end.
Definition set_dirs (pl : Place) (f : Folder) : Place :=
  mkPlace f (pl_quad pl) (pl_seq pl) (pl_qseq pl) (pl_qts pl) (pl_qts_q pl) (pl_mat pl) (pl_qhm pl) (pl_all pl).
Definition set_quad (pl : Place) (l : Lines) : Place :=
  mkPlace (pl_dirs pl) (Some l) (pl_seq pl) (pl_qseq pl) (pl_qts pl) (pl_qts_q pl) (pl_mat pl) (pl_qhm pl) (pl_all pl).
Definition set_seq (pl : Place) (l : Lines) (q : text) : Place :=
  mkPlace (pl_dirs pl) (pl_quad pl) (Some l) (Some q) (pl_qts pl) (pl_qts_q pl) (pl_mat pl) (pl_qhm pl) (pl_all pl).
Definition set_qts (pl : Place) (l : Lines) (q : text) : Place :=
  mkPlace (pl_dirs pl) (pl_quad pl) (pl_seq pl) (pl_qseq pl) (Some l) (Some q) (pl_mat pl) (pl_qhm pl) (pl_all pl).
Definition set_mat (pl : Place) (s : text) : Place :=
  mkPlace (pl_dirs pl) (pl_quad pl) (pl_seq pl) (pl_qseq pl) (pl_qts pl) (pl_qts_q pl) (Some s) (pl_qhm pl) (pl_all pl).
Definition set_qhm (pl : Place) (s : text) : Place :=
  mkPlace (pl_dirs pl) (pl_quad pl) (pl_seq pl) (pl_qseq pl) (pl_qts pl) (pl_qts_q pl) (pl_mat pl) (Some s) (pl_all pl).
Definition set_all (pl : Place) (s : text) : Place :=
  mkPlace (pl_dirs pl) (pl_quad pl) (pl_seq pl) (pl_qseq pl) (pl_qts pl) (pl_qts_q pl) (pl_mat pl) (pl_qhm pl) (Some s).

(* find_write_quad_seq, main.rs:92-169, with the .qseq files: those of ModelWrite.find_write_quad_seq and
   the same lists of quadruples in the other notation; lines 97-104 only print, but evaluate is_amicable *)
Definition find_write_place (fuel : nat) (ord : Order) (p : list nat) (ls : Listing) (i : nat) (t : SequenceType) (pl : Place) : option Place :=
  let* result := join_pairs fuel ord (0 :: p) ls t (pl_dirs pl) in
  let* _ := match t with QuaternionType => traverse is_amicable result | _ => Some [] end in
  let* out := seq_lines result in
  let* qout := qseq_text result in
  let pl := set_seq pl out qout in
  match t with
  | WilliamsonType =>
      let* l := extend_wts i result in
      let* qt_reduced := reduce_to_canonical_reps fuel ord (1 :: p) l QuaternionType in
      let* out' := seq_lines qt_reduced in
      let* qout' := qseq_text qt_reduced in
      Some (set_qts pl out' qout')
  | _ => Some pl
  end.

(* what the environment decides: the orders of hash tables and of directories, and the canonical
   labelling of graphs *)
Record Env (L : Type) := mkEnv {
  e_ord : Order;
  e_path : list nat;
  e_ls : Listing;
  e_canon : Graph -> L;
  e_same : L -> L -> bool;
  e_hms : list HM -> list HM
}.
Arguments e_ord {L}. Arguments e_path {L}. Arguments e_ls {L}.
Arguments e_canon {L}. Arguments e_same {L}. Arguments e_hms {L}.

(* main, main.rs:335-456: the effect of a command on the tree; None if it panics *)
Definition exec {L} (fuel : nat) (e : Env L) (c : Command) (w : World) : option World :=
  let name t := seqtype_to_string t in
  let num p := usize_to_string p in
  match c with
  | Help | Unrecognized => Some w
  | QhmAll t p =>
      let* pl := w (name t) (num p) in
      let* lines := pl_seq pl in
      let* s := qhm_write_all fuel (e_ord e) (e_path e) t lines in
      Some (write w (name t) (num p) (set_all pl s))
  | Amicable p =>
      let* pl := w (lit "qts") (num p) in
      let* lines := pl_seq pl in
      let* _ := verify_qts_eq_wts lines in
      Some w
  | Rowsums t p =>
      let* pl := w (name t) (num p) in
      let* lines := write_rowsums fuel (Z.to_nat p) t in
      Some (write w (name t) (num p) (set_quad pl lines))
  | Join t p =>
      let* pl := w (name t) (num p) in
      let* pl := find_write_place fuel (e_ord e) (e_path e) (e_ls e) (Z.to_nat p) t pl in
      Some (write w (name t) (num p) pl)
  | ConvertHm t p =>
      let* pl := w (name t) (num p) in
      let* lines := match t with WilliamsonType => pl_qts pl | _ => pl_seq pl end in
      let* (_, s) := hadamard_equivalence_from_file (e_canon e) (e_same e) (e_hms e) lines t in
      Some (write w (name t) (num p) (set_mat pl s))
  | ConvertQhm t p =>
      (* a file that cannot be opened is silently skipped, main.rs:183 *)
      match w (name t) (num p) with
      | Some pl =>
          match pl_seq pl with
          | Some lines =>
              let* (_, s) := convert_qs_to_matrices lines in
              Some (write w (name t) (num p) (set_qhm pl s))
          | None => Some w
          end
      | None => Some w
      end
  | Pairs t p m pairing =>
      (* the directory is created together with the first rowsum_... directory *)
      let pl := place_of w (name t) (num p) in
      let* (f, _) := write_pairs fuel (Z.to_nat p) t m pairing (pl_dirs pl) in
      match f with
      | [] => Some w
      | _ => Some (write w (name t) (num p) (set_dirs pl f))
      end
  | PairsRowsum t p rs m pairing =>
      let pl := place_of w (name t) (num p) in
      let* (f, _) := write_pairs_rowsum (Z.to_nat p) (name t) rs (Z.to_nat p) m pairing (pl_dirs pl) in
      Some (write w (name t) (num p) (set_dirs pl f))
  | Create t p rs pairing =>
      let pl := place_of w (name t) (num p) in
      let* f := create_rowsum_dirs rs pairing (pl_dirs pl) in
      Some (write w (name t) (num p) (set_dirs pl f))
  | PairSingle t p rs m pairing k =>
      let pl := place_of w (name t) (num p) in
      let* f := write_pair_single_rowsum (Z.to_nat p) (name t) rs (Z.to_nat p) m pairing (Z.to_nat k) (pl_dirs pl) in
      Some (write w (name t) (num p) (set_dirs pl f))
  end.
(* one run of the program *)
Definition run_main {L} (fuel : nat) (e : Env L) (args : list text) (w : World) : option World :=
  let* c := parse_args args in exec fuel e c w.

(* ---- driver.sh ---- *)

(* driver.sh:95-136 with the two optional arguments resolved: an exit status of the program is lost in
   the pipe to tee, so a run that panics is not noticed and the next step follows; what a panicking
   run has written so far is left out here, and kept in ModelPanic. *)
Definition run_on {L} (fuel : nat) (e : Env L) (args : list text) (w : World) : World :=
  match run_main fuel e (lit "rust" :: args) w with Some w' => w' | None => w end.
(* sortpairs.sh *)
Definition sort_place (x y : text) (w : World) : World :=
  match w x y with Some pl => write w x y (set_dirs pl (sortpairs (pl_dirs pl))) | None => w end.
(* driver.sh:70-75: the directories rowsum_... are looked for; driver.sh:87-90: mkdir -p *)
Definition driver_sh {L} (fuel : nat) (e : Env L) (x y m pairing : text) (hadamard : bool) (w : World) : World :=
  if negb (length (pl_dirs (place_of w x y)) =? 0) then w
  else
    let w := match w x y with Some _ => w | None => write w x y new_place end in
    let w := run_on fuel e [lit "pairs"; x; y; m; pairing] w in
    let w := sort_place x y w in
    let w := run_on fuel e [lit "join"; x; y] w in
    let w := if hadamard then run_on fuel e [lit "convert"; lit "hm"; x; y] w else w in
    run_on fuel e [lit "convert"; lit "qhm"; x; y] w.

(* pair_file_cleanup.sh:22-28 for one length: the directories rowsum_... are removed *)
Definition cleanup (x y : text) (w : World) : World :=
  match w x y with Some pl => write w x y (set_dirs pl []) | None => w end.
(* driver.sh with its flags -c, -p, -h and -d (for -s see ModelSlurm):
   driver.sh:38-41 and 44-67 *)
Definition driver_flags {L} (fuel : nat) (e : Env L) (x y : text) (c : bool) (pairing : option text) (h d : bool) (w : World) : World :=
  let w := if d then cleanup x y w else w in
  driver_sh fuel e x y (if c then lit "correlation" else lit "psd") (match pairing with Some r => r | None => lit "WZ" end) h w.
