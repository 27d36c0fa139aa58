(* What the program and driver.sh print into the file result.log, countpairs.sh, and the numbers that
   collect_results.py reads from the results.  A log is the list of its lines.  Elapsed times, in
   hundredths of a second, and the rounding errors quoted in warnings come from a clock.  What a
   panicking command has printed is left out, like what it has written. *)
From Coq Require Import Ascii String List ZArith Bool Arith.
From Verif Require Import Base Quat ModelSequence ModelWilliamson ModelEquivalence ModelMatrices ModelGraph ModelRowsum ModelMatching ModelWrite ModelMain.
Import ListNotations.
Open Scope nat_scope.
Notation length := List.length.

Record Clock := mkClock {
  tm_seqs : Quad -> Z;                             (* find_write.rs:448 *)
  tm_both : Quad -> Z;                             (* find_write.rs:470 *)
  tm_pairs : Z;                                    (* find_write.rs:397 *)
  tm_sort : Z;                                     (* sortpairs.sh:65 *)
  tm_match : Z;                                    (* find_write.rs:514 *)
  tm_reduce : Z;                                   (* find_write.rs:542 *)
  tm_qts : Z;                                      (* main.rs:152 *)
  tm_hm : Z;                                       (* driver.sh:127 *)
  tm_qhm : Z;                                      (* convert_qhm.sh:19 *)
  tm_all : Z;                                      (* driver.sh:139 *)
  warn_psd : Quad -> Tag * Tag -> option text;     (* find_write.rs:241-243 *)
  warn_cpsd : Quad -> Tag * Tag -> option text     (* find_write.rs:244-246 *)
}.
(* {:.2} of Rust and %.2f of printf *)
Definition seconds (z : Z) : text := usize_to_string (z / 100) ++ lit "." ++ [digit (z / 10 mod 10); digit (z mod 10)].
(* {:?} of a tuple of four numbers *)
Definition quad_debug (q : Quad) : text :=
  let '(a, b, c, d) := q in
  lit "(" ++ isize_to_string a ++ lit ", " ++ isize_to_string b ++ lit ", " ++ isize_to_string c ++ lit ", " ++ isize_to_string d ++ lit ")".
Definition count (n : nat) : text := usize_to_string (Z.of_nat n).

(* ---- pairs ---- *)

(* write_seq_pairs, find_write.rs:128-251, with the lines printed in 238-246 *)
Definition warning (what : text) (tags : Tag * Tag) (e : option text) : Lines :=
  match e with
  | Some x => [lit "WARNING (pair " ++ tag_to_string (fst tags) ++ tag_to_string (snd tags) ++ lit "): " ++ what
                 ++ lit " values approximate half-integer with error as small as " ++ x]
  | None => []
  end.
Definition write_seq_pairs_log (ck : Clock) (plan : nat) (s1 s2 : list (list Z)) (tags : Tag * Tag) (t : SequenceType) (rs : Quad)
    (p : nat) (d : Dir) (side : EquationSide) (m : MatchOption) : option (Dir * Z * Lines) :=
  let* (d, c) := write_seq_pairs plan s1 s2 tags t rs p d side m in
  Some (d, c, (lit "Generated " ++ usize_to_string c ++ lit " pairs for pairing " ++ tag_to_string (fst tags) ++ tag_to_string (snd tags))
              :: warning (lit "PSD") tags (warn_psd ck rs tags) ++ warning (lit "CPSD") tags (warn_cpsd ck rs tags)).

(* write_pairs_rowsum, find_write.rs:402-473 *)
Definition found (l : list (list Z)) (r : Z) : text :=
  lit "Found " ++ count (length l) ++ lit " sequences with rowsum " ++ isize_to_string r.
Definition write_pairs_rowsum_log (ck : Clock) (plan : nat) (folder : text) (rs : Quad) (p : nat) (m : MatchOption)
    (pairing : option RowsumPairing) (f : Folder) : option (Folder * Z * Lines) :=
  let name := rowsum_dir rs in
  let d := open_dir f name in
  let* t := str_to_seqtype folder in
  let* s0 := candidates t (rowsum_of_tag rs TW) p in
  let* s1 := candidates t (rowsum_of_tag rs TX) p in
  let* s2 := candidates t (rowsum_of_tag rs TY) p in
  let* s3 := candidates t (rowsum_of_tag rs TZ) p in
  let* d := write_sequences s0 d TW in
  let* d := write_sequences s1 d TX in
  let* d := write_sequences s2 d TY in
  let* d := write_sequences s3 d TZ in
  let l := [found s0 (rowsum_of_tag rs TW); found s1 (rowsum_of_tag rs TX); found s2 (rowsum_of_tag rs TY); found s3 (rowsum_of_tag rs TZ);
            lit "Generating all sequences with rowsums " ++ quad_debug rs ++ lit " took " ++ seconds (tm_seqs ck rs) ++ lit " seconds"] in
  let* (d, counter, l) :=
    match pairing with
    | Some WX =>
        let* (d, c1, l1) := write_seq_pairs_log ck plan s0 s1 (TW, TX) t rs p d LEFT m in
        let* (d, c2, l2) := write_seq_pairs_log ck plan s2 s3 (TY, TZ) t rs p d RIGHT m in
        Some (d, (c1 + c2)%Z, l ++ l1 ++ l2)
    | Some WY =>
        let* (d, c1, l1) := write_seq_pairs_log ck plan s0 s2 (TW, TY) t rs p d LEFT m in
        let* (d, c2, l2) := write_seq_pairs_log ck plan s1 s3 (TX, TZ) t rs p d RIGHT m in
        Some (d, (c1 + c2)%Z, l ++ l1 ++ l2)
    | Some WZ | None =>
        let* (d, c1, l1) := write_seq_pairs_log ck plan s0 s3 (TW, TZ) t rs p d LEFT m in
        let* (d, c2, l2) := write_seq_pairs_log ck plan s1 s2 (TX, TY) t rs p d RIGHT m in
        Some (d, (c1 + c2)%Z, l ++ l1 ++ l2)
    end in
  Some (put f name d, counter,
        l ++ [lit "Generating .pair files for both pairs took " ++ seconds (tm_both ck rs) ++ lit " seconds"; []]).

(* write_pairs, find_write.rs:377-400 *)
Definition write_pairs_log (ck : Clock) (fuel : nat) (p : nat) (t : SequenceType) (m : MatchOption)
    (pairing : option RowsumPairing) (f : Folder) : option (Folder * Z * Lines) :=
  let* rowsums := generate_rowsums fuel p t in
  let l := (lit "Generating rowsum decompositions for length " ++ count p ++ lit " ...")
           :: map quad_debug rowsums ++ [lit "Generated " ++ count (length rowsums) ++ lit " different rowsums"; []] in
  let folder := seqtype_to_string t in
  let* (f, counter, l) := fold_m (fun '(f, counter, l) rs =>
            let* (f, c, lr) := write_pairs_rowsum_log ck p folder rs p m pairing f in
            Some (f, (counter + c)%Z, l ++ (lit "Generating .pair files for rowsums " ++ quad_debug rs ++ lit " ...") :: lr))
    rowsums (f, 0%Z, l) in
  Some (f, counter,
        l ++ [lit "Generated " ++ usize_to_string counter ++ lit " total pairs";
              lit "Total time to generate .pair files: " ++ seconds (tm_pairs ck) ++ lit " seconds"; []]).

(* ---- sortpairs.sh ---- *)

(* sortpairs.sh:47 for every file, and 66; the directories in the order of the folder instead of the
   alphabetic order *)
Definition sort_log (ck : Clock) (x y : text) (f : Folder) : Lines :=
  concat (map (fun '(name, d) => map (fun e : text * Lines =>
      lit "Sorting file results/pairs/" ++ x ++ lit "/find_" ++ y ++ lit "/" ++ name ++ lit "/" ++ fst e ++ lit " ...")
    (filter (fun e => ends_with (fst e) (lit ".pair")) d)) f)
  ++ [lit "Total time to sort: " ++ seconds (tm_sort ck) ++ lit " seconds."; []].

(* ---- join ---- *)

(* the number printed in find_write.rs:752: the loop of join_pairs_files counting the combinations *)
Definition matches_step (st : Lines * Lines * nat) : option ((Lines * Lines * nat) + nat) :=
  let '(lines12, lines34, matches) := st in
  match lines12, lines34 with
  | line12 :: rest12, line34 :: rest34 =>
      let* (seq12, _) := get_line_from line12 in
      let* (seq34, _) := get_line_from line34 in
      if text_eqb seq12 seq34 then
        let* (m12, rest12) := same_key seq12 lines12 in
        let* (m34, rest34) := same_key seq12 lines34 in
        Some (inl (rest12, rest34, matches + length m12 * length m34))
      else if text_ltb seq12 seq34 then Some (inl (rest12, lines34, matches))
      else Some (inl (lines12, rest34, matches))
  | _, _ => Some (inr matches)
  end.
Definition matches_of (lines12 lines34 : Lines) : option nat :=
  run (S (length lines12 + length lines34)) matches_step (lines12, lines34, 0).
(* one directory, find_write.rs:509-510 and 752 *)
Definition quoted (s : text) : text := [ascii_of_nat 34] ++ s ++ [ascii_of_nat 34].
Definition match_log (ls : Listing) (name : text) (d : Dir) : option Lines :=
  match filter (fun e => ends_with (fst e) (lit ".pair.sorted")) (ls_pair ls name d) with
  | [(name0, file0); (name1, file1)] =>
      let* k := matches_of file0 file1 in
      Some [lit "Matching files in /" ++ name ++ lit " ...";
            lit "Matches found in " ++ quoted name0 ++ lit " and " ++ quoted name1 ++ lit ": " ++ count k; []]
  | _ => None
  end.
(* join_pairs, find_write.rs:490-549 *)
Definition join_pairs_log (ck : Clock) (fuel : nat) (ord : Order) (p : list nat) (ls : Listing) (t : SequenceType) (f : Folder)
    : option (list QuadSeq * Lines) :=
  let* result := match_pairs ls t f in
  let* l := traverse (fun '(name, d) => match_log ls name d) (ls_folder ls f) in
  let l := concat l ++ [lit "Matching took: " ++ seconds (tm_match ck) ++ lit " seconds."; [];
                        lit "Found " ++ count (length result) ++ lit " " ++ seqtype_to_string t ++ lit " after matching"] in
  let* (filtered, l) :=
    match t with
    | QuaternionType =>
        let* u := traverse ns_canonical result in
        Some (unique u, l ++ [lit "Filtered with the NS (negate-and-swap) operation; now filtering " ++ count (length (unique u)) ++ lit " sequences up to QT equivalence ..."])
    | WilliamsonType | Williamson =>
        let* u := traverse sn_ss_canonical result in
        Some (unique u, l ++ [lit "Filtered with the SN (single negate) and SS (single swap) operations; now filtering " ++ count (length (unique u)) ++ lit " sequences up to Williamson-type equivalence ..."])
    | _ => None
    end in
  let* reduced := reduce_to_canonical_reps fuel ord p filtered t in
  Some (reduced, l ++ [lit "Found " ++ count (length reduced) ++ lit " " ++ seqtype_to_string t ++ lit " after reducing to equivalence";
                       lit "Reducing to equivalence took " ++ seconds (tm_reduce ck) ++ lit " seconds."; []]).
(* the complete lines of a text, and what follows the last line break *)
Fixpoint split_lines (s : text) : Lines * text :=
  match s with
  | [] => ([], [])
  | c :: r => let '(l, p) := split_lines r in
      if Ascii.eqb c nl then ([] :: l, p)
      else match l with [] => ([], c :: p) | h :: l => ((c :: h) :: l, p) end
  end.
(* find_write_quad_seq, main.rs:92-169: the lines, and the text after the last line break: the message of
   line 101 is printed without a line break at its end *)
Definition find_write_log (ck : Clock) (fuel : nat) (ord : Order) (p : list nat) (ls : Listing) (i : nat) (t : SequenceType) (pl : Place)
    : option (Place * Lines * text) :=
  let* (result, l) := join_pairs_log ck fuel ord (0 :: p) ls t (pl_dirs pl) in
  let* notes := match t with
                | QuaternionType => traverse (fun q => let* b := is_amicable q in
                    if b then Some [] else let* s := QuadSeq_to_string q in Some (lit "Seq is valid QTS, but not amicable (not WTS): " ++ s)) result
                | _ => Some []
                end in
  let '(ln, pending) := split_lines (concat notes) in
  let l := l ++ ln in
  let* out := seq_lines result in
  let* qout := qseq_text result in
  let pl := set_seq pl out qout in
  match t with
  | WilliamsonType =>
      let* ext := extend_wts i result in
      let* qt_reduced := reduce_to_canonical_reps fuel ord (1 :: p) ext QuaternionType in
      let* out' := seq_lines qt_reduced in
      let* qout' := qseq_text qt_reduced in
      Some (set_qts pl out' qout',
            l ++ [lit "In order to generate all Williamson-type sequences up to Hadamard equivalence, we now generate a complete list up to QT equivalence ...";
                  lit "Found " ++ count (length qt_reduced) ++ lit " qts after reducing to equivalence";
                  lit "Reducing to equivalence took " ++ seconds (tm_qts ck) ++ lit " seconds."; []], pending)
  | _ => Some (pl, l, pending)
  end.

(* ---- the commands of driver.sh ---- *)

(* main.rs:335-456 with the printed lines, for the four commands used by driver.sh; the messages of the
   others are left out *)
Definition exec_log {L} (ck : Clock) (fuel : nat) (e : Env L) (c : Command) (w : World) : option (World * Lines * text) :=
  let name t := seqtype_to_string t in
  let num p := usize_to_string p in
  match c with
  | Join t p =>
      let* pl := w (name t) (num p) in
      let* (pl, l, s) := find_write_log ck fuel (e_ord e) (e_path e) (e_ls e) (Z.to_nat p) t pl in
      Some (write w (name t) (num p) pl, l, s)
  | ConvertHm t p =>
      let* pl := w (name t) (num p) in
      let* lines := match t with WilliamsonType => pl_qts pl | _ => pl_seq pl end in
      let* (k, s) := hadamard_equivalence_from_file (e_canon e) (e_same e) (e_hms e) lines t in
      let file := match t with WilliamsonType => lit "/result-qts.seq" | _ => lit "/result.seq" end in
      Some (write w (name t) (num p) (set_mat pl s),
            [lit "Converting sequences found in results/pairs/" ++ name t ++ lit "/find_" ++ num p ++ file ++ lit " to Hadamard matrices up to Hadamard equivalence ...";
             lit "Reducing matrices to equivalence via graph isomorphism...";
             lit "Number of matrices up to equivalence : " ++ count k], [])
  | ConvertQhm t p =>
      let head := lit "./results/pairs/" ++ name t ++ lit "/find_" ++ num p ++ lit "/result.seq" in
      match w (name t) (num p) with
      | Some pl =>
          match pl_seq pl with
          | Some lines =>
              let* (k, nc, s) := convert_qs_to_matrices lines in
              Some (write w (name t) (num p) (set_qhm pl s),
                    [head; lit "converted " ++ count k ++ lit " sequences of size " ++ num p ++ lit ". " ++ count nc ++ lit " contained non-commuting elements."], [])
          | None => Some (w, [head], [])
          end
      | None => Some (w, [head], [])
      end
  | Pairs t p m pairing =>
      let pl := place_of w (name t) (num p) in
      let* (f, _, l) := write_pairs_log ck fuel (Z.to_nat p) t m pairing (pl_dirs pl) in
      match f with
      | [] => Some (w, l, [])
      | _ => Some (write w (name t) (num p) (set_dirs pl f), l, [])
      end
  | _ => let* w := exec fuel e c w in Some (w, [], [])
  end.
Definition run_log {L} (ck : Clock) (fuel : nat) (e : Env L) (args : list text) (w : World) : World * Lines * text :=
  match (let* c := parse_args (lit "rust" :: args) in exec_log ck fuel e c w) with Some r => r | None => (w, [], []) end.

(* a text followed by lines *)
Definition glue (s : text) (l : Lines) : Lines := match l with [] => [s] | h :: r => (s ++ h) :: r end.
(* driver.sh:69-142 and convert_qhm.sh:15-20: the tree and the contents of result.log; tee replaces the
   file in line 95 and appends afterwards *)
Definition file_lines (s : text) : Z :=
  Z.of_nat (count_occ ascii_dec s nl).
Definition driver_log {L} (ck : Clock) (fuel : nat) (e : Env L) (x y m pairing : text) (hadamard : bool) (w : World) (log : option Lines)
    : World * option Lines :=
  if negb (length (pl_dirs (place_of w x y)) =? 0) then (w, log)
  else
    let w := match w x y with Some _ => w | None => write w x y new_place end in
    let '(w, l1, _) := run_log ck fuel e [lit "pairs"; x; y; m; pairing] w in
    let l2 := sort_log ck x y (pl_dirs (place_of w x y)) in
    let w := sort_place x y w in
    let '(w, l3, s) := run_log ck fuel e [lit "join"; x; y] w in
    let '(w, l4) :=
      if hadamard then
        let '(w, l, _) := run_log ck fuel e [lit "convert"; lit "hm"; x; y] w in
        (w, l ++ [lit "Converting to matrices up to Hadamard equivalence took " ++ seconds (tm_hm ck) ++ lit " seconds";
                  match pl_mat (place_of w x y) with Some s => usize_to_string (file_lines s) | None => [] end
                    ++ lit " matrices were found after converting up to Hadamard equivalence."])
      else (w, []) in
    let '(w, l5, _) := run_log ck fuel e [lit "convert"; lit "qhm"; x; y] w in
    (w, Some (l1 ++ l2 ++ l3 ++ glue s (l4 ++ [lit "Converting PQS to QHM ..."] ++ l5
              ++ [lit "Converting to PQS to QHM took " ++ seconds (tm_qhm ck) ++ lit " seconds"; [];
                  lit "Total execution time was " ++ seconds (tm_all ck) ++ lit " seconds."]))).
(* with the flags, as ModelMain.driver_flags; pair_file_cleanup.sh keeps result.log *)
Definition driver_flags_log {L} (ck : Clock) (fuel : nat) (e : Env L) (x y : text) (c : bool) (pairing : option text) (h d : bool) (w : World) (log : option Lines)
    : World * option Lines :=
  let w := if d then cleanup x y w else w in
  driver_log ck fuel e x y (if c then lit "correlation" else lit "psd") (match pairing with Some r => r | None => lit "WZ" end) h w log.

(* ---- countpairs.sh ---- *)

(* countpairs.sh:13-33: the lines of all files *.sorted *)
Definition countpairs (f : Folder) : nat :=
  list_sum (map (fun e : text * Dir => list_sum (map (fun g : text * Lines => length (snd g))
    (filter (fun g => ends_with (fst g) (lit ".sorted")) (snd e)))) f).

(* ---- collect_results.py ---- *)

(* re.search: the leftmost match *)
Fixpoint search {A} (m : text -> option A) (s : text) : option A :=
  match m s with
  | Some a => Some a
  | None => match s with [] => None | _ :: r => search m r end
  end.
(* the first line with a match *)
Fixpoint first_match {A} (m : text -> option A) (l : Lines) : option A :=
  match l with
  | [] => None
  | s :: r => match search m s with Some a => Some a | None => first_match m r end
  end.
(* \d+, as many as possible: what follows it in the patterns is not a digit *)
Definition is_digit (c : ascii) : bool := match digit_value c with Some _ => true | None => false end.
Fixpoint span_digits (s : text) : text * text :=
  match s with
  | c :: r => if is_digit c then let '(d, s) := span_digits r in (c :: d, s) else ([], s)
  | [] => ([], [])
  end.
Definition digits_at (s : text) : option (text * text) :=
  let '(d, r) := span_digits s in guard (negb (length d =? 0)) (Some (d, r)).
(* the patterns <pre>(\d+)<post>, collect_results.py:53 and 73 *)
Definition number_pattern (pre post : text) (s : text) : option Z :=
  let* s := strip_prefix pre s in
  let* (d, s) := digits_at s in
  let* _ := strip_prefix post s in
  parse_digits d.
(* the pattern ': (\d+\.\d\d) seconds', collect_results.py:12 *)
Definition runtime_pattern (s : text) : option text :=
  let* s := strip_prefix (lit ": ") s in
  let* (d, s) := digits_at s in
  let* s := strip_prefix (lit ".") s in
  match s with
  | a :: b :: s => guard (is_digit a && is_digit b) (let* _ := strip_prefix (lit " seconds") s in Some (d ++ lit "." ++ [a; b]))
  | _ => None
  end.
(* the patterns <pre>(\d+(?:\.\d+)?) seconds, collect_results.py:23 and 33 *)
Definition took_pattern (pre : text) (s : text) : option text :=
  let* s := strip_prefix pre s in
  let* (d, s) := digits_at s in
  match (let* s' := strip_prefix (lit ".") s in let* (f, s') := digits_at s' in let* _ := strip_prefix (lit " seconds") s' in Some (d ++ lit "." ++ f)) with
  | Some r => Some r
  | None => let* _ := strip_prefix (lit " seconds") s in Some d
  end.

(* one row of the table, collect_results.py:146-170, without the disk usage; runtimes are the summands of
   the first time, and a missing time is -1 in the table *)
Record Row := mkRow {
  row_qts : Z; row_wts : Z; row_mat : Z; row_pairs : Z;
  row_runtimes : list text; row_qt_time : option text; row_hm_time : option text
}.
Definition or_minus1 (z : option Z) : Z := match z with Some z => z | None => (-1)%Z end.
(* reduced_QTS_count, collect_results.py:52-59 *)
Definition reduced_count (log : Lines) (word : text) : Z :=
  or_minus1 (first_match (number_pattern (lit "Found ") (lit " " ++ word ++ lit " after reducing to equivalence")) log).
(* hadamard_reduced_QTS_count, collect_results.py:62-69: a last line without a line break counts *)
Definition matrix_count (mat : option text) : Z :=
  or_minus1 (option_map (fun s => (file_lines s + match rev s with c :: _ => if Ascii.eqb c nl then 0 else 1 | [] => 0 end)%Z) mat).
(* count_pairs, collect_results.py:72-81 *)
Definition pairs_count (log : Lines) (f : Folder) : Z :=
  match first_match (number_pattern (lit "Generated ") (lit " total pairs")) log with
  | Some z => z
  | None => Z.of_nat (countpairs f)
  end.
(* read_runtimes, collect_results.py:9-18 *)
Definition runtimes (log : Lines) : list text :=
  flat_map (fun s => match search runtime_pattern s with Some r => [r] | None => [] end) log.
Definition collect (pl : Place) (log : Lines) : Row :=
  mkRow (reduced_count log (lit "qts")) (reduced_count log (lit "wts")) (matrix_count (pl_mat pl)) (pairs_count log (pl_dirs pl))
    (runtimes log)
    (first_match (took_pattern (lit "Reducing to equivalence took ")) log)
    (first_match (took_pattern (lit "Converting to matrices up to Hadamard equivalence took ")) log).
