(* Model of rust/src/find/find_write.rs, of find_write_quad_seq in main.rs and of sortpairs.sh.

   A file is the list of its lines; a directory maps file names to files; the folder of a search
   (results/pairs/<type>/find_<p>) maps directory names to directories.  Messages, timings, memory
   statistics and the warnings about half-integers are not modelled, and a call of File::write is
   taken to write the whole buffer.  isize and usize values are unbounded. *)
From Coq Require Import Ascii String List ZArith Bool Arith Reals.
From Verif Require Import Base Quat ModelSequence ModelWilliamson ModelEquivalence ModelRowsum
  ModelFourier ModelMatching.
Import ListNotations.
Notation length := List.length.
Open Scope nat_scope.

Definition text : Type := list ascii.
Definition lit (s : string) : text := list_ascii_of_string s.
Definition Lines : Type := list text.

(* ---- strings ---- *)

(* to_string of isize and usize: decimal digits without leading zeros *)
Definition digit (d : Z) : ascii := ascii_of_nat (48 + Z.to_nat d).
Fixpoint digits (fuel : nat) (z : Z) : text :=
  match fuel with
  | 0 => []
  | S k => if (z <? 10)%Z then [digit z] else digits k (z / 10)%Z ++ [digit (z mod 10)%Z]
  end.
Definition usize_to_string (z : Z) : text := digits (S (Z.to_nat (Z.log2 z))) z.
Definition isize_to_string (z : Z) : text :=
  if (z <? 0)%Z then "-"%char :: usize_to_string (- z)%Z else usize_to_string z.

(* str::parse::<usize>: an optional '+', then at least one digit *)
Definition digit_value (c : ascii) : option nat :=
  let k := nat_of_ascii c in guard ((48 <=? k) && (k <=? 57)) (Some (k - 48)).
Definition parse_digits (s : text) : option Z :=
  fold_m (fun acc c => let* d := digit_value c in Some (10 * acc + Z.of_nat d)%Z) s 0%Z.
Definition parse_usize (s : text) : option Z :=
  let s := match s with c :: r => if Ascii.eqb c "+"%char then r else s | [] => s end in
  guard (negb (length s =? 0)) (parse_digits s).

(* == and < on String: bytewise *)
Fixpoint text_eqb (x y : text) : bool :=
  match x, y with
  | [], [] => true
  | a :: r, b :: s => Ascii.eqb a b && text_eqb r s
  | _, _ => false
  end.
Fixpoint text_ltb (x y : text) : bool :=
  match x, y with
  | _, [] => false
  | [], _ :: _ => true
  | a :: r, b :: s =>
      if nat_of_ascii a <? nat_of_ascii b then true
      else if nat_of_ascii b <? nat_of_ascii a then false else text_ltb r s
  end.

(* str::starts_with, giving what follows; str::ends_with *)
Fixpoint strip_prefix (p s : text) : option text :=
  match p, s with
  | [], _ => Some s
  | a :: p', b :: s' => if Ascii.eqb a b then strip_prefix p' s' else None
  | _ :: _, [] => None
  end.
Definition ends_with (s p : text) : bool :=
  match strip_prefix (rev p) (rev s) with Some _ => true | None => false end.
(* the text before the first occurrence of p, and the text after it if there is one *)
Fixpoint split_at (p s : text) : text * option text :=
  match strip_prefix p s with
  | Some rest => ([], Some rest)
  | None => match s with
            | [] => ([], None)
            | c :: s' => let '(a, r) := split_at p s' in (c :: a, r)
            end
  end.

(* ---- names ---- *)

(* SequenceTag::to_string, williamson.rs:15-24 *)
Definition tag_to_string (t : Tag) : text :=
  match t with TW => lit "W" | TX => lit "X" | TY => lit "Y" | TZ => lit "Z" end.
(* SequenceType::to_string, symmetries.rs:32-44 *)
Definition seqtype_to_string (t : SequenceType) : text :=
  match t with
  | Williamson => lit "ws" | WilliamsonType => lit "wts" | QuaternionType => lit "qts"
  | ItoType => lit "its" | ExtraTypeI => lit "et1" | ExtraTypeII => lit "et2" | ExtraTypeIII => lit "et3"
  end.
(* str_to_seqtype, main.rs:308-319 *)
Definition str_to_seqtype (s : text) : option SequenceType :=
  if text_eqb s (lit "qts") then Some QuaternionType
  else if text_eqb s (lit "wts") then Some WilliamsonType
  else if text_eqb s (lit "ws") then Some Williamson
  else if text_eqb s (lit "its") then Some ItoType
  else if text_eqb s (lit "et1") then Some ExtraTypeI
  else if text_eqb s (lit "et2") then Some ExtraTypeII
  else if text_eqb s (lit "et3") then Some ExtraTypeIII
  else None.
(* RowsumPairing, symmetries.rs:11-14, and str_to_rowsum_pairing, main.rs:291-298 *)
Inductive RowsumPairing := WX | WY | WZ.
Definition str_to_rowsum_pairing (s : text) : option RowsumPairing :=
  if text_eqb s (lit "WX") then Some WX
  else if text_eqb s (lit "WY") then Some WY
  else if text_eqb s (lit "WZ") then Some WZ
  else None.

(* the last component of folder_path, find_write.rs:288, 347 and 407 *)
Definition rowsum_dir (rs : Quad) : text :=
  let '(a, b, c, d) := rs in
  lit "rowsum_" ++ isize_to_string a ++ lit "_" ++ isize_to_string b ++ lit "_" ++ isize_to_string c
    ++ lit "_" ++ isize_to_string d.
(* find_write.rs:88 and 133 *)
Definition seq_file (t : Tag) : text := lit "seq_" ++ tag_to_string t ++ lit ".seq".
Definition pair_file (t1 t2 : Tag) : text := lit "pair_" ++ tag_to_string t1 ++ tag_to_string t2 ++ lit ".pair".

Definition Dir : Type := list (text * Lines).
Definition Folder : Type := list (text * Dir).
(* File::create followed by writing: a file of this name is replaced *)
Definition put {A} (d : list (text * A)) (name : text) (v : A) : list (text * A) :=
  filter (fun e => negb (text_eqb (fst e) name)) d ++ [(name, v)].
Definition get {A} (d : list (text * A)) (name : text) : option A :=
  option_map snd (find (fun e => text_eqb (fst e) name) d).
(* fs::create_dir_all: an existing directory is kept *)
Definition open_dir (f : Folder) (name : text) : Dir := match get f name with Some d => d | None => [] end.

(* ---- writing ---- *)

(* quad_to_string, find_write.rs:9-14, without the line break *)
Definition quad_to_string (q : Quad) : text :=
  let '(a, b, c, d) := q in
  isize_to_string a ++ lit " " ++ isize_to_string b ++ lit " " ++ isize_to_string c ++ lit " " ++ isize_to_string d.
(* write_rowsums, find_write.rs:16-29: the lines of rowsums.quad *)
Definition write_rowsums (fuel : nat) (p : nat) (t : SequenceType) : option Lines :=
  let* rs := generate_rowsums fuel p t in Some (map quad_to_string rs).

(* sort, find_write.rs:44-61, identical to find_with_rowsum.rs:103-119 *)
Definition exchange_at {A} (v : list A) (i j : nat) : option (list A) :=
  let* x := vget v j in let* y := vget v i in
  let* v := vset v i x in vset v j y.
Definition sort_quad (quad : Quad) : option (list Z * list nat) :=
  let '(a, b, c, d) := quad in
  fold_m (fun '(tab, indices) i =>
      let* t := vget tab i in
      let* (_, index) := fold_m (fun '(maxi, index) j =>
          let* x := vget tab j in
          Some (if (maxi <? x)%Z then (x, j) else (maxi, index))) (range (i + 1) 4) (t, i) in
      let* tab := exchange_at tab i index in
      let* indices := exchange_at indices i index in
      Some (tab, indices)) (range 0 4) ([a; b; c; d], [0; 1; 2; 3]).

(* index_to_tag, find_write.rs:75-83 *)
Definition index_to_tag (i : nat) : option Tag :=
  match i with 0 => Some TW | 1 => Some TX | 2 => Some TY | 3 => Some TZ | _ => None end.

(* write_sequences, find_write.rs:85-94: the lines of the file *)
Definition write_sequences (sequences : list (list Z)) (d : Dir) (t : Tag) : option Dir :=
  let* lines := traverse sequence_to_string sequences in
  Some (put d (seq_file t) lines).

(* verify_rowsums, find_write.rs:96-126 *)
Definition rowsum_of_tag (rs : Quad) (t : Tag) : Z :=
  let '(a, b, c, d) := rs in match t with TW => a | TX => b | TY => c | TZ => d end.
Definition verify_rowsums (s1 s2 : list (list Z)) (tags : Tag * Tag) (rs : Quad) : bool :=
  if negb (forallb (fun s => rowsum s =? rowsum_of_tag rs (fst tags))%Z s1) then false
  else forallb (fun s => rowsum s =? rowsum_of_tag rs (snd tags))%Z s2.

(* one iteration of the loop of write_seq_pairs, find_write.rs:151-220: the key part of the line,
   or None for "continue" *)
Definition field (z : Z) : text := isize_to_string z ++ lit "_".
Definition op_side (side : EquationSide) (x : Z) : Z := match side with LEFT => x | RIGHT => (- x)%Z end.
Definition pair_key (plan : nat) (tags : Tag * Tag) (t : SequenceType) (p : nat) (side : EquationSide)
    (m : MatchOption) (pair : SequencePairData) : option (option text) :=
  let len1 := length (snd (seq_enum1 pair)) in
  let len2 := length (snd (seq_enum2 pair)) in
  match m with
  | CORRELATION =>
      let* autoc := compute_auto_correlation_pair_dft plan (norm1 pair) len1 (norm2 pair) len2 in
      let* crossc := compute_cross_correlations_dft plan (dft1 pair) (dft2 pair) tags len1 in
      let result := concat (map (fun a => field (op_side side a)) autoc) in
      match t with
      | QuaternionType => Some (Some (result ++ concat (map (fun c => field (op_side side c)) crossc)))
      | WilliamsonType => Some (if existsb (fun v => negb (v =? 0)%Z) crossc then None else Some result)
      | Williamson => Some (Some result)
      | _ => None
      end
  | PSD =>
      let psd := compute_psd_pair (norm1 pair) (norm2 pair) p side in
      let* cpsd := compute_cross_psd_pair (dft1 pair) (dft2 pair) tags len1 in
      let result := concat (map (fun a => field (roundR a)) psd) in
      match t with
      | QuaternionType =>
          Some (Some (result ++ concat (map (fun c => field (op_side side (roundR (snd c)))) cpsd)))
      | WilliamsonType =>
          Some (if existsb (fun v => gtR (Rabs (snd v)) (1 / 10000)) cpsd then None else Some result)
      | Williamson => Some (Some result)
      | _ => None
      end
  end.
(* find_write.rs:222-226, without the line break *)
Definition pair_line (key : text) (i j : nat) : text :=
  (if length key =? 0 then key ++ lit "_" else key)
    ++ lit ":_" ++ usize_to_string (Z.of_nat i) ++ lit "_" ++ usize_to_string (Z.of_nat j).

(* write_seq_pairs, find_write.rs:128-251.  The state of the loop is (lines in the file, lines in the
   buffer, counter). *)
Definition write_seq_pairs (plan : nat) (s1 s2 : list (list Z)) (tags : Tag * Tag) (t : SequenceType) (rs : Quad)
    (p : nat) (d : Dir) (side : EquationSide) (m : MatchOption) : option (Dir * Z) :=
  guard (verify_rowsums s1 s2 tags rs) (
    let* pairs := iter_over_enumerate_filtered_couples_psds plan s1 s2 (4 * INR p)%R in
    let* (file, buffer, counter) := fold_m (fun '(file, buffer, counter) pair =>
        let* key := pair_key plan tags t p side m pair in
        match key with
        | None => Some (file, buffer, counter)
        | Some k =>
            let buffer := buffer ++ [pair_line k (fst (seq_enum1 pair)) (fst (seq_enum2 pair))] in
            let counter := (counter + 1)%Z in
            Some (if (counter mod 1000 =? 0)%Z then (file ++ buffer, [], counter) else (file, buffer, counter))
        end) pairs ([], [], 0%Z) in
    Some (put d (pair_file (fst tags) (snd tags)) (file ++ buffer), counter)).

(* get_indices, find_write.rs:253-263 *)
Definition get_indices (pairing : option RowsumPairing) (pair : nat) : option (nat * nat) :=
  match pairing, pair with
  | Some WX, 1 => Some (0, 1)
  | Some WX, 2 => Some (2, 3)
  | Some WY, 1 => Some (0, 2)
  | Some WY, 2 => Some (1, 3)
  | Some WZ, 1 => Some (0, 3)
  | Some WZ, 2 => Some (1, 2)
  | _, _ => None
  end.

(* symmetric, find_write.rs:475-485 *)
Definition symmetric (s : list Z) : option bool :=
  let n := length s in
  all_m (fun t => let* x := vget s t in let* y := vget s (n - t) in Some (x =? y)%Z) (range_incl 1 (n / 2)).

(* the sequences of find_write.rs:306-320 and 419-440 *)
Definition candidates (t : SequenceType) (r : Z) (p : nat) : option (list (list Z)) :=
  let* l := generate_sequences_with_rowsum r p in
  match t with
  | Williamson => filter_m symmetric l
  | _ => Some l
  end.

(* write_pair_single_rowsum, find_write.rs:284-340; None as indices only prints a message *)
Definition write_pair_single_rowsum (plan : nat) (folder : text) (rs : Quad) (p : nat) (m : MatchOption)
    (pairing : option RowsumPairing) (pair : nat) (f : Folder) : option Folder :=
  let name := rowsum_dir rs in
  let d := open_dir f name in
  let* t := str_to_seqtype folder in
  match get_indices pairing pair with
  | None => Some (put f name d)
  | Some (i0, i1) =>
      let* t0 := index_to_tag i0 in
      let* t1 := index_to_tag i1 in
      let* s0 := candidates t (rowsum_of_tag rs t0) p in
      let* s1 := candidates t (rowsum_of_tag rs t1) p in
      let* d := write_sequences s0 d t0 in
      let* d := write_sequences s1 d t1 in
      let* side := match pair with 1 => Some LEFT | 2 => Some RIGHT | _ => None end in
      let* (d, _) := write_seq_pairs plan s0 s1 (t0, t1) t rs p d side m in
      Some (put f name d)
  end.

(* write_pair_single, find_write.rs:265-282 *)
Definition write_pair_single (fuel : nat) (t : SequenceType) (p : nat) (m : MatchOption)
    (pairing : option RowsumPairing) (pair : nat) (f : Folder) : option Folder :=
  let* rowsums := generate_rowsums fuel p t in
  fold_m (fun f rs => write_pair_single_rowsum p (seqtype_to_string t) rs p m pairing pair f) rowsums f.

(* create_rowsum_dirs, find_write.rs:342-375 *)
Definition create_rowsum_dirs (rs : Quad) (pairing : option RowsumPairing) (f : Folder) : option Folder :=
  let name := rowsum_dir rs in
  let d := open_dir f name in
  let* (_, indices) := sort_quad rs in
  let* tags := traverse index_to_tag indices in
  let* (k1, k2) := match pairing with
                   | Some WX => Some ((0, 1), (2, 3))
                   | Some WY => Some ((0, 2), (1, 3))
                   | Some WZ => Some ((0, 3), (1, 2))
                   | None => None
                   end in
  let* a1 := vget tags (fst k1) in let* b1 := vget tags (snd k1) in
  let* a2 := vget tags (fst k2) in let* b2 := vget tags (snd k2) in
  Some (put f name (put (put d (pair_file a1 b1) []) (pair_file a2 b2) [])).

(* write_pairs_rowsum, find_write.rs:402-473 *)
Definition write_pairs_rowsum (plan : nat) (folder : text) (rs : Quad) (p : nat) (m : MatchOption)
    (pairing : option RowsumPairing) (f : Folder) : option (Folder * Z) :=
  let name := rowsum_dir rs in
  let d := open_dir f name in
  let* t := str_to_seqtype folder in
  let* s0 := candidates t (rowsum_of_tag rs TW) p in
  let* s1 := candidates t (rowsum_of_tag rs TX) p in
  let* s2 := candidates t (rowsum_of_tag rs TY) p in
  let* s3 := candidates t (rowsum_of_tag rs TZ) p in
  let* d := write_sequences s0 d TW in
  let* d := write_sequences s1 d TX in
  let* d := write_sequences s2 d TY in
  let* d := write_sequences s3 d TZ in
  let* (d, counter) :=
    match pairing with
    | Some WX =>
        let* (d, c1) := write_seq_pairs plan s0 s1 (TW, TX) t rs p d LEFT m in
        let* (d, c2) := write_seq_pairs plan s2 s3 (TY, TZ) t rs p d RIGHT m in
        Some (d, (c1 + c2)%Z)
    | Some WY =>
        let* (d, c1) := write_seq_pairs plan s0 s2 (TW, TY) t rs p d LEFT m in
        let* (d, c2) := write_seq_pairs plan s1 s3 (TX, TZ) t rs p d RIGHT m in
        Some (d, (c1 + c2)%Z)
    | Some WZ | None =>
        let* (d, c1) := write_seq_pairs plan s0 s3 (TW, TZ) t rs p d LEFT m in
        let* (d, c2) := write_seq_pairs plan s1 s2 (TX, TY) t rs p d RIGHT m in
        Some (d, (c1 + c2)%Z)
    end in
  Some (put f name d, counter).

(* write_pairs, find_write.rs:377-400.  All sequences have length p, so the plans of fourier.rs are
   created for length p. *)
Definition write_pairs (fuel : nat) (p : nat) (t : SequenceType) (m : MatchOption)
    (pairing : option RowsumPairing) (f : Folder) : option (Folder * Z) :=
  let* rowsums := generate_rowsums fuel p t in
  let folder := seqtype_to_string t in
  fold_m (fun '(f, counter) rs =>
            let* (f, c) := write_pairs_rowsum p folder rs p m pairing f in Some (f, (counter + c)%Z))
    rowsums (f, 0%Z).

(* ---- sortpairs.sh ---- *)

(* sort with LC_ALL=C, sortpairs.sh:37 and 52 *)
Fixpoint insert_line (x : text) (l : Lines) : Lines :=
  match l with
  | [] => [x]
  | y :: r => if text_ltb y x then y :: insert_line x r else x :: l
  end.
Definition sort_lines (l : Lines) : Lines := fold_right insert_line [] l.
(* sortpairs.sh:44-60: every *.pair file is replaced by its sorted version *)
Definition sort_dir (d : Dir) : Dir :=
  fold_left (fun d e =>
      if ends_with (fst e) (lit ".pair")
      then put (filter (fun e' => negb (text_eqb (fst e') (fst e))) d) (fst e ++ lit ".sorted") (sort_lines (snd e))
      else d) d d.
(* sortpairs.sh:40-62 *)
Definition sortpairs (f : Folder) : Folder := map (fun '(name, d) => (name, sort_dir d)) f.

(* ---- reading ---- *)

(* string_to_sequence, find_write.rs:597-610 *)
Definition string_to_sequence (s : text) : option (list Z) :=
  traverse (fun c => if Ascii.eqb c "+"%char then Some 1%Z
                     else if Ascii.eqb c "-"%char then Some (-1)%Z else None) s.
(* file_to_sequences, find_write.rs:583-595 *)
Definition file_to_sequences (l : Lines) : option (list (list Z)) := traverse string_to_sequence l.

Definition Sequences : Type := list (list Z) * list (list Z) * list (list Z) * list (list Z).

(* get_sequences_from_dir, find_write.rs:552-580; the entries in the order of read_dir *)
Definition get_sequences_from_dir (d : Dir) : option Sequences :=
  fold_m (fun '(w, x, y, z) '(name, lines) =>
      if ends_with name (lit ".seq") then
        if text_eqb name (lit "seq_W.seq") then let* s := file_to_sequences lines in Some (s, x, y, z)
        else if text_eqb name (lit "seq_X.seq") then let* s := file_to_sequences lines in Some (w, s, y, z)
        else if text_eqb name (lit "seq_Y.seq") then let* s := file_to_sequences lines in Some (w, x, s, z)
        else if text_eqb name (lit "seq_Z.seq") then let* s := file_to_sequences lines in Some (w, x, y, s)
        else None
      else Some (w, x, y, z)) d ([], [], [], []).

(* get_tag_from_filename, find_write.rs:643-662 *)
Definition char_to_tag (c : ascii) : option Tag :=
  if Ascii.eqb c "W"%char then Some TW else if Ascii.eqb c "X"%char then Some TX
  else if Ascii.eqb c "Y"%char then Some TY else if Ascii.eqb c "Z"%char then Some TZ else None.
Definition get_tag_from_filename (name : text) : option (Tag * Tag) :=
  let* c1 := vget name 5 in let* tag1 := char_to_tag c1 in
  let* c2 := vget name 6 in let* tag2 := char_to_tag c2 in
  Some (tag1, tag2).

(* get_order_from_dir, find_write.rs:614-641; the files instead of their paths *)
Definition get_order_from_dir (d : Dir) : option ((Lines * Lines) * (Tag * Tag * Tag * Tag)) :=
  match filter (fun e => ends_with (fst e) (lit ".pair.sorted")) d with
  | [(name0, file0); (name1, file1)] =>
      let* (tag1, tag2) := get_tag_from_filename name0 in
      let* (tag3, tag4) := get_tag_from_filename name1 in
      Some ((file0, file1), (tag1, tag2, tag3, tag4))
  | _ => None
  end.

(* get_line_from, find_write.rs:758-771 *)
Definition get_line_from (s : text) : option (text * (nat * nat)) :=
  let '(line, rest) := split_at (lit "_:_") s in
  let* rest := rest in
  let '(indices_part, _) := split_at (lit "_:_") rest in
  let '(first, r1) := split_at (lit "_") indices_part in
  let* i := parse_usize first in
  let* r1 := r1 in
  let '(second, _) := split_at (lit "_") r1 in
  let* j := parse_usize second in
  Some (line, (Z.to_nat i, Z.to_nat j)).

(* get_sequence_aux and get_sequences, find_write.rs:774-804 *)
Definition get_sequence_aux (sequences : Sequences) (order : Tag * Tag * Tag * Tag)
    (indices : nat * nat * nat * nat) (tag : Tag) : option (list Z) :=
  let '(tag1, tag2, tag3, tag4) := order in
  let '(i1, i2, i3, i4) := indices in
  let* index :=
    if tag_eqb tag tag1 then Some i1 else if tag_eqb tag tag2 then Some i2
    else if tag_eqb tag tag3 then Some i3 else if tag_eqb tag tag4 then Some i4 else None in
  let '(w, x, y, z) := sequences in
  match tag with TW => vget w index | TX => vget x index | TY => vget y index | TZ => vget z index end.
Definition get_sequences (sequences : Sequences) (order : Tag * Tag * Tag * Tag) (indices : nat * nat * nat * nat)
    : option (list Z * list Z * list Z * list Z) :=
  let* w := get_sequence_aux sequences order indices TW in
  let* x := get_sequence_aux sequences order indices TX in
  let* y := get_sequence_aux sequences order indices TY in
  let* z := get_sequence_aux sequences order indices TZ in
  Some (w, x, y, z).

(* the condition of find_write.rs:732-738 *)
Definition join_condition (t : SequenceType) (q : QuadSeq) : option bool :=
  match t with
  | QuaternionType => let* s := to_qs q in QS_is_perfect s
  | WilliamsonType => verify_wts q
  | Williamson => verify_ws q
  | _ => Some false
  end.

(* the loops of find_write.rs:695-705 and 709-719: the indices of the lines with the current key,
   and the remaining lines *)
Fixpoint same_key (current : text) (lines : Lines) : option (list (nat * nat) * Lines) :=
  match lines with
  | [] => Some ([], [])
  | l :: r =>
      let* (key, indices) := get_line_from l in
      if text_eqb current key
      then let* (m, rest) := same_key current r in Some (indices :: m, rest)
      else Some ([], lines)
  end.

(* join_pairs_files, find_write.rs:669-755.  Each iteration consumes a line. *)
Definition join_step (t : SequenceType) (order : Tag * Tag * Tag * Tag) (sequences : Sequences)
    (st : Lines * Lines * list QuadSeq) : option ((Lines * Lines * list QuadSeq) + list QuadSeq) :=
  let '(lines12, lines34, result) := st in
  match lines12, lines34 with
  | line12 :: rest12, line34 :: rest34 =>
      let* (seq12, _) := get_line_from line12 in
      let* (seq34, _) := get_line_from line34 in
      if text_eqb seq12 seq34 then
        let* (m12, rest12) := same_key seq12 lines12 in
        let* (m34, rest34) := same_key seq12 lines34 in
        let* result := fold_m (fun result '((i1, i2), (i3, i4)) =>
            let* (w, x, y, z) := get_sequences sequences order (i1, i2, i3, i4) in
            let quad_seq := set_all_values (Quad_new (length w)) w x y z in
            let* b := join_condition t quad_seq in
            Some (if b then result ++ [quad_seq] else result)) (iproduct m12 m34) result in
        Some (inl (rest12, rest34, result))
      else if text_ltb seq12 seq34 then Some (inl (rest12, lines34, result))
      else Some (inl (lines12, rest34, result))
  | _, _ => Some (inr result)
  end.
Definition join_pairs_files (lines12 lines34 : Lines) (t : SequenceType) (order : Tag * Tag * Tag * Tag)
    (sequences : Sequences) : option (list QuadSeq) :=
  run (S (length lines12 + length lines34)) (join_step t order sequences) (lines12, lines34, []).

(* The orders in which read_dir lists the folder and, for each directory, its files: once for
   get_sequences_from_dir and once for get_order_from_dir. *)
Record Listing := mkListing {
  ls_folder : Folder -> Folder; ls_seq : text -> Dir -> Dir; ls_pair : text -> Dir -> Dir }.

(* the matching part of join_pairs, find_write.rs:490-519 (only directories are in a Folder) *)
Definition match_pairs (ls : Listing) (t : SequenceType) (f : Folder) : option (list QuadSeq) :=
  fold_m (fun result '(name, d) =>
      let* sequences := get_sequences_from_dir (ls_seq ls name d) in
      let* (files, order) := get_order_from_dir (ls_pair ls name d) in
      let* r := join_pairs_files (fst files) (snd files) t order sequences in
      Some (result ++ r)) (ls_folder ls f) [].

(* join_pairs, find_write.rs:490-549 *)
Definition join_pairs (fuel : nat) (ord : Order) (p : list nat) (ls : Listing) (t : SequenceType) (f : Folder)
    : option (list QuadSeq) :=
  let* result := match_pairs ls t f in
  let* filtered :=
    match t with
    | QuaternionType => let* l := traverse ns_canonical result in Some (unique l)
    | WilliamsonType | Williamson => let* l := traverse sn_ss_canonical result in Some (unique l)
    | _ => None
    end in
  reduce_to_canonical_reps fuel ord p filtered t.

(* ---- main.rs ---- *)

(* the lines of a .seq file, main.rs:117 and 164 *)
Definition seq_lines (l : list QuadSeq) : option Lines :=
  traverse (fun w => let* qs := to_qs w in QS_to_string_raw qs) l.

(* the extension of the list of results, main.rs:128-149 *)
Definition extend_wts (i : nat) (result : list QuadSeq) : option (list QuadSeq) :=
  let* extra := traverse (fun q =>
      let q1 := set_sequence q (negated (sequence q TW)) TW in
      if (i mod 2 =? 0)%nat then
        let* h := half_shift (sequence q TW) in
        Some [q1; set_sequence q h TW; set_sequence q (negated h) TW]
      else Some [q1]) result in
  Some (result ++ concat extra).

(* find_write_quad_seq, main.rs:92-169: the lines of result.seq and, for Williamson-type, of
   result-qts.seq.  The .qseq files hold the same quadruples in another notation. *)
Definition find_write_quad_seq (fuel : nat) (ord : Order) (p : list nat) (ls : Listing) (i : nat)
    (t : SequenceType) (f : Folder) : option (Lines * option Lines) :=
  let* result := join_pairs fuel ord (0 :: p) ls t f in
  let* out := seq_lines result in
  match t with
  | WilliamsonType =>
      let* l := extend_wts i result in
      let* qt_reduced := reduce_to_canonical_reps fuel ord (1 :: p) l QuaternionType in
      let* out' := seq_lines qt_reduced in
      Some (out, Some out')
  | _ => Some (out, None)
  end.

(* driver.sh:92-121 without the conversion to matrices: the search in an empty folder *)
Definition driver (fuel : nat) (ord : Order) (p : list nat) (ls : Listing) (t : SequenceType) (n : nat)
    (m : MatchOption) (pairing : option RowsumPairing) : option (Lines * option Lines) :=
  let* (f, _) := write_pairs fuel n t m pairing [] in
  find_write_quad_seq fuel ord p ls n t (sortpairs f).
