(* Model of the commands pairs_rowsum and pair_single as processes: the calls they make to the file system,
   in order, so that several of them can run at the same time on the folder of one search
   (results/pairs/<type>/find_<p>).

   A file is a list of bytes here.  A call of create_dir_all, File::create or File::write is one step; a call
   of File::write is taken to write the whole buffer, at the offset of its own file handle.  Messages are not
   modelled.  Other programs do not touch the folder. *)
From Coq Require Import Ascii String List ZArith Bool Arith Reals.
From Verif Require Import Base Quat ModelSequence ModelWilliamson ModelEquivalence ModelRowsum
  ModelFourier ModelMatching ModelWrite ModelMain.
Import ListNotations.
Notation length := List.length.
Open Scope nat_scope.

(* ---- the file system ---- *)

(* directory names to file names to bytes *)
Definition Store : Type := text -> option (text -> option text).
Inductive Action :=
  | MakeDir (dir : text)
  | MakeFile (dir file : text)
  | WriteAt (dir file : text) (offset : nat) (bytes : text).
Definition upd {A} (g : text -> A) (k : text) (v : A) : text -> A := fun k' => if text_eqb k' k then v else g k'.
(* a write beyond the end of the file fills the gap with zeros; one without bytes does nothing *)
Definition write_at (b : text) (o : nat) (s : text) : text :=
  match s with
  | [] => b
  | _ => firstn o b ++ repeat Ascii.zero (o - length b) ++ s ++ skipn (o + length s) b
  end.
(* fs::create_dir_all keeps a directory; File::create empties a file, and fails without the directory *)
Definition act (st : Store) (a : Action) : option Store :=
  match a with
  | MakeDir d => Some (match st d with Some _ => st | None => upd st d (Some (fun _ => None)) end)
  | MakeFile d f => let* files := st d in Some (upd st d (Some (upd files f (Some []))))
  | WriteAt d f o s =>
      let* files := st d in
      let* b := files f in
      Some (upd st d (Some (upd files f (Some (write_at b o s)))))
  end.
Definition perform (l : list Action) (st : Store) : option Store := fold_m act l st.

(* ---- find_write.rs ---- *)

(* File::create followed by calls of write: the offset of the handle grows with each of them *)
Fixpoint writes (dir file : text) (off : nat) (chunks : list text) : list Action :=
  match chunks with
  | [] => []
  | s :: r => WriteAt dir file off s :: writes dir file (off + length s) r
  end.
Definition put_acts (dir file : text) (chunks : list text) : list Action := MakeFile dir file :: writes dir file 0 chunks.

(* write_sequences, find_write.rs:85-94: one call of write per line *)
Definition write_sequences_acts (dir : text) (sequences : list (list Z)) (t : Tag) : option (list Action) :=
  let* lines := traverse sequence_to_string sequences in
  Some (put_acts dir (seq_file t) (map (fun l => l ++ nl1) lines)).

(* write_seq_pairs, find_write.rs:128-251: one call of write per 1000 lines, and one for the rest.  The state
   of the loop is (buffers written, buffer, counter). *)
Definition write_seq_pairs_acts (dir : text) (plan : nat) (s1 s2 : list (list Z)) (tags : Tag * Tag) (t : SequenceType) (rs : Quad)
    (p : nat) (side : EquationSide) (m : MatchOption) : option (list Action) :=
  guard (verify_rowsums s1 s2 tags rs) (
    let* pairs := iter_over_enumerate_filtered_couples_psds plan s1 s2 (4 * INR p)%R in
    let* (chunks, buffer, counter) := fold_m (fun '(chunks, buffer, counter) pair =>
        let* key := pair_key plan tags t p side m pair in
        match key with
        | None => Some (chunks, buffer, counter)
        | Some k =>
            let buffer := buffer ++ pair_line k (fst (seq_enum1 pair)) (fst (seq_enum2 pair)) ++ nl1 in
            let counter := (counter + 1)%Z in
            Some (if (counter mod 1000 =? 0)%Z then (chunks ++ [buffer], [], counter) else (chunks, buffer, counter))
        end) pairs ([], [], 0%Z) in
    Some (put_acts dir (pair_file (fst tags) (snd tags)) (chunks ++ [buffer]))).

(* write_pair_single_rowsum, find_write.rs:284-340 *)
Definition pair_single_acts (plan : nat) (folder : text) (rs : Quad) (p : nat) (m : MatchOption)
    (pairing : option RowsumPairing) (pair : nat) : option (list Action) :=
  let dir := rowsum_dir rs in
  let* t := str_to_seqtype folder in
  match get_indices pairing pair with
  | None => Some [MakeDir dir]
  | Some (i0, i1) =>
      let* t0 := index_to_tag i0 in
      let* t1 := index_to_tag i1 in
      let* s0 := candidates t (rowsum_of_tag rs t0) p in
      let* s1 := candidates t (rowsum_of_tag rs t1) p in
      let* a0 := write_sequences_acts dir s0 t0 in
      let* a1 := write_sequences_acts dir s1 t1 in
      let* side := match pair with 1 => Some LEFT | 2 => Some RIGHT | _ => None end in
      let* a2 := write_seq_pairs_acts dir plan s0 s1 (t0, t1) t rs p side m in
      Some (MakeDir dir :: a0 ++ a1 ++ a2)
  end.

(* write_pairs_rowsum, find_write.rs:402-473 *)
Definition pairs_rowsum_acts (plan : nat) (folder : text) (rs : Quad) (p : nat) (m : MatchOption)
    (pairing : option RowsumPairing) : option (list Action) :=
  let dir := rowsum_dir rs in
  let* t := str_to_seqtype folder in
  let* s0 := candidates t (rowsum_of_tag rs TW) p in
  let* s1 := candidates t (rowsum_of_tag rs TX) p in
  let* s2 := candidates t (rowsum_of_tag rs TY) p in
  let* s3 := candidates t (rowsum_of_tag rs TZ) p in
  let* a0 := write_sequences_acts dir s0 TW in
  let* a1 := write_sequences_acts dir s1 TX in
  let* a2 := write_sequences_acts dir s2 TY in
  let* a3 := write_sequences_acts dir s3 TZ in
  let* a4 :=
    match pairing with
    | Some WX =>
        let* b1 := write_seq_pairs_acts dir plan s0 s1 (TW, TX) t rs p LEFT m in
        let* b2 := write_seq_pairs_acts dir plan s2 s3 (TY, TZ) t rs p RIGHT m in
        Some (b1 ++ b2)
    | Some WY =>
        let* b1 := write_seq_pairs_acts dir plan s0 s2 (TW, TY) t rs p LEFT m in
        let* b2 := write_seq_pairs_acts dir plan s1 s3 (TX, TZ) t rs p RIGHT m in
        Some (b1 ++ b2)
    | Some WZ | None =>
        let* b1 := write_seq_pairs_acts dir plan s0 s3 (TW, TZ) t rs p LEFT m in
        let* b2 := write_seq_pairs_acts dir plan s1 s2 (TX, TY) t rs p RIGHT m in
        Some (b1 ++ b2)
    end in
  Some (MakeDir dir :: a0 ++ a1 ++ a2 ++ a3 ++ a4).

(* main.rs:406-418 and 433-451: the type and the length in the path, and the calls made there *)
Definition run_actions (args : list text) : option (text * text * list Action) :=
  let* c := parse_args args in
  match c with
  | PairsRowsum t p rs m pairing =>
      let* l := pairs_rowsum_acts (Z.to_nat p) (seqtype_to_string t) rs (Z.to_nat p) m pairing in
      Some (seqtype_to_string t, usize_to_string p, l)
  | PairSingle t p rs m pairing k =>
      let* l := pair_single_acts (Z.to_nat p) (seqtype_to_string t) rs (Z.to_nat p) m pairing (Z.to_nat k) in
      Some (seqtype_to_string t, usize_to_string p, l)
  | _ => None
  end.
