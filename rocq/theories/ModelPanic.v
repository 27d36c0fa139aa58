(* What a run that panics leaves behind: the functions of find_write.rs and main.rs that write files, with
   the state of the files at the moment of the panic.  Every function returns the files and whether it
   ended without a panic.  What the functions compute is taken from the other model files; a run out of
   fuel counts as a panic.  f.write writes the whole buffer at once. *)
From Coq Require Import Ascii String List ZArith Bool Arith Reals.
From Verif Require Import Base Quat ModelSequence ModelWilliamson ModelEquivalence ModelMatrices ModelGraph ModelRowsum ModelFourier ModelMatching ModelWrite ModelMain.
Import ListNotations.
Open Scope nat_scope.
Notation length := List.length.

(* a for loop that may panic: the state so far is kept *)
Fixpoint loop {A S} (step : S -> A -> S * bool) (l : list A) (s : S) : S * bool :=
  match l with
  | [] => (s, true)
  | a :: r => let '(s', ok) := step s a in if ok then loop step r s' else (s', false)
  end.

(* ---- find_write.rs ---- *)

(* write_sequences, find_write.rs:85-94: the file is created, then the lines are written one by one *)
Definition write_sequences_x (sequences : list (list Z)) (d : Dir) (t : Tag) : Dir * bool :=
  let '(lines, ok) := loop (fun lines s => match sequence_to_string s with Some l => (lines ++ [l], true) | None => (lines, false) end) sequences [] in
  (put d (seq_file t) lines, ok).

(* write_seq_pairs, find_write.rs:128-251: the assertion of line 131 comes before the file is created; the
   iterator computes the spectra of a pair when the loop asks for it, and complete thousands of
   lines are in the file *)
Definition write_seq_pairs_x (plan : nat) (s1 s2 : list (list Z)) (tags : Tag * Tag) (t : SequenceType) (rs : Quad)
    (p : nat) (d : Dir) (side : EquationSide) (m : MatchOption) : Dir * option Z :=
  if negb (verify_rowsums s1 s2 tags rs) then (d, None)
  else
    let '((file, buffer, counter), ok) := loop (fun '(file, buffer, counter) '(e1, e2) =>
        match couple_psds plan (4 * INR p)%R e1 e2 with
        | None => ((file, buffer, counter), false)
        | Some None => ((file, buffer, counter), true)
        | Some (Some data) =>
            match pair_key plan tags t p side m data with
            | None => ((file, buffer, counter), false)
            | Some None => ((file, buffer, counter), true)
            | Some (Some k) =>
                let buffer := buffer ++ [pair_line k (fst (seq_enum1 data)) (fst (seq_enum2 data))] in
                let counter := (counter + 1)%Z in
                (if (counter mod 1000 =? 0)%Z then (file ++ buffer, [], counter) else (file, buffer, counter), true)
            end
        end) (iproduct (enumerate s1) (enumerate s2)) ([], [], 0%Z) in
    if ok then (put d (pair_file (fst tags) (snd tags)) (file ++ buffer), Some counter)
    else (put d (pair_file (fst tags) (snd tags)) file, None).

(* the files of some sequences, one after the other *)
Definition write_all_sequences_x (l : list (Tag * list (list Z))) (d : Dir) : Dir * bool :=
  loop (fun d '(t, s) => write_sequences_x s d t) l d.

(* write_pairs_rowsum, find_write.rs:402-473: create_dir_all first *)
Definition write_pairs_rowsum_x (plan : nat) (folder : text) (rs : Quad) (p : nat) (m : MatchOption)
    (pairing : option RowsumPairing) (f : Folder) : Folder * option Z :=
  let name := rowsum_dir rs in
  let d := open_dir f name in
  match (let* t := str_to_seqtype folder in
         let* s0 := candidates t (rowsum_of_tag rs TW) p in
         let* s1 := candidates t (rowsum_of_tag rs TX) p in
         let* s2 := candidates t (rowsum_of_tag rs TY) p in
         let* s3 := candidates t (rowsum_of_tag rs TZ) p in Some (t, s0, s1, s2, s3)) with
  | None => (put f name d, None)
  | Some (t, s0, s1, s2, s3) =>
      let '(d, ok) := write_all_sequences_x [(TW, s0); (TX, s1); (TY, s2); (TZ, s3)] d in
      if negb ok then (put f name d, None)
      else
        let both s1 s2 tags s1' s2' tags' :=
          match write_seq_pairs_x plan s1 s2 tags t rs p d LEFT m with
          | (d, None) => (put f name d, None)
          | (d, Some c1) =>
              match write_seq_pairs_x plan s1' s2' tags' t rs p d RIGHT m with
              | (d, None) => (put f name d, None)
              | (d, Some c2) => (put f name d, Some (c1 + c2)%Z)
              end
          end in
        match pairing with
        | Some WX => both s0 s1 (TW, TX) s2 s3 (TY, TZ)
        | Some WY => both s0 s2 (TW, TY) s1 s3 (TX, TZ)
        | Some WZ | None => both s0 s3 (TW, TZ) s1 s2 (TX, TY)
        end
  end.

(* write_pairs, find_write.rs:377-400 *)
Definition write_pairs_x (fuel : nat) (p : nat) (t : SequenceType) (m : MatchOption)
    (pairing : option RowsumPairing) (f : Folder) : Folder * bool :=
  match generate_rowsums fuel p t with
  | None => (f, false)
  | Some rowsums =>
      loop (fun f rs => match write_pairs_rowsum_x p (seqtype_to_string t) rs p m pairing f with
                        | (f, Some _) => (f, true) | (f, None) => (f, false)
                        end) rowsums f
  end.

(* write_pair_single_rowsum, find_write.rs:284-340 *)
Definition write_pair_single_rowsum_x (plan : nat) (folder : text) (rs : Quad) (p : nat) (m : MatchOption)
    (pairing : option RowsumPairing) (pair : nat) (f : Folder) : Folder * bool :=
  let name := rowsum_dir rs in
  let d := open_dir f name in
  match str_to_seqtype folder with
  | None => (put f name d, false)
  | Some t =>
      match get_indices pairing pair with
      | None => (put f name d, true)
      | Some (i0, i1) =>
          match (let* t0 := index_to_tag i0 in let* t1 := index_to_tag i1 in
                 let* s0 := candidates t (rowsum_of_tag rs t0) p in
                 let* s1 := candidates t (rowsum_of_tag rs t1) p in Some (t0, t1, s0, s1)) with
          | None => (put f name d, false)
          | Some (t0, t1, s0, s1) =>
              let '(d, ok) := write_all_sequences_x [(t0, s0); (t1, s1)] d in
              if negb ok then (put f name d, false)
              else
                match (match pair with 1 => Some LEFT | 2 => Some RIGHT | _ => None end) with
                | None => (put f name d, false)
                | Some side =>
                    match write_seq_pairs_x plan s0 s1 (t0, t1) t rs p d side m with
                    | (d, Some _) => (put f name d, true)
                    | (d, None) => (put f name d, false)
                    end
                end
          end
      end
  end.

(* create_rowsum_dirs, find_write.rs:342-375: the directory, then the panic of line 370 or the two files *)
Definition create_rowsum_dirs_x (rs : Quad) (pairing : option RowsumPairing) (f : Folder) : Folder * bool :=
  match create_rowsum_dirs rs pairing f with
  | Some f' => (f', true)
  | None => (put f (rowsum_dir rs) (open_dir f (rowsum_dir rs)), false)
  end.

(* ---- main.rs ---- *)

(* find_write_quad_seq, main.rs:92-169: lines 114-115 create result.seq and result.qseq before their texts are
   made, lines 161-162 the other two *)
Definition find_write_place_x (fuel : nat) (ord : Order) (p : list nat) (ls : Listing) (i : nat) (t : SequenceType) (pl : Place) : Place * bool :=
  match (let* result := join_pairs fuel ord (0 :: p) ls t (pl_dirs pl) in
         let* _ := match t with QuaternionType => traverse is_amicable result | _ => Some [] end in
         Some result) with
  | None => (pl, false)
  | Some result =>
      match (let* out := seq_lines result in let* qout := qseq_text result in Some (out, qout)) with
      | None => (set_seq pl [] [], false)
      | Some (out, qout) =>
          let pl := set_seq pl out qout in
          match t with
          | WilliamsonType =>
              match (let* l := extend_wts i result in reduce_to_canonical_reps fuel ord (1 :: p) l QuaternionType) with
              | None => (pl, false)
              | Some qt_reduced =>
                  match (let* out' := seq_lines qt_reduced in let* qout' := qseq_text qt_reduced in Some (out', qout')) with
                  | None => (set_qts pl [] [], false)
                  | Some (out', qout') => (set_qts pl out' qout', true)
                  end
              end
          | _ => (pl, true)
          end
      end
  end.

(* qhm_write_all, main.rs:212-238: the file is created in line 231, then written matrix by matrix *)
Definition qhm_write_all_x (fuel : nat) (ord : Order) (p : list nat) (t : SequenceType) (lines : Lines) (pl : Place) : Place * bool :=
  match (let* qts := traverse (fun line => let* pqs := QS_from_str line in from_pqs pqs) lines in
         let* _ := traverse QuadSeq_to_string qts in
         generate_equivalent_quad_seqs fuel ord p qts t) with
  | None => (pl, false)
  | Some equ =>
      let '(s, ok) := loop (fun s seq =>
          match (let* pqs := to_qs seq in let* qhm := QHM_from_pqs pqs in let* qhm := QHM_dephased qhm in QHM_to_string qhm) with
          | Some r => (s ++ r ++ nl1 ++ nl1, true)
          | None => (s, false)
          end) equ [] in
      (set_all pl s, ok)
  end.

(* hadamard_equivalence_from_file, matrix_equivalence.rs:72-123: the number of matrices is known and result.mat is
   created in line 115, before the texts of the matrices are made *)
Definition hadamard_equivalence_x {L} (canon : Graph -> L) (same : L -> L -> bool) (ord : list HM -> list HM)
    (lines : Lines) (seqtype : SequenceType) (pl : Place) : Place * bool :=
  match (let* seqs := traverse QS_from_str lines in
         let* quad_seq_list := traverse from_pqs seqs in
         let* ok := all_m (fun q => verify q seqtype) quad_seq_list in
         guard ok (traverse (fun q => let* hmat := HM_from_williamson q QuaternionType in
                                      let* c := canon_hm canon hmat in Some (c, hmat)) quad_seq_list)) with
  | None => (pl, false)
  | Some pairs =>
      let equ := ord (map snd (fold_left (fun m '(k, v) => map_insert same k v m) pairs [])) in
      match fold_m (fun s mat => let* t := HM_to_string_magma mat in Some (s ++ t ++ [newline_char])) equ [] with
      | None => (set_mat pl [], false)
      | Some s => (set_mat pl s, true)
      end
  end.

(* convert_qs_to_matrices, main.rs:178-209: result.qhm is created in line 187 and written at the end *)
Definition convert_qs_to_matrices_x (lines : Lines) (pl : Place) : Place * bool :=
  match convert_qs_to_matrices lines with
  | None => (set_qhm pl [], false)
  | Some (_, s) => (set_qhm pl s, true)
  end.

(* write_rowsums, find_write.rs:16-29: rowsums.quad is created in line 22 *)
Definition write_rowsums_x (fuel : nat) (p : nat) (t : SequenceType) (pl : Place) : Place * bool :=
  match write_rowsums fuel p t with
  | None => (set_quad pl [], false)
  | Some l => (set_quad pl l, true)
  end.

(* main, main.rs:335-456: the tree a command leaves, and whether it ended without a panic *)
Definition exec_x {L} (fuel : nat) (e : Env L) (c : Command) (w : World) : World * bool :=
  let name t := seqtype_to_string t in
  let num p := usize_to_string p in
  let on t p (r : Place * bool) := (write w (name t) (num p) (fst r), snd r) in
  let dirs t p (r : Folder * bool) := (write w (name t) (num p) (set_dirs (place_of w (name t) (num p)) (fst r)), snd r) in
  match c with
  | Help | Unrecognized => (w, true)
  | QhmAll t p =>
      match (let* pl := w (name t) (num p) in let* lines := pl_seq pl in Some (pl, lines)) with
      | None => (w, false)
      | Some (pl, lines) => on t p (qhm_write_all_x fuel (e_ord e) (e_path e) t lines pl)
      end
  | Amicable p =>
      match (let* pl := w (lit "qts") (num p) in let* lines := pl_seq pl in verify_qts_eq_wts lines) with
      | None => (w, false)
      | Some _ => (w, true)
      end
  | Rowsums t p =>
      match w (name t) (num p) with
      | None => (w, false)
      | Some pl => on t p (write_rowsums_x fuel (Z.to_nat p) t pl)
      end
  | Join t p =>
      match w (name t) (num p) with
      | None => (w, false)
      | Some pl => on t p (find_write_place_x fuel (e_ord e) (e_path e) (e_ls e) (Z.to_nat p) t pl)
      end
  | ConvertHm t p =>
      match (let* pl := w (name t) (num p) in
             let* lines := match t with WilliamsonType => pl_qts pl | _ => pl_seq pl end in Some (pl, lines)) with
      | None => (w, false)
      | Some (pl, lines) => on t p (hadamard_equivalence_x (e_canon e) (e_same e) (e_hms e) lines t pl)
      end
  | ConvertQhm t p =>
      match (let* pl := w (name t) (num p) in let* lines := pl_seq pl in Some (pl, lines)) with
      | None => (w, true)
      | Some (pl, lines) => on t p (convert_qs_to_matrices_x lines pl)
      end
  | Pairs t p m pairing =>
      let r := write_pairs_x fuel (Z.to_nat p) t m pairing (pl_dirs (place_of w (name t) (num p))) in
      match fst r with [] => (w, snd r) | _ => dirs t p r end
  | PairsRowsum t p rs m pairing =>
      dirs t p (match write_pairs_rowsum_x (Z.to_nat p) (name t) rs (Z.to_nat p) m pairing (pl_dirs (place_of w (name t) (num p))) with
                | (f, Some _) => (f, true) | (f, None) => (f, false)
                end)
  | Create t p rs pairing => dirs t p (create_rowsum_dirs_x rs pairing (pl_dirs (place_of w (name t) (num p))))
  | PairSingle t p rs m pairing k =>
      dirs t p (write_pair_single_rowsum_x (Z.to_nat p) (name t) rs (Z.to_nat p) m pairing (Z.to_nat k) (pl_dirs (place_of w (name t) (num p))))
  end.
(* one run: arguments that are not understood panic before anything is done *)
Definition run_main_x {L} (fuel : nat) (e : Env L) (args : list text) (w : World) : World * bool :=
  match parse_args args with Some c => exec_x fuel e c w | None => (w, false) end.

(* ---- driver.sh ---- *)

(* driver.sh:38-136, as ModelMain.driver_sh and driver_flags; the status of the program is lost in the pipe to tee *)
Definition run_on_x {L} (fuel : nat) (e : Env L) (args : list text) (w : World) : World := fst (run_main_x fuel e (lit "rust" :: args) w).
Definition driver_sh_x {L} (fuel : nat) (e : Env L) (x y m pairing : text) (hadamard : bool) (w : World) : World :=
  if negb (length (pl_dirs (place_of w x y)) =? 0) then w
  else
    let w := match w x y with Some _ => w | None => write w x y new_place end in
    let w := run_on_x fuel e [lit "pairs"; x; y; m; pairing] w in
    let w := sort_place x y w in
    let w := run_on_x fuel e [lit "join"; x; y] w in
    let w := if hadamard then run_on_x fuel e [lit "convert"; lit "hm"; x; y] w else w in
    run_on_x fuel e [lit "convert"; lit "qhm"; x; y] w.
Definition driver_flags_x {L} (fuel : nat) (e : Env L) (x y : text) (c : bool) (pairing : option text) (h d : bool) (w : World) : World :=
  let w := if d then cleanup x y w else w in
  driver_sh_x fuel e x y (if c then lit "correlation" else lit "psd") (match pairing with Some r => r | None => lit "WZ" end) h w.
