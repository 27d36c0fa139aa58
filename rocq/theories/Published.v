(* Tests of the translation (not proofs): the model run on the published output files of the program,
   /repo/wts-results/find_<n>/, small lengths.  In each block: rowsums_<n> the row sums of result.log;
   qhm_<n> result.qhm and the two numbers of result.log from result.seq; qseq_<n> result.qseq from
   result.seq; mat_ok_<n> every line of result.mat is the text of the matrix of a line of
   result-qts.seq; typed_<n> the lines of result.seq are of Williamson type; canon_<n> they are their
   own representatives, in this order; qts_<n>_ok result-qts.seq from result.seq; match_<n> and join_<n>
   the numbers after matching and after the first filter of result.log, and result.seq, from pair files.
   The keys in these pair files were computed in floating point outside Coq, with the line counts of
   result.log; the model of the spectra is over R and does not compute.  The same tests also pass for all
   published lengths 1 to 21 (qhm, qseq, mat_ok, typed, rowsums) and for lengths 1 to 5 (the others). *)
From Coq Require Import Ascii String List ZArith Bool Arith.
From Verif Require Import Base Quat ModelSequence ModelWilliamson ModelEquivalence ModelMatrices ModelGraph ModelRowsum ModelMatching ModelWrite ModelMain ModelLog.
Import ListNotations. Open Scope nat_scope.
Notation length := List.length.
Definition chars := list_ascii_of_string.
Definition ord_id : Order := fun _ l => l.
Fixpoint split_lines (s : text) : list text :=
  match s with [] => [] | c :: r => if Ascii.eqb c nl then [] :: split_lines r else match split_lines r with l :: ls => (c :: l) :: ls | [] => [[c]] end end.
Definition among (a : list text) (b : option (list text)) : option bool := option_map (fun b => forallb (fun x => existsb (text_eqb x) b) a) b.
Definition quads (l : list text) : option (list QuadSeq) := traverse (fun s => let* q := QS_from_str s in from_pqs q) l.
Definition ls_id : Listing := mkListing (fun f => f) (fun _ d => d) (fun _ d => d).
Definition dir_of (n : nat) (rs : Quad) (p1 p2 : Lines) : option (text * Dir) :=
  let* s0 := candidates WilliamsonType (rowsum_of_tag rs TW) n in
  let* s1 := candidates WilliamsonType (rowsum_of_tag rs TX) n in
  let* s2 := candidates WilliamsonType (rowsum_of_tag rs TY) n in
  let* s3 := candidates WilliamsonType (rowsum_of_tag rs TZ) n in
  let* d := write_sequences s0 [] TW in
  let* d := write_sequences s1 d TX in
  let* d := write_sequences s2 d TY in
  let* d := write_sequences s3 d TZ in
  Some (rowsum_dir rs, put (put d (pair_file TW TZ) p1) (pair_file TX TY) p2).
Example rowsums_1 : write_rowsums 500 1 WilliamsonType = Some (map chars ["1 1 1 1"]%string).
Proof. vm_compute. reflexivity. Qed.
Definition seq_1 : list text := map chars ["+"]%string.
Example qhm_1 : option_map (fun r => (fst r, split_lines (snd r))) (convert_qs_to_matrices seq_1) = Some (1, 0, map chars ["| + |"; ""]%string).
Proof. vm_compute. reflexivity. Qed.
Example qseq_1 : option_map split_lines (let* l := quads seq_1 in qseq_text l) = Some (map chars ["["; "  [-]"; "  [-]"; "  [-]"; "  [-]"; "]"]%string).
Proof. vm_compute. reflexivity. Qed.
Definition mat_1 : list text := map chars ["M := Matrix([[-1,-1,-1,-1],[-1,1,1,-1],[-1,-1,1,1],[-1,1,-1,1]]);"]%string.
Definition qts_1 : list text := map chars ["+"]%string.
Example mat_ok_1 : among mat_1 (let* l := quads qts_1 in traverse (fun q => let* h := HM_from_williamson q QuaternionType in HM_to_string_magma h) l) = Some true.
Proof. vm_compute. reflexivity. Qed.
Example typed_1 : (let* l := quads seq_1 in all_m (fun q => verify q WilliamsonType) l) = Some true.
Proof. vm_compute. reflexivity. Qed.
Example canon_1 : (let* l := quads seq_1 in let* r := reduce_to_canonical_reps 30 ord_id [] l WilliamsonType in seq_lines r) = Some seq_1.
Proof. vm_compute. reflexivity. Qed.
Example qts_1_ok : (let* l := quads seq_1 in let* l := extend_wts 1 l in let* r := reduce_to_canonical_reps 30 ord_id [] l QuaternionType in seq_lines r) = Some qts_1.
Proof. vm_compute. reflexivity. Qed.
Example rowsums_2 : write_rowsums 500 2 WilliamsonType = Some (map chars ["0 0 2 2"]%string).
Proof. vm_compute. reflexivity. Qed.
Definition seq_2 : list text := map chars ["+J"]%string.
Example qhm_2 : option_map (fun r => (fst r, split_lines (snd r))) (convert_qs_to_matrices seq_2) = Some (1, 0, map chars ["| + + |"; "| + - |"; ""]%string).
Proof. vm_compute. reflexivity. Qed.
Example qseq_2 : option_map split_lines (let* l := quads seq_2 in qseq_text l) = Some (map chars ["["; "  [--]"; "  [--]"; "  [-+]"; "  [-+]"; "]"]%string).
Proof. vm_compute. reflexivity. Qed.
Definition mat_2 : list text := map chars ["M := Matrix([[-1,-1,-1,-1,-1,1,-1,1],[-1,-1,-1,-1,1,-1,1,-1],[-1,-1,1,1,1,-1,-1,1],[-1,-1,1,1,-1,1,1,-1],[-1,1,-1,1,1,1,1,1],[1,-1,1,-1,1,1,1,1],[-1,1,1,-1,-1,-1,1,1],[1,-1,-1,1,-1,-1,1,1]]);"]%string.
Definition qts_2 : list text := map chars ["+J"]%string.
Example mat_ok_2 : among mat_2 (let* l := quads qts_2 in traverse (fun q => let* h := HM_from_williamson q QuaternionType in HM_to_string_magma h) l) = Some true.
Proof. vm_compute. reflexivity. Qed.
Example typed_2 : (let* l := quads seq_2 in all_m (fun q => verify q WilliamsonType) l) = Some true.
Proof. vm_compute. reflexivity. Qed.
Example rowsums_3 : write_rowsums 500 3 WilliamsonType = Some (map chars ["1 1 1 3"]%string).
Proof. vm_compute. reflexivity. Qed.
Definition seq_3 : list text := map chars ["++Q"]%string.
Example qhm_3 : option_map (fun r => (fst r, split_lines (snd r))) (convert_qs_to_matrices seq_3) = Some (1, 0, map chars ["| + + + |"; "| + S Q |"; "| + Q S |"; ""]%string).
Proof. vm_compute. reflexivity. Qed.
Example qseq_3 : option_map split_lines (let* l := quads seq_3 in qseq_text l) = Some (map chars ["["; "  [---]"; "  [--+]"; "  [--+]"; "  [--+]"; "]"]%string).
Proof. vm_compute. reflexivity. Qed.
Definition mat_3 : list text := map chars ["M := Matrix([[-1,-1,-1,-1,-1,1,-1,-1,1,-1,-1,1],[-1,-1,-1,1,-1,-1,1,-1,-1,1,-1,-1],[-1,-1,-1,-1,1,-1,-1,1,-1,-1,1,-1],[-1,-1,1,1,1,1,1,1,-1,-1,-1,1],[1,-1,-1,1,1,1,-1,1,1,1,-1,-1],[-1,1,-1,1,1,1,1,-1,1,-1,1,-1],[-1,-1,1,-1,-1,1,1,1,1,1,1,-1],[1,-1,-1,1,-1,-1,1,1,1,-1,1,1],[-1,1,-1,-1,1,-1,1,1,1,1,-1,1],[-1,-1,1,1,1,-1,-1,-1,1,1,1,1],[1,-1,-1,-1,1,1,1,-1,-1,1,1,1],[-1,1,-1,1,-1,1,-1,1,-1,1,1,1]]);"]%string.
Definition qts_3 : list text := map chars ["++Q"]%string.
Example mat_ok_3 : among mat_3 (let* l := quads qts_3 in traverse (fun q => let* h := HM_from_williamson q QuaternionType in HM_to_string_magma h) l) = Some true.
Proof. vm_compute. reflexivity. Qed.
Example typed_3 : (let* l := quads seq_3 in all_m (fun q => verify q WilliamsonType) l) = Some true.
Proof. vm_compute. reflexivity. Qed.
Example canon_3 : (let* l := quads seq_3 in let* r := reduce_to_canonical_reps 30 ord_id [] l WilliamsonType in seq_lines r) = Some seq_3.
Proof. vm_compute. reflexivity. Qed.
Example qts_3_ok : (let* l := quads seq_3 in let* l := extend_wts 3 l in let* r := reduce_to_canonical_reps 30 ord_id [] l QuaternionType in seq_lines r) = Some qts_3.
Proof. vm_compute. reflexivity. Qed.
Example rowsums_4 : write_rowsums 500 4 WilliamsonType = Some (map chars ["0 0 0 4"; "2 2 2 2"]%string).
Proof. vm_compute. reflexivity. Qed.
Definition seq_4 : list text := map chars ["+YIQ"; "+++-"]%string.
Example qhm_4 : option_map (fun r => (fst r, split_lines (snd r))) (convert_qs_to_matrices seq_4) = Some (2, 1, map chars ["| + + + + |"; "| + z K y |"; "| + j - J |"; "| + Q k x |"; ""; "| + + + + |"; "| + - - + |"; "| + - + - |"; "| + + - - |"; ""]%string).
Proof. vm_compute. reflexivity. Qed.
Example qseq_4 : option_map split_lines (let* l := quads seq_4 in qseq_text l) = Some (map chars ["["; "  [----]"; "  [--++]"; "  [--++]"; "  [-+-+]"; "]"; "["; "  [---+]"; "  [---+]"; "  [---+]"; "  [---+]"; "]"]%string).
Proof. vm_compute. reflexivity. Qed.
Definition mat_4 : list text := map chars ["M := Matrix([[-1,-1,-1,1,-1,-1,-1,1,-1,-1,-1,1,-1,-1,-1,1],[1,-1,-1,-1,1,-1,-1,-1,1,-1,-1,-1,1,-1,-1,-1],[-1,1,-1,-1,-1,1,-1,-1,-1,1,-1,-1,-1,1,-1,-1],[-1,-1,1,-1,-1,-1,1,-1,-1,-1,1,-1,-1,-1,1,-1],[-1,-1,-1,1,1,1,1,-1,1,1,1,-1,-1,-1,-1,1],[1,-1,-1,-1,-1,1,1,1,-1,1,1,1,1,-1,-1,-1],[-1,1,-1,-1,1,-1,1,1,1,-1,1,1,-1,1,-1,-1],[-1,-1,1,-1,1,1,-1,1,1,1,-1,1,-1,-1,1,-1],[-1,-1,-1,1,-1,-1,-1,1,1,1,1,-1,1,1,1,-1],[1,-1,-1,-1,1,-1,-1,-1,-1,1,1,1,-1,1,1,1],[-1,1,-1,-1,-1,1,-1,-1,1,-1,1,1,1,-1,1,1],[-1,-1,1,-1,-1,-1,1,-1,1,1,-1,1,1,1,-1,1],[-1,-1,-1,1,1,1,1,-1,-1,-1,-1,1,1,1,1,-1],[1,-1,-1,-1,-1,1,1,1,1,-1,-1,-1,-1,1,1,1],[-1,1,-1,-1,1,-1,1,1,-1,1,-1,-1,1,-1,1,1],[-1,-1,1,-1,1,1,-1,1,-1,-1,1,-1,1,1,-1,1]]);"; "M := Matrix([[-1,-1,-1,1,-1,-1,-1,1,-1,-1,-1,1,-1,1,-1,-1],[1,-1,-1,-1,1,-1,-1,-1,1,-1,-1,-1,-1,-1,1,-1],[-1,1,-1,-1,-1,1,-1,-1,-1,1,-1,-1,-1,-1,-1,1],[-1,-1,1,-1,-1,-1,1,-1,-1,-1,1,-1,1,-1,-1,-1],[-1,-1,-1,1,1,1,1,-1,1,-1,1,1,-1,-1,-1,1],[1,-1,-1,-1,-1,1,1,1,1,1,-1,1,1,-1,-1,-1],[-1,1,-1,-1,1,-1,1,1,1,1,1,-1,-1,1,-1,-1],[-1,-1,1,-1,1,1,-1,1,-1,1,1,1,-1,-1,1,-1],[-1,-1,-1,1,-1,1,-1,-1,1,1,1,-1,1,1,1,-1],[1,-1,-1,-1,-1,-1,1,-1,-1,1,1,1,-1,1,1,1],[-1,1,-1,-1,-1,-1,-1,1,1,-1,1,1,1,-1,1,1],[-1,-1,1,-1,1,-1,-1,-1,1,1,-1,1,1,1,-1,1],[-1,1,-1,-1,1,1,1,-1,-1,-1,-1,1,1,1,1,-1],[-1,-1,1,-1,-1,1,1,1,1,-1,-1,-1,-1,1,1,1],[-1,-1,-1,1,1,-1,1,1,-1,1,-1,-1,1,-1,1,1],[1,-1,-1,-1,1,1,-1,1,-1,-1,1,-1,1,1,-1,1]]);"]%string.
Definition qts_4 : list text := map chars ["+YIQ"; "+++-"; "+Y+y"]%string.
Example mat_ok_4 : among mat_4 (let* l := quads qts_4 in traverse (fun q => let* h := HM_from_williamson q QuaternionType in HM_to_string_magma h) l) = Some true.
Proof. vm_compute. reflexivity. Qed.
Example typed_4 : (let* l := quads seq_4 in all_m (fun q => verify q WilliamsonType) l) = Some true.
Proof. vm_compute. reflexivity. Qed.
Example rowsums_5 : write_rowsums 500 5 WilliamsonType = Some (map chars ["1 1 3 3"]%string).
Proof. vm_compute. reflexivity. Qed.
Definition seq_5 : list text := map chars ["+JJ+x"]%string.
Example qhm_5 : option_map (fun r => (fst r, split_lines (snd r))) (convert_qs_to_matrices seq_5) = Some (1, 1, map chars ["| + + + + + |"; "| + s V S x |"; "| + z j J U |"; "| + - Y j V |"; "| + j - Q u |"; ""]%string).
Proof. vm_compute. reflexivity. Qed.
Example qseq_5 : option_map split_lines (let* l := quads seq_5 in qseq_text l) = Some (map chars ["["; "  [----+]"; "  [----+]"; "  [-++--]"; "  [-++-+]"; "]"]%string).
Proof. vm_compute. reflexivity. Qed.
Definition mat_5 : list text := map chars ["M := Matrix([[-1,-1,-1,-1,1,-1,-1,-1,-1,1,-1,1,1,-1,-1,-1,1,1,-1,1],[1,-1,-1,-1,-1,1,-1,-1,-1,-1,-1,-1,1,1,-1,1,-1,1,1,-1],[-1,1,-1,-1,-1,-1,1,-1,-1,-1,-1,-1,-1,1,1,-1,1,-1,1,1],[-1,-1,1,-1,-1,-1,-1,1,-1,-1,1,-1,-1,-1,1,1,-1,1,-1,1],[-1,-1,-1,1,-1,-1,-1,-1,1,-1,1,1,-1,-1,-1,1,1,-1,1,-1],[-1,-1,-1,-1,1,1,1,1,1,-1,1,-1,-1,1,-1,-1,1,1,-1,-1],[1,-1,-1,-1,-1,-1,1,1,1,1,-1,1,-1,-1,1,-1,-1,1,1,-1],[-1,1,-1,-1,-1,1,-1,1,1,1,1,-1,1,-1,-1,-1,-1,-1,1,1],[-1,-1,1,-1,-1,1,1,-1,1,1,-1,1,-1,1,-1,1,-1,-1,-1,1],[-1,-1,-1,1,-1,1,1,1,-1,1,-1,-1,1,-1,1,1,1,-1,-1,-1],[-1,1,1,-1,-1,-1,1,1,-1,1,1,1,1,1,-1,1,1,1,1,-1],[-1,-1,1,1,-1,1,-1,1,1,-1,-1,1,1,1,1,-1,1,1,1,1],[-1,-1,-1,1,1,-1,1,-1,1,1,1,-1,1,1,1,1,-1,1,1,1],[1,-1,-1,-1,1,1,-1,1,-1,1,1,1,-1,1,1,1,1,-1,1,1],[1,1,-1,-1,-1,1,1,-1,1,-1,1,1,1,-1,1,1,1,1,-1,1],[-1,1,1,-1,1,1,-1,-1,1,1,-1,-1,-1,-1,1,1,1,1,1,-1],[1,-1,1,1,-1,1,1,-1,-1,1,1,-1,-1,-1,-1,-1,1,1,1,1],[-1,1,-1,1,1,1,1,1,-1,-1,-1,1,-1,-1,-1,1,-1,1,1,1],[1,-1,1,-1,1,-1,1,1,1,-1,-1,-1,1,-1,-1,1,1,-1,1,1],[1,1,-1,1,-1,-1,-1,1,1,1,-1,-1,-1,1,-1,1,1,1,-1,1]]);"]%string.
Definition qts_5 : list text := map chars ["+JJ+x"]%string.
Example mat_ok_5 : among mat_5 (let* l := quads qts_5 in traverse (fun q => let* h := HM_from_williamson q QuaternionType in HM_to_string_magma h) l) = Some true.
Proof. vm_compute. reflexivity. Qed.
Example typed_5 : (let* l := quads seq_5 in all_m (fun q => verify q WilliamsonType) l) = Some true.
Proof. vm_compute. reflexivity. Qed.
Example rowsums_6 : write_rowsums 500 6 WilliamsonType = Some (map chars ["0 2 2 4"]%string).
Proof. vm_compute. reflexivity. Qed.
Definition seq_6 : list text := map chars ["+JKJ+j"]%string.
Example qhm_6 : option_map (fun r => (fst r, split_lines (snd r))) (convert_qs_to_matrices seq_6) = Some (1, 0, map chars ["| + + + + + + |"; "| + + K k - - |"; "| + - k + K - |"; "| + - K - + k |"; "| + k - K k K |"; "| + K k - - + |"; ""]%string).
Proof. vm_compute. reflexivity. Qed.
Example qseq_6 : option_map split_lines (let* l := quads seq_6 in qseq_text l) = Some (map chars ["["; "  [-----+]"; "  [--+--+]"; "  [-+-+--]"; "  [-+++--]"; "]"]%string).
Proof. vm_compute. reflexivity. Qed.
Definition mat_6 : list text := map chars ["M := Matrix([[-1,-1,-1,-1,-1,1,-1,-1,1,-1,-1,1,-1,1,-1,1,-1,-1,-1,1,1,1,-1,-1],[1,-1,-1,-1,-1,-1,1,-1,-1,1,-1,-1,-1,-1,1,-1,1,-1,-1,-1,1,1,1,-1],[-1,1,-1,-1,-1,-1,-1,1,-1,-1,1,-1,-1,-1,-1,1,-1,1,-1,-1,-1,1,1,1],[-1,-1,1,-1,-1,-1,-1,-1,1,-1,-1,1,1,-1,-1,-1,1,-1,1,-1,-1,-1,1,1],[-1,-1,-1,1,-1,-1,1,-1,-1,1,-1,-1,-1,1,-1,-1,-1,1,1,1,-1,-1,-1,1],[-1,-1,-1,-1,1,-1,-1,1,-1,-1,1,-1,1,-1,1,-1,-1,-1,1,1,1,-1,-1,-1],[-1,-1,1,-1,-1,1,1,1,1,1,1,-1,1,-1,-1,-1,1,1,-1,1,-1,1,-1,-1],[1,-1,-1,1,-1,-1,-1,1,1,1,1,1,1,1,-1,-1,-1,1,-1,-1,1,-1,1,-1],[-1,1,-1,-1,1,-1,1,-1,1,1,1,1,1,1,1,-1,-1,-1,-1,-1,-1,1,-1,1],[-1,-1,1,-1,-1,1,1,1,-1,1,1,1,-1,1,1,1,-1,-1,1,-1,-1,-1,1,-1],[1,-1,-1,1,-1,-1,1,1,1,-1,1,1,-1,-1,1,1,1,-1,-1,1,-1,-1,-1,1],[-1,1,-1,-1,1,-1,1,1,1,1,-1,1,-1,-1,-1,1,1,1,1,-1,1,-1,-1,-1],[-1,1,-1,1,-1,-1,-1,1,1,1,-1,-1,1,1,1,1,1,-1,1,1,-1,1,1,-1],[-1,-1,1,-1,1,-1,-1,-1,1,1,1,-1,-1,1,1,1,1,1,-1,1,1,-1,1,1],[-1,-1,-1,1,-1,1,-1,-1,-1,1,1,1,1,-1,1,1,1,1,1,-1,1,1,-1,1],[1,-1,-1,-1,1,-1,1,-1,-1,-1,1,1,1,1,-1,1,1,1,1,1,-1,1,1,-1],[-1,1,-1,-1,-1,1,1,1,-1,-1,-1,1,1,1,1,-1,1,1,-1,1,1,-1,1,1],[1,-1,1,-1,-1,-1,1,1,1,-1,-1,-1,1,1,1,1,-1,1,1,-1,1,1,-1,1],[-1,1,1,1,-1,-1,1,-1,1,-1,1,1,-1,-1,1,-1,-1,1,1,1,1,1,1,-1],[-1,-1,1,1,1,-1,1,1,-1,1,-1,1,1,-1,-1,1,-1,-1,-1,1,1,1,1,1],[-1,-1,-1,1,1,1,1,1,1,-1,1,-1,-1,1,-1,-1,1,-1,1,-1,1,1,1,1],[1,-1,-1,-1,1,1,-1,1,1,1,-1,1,-1,-1,1,-1,-1,1,1,1,-1,1,1,1],[1,1,-1,-1,-1,1,1,-1,1,1,1,-1,1,-1,-1,1,-1,-1,1,1,1,-1,1,1],[1,1,1,-1,-1,-1,-1,1,-1,1,1,1,-1,1,-1,-1,1,-1,1,1,1,1,-1,1]]);"]%string.
Definition qts_6 : list text := map chars ["+JKJ+j"]%string.
Example mat_ok_6 : among mat_6 (let* l := quads qts_6 in traverse (fun q => let* h := HM_from_williamson q QuaternionType in HM_to_string_magma h) l) = Some true.
Proof. vm_compute. reflexivity. Qed.
Example typed_6 : (let* l := quads seq_6 in all_m (fun q => verify q WilliamsonType) l) = Some true.
Proof. vm_compute. reflexivity. Qed.
Example rowsums_7 : write_rowsums 500 7 WilliamsonType = Some (map chars ["1 1 1 5"; "1 3 3 3"]%string).
Proof. vm_compute. reflexivity. Qed.
Definition seq_7 : list text := map chars ["+JYJ+--"; "+JKKJ+y"]%string.
Example qhm_7 : option_map (fun r => (fst r, split_lines (snd r))) (convert_qs_to_matrices seq_7) = Some (2, 2, map chars ["| + + + + + + + |"; "| + J S Q j + - |"; "| + j W - y J + |"; "| + J W j J y j |"; "| + - s + j - z |"; "| + w y u W W U |"; "| + x w - J j J |"; ""; "| + + + + + + + |"; "| + u v W V U y |"; "| + Q k I i K S |"; "| + - Q i j I u |"; "| + k - Z I i W |"; "| + j J - Y k U |"; "| + K j k - z s |"; ""]%string).
Proof. vm_compute. reflexivity. Qed.
Example qseq_7 : option_map split_lines (let* l := quads seq_7 in qseq_text l) = Some (map chars ["["; "  [-----++]"; "  [-----++]"; "  [-+-+-++]"; "  [-+++-++]"; "]"; "["; "  [------+]"; "  [--++--+]"; "  [-+--+-+]"; "  [-++++--]"; "]"]%string).
Proof. vm_compute. reflexivity. Qed.
Definition mat_7 : list text := map chars ["M := Matrix([[-1,-1,-1,-1,-1,-1,1,-1,-1,1,1,-1,-1,1,-1,1,-1,-1,1,-1,1,1,-1,-1,-1,-1,1,1],[1,-1,-1,-1,-1,-1,-1,1,-1,-1,1,1,-1,-1,1,-1,1,-1,-1,1,-1,1,1,-1,-1,-1,-1,1],[-1,1,-1,-1,-1,-1,-1,-1,1,-1,-1,1,1,-1,-1,1,-1,1,-1,-1,1,1,1,1,-1,-1,-1,-1],[-1,-1,1,-1,-1,-1,-1,-1,-1,1,-1,-1,1,1,1,-1,1,-1,1,-1,-1,-1,1,1,1,-1,-1,-1],[-1,-1,-1,1,-1,-1,-1,1,-1,-1,1,-1,-1,1,-1,1,-1,1,-1,1,-1,-1,-1,1,1,1,-1,-1],[-1,-1,-1,-1,1,-1,-1,1,1,-1,-1,1,-1,-1,-1,-1,1,-1,1,-1,1,-1,-1,-1,1,1,1,-1],[-1,-1,-1,-1,-1,1,-1,-1,1,1,-1,-1,1,-1,1,-1,-1,1,-1,1,-1,-1,-1,-1,-1,1,1,1],[-1,-1,1,1,-1,-1,1,1,1,1,1,1,1,-1,-1,1,1,1,1,-1,-1,-1,1,-1,-1,1,-1,1],[1,-1,-1,1,1,-1,-1,-1,1,1,1,1,1,1,-1,-1,1,1,1,1,-1,1,-1,1,-1,-1,1,-1],[-1,1,-1,-1,1,1,-1,1,-1,1,1,1,1,1,-1,-1,-1,1,1,1,1,-1,1,-1,1,-1,-1,1],[-1,-1,1,-1,-1,1,1,1,1,-1,1,1,1,1,1,-1,-1,-1,1,1,1,1,-1,1,-1,1,-1,-1],[1,-1,-1,1,-1,-1,1,1,1,1,-1,1,1,1,1,1,-1,-1,-1,1,1,-1,1,-1,1,-1,1,-1],[1,1,-1,-1,1,-1,-1,1,1,1,1,-1,1,1,1,1,1,-1,-1,-1,1,-1,-1,1,-1,1,-1,1],[-1,1,1,-1,-1,1,-1,1,1,1,1,1,-1,1,1,1,1,1,-1,-1,-1,1,-1,-1,1,-1,1,-1],[-1,1,-1,-1,1,-1,1,1,-1,-1,-1,-1,1,1,1,1,1,1,1,1,-1,1,1,-1,-1,1,1,-1],[1,-1,1,-1,-1,1,-1,1,1,-1,-1,-1,-1,1,-1,1,1,1,1,1,1,-1,1,1,-1,-1,1,1],[-1,1,-1,1,-1,-1,1,1,1,1,-1,-1,-1,-1,1,-1,1,1,1,1,1,1,-1,1,1,-1,-1,1],[1,-1,1,-1,1,-1,-1,-1,1,1,1,-1,-1,-1,1,1,-1,1,1,1,1,1,1,-1,1,1,-1,-1],[-1,1,-1,1,-1,1,-1,-1,-1,1,1,1,-1,-1,1,1,1,-1,1,1,1,-1,1,1,-1,1,1,-1],[-1,-1,1,-1,1,-1,1,-1,-1,-1,1,1,1,-1,1,1,1,1,-1,1,1,-1,-1,1,1,-1,1,1],[1,-1,-1,1,-1,1,-1,-1,-1,-1,-1,1,1,1,1,1,1,1,1,-1,1,1,-1,-1,1,1,-1,1],[1,-1,-1,-1,-1,1,1,1,-1,1,1,-1,1,-1,-1,-1,1,1,-1,-1,1,1,1,1,1,1,1,-1],[1,1,-1,-1,-1,-1,1,-1,1,-1,1,1,-1,1,1,-1,-1,1,1,-1,-1,-1,1,1,1,1,1,1],[1,1,1,-1,-1,-1,-1,1,-1,1,-1,1,1,-1,-1,1,-1,-1,1,1,-1,1,-1,1,1,1,1,1],[-1,1,1,1,-1,-1,-1,-1,1,-1,1,-1,1,1,-1,-1,1,-1,-1,1,1,1,1,-1,1,1,1,1],[-1,-1,1,1,1,-1,-1,1,-1,1,-1,1,-1,1,1,-1,-1,1,-1,-1,1,1,1,1,-1,1,1,1],[-1,-1,-1,1,1,1,-1,1,1,-1,1,-1,1,-1,1,1,-1,-1,1,-1,-1,1,1,1,1,-1,1,1],[-1,-1,-1,-1,1,1,1,-1,1,1,-1,1,-1,1,-1,1,1,-1,-1,1,-1,1,1,1,1,1,-1,1]]);"; "M := Matrix([[-1,-1,-1,-1,-1,-1,1,-1,-1,1,1,-1,-1,1,-1,1,-1,-1,1,-1,1,-1,1,1,1,1,-1,-1],[1,-1,-1,-1,-1,-1,-1,1,-1,-1,1,1,-1,-1,1,-1,1,-1,-1,1,-1,-1,-1,1,1,1,1,-1],[-1,1,-1,-1,-1,-1,-1,-1,1,-1,-1,1,1,-1,-1,1,-1,1,-1,-1,1,-1,-1,-1,1,1,1,1],[-1,-1,1,-1,-1,-1,-1,-1,-1,1,-1,-1,1,1,1,-1,1,-1,1,-1,-1,1,-1,-1,-1,1,1,1],[-1,-1,-1,1,-1,-1,-1,1,-1,-1,1,-1,-1,1,-1,1,-1,1,-1,1,-1,1,1,-1,-1,-1,1,1],[-1,-1,-1,-1,1,-1,-1,1,1,-1,-1,1,-1,-1,-1,-1,1,-1,1,-1,1,1,1,1,-1,-1,-1,1],[-1,-1,-1,-1,-1,1,-1,-1,1,1,-1,-1,1,-1,1,-1,-1,1,-1,1,-1,1,1,1,1,-1,-1,-1],[-1,-1,1,1,-1,-1,1,1,1,1,1,1,1,-1,1,-1,-1,-1,-1,1,1,-1,1,-1,-1,1,-1,1],[1,-1,-1,1,1,-1,-1,-1,1,1,1,1,1,1,1,1,-1,-1,-1,-1,1,1,-1,1,-1,-1,1,-1],[-1,1,-1,-1,1,1,-1,1,-1,1,1,1,1,1,1,1,1,-1,-1,-1,-1,-1,1,-1,1,-1,-1,1],[-1,-1,1,-1,-1,1,1,1,1,-1,1,1,1,1,-1,1,1,1,-1,-1,-1,1,-1,1,-1,1,-1,-1],[1,-1,-1,1,-1,-1,1,1,1,1,-1,1,1,1,-1,-1,1,1,1,-1,-1,-1,1,-1,1,-1,1,-1],[1,1,-1,-1,1,-1,-1,1,1,1,1,-1,1,1,-1,-1,-1,1,1,1,-1,-1,-1,1,-1,1,-1,1],[-1,1,1,-1,-1,1,-1,1,1,1,1,1,-1,1,-1,-1,-1,-1,1,1,1,1,-1,-1,1,-1,1,-1],[-1,1,-1,-1,1,-1,1,-1,1,1,1,1,-1,-1,1,1,1,1,1,1,-1,1,1,-1,-1,1,1,-1],[1,-1,1,-1,-1,1,-1,-1,-1,1,1,1,1,-1,-1,1,1,1,1,1,1,-1,1,1,-1,-1,1,1],[-1,1,-1,1,-1,-1,1,-1,-1,-1,1,1,1,1,1,-1,1,1,1,1,1,1,-1,1,1,-1,-1,1],[1,-1,1,-1,1,-1,-1,1,-1,-1,-1,1,1,1,1,1,-1,1,1,1,1,1,1,-1,1,1,-1,-1],[-1,1,-1,1,-1,1,-1,1,1,-1,-1,-1,1,1,1,1,1,-1,1,1,1,-1,1,1,-1,1,1,-1],[-1,-1,1,-1,1,-1,1,1,1,1,-1,-1,-1,1,1,1,1,1,-1,1,1,-1,-1,1,1,-1,1,1],[1,-1,-1,1,-1,1,-1,1,1,1,1,-1,-1,-1,1,1,1,1,1,-1,1,1,-1,-1,1,1,-1,1],[-1,1,1,1,1,-1,-1,1,-1,1,1,-1,1,-1,-1,-1,1,1,-1,-1,1,1,1,1,1,1,1,-1],[-1,-1,1,1,1,1,-1,-1,1,-1,1,1,-1,1,1,-1,-1,1,1,-1,-1,-1,1,1,1,1,1,1],[-1,-1,-1,1,1,1,1,1,-1,1,-1,1,1,-1,-1,1,-1,-1,1,1,-1,1,-1,1,1,1,1,1],[1,-1,-1,-1,1,1,1,-1,1,-1,1,-1,1,1,-1,-1,1,-1,-1,1,1,1,1,-1,1,1,1,1],[1,1,-1,-1,-1,1,1,1,-1,1,-1,1,-1,1,1,-1,-1,1,-1,-1,1,1,1,1,-1,1,1,1],[1,1,1,-1,-1,-1,1,1,1,-1,1,-1,1,-1,1,1,-1,-1,1,-1,-1,1,1,1,1,-1,1,1],[1,1,1,1,-1,-1,-1,-1,1,1,-1,1,-1,1,-1,1,1,-1,-1,1,-1,1,1,1,1,1,-1,1]]);"; "M := Matrix([[-1,-1,-1,-1,-1,1,1,-1,-1,-1,-1,-1,1,1,-1,1,-1,1,-1,1,1,-1,1,1,1,-1,1,1],[1,-1,-1,-1,-1,-1,1,1,-1,-1,-1,-1,-1,1,1,-1,1,-1,1,-1,1,1,-1,1,1,1,-1,1],[1,1,-1,-1,-1,-1,-1,1,1,-1,-1,-1,-1,-1,1,1,-1,1,-1,1,-1,1,1,-1,1,1,1,-1],[-1,1,1,-1,-1,-1,-1,-1,1,1,-1,-1,-1,-1,-1,1,1,-1,1,-1,1,-1,1,1,-1,1,1,1],[-1,-1,1,1,-1,-1,-1,-1,-1,1,1,-1,-1,-1,1,-1,1,1,-1,1,-1,1,-1,1,1,-1,1,1],[-1,-1,-1,1,1,-1,-1,-1,-1,-1,1,1,-1,-1,-1,1,-1,1,1,-1,1,1,1,-1,1,1,-1,1],[-1,-1,-1,-1,1,1,-1,-1,-1,-1,-1,1,1,-1,1,-1,1,-1,1,1,-1,1,1,1,-1,1,1,-1],[-1,-1,-1,-1,-1,1,1,1,1,1,1,1,-1,-1,1,-1,-1,-1,1,-1,-1,-1,1,-1,1,-1,1,1],[1,-1,-1,-1,-1,-1,1,-1,1,1,1,1,1,-1,-1,1,-1,-1,-1,1,-1,1,-1,1,-1,1,-1,1],[1,1,-1,-1,-1,-1,-1,-1,-1,1,1,1,1,1,-1,-1,1,-1,-1,-1,1,1,1,-1,1,-1,1,-1],[-1,1,1,-1,-1,-1,-1,1,-1,-1,1,1,1,1,1,-1,-1,1,-1,-1,-1,-1,1,1,-1,1,-1,1],[-1,-1,1,1,-1,-1,-1,1,1,-1,-1,1,1,1,-1,1,-1,-1,1,-1,-1,1,-1,1,1,-1,1,-1],[-1,-1,-1,1,1,-1,-1,1,1,1,-1,-1,1,1,-1,-1,1,-1,-1,1,-1,-1,1,-1,1,1,-1,1],[-1,-1,-1,-1,1,1,-1,1,1,1,1,-1,-1,1,-1,-1,-1,1,-1,-1,1,1,-1,1,-1,1,1,-1],[-1,1,-1,1,-1,1,1,-1,1,1,1,-1,1,1,1,1,1,1,1,-1,-1,1,1,1,1,1,-1,-1],[1,-1,1,-1,1,-1,1,1,-1,1,1,1,-1,1,-1,1,1,1,1,1,-1,-1,1,1,1,1,1,-1],[1,1,-1,1,-1,1,-1,1,1,-1,1,1,1,-1,-1,-1,1,1,1,1,1,-1,-1,1,1,1,1,1],[-1,1,1,-1,1,-1,1,-1,1,1,-1,1,1,1,1,-1,-1,1,1,1,1,1,-1,-1,1,1,1,1],[1,-1,1,1,-1,1,-1,1,-1,1,1,-1,1,1,1,1,-1,-1,1,1,1,1,1,-1,-1,1,1,1],[-1,1,-1,1,1,-1,1,1,1,-1,1,1,-1,1,1,1,1,-1,-1,1,1,1,1,1,-1,-1,1,1],[1,-1,1,-1,1,1,-1,1,1,1,-1,1,1,-1,1,1,1,1,-1,-1,1,1,1,1,1,-1,-1,1],[-1,1,1,1,-1,1,1,1,-1,1,-1,1,-1,-1,-1,-1,-1,-1,-1,1,1,1,1,1,1,1,-1,-1],[1,-1,1,1,1,-1,1,-1,1,-1,1,-1,1,-1,1,-1,-1,-1,-1,-1,1,-1,1,1,1,1,1,-1],[1,1,-1,1,1,1,-1,-1,-1,1,-1,1,-1,1,1,1,-1,-1,-1,-1,-1,-1,-1,1,1,1,1,1],[-1,1,1,-1,1,1,1,1,-1,-1,1,-1,1,-1,-1,1,1,-1,-1,-1,-1,1,-1,-1,1,1,1,1],[1,-1,1,1,-1,1,1,-1,1,-1,-1,1,-1,1,-1,-1,1,1,-1,-1,-1,1,1,-1,-1,1,1,1],[1,1,-1,1,1,-1,1,1,-1,1,-1,-1,1,-1,-1,-1,-1,1,1,-1,-1,1,1,1,-1,-1,1,1],[1,1,1,-1,1,1,-1,-1,1,-1,1,-1,-1,1,-1,-1,-1,-1,1,1,-1,1,1,1,1,-1,-1,1]]);"]%string.
Definition qts_7 : list text := map chars ["+JYJ+--"; "+JKKJ+y"; "YXZZXY-"]%string.
Example mat_ok_7 : among mat_7 (let* l := quads qts_7 in traverse (fun q => let* h := HM_from_williamson q QuaternionType in HM_to_string_magma h) l) = Some true.
Proof. vm_compute. reflexivity. Qed.
Example typed_7 : (let* l := quads seq_7 in all_m (fun q => verify q WilliamsonType) l) = Some true.
Proof. vm_compute. reflexivity. Qed.
Example rowsums_8 : write_rowsums 500 8 WilliamsonType = Some (map chars ["0 0 4 4"]%string).
Proof. vm_compute. reflexivity. Qed.
Example rowsums_9 : write_rowsums 500 9 WilliamsonType = Some (map chars ["1 1 3 5"; "3 3 3 3"]%string).
Proof. vm_compute. reflexivity. Qed.
Example rowsums_10 : write_rowsums 500 10 WilliamsonType = Some (map chars ["0 0 2 6"; "2 2 4 4"]%string).
Proof. vm_compute. reflexivity. Qed.
Example rowsums_11 : write_rowsums 500 11 WilliamsonType = Some (map chars ["1 3 3 5"]%string).
Proof. vm_compute. reflexivity. Qed.
Example rowsums_12 : write_rowsums 500 12 WilliamsonType = Some (map chars ["0 4 4 4"; "2 2 2 6"]%string).
Proof. vm_compute. reflexivity. Qed.
Example match_1 : (let* f := traverse (fun x => x) [dir_of 1 (1%Z, 1%Z, 1%Z, 1%Z) (map chars ["_:_0_0"]%string) (map chars ["_:_0_0"]%string)] in let* r := match_pairs ls_id WilliamsonType (sortpairs f) in let* l := traverse sn_ss_canonical r in Some (length r, length (unique l))) = Some (1, 1).
Proof. vm_compute. reflexivity. Qed.
Example join_1 : (let* f := traverse (fun x => x) [dir_of 1 (1%Z, 1%Z, 1%Z, 1%Z) (map chars ["_:_0_0"]%string) (map chars ["_:_0_0"]%string)] in let* r := join_pairs 60 ord_id [] ls_id WilliamsonType (sortpairs f) in seq_lines r) = Some (map chars ["+"]%string).
Proof. vm_compute. reflexivity. Qed.
Example match_2 : (let* f := traverse (fun x => x) [dir_of 2 (0%Z, 0%Z, 2%Z, 2%Z) (map chars ["4_:_0_0"; "4_:_1_0"]%string) (map chars ["4_:_0_0"; "4_:_1_0"]%string)] in let* r := match_pairs ls_id WilliamsonType (sortpairs f) in let* l := traverse sn_ss_canonical r in Some (length r, length (unique l))) = Some (4, 1).
Proof. vm_compute. reflexivity. Qed.
Example match_3 : (let* f := traverse (fun x => x) [dir_of 3 (1%Z, 1%Z, 1%Z, 3%Z) (map chars ["4_:_0_0"; "4_:_1_0"; "4_:_2_0"]%string) (map chars ["4_:_0_0"; "4_:_1_1"; "4_:_2_2"]%string)] in let* r := match_pairs ls_id WilliamsonType (sortpairs f) in let* l := traverse sn_ss_canonical r in Some (length r, length (unique l))) = Some (3, 3).
Proof. vm_compute. reflexivity. Qed.
Example join_3 : (let* f := traverse (fun x => x) [dir_of 3 (1%Z, 1%Z, 1%Z, 3%Z) (map chars ["4_:_0_0"; "4_:_1_0"; "4_:_2_0"]%string) (map chars ["4_:_0_0"; "4_:_1_1"; "4_:_2_2"]%string)] in let* r := join_pairs 60 ord_id [] ls_id WilliamsonType (sortpairs f) in seq_lines r) = Some (map chars ["++Q"]%string).
Proof. vm_compute. reflexivity. Qed.
(* The logs.  log_<n> is the published file; rest_3 the part from sortpairs.sh on, produced by the model
   from the pair files above with the published times; row_<n> the row of the table. *)
Definition log_3 : Lines := map chars ["Generating rowsum decompositions for length 3 ..."; "(1, 1, 1, 3)"; "Generated 1 different rowsums"; ""; "Generating .pair files for rowsums (1, 1, 1, 3) ..."; "Found 3 sequences with rowsum 1"; "Found 3 sequences with rowsum 1"; "Found 3 sequences with rowsum 1"; "Found 1 sequences with rowsum 3"; "Generating all sequences with rowsums (1, 1, 1, 3) took 0.02 seconds"; "Generated 3 pairs for pairing WZ"; "Generated 3 pairs for pairing XY"; "Generating .pair files for both pairs took 0.03 seconds"; ""; "Generated 6 total pairs"; "Total time to generate .pair files: 0.04 seconds"; ""; "Sorting file results/pairs/wts/find_3/rowsum_1_1_1_3/pair_WZ.pair ..."; "Sorting file results/pairs/wts/find_3/rowsum_1_1_1_3/pair_XY.pair ..."; "Total time to sort: 0.02 seconds."; ""; "Matching files in /rowsum_1_1_1_3 ..."; "Matches found in ""pair_WZ.pair.sorted"" and ""pair_XY.pair.sorted"": 9"; ""; "Matching took: 0.00 seconds."; ""; "Found 3 wts after matching"; "Filtered with the SN (single negate) and SS (single swap) operations; now filtering 3 sequences up to Williamson-type equivalence ..."; "Found 1 wts after reducing to equivalence"; "Reducing to equivalence took 0.00 seconds."; ""; "In order to generate all Williamson-type sequences up to Hadamard equivalence, we now generate a complete list up to QT equivalence ..."; "Found 1 qts after reducing to equivalence"; "Reducing to equivalence took 0.00 seconds."; ""; "Converting sequences found in results/pairs/wts/find_3/result-qts.seq to Hadamard matrices up to Hadamard equivalence ..."; "Reducing matrices to equivalence via graph isomorphism..."; "Number of matrices up to equivalence : 1"; "Converting to matrices up to Hadamard equivalence took 0.01 seconds"; "1 matrices were found after converting up to Hadamard equivalence."; "Converting PQS to QHM ..."; "./results/pairs/wts/find_3/result.seq"; "converted 1 sequences of size 3. 0 contained non-commuting elements."; "Converting to PQS to QHM took 0.00 seconds"; ""; "Total execution time was 0.11 seconds."]%string.
Definition ck_3 : Clock := mkClock (fun _ => 2%Z) (fun _ => 3%Z) 4 2 0 0 0 1 0 11 (fun _ _ => None) (fun _ _ => None).
Definition env_id : Env Graph := mkEnv Graph ord_id [] ls_id (fun g => g) (fun _ _ => false) (fun l => l).
Example rest_3 : (let* f := traverse (fun x => x) [dir_of 3 (1%Z, 1%Z, 1%Z, 3%Z) (map chars ["4_:_0_0"; "4_:_1_0"; "4_:_2_0"]%string) (map chars ["4_:_0_0"; "4_:_1_1"; "4_:_2_2"]%string)] in
  let x := chars "wts" in let y := chars "3" in
  let w : World := fun a b => if text_eqb a x && text_eqb b y then Some (set_dirs new_place (sortpairs f)) else None in
  let '(w, l3, s) := run_log ck_3 60 env_id [lit "join"; x; y] w in
  let '(w, l4, _) := run_log ck_3 60 env_id [lit "convert"; lit "hm"; x; y] w in
  let '(w, l5, _) := run_log ck_3 60 env_id [lit "convert"; lit "qhm"; x; y] w in
  Some (sort_log ck_3 x y f ++ l3, l4, l5, s)) =
  Some (map chars ["Sorting file results/pairs/wts/find_3/rowsum_1_1_1_3/pair_WZ.pair ..."; "Sorting file results/pairs/wts/find_3/rowsum_1_1_1_3/pair_XY.pair ..."; "Total time to sort: 0.02 seconds."; ""; "Matching files in /rowsum_1_1_1_3 ..."; "Matches found in ""pair_WZ.pair.sorted"" and ""pair_XY.pair.sorted"": 9"; ""; "Matching took: 0.00 seconds."; ""; "Found 3 wts after matching"; "Filtered with the SN (single negate) and SS (single swap) operations; now filtering 3 sequences up to Williamson-type equivalence ..."; "Found 1 wts after reducing to equivalence"; "Reducing to equivalence took 0.00 seconds."; ""; "In order to generate all Williamson-type sequences up to Hadamard equivalence, we now generate a complete list up to QT equivalence ..."; "Found 1 qts after reducing to equivalence"; "Reducing to equivalence took 0.00 seconds."; ""]%string, map chars ["Converting sequences found in results/pairs/wts/find_3/result-qts.seq to Hadamard matrices up to Hadamard equivalence ..."; "Reducing matrices to equivalence via graph isomorphism..."; "Number of matrices up to equivalence : 1"]%string, map chars ["./results/pairs/wts/find_3/result.seq"; "converted 1 sequences of size 3. 0 contained non-commuting elements."]%string, []).
Proof. vm_compute. reflexivity. Qed.
Example row_3 : collect new_place log_3 = mkRow 1 1 (-1) 6 (map chars ["0.04"; "0.02"; "0.00"]%string) (Some (chars "0.00")) (Some (chars "0.01")).
Proof. vm_compute. reflexivity. Qed.
Definition log_7 : Lines := map chars ["Generating rowsum decompositions for length 7 ..."; "(1, 1, 1, 5)"; "(1, 3, 3, 3)"; "Generated 2 different rowsums"; ""; "Generating .pair files for rowsums (1, 1, 1, 5) ..."; "Found 35 sequences with rowsum 1"; "Found 35 sequences with rowsum 1"; "Found 35 sequences with rowsum 1"; "Found 7 sequences with rowsum 5"; "Generating all sequences with rowsums (1, 1, 1, 5) took 0.02 seconds"; "Generated 21 pairs for pairing WZ"; "Generated 56 pairs for pairing XY"; "Generating .pair files for both pairs took 0.01 seconds"; ""; "Generating .pair files for rowsums (1, 3, 3, 3) ..."; "Found 35 sequences with rowsum 1"; "Found 21 sequences with rowsum 3"; "Found 21 sequences with rowsum 3"; "Found 21 sequences with rowsum 3"; "Generating all sequences with rowsums (1, 3, 3, 3) took 0.01 seconds"; "Generated 42 pairs for pairing WZ"; "Generated 63 pairs for pairing XY"; "Generating .pair files for both pairs took 0.02 seconds"; ""; "Generated 182 total pairs"; "Total time to generate .pair files: 0.06 seconds"; ""; "Sorting file results/pairs/wts/find_7/rowsum_1_1_1_5/pair_WZ.pair ..."; "Sorting file results/pairs/wts/find_7/rowsum_1_1_1_5/pair_XY.pair ..."; "Sorting file results/pairs/wts/find_7/rowsum_1_3_3_3/pair_WZ.pair ..."; "Sorting file results/pairs/wts/find_7/rowsum_1_3_3_3/pair_XY.pair ..."; "Total time to sort: 0.09 seconds."; ""; "Matching files in /rowsum_1_3_3_3 ..."; "Matches found in ""pair_WZ.pair.sorted"" and ""pair_XY.pair.sorted"": 441"; ""; "Matching files in /rowsum_1_1_1_5 ..."; "Matches found in ""pair_WZ.pair.sorted"" and ""pair_XY.pair.sorted"": 294"; ""; "Matching took: 0.01 seconds."; ""; "Found 105 wts after matching"; "Filtered with the SN (single negate) and SS (single swap) operations; now filtering 28 sequences up to Williamson-type equivalence ..."; "Found 2 wts after reducing to equivalence"; "Reducing to equivalence took 0.00 seconds."; ""; "In order to generate all Williamson-type sequences up to Hadamard equivalence, we now generate a complete list up to QT equivalence ..."; "Found 3 qts after reducing to equivalence"; "Reducing to equivalence took 0.00 seconds."; ""; "Converting sequences found in results/pairs/wts/find_7/result-qts.seq to Hadamard matrices up to Hadamard equivalence ..."; "Reducing matrices to equivalence via graph isomorphism..."; "Number of matrices up to equivalence : 3"; "Converting to matrices up to Hadamard equivalence took 0.04 seconds"; "3 matrices were found after converting up to Hadamard equivalence."; "Converting PQS to QHM ..."; "./results/pairs/wts/find_7/result.seq"; "converted 2 sequences of size 7. 2 contained non-commuting elements."; "Converting to PQS to QHM took 0.03 seconds"; ""; "Total execution time was 0.31 seconds."]%string.
Example row_7 : collect new_place log_7 = mkRow 3 2 (-1) 182 (map chars ["0.06"; "0.09"; "0.01"]%string) (Some (chars "0.00")) (Some (chars "0.04")).
Proof. vm_compute. reflexivity. Qed.
Definition log_18 : Lines := map chars ["Generating rowsum decompositions for length 18 ..."; "(0, 0, 6, 6)"; "(0, 2, 2, 8)"; "(2, 4, 4, 6)"; "Generated 3 different rowsums"; ""; "Generating .pair files for rowsums (0, 0, 6, 6) ..."; "Found 48620 sequences with rowsum 0"; "Found 48620 sequences with rowsum 0"; "Found 18564 sequences with rowsum 6"; "Found 18564 sequences with rowsum 6"; "Generating all sequences with rowsums (0, 0, 6, 6) took 0.07 seconds"; "Generated 70308 pairs for pairing WZ"; "Generated 70308 pairs for pairing XY"; "Generating .pair files for both pairs took 669.96 seconds"; ""; "Generating .pair files for rowsums (0, 2, 2, 8) ..."; "Found 48620 sequences with rowsum 0"; "Found 43758 sequences with rowsum 2"; "Found 43758 sequences with rowsum 2"; "Found 8568 sequences with rowsum 8"; "Generating all sequences with rowsums (0, 2, 2, 8) took 0.10 seconds"; "Generated 24192 pairs for pairing WZ"; "Generated 35100 pairs for pairing XY"; "Generating .pair files for both pairs took 791.70 seconds"; ""; "Generating .pair files for rowsums (2, 4, 4, 6) ..."; "Found 43758 sequences with rowsum 2"; "Found 31824 sequences with rowsum 4"; "Found 31824 sequences with rowsum 4"; "Found 18564 sequences with rowsum 6"; "Generating all sequences with rowsums (2, 4, 4, 6) took 0.10 seconds"; "Generated 33588 pairs for pairing WZ"; "Generated 41688 pairs for pairing XY"; "Generating .pair files for both pairs took 685.26 seconds"; ""; "Generated 275184 total pairs"; "Total time to generate .pair files: 2147.31 seconds"; ""; "Sorting file results/pairs/wts/find_18/rowsum_0_0_6_6/pair_WZ.pair ..."; "Sorting file results/pairs/wts/find_18/rowsum_0_0_6_6/pair_XY.pair ..."; "Sorting file results/pairs/wts/find_18/rowsum_0_2_2_8/pair_WZ.pair ..."; "Sorting file results/pairs/wts/find_18/rowsum_0_2_2_8/pair_XY.pair ..."; "Sorting file results/pairs/wts/find_18/rowsum_2_4_4_6/pair_WZ.pair ..."; "Sorting file results/pairs/wts/find_18/rowsum_2_4_4_6/pair_XY.pair ..."; "Total time to sort: 0.34 seconds."; ""; "Matching files in /rowsum_2_4_4_6 ..."; "Matches found in ""pair_WZ.pair.sorted"" and ""pair_XY.pair.sorted"": 419904"; ""; "Matching files in /rowsum_0_2_2_8 ..."; "Matches found in ""pair_WZ.pair.sorted"" and ""pair_XY.pair.sorted"": 416016"; ""; "Matching files in /rowsum_0_0_6_6 ..."; "Matches found in ""pair_WZ.pair.sorted"" and ""pair_XY.pair.sorted"": 1244160"; ""; "Matching took: 6.25 seconds."; ""; "Found 144720 wts after matching"; "Filtered with the SN (single negate) and SS (single swap) operations; now filtering 20628 sequences up to Williamson-type equivalence ..."; "Found 28 wts after reducing to equivalence"; "Reducing to equivalence took 1351.40 seconds."; ""; "In order to generate all Williamson-type sequences up to Hadamard equivalence, we now generate a complete list up to QT equivalence ..."; "Found 88 qts after reducing to equivalence"; "Reducing to equivalence took 1.79 seconds."; ""; "Converting sequences found in results/pairs/wts/find_18/result-qts.seq to Hadamard matrices up to Hadamard equivalence ..."; "Reducing matrices to equivalence via graph isomorphism..."; "Number of matrices up to equivalence : 82"; "Converting to matrices up to Hadamard equivalence took 11.64 seconds"; "82 matrices were found after converting up to Hadamard equivalence."; "Converting PQS to QHM ..."; "./results/pairs/wts/find_18/result.seq"; "converted 28 sequences of size 18. 27 contained non-commuting elements."; "Converting to PQS to QHM took 0.01 seconds"; ""; "Total execution time was 3519.18 seconds."]%string.
Example row_18 : collect new_place log_18 = mkRow 88 28 (-1) 275184 (map chars ["2147.31"; "0.34"; "6.25"]%string) (Some (chars "1351.40")) (Some (chars "11.64")).
Proof. vm_compute. reflexivity. Qed.
