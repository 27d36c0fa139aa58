(* Model of rust/src/sequences/matrix_equivalence.rs: Hadamard equivalence through graphs.
   A petgraph Graph<i32,i32,Undirected> is its number of nodes and the list of its edges in the order of
   insertion (node and edge weights are all 0 and left out).  The external crate graph_canon is not
   modelled: [canon] stands for CanonLabeling::new and [same] for the equality of labellings; the theorems
   state what they assume about them. *)
From Coq Require Import List ZArith Bool Arith Ascii.
From Verif Require Import Base ModelSequence ModelWilliamson ModelEquivalence ModelMatrices.
Import ListNotations.
Open Scope nat_scope.

Record Graph := mkGraph { g_nodes : nat; g_edges : list (nat * nat) }.
(* petgraph Graph::new_undirected, add_node and add_edge (which panics when an endpoint does not exist) *)
Definition graph_new : Graph := mkGraph 0 [].
Definition add_node (g : Graph) : nat * Graph := (g_nodes g, mkGraph (S (g_nodes g)) (g_edges g)).
Definition add_edge (g : Graph) (a b : nat) : option Graph :=
  guard ((a <? g_nodes g) && (b <? g_nodes g)) (Some (mkGraph (g_nodes g) (g_edges g ++ [(a, b)]))).

(* graph_from_hm, matrix_equivalence.rs:17-43 *)
Definition graph_from_hm (mat : HM) : option Graph :=
  let size := hm_size mat in
  let* g := for_m (4 * size) (fun g i =>
    let '(node, g) := add_node g in
    if i <? 2 * size then add_edge g node node else Some g) graph_new in
  for_m size (fun g row => for_m size (fun g col =>
    let* x := mget (hm_matrix mat) row col in
    if (x =? 1)%Z then
      let* g := add_edge g row (2 * size + col) in
      add_edge g (size + row) (3 * size + col)
    else
      let* g := add_edge g row (3 * size + col) in
      add_edge g (size + row) (2 * size + col)) g) g.

(* canon_hm, matrix_equivalence.rs:54-56 *)
Definition canon_hm {L} (canon : Graph -> L) (mat : HM) : option L := let* g := graph_from_hm mat in Some (canon g).

(* are_isomorphic, matrix_equivalence.rs:46-52 *)
Definition are_isomorphic {L} (canon : Graph -> L) (same : L -> L -> bool) (g1 g2 : Graph) : bool := same (canon g1) (canon g2).

(* itertools unique_by: keep an element when its key has not been seen before *)
Fixpoint unique_by {A K} (key : A -> option K) (same : K -> K -> bool) (seen : list K) (l : list A) : option (list A) :=
  match l with
  | [] => Some []
  | x :: r =>
      let* k := key x in
      if existsb (same k) seen then unique_by key same seen r
      else let* rest := unique_by key same (k :: seen) r in Some (x :: rest)
  end.
(* reduce_to_hadamard_equivalence, matrix_equivalence.rs:59-61 *)
Definition reduce_to_hadamard_equivalence {L} (canon : Graph -> L) (same : L -> L -> bool) (mats : list HM) : option (list HM) :=
  unique_by (canon_hm canon) same [] mats.

(* reduce_to_ns_equivalence, matrix_equivalence.rs:63-67; the order of the result is that of a HashSet *)
Definition reduce_to_ns_equivalence (ord : Order) (p : list nat) (sequences : list QuadSeq) : option (list QuadSeq) :=
  let* l := traverse ns_canonical sequences in Some (ord p (insert_all l [])).

(* HashMap::insert: a later value replaces an earlier one with an equal key *)
Fixpoint map_insert {K V} (same : K -> K -> bool) (k : K) (v : V) (m : list (K * V)) : list (K * V) :=
  match m with
  | [] => [(k, v)]
  | (k', v') :: r => if same k' k then (k', v) :: r else (k', v') :: map_insert same k v r
  end.

(* hadamard_equivalence_from_file, matrix_equivalence.rs:73-123: from the lines of the input file to the
   number printed (line 105) and the text written to result.mat.  The parallel map into a HashMap is
   the insertion of the pairs in the order of the file (Rayon collects the parts in order); [ord] is
   the iteration order of the HashMap.  The debug_assert of line 85 is not executed in release mode;
   reading and writing of files is assumed to succeed. *)
Definition newline_char : ascii := Ascii.ascii_of_nat 10.
Definition hadamard_equivalence_from_file {L} (canon : Graph -> L) (same : L -> L -> bool) (ord : list HM -> list HM)
    (lines : list (list ascii)) (seqtype : SequenceType) : option (nat * list ascii) :=
  let* seqs := traverse QS_from_str lines in
  let* quad_seq_list := traverse from_pqs seqs in
  let* ok := all_m (fun q => verify q seqtype) quad_seq_list in
  guard ok
    (let* pairs := traverse (fun q => let* hmat := HM_from_williamson q QuaternionType in
                                      let* c := canon_hm canon hmat in Some (c, hmat)) quad_seq_list in
     let canon_reps := fold_left (fun m '(k, v) => map_insert same k v m) pairs [] in
     let equ := ord (map snd canon_reps) in
     let* text := fold_m (fun s mat => let* t := HM_to_string_magma mat in Some (s ++ t ++ [newline_char])) equ [] in
     Some (length equ, text)).
