(* Property theorems C41, C63, C64: Hadamard equivalence through graphs. *)
From Coq Require Import Ascii String List ZArith Lia Arith Bool Permutation.
From Verif Require Import Base Quat ModelSequence ModelWilliamson ModelEquivalence Spec SpecEquiv EquivFacts ModelMatrices SpecMatrix SpecPrint
  ModelGraph SpecGraph GraphFacts GraphThms PropSequences PropCanonical.
Import ListNotations.
Open Scope nat_scope.
Notation length := List.length.

(* C41 *)
(* the graph: 4n nodes, loops on the first 2n, and for each entry the two edges of its sign *)
Theorem C41_graph_shape : forall n h, hm_size h = n -> pm_matrix n (hm_matrix h) ->
  exists g, graph_from_hm h = Some g /\ g_nodes g = 4 * n /\ NoDup (g_edges g) /\
  forall u v, In (u, v) (g_edges g) <->
    (u = v /\ u < 2 * n) \/
    exists i j, i < n /\ j < n /\
      ((cell 1%Z (hm_matrix h) i j = 1%Z /\ ((u = i /\ v = 2 * n + j) \/ (u = n + i /\ v = 3 * n + j))) \/
       (cell 1%Z (hm_matrix h) i j = (-1)%Z /\ ((u = i /\ v = 3 * n + j) \/ (u = n + i /\ v = 2 * n + j)))).
Proof. exact graph_shape. Qed.
Print Assumptions C41_graph_shape.
Theorem C41_isomorphic_iff_equivalent : forall n a b, hm_size a = n -> hm_size b = n -> hadamard n (hm_matrix a) -> hadamard n (hm_matrix b) ->
  exists ga gb, graph_from_hm a = Some ga /\ graph_from_hm b = Some gb /\
    (isomorphic ga gb <-> hadamard_equivalent n (hm_matrix a) (hm_matrix b)).
Proof. exact graph_iso_iff. Qed.
Print Assumptions C41_isomorphic_iff_equivalent.
Theorem C41_reduce : forall (L : Type) (canon : Graph -> L) same n mats, canonical canon same -> Forall (hm_hadamard n) mats ->
  exists r, reduce_to_hadamard_equivalence canon same mats = Some r /\ one_per_class n mats r.
Proof. exact (fun L canon same n mats H => reduce_spec canon same H n mats). Qed.
Print Assumptions C41_reduce.
(* the assumption about the canonical labelling can be met: label a graph by itself and compare labels by trying all bijections *)
Theorem C41_canonical_exists : canonical (fun g : Graph => g) iso_b.
Proof. exact canonical_exists. Qed.
Print Assumptions C41_canonical_exists.
Definition h2 : HM := mkHM 2 [[1; 1]; [1; -1]]%Z.
Definition h2' : HM := mkHM 2 [[-1; 1]; [1; 1]]%Z.
Lemma h2_hadamard : hm_hadamard 2 h2 /\ hm_hadamard 2 h2'.
Proof.
  split; (split; [reflexivity|]); split.
  - split; [split; [reflexivity|repeat constructor]|repeat constructor; unfold pm; cbn; auto].
  - intros [|[|]] [|[|]] Hi Hj Hne; try lia; reflexivity.
  - split; [split; [reflexivity|repeat constructor]|repeat constructor; unfold pm; cbn; auto].
  - intros [|[|]] [|[|]] Hi Hj Hne; try lia; reflexivity.
Qed.
Example C41_instance : hm_hadamard 2 h2 /\ hm_hadamard 2 h2' /\ h2 <> h2' /\
  reduce_to_hadamard_equivalence (fun g => g) (fun g1 g2 => Nat.eqb (g_nodes g1) (g_nodes g2)) [h2; h2'] = Some [h2] /\
  hadamard_equivalent 2 (hm_matrix h2) (hm_matrix h2').
Proof.
  split; [apply h2_hadamard|]. split; [apply h2_hadamard|]. split; [discriminate|]. split; [reflexivity|].
  exists (fun i => 1 - i), (fun i => 1 - i), (fun _ => 1%Z), (fun _ => 1%Z).
  split; [split; intros; lia|]. split; [split; intros; lia|]. split; [intros; split; left; auto|].
  intros [|[|]] [|[|]] Hi Hj; try lia; reflexivity.
Qed.

(* C63 *)
Theorem C63_result_file : forall (L : Type) (canon : Graph -> L) same ord n quads lines t,
  canonical canon same -> (forall l, Permutation (ord l) l) -> 1 <= n ->
  Forall (pm_quad n) quads -> Forall (fun q => verify q t = Some true) quads ->
  Forall2 (fun q line => exists s, to_qs q = Some s /\ QS_to_string_raw s = Some line) quads lines ->
  exists mats equ,
    Forall2 (fun q h => HM_from_williamson q QuaternionType = Some h) quads mats /\ Forall (hm_hadamard (4 * n)) mats /\
    hadamard_equivalence_from_file canon same ord lines t =
      Some (length equ, concat (map (fun h => magma_text (hm_matrix h) ++ [newline]) equ)) /\
    one_per_class (4 * n) mats equ.
Proof. exact @from_file_spec. Qed.
Print Assumptions C63_result_file.
Example C63_instance : pm_quad 3 w3 /\ verify w3 WilliamsonType = Some true /\
  (exists s line, to_qs w3 = Some s /\ QS_to_string_raw s = Some line /\ length line = 3 /\
   match hadamard_equivalence_from_file (fun g => g) (fun g1 g2 => Nat.eqb (g_nodes g1) (g_nodes g2)) (fun l => l) [line; line] WilliamsonType with
   | Some (k, t) => k = 1 /\ firstn 27 t = text "M := Matrix([[-1,-1,-1,-1,1" | None => False end).
Proof.
  split; [exact w3_pm|]. split; [vm_compute; reflexivity|]. destruct (to_qs w3) as [s|] eqn:E; [|vm_compute in E; discriminate].
  exists s. destruct (QS_to_string_raw s) as [line|] eqn:El.
  2:{ assert ((let* s := to_qs w3 in QS_to_string_raw s) = None) as K by (rewrite E; exact El). vm_compute in K. discriminate. }
  exists line. split; auto. split; auto.
  assert ((let* s := to_qs w3 in let* line := QS_to_string_raw s in Some line) = Some line) as K by (rewrite E; cbn [bind]; rewrite El; reflexivity).
  vm_compute in K. injection K as <-. split; [reflexivity|]. vm_compute. split; reflexivity.
Qed.

(* C64 *)
Theorem C64_ns_reduction : forall ord p n l, ord_ok ord -> 1 <= n -> Forall (pm_quad n) l ->
  exists r, reduce_to_ns_equivalence ord p l = Some r /\ NoDup r /\
    (forall c, In c r -> exists q, In q l /\ least (reach [NegateSwap] q) c) /\
    (forall q, In q l -> exists c, In c r /\ reach [NegateSwap] q c) /\
    (forall c d, In c r -> In d r -> reach [NegateSwap] c d -> c = d).
Proof. exact reduce_to_ns_spec. Qed.
Print Assumptions C64_ns_reduction.
Example C64_instance : pm_quad 3 d3 /\ pm_quad 3 d3' /\
  (let* r := reduce_to_ns_equivalence (fun _ l => l) [] [d3; d3'; d3] in Some (length r)) = Some 2.
Proof. split; [exact d3_pm|]. split; [exact d3'_pm|]. vm_compute; reflexivity. Qed.
