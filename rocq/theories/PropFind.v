(* Property theorems C21, C22, C43-C45, C57: reduction of lists to representatives and the exhaustive
   searches.  Each theorem is followed by a concrete, non-trivial instance of its hypotheses. *)
From Coq Require Import List ZArith Lia Arith Bool Permutation Relations Ascii String.
From Verif Require Import Base BaseFacts Sums Quat ModelSequence ModelWilliamson Spec
  ModelEquivalence SpecEquiv OpFacts EquivFacts TypeFacts OrderFacts FastFacts EquivThms
  ModelFind SpecFind SearchFacts FindFacts FindUniqueFacts FindQuadFacts FindThms
  PropSequences PropEquivalence PropCanonical.
Import ListNotations.
Open Scope nat_scope.
Notation length := List.length.

(* C21 *)
Theorem C21_reduce_to_equivalence : forall n ord ops l, ord_ok ord -> 1 <= n <= 31 -> l <> [] ->
  Forall (i8_quad n) l ->
  exists fuel0, forall fuel p, fuel0 <= fuel -> exists r,
    reduce_to_equivalence fuel ord p l (map impl ops) = Some r /\ NoDup r /\
    forall m, In m r <-> exists x, In x l /\ least (reach ops x) m.
Proof. exact reduce_to_equivalence_spec. Qed.
Print Assumptions C21_reduce_to_equivalence.
Theorem C21_reduce_to_equivalence_par : forall n ord ops l, ord_ok ord -> 1 <= n <= 31 -> l <> [] ->
  Forall (i8_quad n) l ->
  exists fuel0, forall fuel p, fuel0 <= fuel -> exists r,
    reduce_to_equivalence_par fuel ord p l (map impl ops) = Some r /\ NoDup r /\
    forall m, In m r <-> exists x, In x l /\ least (reach ops x) m.
Proof. exact reduce_to_equivalence_par_spec. Qed.
Print Assumptions C21_reduce_to_equivalence_par.
Theorem C21_agree : forall n ord ord' ops l, ord_ok ord -> ord_ok ord' -> 1 <= n <= 31 -> l <> [] ->
  Forall (i8_quad n) l ->
  exists fuel0, forall fuel p p', fuel0 <= fuel -> exists r r',
    reduce_to_equivalence fuel ord p l (map impl ops) = Some r /\
    reduce_to_equivalence_par fuel ord' p' l (map impl ops) = Some r' /\ Permutation r r'.
Proof. exact reduce_agree. Qed.
Print Assumptions C21_agree.
Theorem C21_empty_panics : forall fuel ord p ops,
  reduce_to_equivalence fuel ord p [] ops = None /\ reduce_to_equivalence_par fuel ord p [] ops = None /\
  reduce_to_equivalence_set_dif fuel ord p [] ops = None.
Proof. exact reduce_empty_panics. Qed.
Print Assumptions C21_empty_panics.

(* two classes among three quadruples *)
Definition swaps : list Op := [Negate; Reorder].
Example C21_instance : ord_ok ord_mix /\ Forall (i8_quad 3) [w3'; d3; w3] /\
  reduce_to_equivalence 10 ord_mix [] [w3'; d3; w3] (map impl [NegateSwap])
  = Some [mkQuad 3 [-1;-1;-1] [-1;1;1] [-1;1;1] [-1;1;1]; mkQuad 3 [-1;-1;-1] [-1;-1;1] [-1;1;-1] [-1;1;1]]%Z /\
  exists r, reduce_to_equivalence_par 10 ord_id [] [w3'; d3; w3] (map impl [NegateSwap]) = Some r /\ length r = 2.
Proof.
  split; [exact ord_mix_ok|]. split; [repeat constructor; cbv; intuition congruence|].
  split; [vm_compute; reflexivity|]. eexists. split; vm_compute; reflexivity.
Qed.

(* C22 *)
Theorem C22_set_dif_result : forall n ord ops l, ord_ok ord -> 1 <= n <= 31 -> l <> [] -> Forall (i8_quad n) l ->
  exists fuel0, forall fuel p, fuel0 <= fuel -> exists r,
    reduce_to_equivalence_set_dif fuel ord p l (map impl ops) = Some r /\ NoDup r /\
    forall x, In x r <-> In x l /\ forall y, In y l -> reach ops y x -> y = x.
Proof. exact set_dif_spec. Qed.
Print Assumptions C22_set_dif_result.
(* a class with two members in the input has no representative in the output *)
Theorem C22_set_dif_refuted : exists l, Forall (pm_quad 3) l /\ l <> [] /\
  reduce_to_equivalence_set_dif 10 ord_id [] l (map impl [NegateSwap]) = Some [] /\
  reduce_to_equivalence 10 ord_id [] l (map impl [NegateSwap]) = Some [w3].
Proof.
  exists [w3; w3']. split; [constructor; [exact w3_pm|constructor; [pm_tac|constructor]]|]. split; [discriminate|]. split; vm_compute; reflexivity.
Qed.
Print Assumptions C22_set_dif_refuted.
Example C22_instance : exists r, reduce_to_equivalence_set_dif 10 ord_mix [] [w3; d3; w3'] (map impl [NegateSwap]) = Some r /\ r = [d3].
Proof. eexists. split; vm_compute; reflexivity. Qed.

(* C43 *)
Theorem C43_naive_find : forall n, exists r, naive_find n None = Some r /\
  lists_exactly (fun v => length v = n /\ incl v QPLUS /\ hd Q1 v = Q1 /\ perfect v) r.
Proof. exact naive_none. Qed.
Print Assumptions C43_naive_find.
Theorem C43_parallel_find : forall sc n, schedule_ok sc -> exists r, optim_find sc n None = Some r /\
  lists_exactly (fun v => length v = n /\ incl v QPLUS /\ hd Q1 v = Q1 /\ perfect v) r.
Proof. exact optim_none. Qed.
Print Assumptions C43_parallel_find.
Theorem C43_agree : forall sc n s, schedule_ok sc -> exists r r',
  naive_find n s = Some r /\ optim_find sc n s = Some r' /\ fst r = fst r' /\ Permutation (snd r) (snd r').
Proof. exact naive_optim. Qed.
Print Assumptions C43_agree.
Theorem C43_parallel_find_q24 : forall sc n, schedule_ok sc -> exists r, optim_find_q24 sc n None = Some r /\
  lists_exactly (fun v => length v = n /\ incl v Q24 /\ hd Q1 v = Q1 /\ perfect v) r.
Proof. exact optim24_none. Qed.
Print Assumptions C43_parallel_find_q24.

Definition sc_rev : Schedule :=
  mkSchedule (fun p => match p with [] => Cut 3 (Cut 1 Whole Whole) Whole | _ => Cut 20 Whole (Cut 2 Whole Whole) end)
             (fun _ l => rev l).
Example C43_instance : schedule_ok sc_rev /\
  match naive_find 3 None, optim_find sc_rev 3 None with
  | Some (c, l), Some (c', l') => c = 12 /\ c' = 12 /\ firstn 1 l = [list_ascii_of_string "++Q"] /\ l <> l'
  | _, _ => False
  end.
Proof.
  split; [intros p l; symmetry; apply Permutation_rev|]. vm_compute. repeat split; discriminate.
Qed.

(* C44 *)
Theorem C44_symmetric_search : forall s n, exists r, naive_find n (Some s) = Some r /\
  lists_exactly (fun v => length v = n /\ incl v QPLUS /\ fixed_entries s n v /\
    (forall i, 1 <= i < (n + 1) / 2 -> symmetric_at s n v i) /\ perfect v) r.
Proof. exact naive_some. Qed.
Print Assumptions C44_symmetric_search.
Theorem C44_symmetric_everywhere : forall s n, 1 <= n ->
  match s with SymI => True | SymII | SymIII => Nat.even n = true | SymIV => False end ->
  exists r, naive_find n (Some s) = Some r /\ lists_exactly (fun v => length v = n /\ incl v QPLUS /\ hd Q1 v = Q1 /\
    (forall i, i < (n + 1) / 2 -> symmetric_at s n v i) /\ perfect v) r.
Proof. exact naive_everywhere. Qed.
Print Assumptions C44_symmetric_everywhere.
(* symmetry IV, even length: the middle entry of every listed sequence is +1, not -1 *)
Theorem C44_symmetry_IV_middle_refuted : forall n, 1 <= n -> Nat.even n = true ->
  exists r, naive_find n (Some SymIV) = Some r /\ lists_exactly (listed_sym SymIV n QPLUS) r /\
  (forall v, listed_sym SymIV n QPLUS v -> nth (n / 2) v Q0 = Q1 /\ ~ symmetric_at SymIV n v 0).
Proof. exact naive_IV. Qed.
Print Assumptions C44_symmetry_IV_middle_refuted.

Example C44_instance_I : match naive_find 5 (Some SymI) with
  | Some (c, l) => c = 12 /\ firstn 1 l = [list_ascii_of_string "+iQi+"] | None => False end.
Proof. vm_compute. auto. Qed.
Example C44_instance_II : match naive_find 4 (Some SymII) with
  | Some (c, l) => c = 16 /\ firstn 3 l = map list_ascii_of_string ["+++-"; "+-++"; "+i+I"]%string | None => False end.
Proof. vm_compute. auto. Qed.
(* the relation of symmetry III at index 0 fails for odd lengths *)
Example C44_instance_III_odd : match naive_find 3 (Some SymIII) with
  | Some (c, l) => c = 4 /\ firstn 1 l = [list_ascii_of_string "+QQ"] | None => False end /\
  ~ symmetric_at SymIII 3 [Q1; QQ; QQ] 0.
Proof. split; [vm_compute; auto|]. cbn. intros H. apply (f_equal q_x) in H. vm_compute in H. discriminate. Qed.
Example C44_instance_IV : match naive_find 4 (Some SymIV) with
  | Some (c, l) => c = 16 /\ firstn 3 l = map list_ascii_of_string ["+++-"; "+-++"; "+i+I"]%string | None => False end.
Proof. vm_compute. auto. Qed.

(* C45 *)
Theorem C45_enumeration : forall n, 1 <= n -> exists l, find_aux n = Some l /\ NoDup l /\
  forall q, In q l <-> pm_quad n q /\ is_QT q.
Proof. exact find_aux_spec. Qed.
Print Assumptions C45_enumeration.
Theorem C45_find_unique : forall n ord, ord_ok ord -> 1 <= n <= 100 ->
  exists fuel0, forall fuel p, fuel0 <= fuel -> exists reps ls,
    unique_find fuel ord p n = Some (unlines ls) /\ Forall2 quad_text reps ls /\ NoDup reps /\
    forall m, In m reps <-> pm_quad n m /\ is_QT m /\ least (reach (type_ops QuaternionType) m) m.
Proof. exact unique_find_spec. Qed.
Print Assumptions C45_find_unique.
Example C45_instance : ord_ok ord_mix /\
  unique_find 20 ord_mix [] 2 = Some (unlines [list_ascii_of_string "+J"]).
Proof. split; [exact ord_mix_ok|]. vm_compute. reflexivity. Qed.

(* C57 *)
Theorem C57_find_williamson : forall n, 1 <= n -> exists r, find_williamson_of_size n = Some r /\
  lists_quads (fun q => pm_quad n q /\ starts_minus q /\ is_W q) r.
Proof. exact find_W_spec. Qed.
Print Assumptions C57_find_williamson.
Theorem C57_find_williamson_type : forall n, 1 <= n -> exists r, find_williamson_type_of_size n = Some r /\
  lists_quads (fun q => pm_quad n q /\ starts_minus q /\ is_WT q) r.
Proof. exact find_WT_spec. Qed.
Print Assumptions C57_find_williamson_type.
Example C57_instance : option_map fst (find_williamson_of_size 3) = Some 4 /\
  option_map fst (find_williamson_type_of_size 3) = Some 12.
Proof. split; vm_compute; reflexivity. Qed.
