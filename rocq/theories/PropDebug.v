(* C86, C87: the assertions of a debug build. *)
From Coq Require Import Ascii String List ZArith Bool Arith Lia Relations.
From Verif Require Import Base Quat ModelSequence ModelWilliamson ModelEquivalence ModelFind ModelMatrices ModelGraph ModelRowsum ModelMatching ModelWrite ModelMain ModelDebug.
From Verif Require Import SeqFacts TypeFacts EquivFacts EquivThms FindQuadFacts Convert TextFacts WriteFacts DriverFacts SpecDebug SpecEquiv OpFacts SpecRowsum SpecGraph SpecSearch SpecPrint SpecMain DebugFacts DebugThms DebugMain PropSequences PropEquivalence PropMain Spec.
Import ListNotations.
Open Scope nat_scope.
Notation length := List.length.

(* C86: when an operation of a debug build panics *)
Theorem C86_operation_passes : forall n o t q, pm_quad n q -> 1 <= n -> (o = Automorphism -> n <= 100) ->
  (forall y, asserted o q y -> is_type t y) -> debug_op o t false q = impl o q.
Proof. exact debug_op_passes. Qed.
Print Assumptions C86_operation_passes.
Theorem C86_operation_panics : forall n o t q, pm_quad n q -> 1 <= n -> (o = Automorphism -> n <= 100) ->
  (exists y, asserted o q y /\ ~ is_type t y) -> debug_op o t false q = None.
Proof. exact debug_op_panics. Qed.
Print Assumptions C86_operation_panics.
(* with the flag of the symmetry groups nothing is asserted *)
Theorem C86_symmetry_group : forall o t q, debug_op o t true q = impl o q.
Proof. exact debug_op_symbolic. Qed.
Print Assumptions C86_symmetry_group.
Theorem C86_operations_of_type : forall n t o q, 1 <= n -> (o = Automorphism -> n <= 100) -> In o (type_ops t) -> pm_quad n q -> is_type t q ->
  debug_op o t false q = impl o q.
Proof. exact debug_type_op_same. Qed.
Print Assumptions C86_operations_of_type.
Theorem C86_every_operation : forall n t o q, 1 <= n -> t = QuaternionType \/ t = WilliamsonType -> (o = Automorphism -> n <= 100) ->
  (o = AlternatedNegation -> Nat.even n = true) -> pm_quad n q -> is_type t q -> debug_op o t false q = impl o q.
Proof. exact debug_any_op_same. Qed.
Print Assumptions C86_every_operation.
(* the classes: the same for quadruples of the type, a panic for the others *)
Theorem C86_class_of_member : forall n ord p t q fuel, ord_ok ord -> 1 <= n <= 100 -> pm_quad n q -> is_type t q ->
  debug_class fuel ord p q t (debug_equivalences t) false = generate_equivalence_class fuel ord p q (equivalences t).
Proof. exact debug_class_member. Qed.
Print Assumptions C86_class_of_member.
Theorem C86_class_of_nonmember : forall n ord p t q fuel, ord_ok ord -> t = QuaternionType \/ t = WilliamsonType \/ t = Williamson -> 1 <= n <= 100 -> pm_quad n q ->
  ~ is_type t q -> debug_class fuel ord p q t (debug_equivalences t) false = None.
Proof. exact debug_class_panics. Qed.
Print Assumptions C86_class_of_nonmember.
Theorem C86_equivalent_to : forall n fuel ord p q1 q2 t, ord_ok ord -> 1 <= n <= 100 -> pm_quad n q1 -> is_type t q1 ->
  debug_equivalent_to fuel ord p q1 q2 t = equivalent_to fuel ord p q1 q2 t.
Proof. exact debug_equivalent_to_same. Qed.
Print Assumptions C86_equivalent_to.
Theorem C86_representative : forall n fuel ord p q t, ord_ok ord -> 1 <= n <= 100 -> pm_quad n q -> is_type t q ->
  debug_canonical_representative fuel ord p q t = generate_canonical_representative fuel ord p q t.
Proof. exact debug_representative_same. Qed.
Print Assumptions C86_representative.
Theorem C86_nonmember : forall n fuel ord p q q2 t, ord_ok ord -> t = QuaternionType \/ t = WilliamsonType \/ t = Williamson -> 1 <= n <= 100 -> pm_quad n q -> ~ is_type t q ->
  debug_equivalent_to fuel ord p q q2 t = None /\ debug_canonical_representative fuel ord p q t = None.
Proof. exact debug_nonmember. Qed.
Print Assumptions C86_nonmember.
(* reduce_to_equivalence compares each fast class with the slow one: never different up to length 31,
   always different at length 32 *)
Theorem C86_reduce_to_equivalence : forall n ord t ops l, ord_ok ord -> 1 <= n <= 31 -> incl ops (type_ops t) -> Forall (fun q => pm_quad n q /\ is_type t q) l ->
  exists fuel0, forall fuel p, fuel0 <= fuel -> debug_reduce_to_equivalence fuel ord p l t (map debug_op ops) = reduce_to_equivalence fuel ord p l (map impl ops).
Proof. exact debug_reduce_equivalence_same. Qed.
Print Assumptions C86_reduce_to_equivalence.
Theorem C86_reduce_at_32_refuted : forall ord t q l, ord_ok ord -> pm_quad 32 q -> is_type t q ->
  exists fuel0, forall fuel p, fuel0 <= fuel -> debug_reduce_to_equivalence fuel ord p (q :: l) t (debug_equivalences t) = None.
Proof. exact debug_reduce_equivalence_32. Qed.
Print Assumptions C86_reduce_at_32_refuted.
(* at odd lengths the alternated negation panics on a quaternion-type quadruple *)
Theorem C86_alternated_negation_refuted : exists q l, pm_quad 3 q /\ is_QT q /\
  equivalent_alternated_negation q = Some l /\ debug_op AlternatedNegation QuaternionType false q = None.
Proof.
  exists w3. eexists. destruct C72_instance as (_ & _ & _ & P & A & _). split; [exact P|]. split; [exact A|]. split; vm_compute; reflexivity.
Qed.
Print Assumptions C86_alternated_negation_refuted.
Definition ones3 : QuadSeq := (mkQuad 3 [1; 1; 1] [1; 1; 1] [1; 1; 1] [1; 1; 1])%Z.
Example C86_instance : pm_quad 3 w3 /\ is_type QuaternionType w3 /\ pm_quad 32 w32 /\ is_type Williamson w32 /\
  option_map (@length QuadSeq) (debug_op NegateSwap QuaternionType false w3) = Some 17 /\
  (exists y, asserted AlternatedNegation w3 y /\ ~ is_type QuaternionType y) /\
  pm_quad 3 ones3 /\ ~ is_type QuaternionType ones3 /\
  debug_class 10 ord_id [] ones3 QuaternionType (debug_equivalences QuaternionType) false = None /\
  option_map (@length QuadSeq) (generate_equivalence_class 10 ord_id [] ones3 (equivalences QuaternionType)) = Some 16.
Proof.
  destruct C72_instance as (_ & _ & _ & P & A & _). split; [exact P|]. split; [exact A|]. split; [exact w32_pm|].
  split. { apply (verify_true 32 w32 Williamson); [exact w32_pm|lia|vm_compute; reflexivity]. }
  split; [vm_compute; reflexivity|]. split.
  { exists (mkQuad 3 [-1;1;-1] [-1;-1;1] [-1;-1;1] [-1;-1;1])%Z. split.
    - cbn [asserted]. eexists. split; [left; reflexivity|]. vm_compute. reflexivity.
    - intros H. apply (verify_true 3 _ QuaternionType) in H; [vm_compute in H; discriminate|pm_tac|lia]. }
  assert (pm_quad 3 ones3) by pm_tac. split; auto. split.
  { intros T. apply (verify_true 3 _ QuaternionType) in T; auto. vm_compute in T. discriminate. }
  split; vm_compute; reflexivity.
Qed.

(* C87: driver.sh with a debug build leaves the same files as with a release build *)
Theorem C87_driver_same : forall (L : Type) (e : Env L) n t y c pr h (d : bool) w, 1 <= n <= 31 -> env_ok e -> t = QuaternionType \/ t = WilliamsonType \/ t = Williamson ->
  canonical_numeral y n -> d = true \/ pl_dirs (place_of w (type_word t) y) = [] ->
  (exists q, pm_quad n q /\ is_type t q) \/ pl_seq (place_of w (type_word t) y) = None /\ pl_qts (place_of w (type_word t) y) = None ->
  exists fuel0, forall fuel, fuel0 <= fuel ->
    debug_driver_flags fuel e (type_word t) y c pr h d w = driver_flags fuel e (type_word t) y c pr h d w.
Proof. exact @debug_flags_same. Qed.
Print Assumptions C87_driver_same.
(* qhm-all: the same on lists of quadruples of the type *)
Theorem C87_qhm_all_same : forall (L : Type) (e : Env L) n t y pl w r lines, 1 <= n <= 100 -> env_ok e -> canonical_numeral y n -> w (type_word t) y = Some pl ->
  pl_seq pl = Some lines -> Forall (fun q => pm_quad n q /\ is_type t q) r -> Forall2 line_of_quad r lines ->
  forall fuel, debug_main fuel e [chars "rust"; chars "qhm-all"; type_word t; y] w = run_main fuel e [chars "rust"; chars "qhm-all"; type_word t; y] w.
Proof. exact @debug_run_qhm_all. Qed.
Print Assumptions C87_qhm_all_same.
(* a panic with any other line *)
Theorem C87_qhm_all_panics : forall n ord t r lines x, ord_ok ord -> t = QuaternionType \/ t = WilliamsonType \/ t = Williamson -> 1 <= n <= 100 ->
  Forall (pm_quad n) r -> In x r -> ~ is_type t x -> Forall2 line_of_quad r lines ->
  exists fuel0, forall fuel p, fuel0 <= fuel -> debug_qhm_write_all fuel ord p t lines = None.
Proof. exact debug_qhm_all_panics. Qed.
Print Assumptions C87_qhm_all_panics.
(* so after a search for Williamson sequences of length 3 or more qhm-all panics in a debug build,
   and writes its file in a release build *)
Theorem C87_qhm_all_ws_refuted : forall (L : Type) (e : Env L) n y c pr h d w, 3 <= n <= 31 -> env_ok e -> canonical_numeral y n ->
  d = true \/ pl_dirs (place_of w (chars "ws") y) = [] -> (exists q, pm_quad n q /\ is_W q) ->
  exists fuel0, forall fuel, fuel0 <= fuel ->
    let w' := driver_flags fuel e (chars "ws") y c pr h d w in
    debug_main fuel e [chars "rust"; chars "qhm-all"; chars "ws"; y] w' = None /\
    exists w'', run_main fuel e [chars "rust"; chars "qhm-all"; chars "ws"; y] w' = Some w''.
Proof. exact @debug_qhm_all_ws. Qed.
Print Assumptions C87_qhm_all_ws_refuted.
Example C87_instance : env_ok env0 /\ canonical_numeral (chars "3") 3 /\ pl_dirs (place_of no_files (chars "ws") (chars "3")) = [] /\ pm_quad 3 w3 /\
  is_type QuaternionType w3 /\ is_W w3 /\ pm_quad 3 r3 /\ ~ is_W r3 /\ (exists line, line_of_quad r3 line) /\
  pl_seq (place_of no_files (chars "qts") (chars "3")) = None /\ pl_qts (place_of no_files (chars "qts") (chars "3")) = None.
Proof.
  destruct C72_instance as (He & N & _ & P & A & _). destruct C77_instance as (P3 & _ & N3 & _). split; [exact He|]. split; [exact N|]. split; [reflexivity|]. split; [exact P|].
  split; [exact A|]. split. { apply (verify_true 3 w3 Williamson); [exact P|lia|vm_compute; reflexivity]. } split; [exact P3|]. split; [exact N3|].
  split. { destruct (quad_text_total 3 r3 P3) as (v & line & E1 & E2). exists line, v. auto. } split; reflexivity.
Qed.
