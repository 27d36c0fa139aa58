(* Lengths from 64 on, where the search always panics. *)
From Coq Require Import Ascii String List ZArith Lia Arith Bool Permutation.
From Verif Require Import Base ModelSequence ModelWilliamson ModelEquivalence SpecEquiv EquivFacts ModelMatching ModelRowsum ModelWrite ModelMain ModelPanic
  SpecMain SpecScripts SpecPrint SpecSearch Len32Example Len64Facts PropSequences PropEquivalence PropSearch PropMain Spec.
Import ListNotations.
Notation length := List.length.
Open Scope nat_scope.

(* C104 *)
(* the representatives of sequences of one length *)
Theorem C104_representatives_refuted : forall n ord path l t fuel, ord_ok ord -> 64 <= n -> Forall (fun x => q_size x = n) l ->
  reduce_to_canonical_reps fuel ord path l t = None.
Proof. exact reduce_64. Qed.
Print Assumptions C104_representatives_refuted.
(* this is a panic, and no loop that needs more fuel: up to length 100 the symmetry group is found and
   cannot be applied, and above it the first round of the computation of the group panics *)
Theorem C104_panic : forall n ord path t, ord_ok ord -> 64 <= n ->
  if n <=? 100 then exists fuel0, forall fuel, fuel0 <= fuel -> exists G, generate_symmetry_group fuel ord path n (canonical_ops t) = Some G /\
    forall path q, q_size q = n -> generate_equivalence_class_fast ord path q G = None
  else class_step ord path (canonical_ops t) (0, [symbolic_quad n]) = None.
Proof. exact panics_64. Qed.
Print Assumptions C104_panic.
(* two solutions are not compared *)
Theorem C104_equiv_refuted : forall n ord path x y t fuel, ord_ok ord -> 64 <= n -> pm_quad n x -> pm_quad n y -> three_types t ->
  verify x t = Some true -> verify y t = Some true -> equiv fuel ord path x y t = None.
Proof. exact equiv_64. Qed.
Print Assumptions C104_equiv_refuted.
(* the pairs are found and sorted, and join panics on them *)
Theorem C104_join_refuted : forall n t m p ls, 64 <= n -> (Z.of_nat n < 2 ^ 62)%Z -> three_types t -> any_listing ls ->
  exists fuel0, forall fuel, fuel0 <= fuel -> exists f c, write_pairs fuel n t m p [] = Some (f, c) /\
    forall ord path fuel', ord_ok ord -> join_pairs fuel' ord path ls t (sortpairs f) = None.
Proof. exact search_64. Qed.
Print Assumptions C104_join_refuted.
(* so driver.sh leaves the sorted pairs, and none of the result files *)
Theorem C104_driver_refuted : forall (L : Type) (e : Env L) n t y (c : bool) pr h (d : bool) w, 64 <= n -> (Z.of_nat n < 2 ^ 62)%Z -> env_ok e -> three_types t ->
  canonical_numeral y n -> d = true \/ pl_dirs (place_of w (type_word t) y) = [] ->
  pl_seq (place_of w (type_word t) y) = None -> pl_qts (place_of w (type_word t) y) = None ->
  exists fuel0, forall fuel, fuel0 <= fuel -> exists f k,
    write_pairs fuel n t (if c then CORRELATION else PSD) (str_to_rowsum_pairing (match pr with Some r => r | None => chars "WZ" end)) [] = Some (f, k) /\
    only w (driver_flags_x fuel e (type_word t) y c pr h d w) (type_word t) y /\
    driver_flags_x fuel e (type_word t) y c pr h d w (type_word t) y = Some (set_dirs (place_of w (type_word t) y) (sortpairs f)).
Proof. exact @driver_64. Qed.
Print Assumptions C104_driver_refuted.
(* there are solutions that are missed: Williamson sequences of lengths 69 and 121 *)
Definition w69 : QuadSeq := mkQuad 69
  (pms "+++---++-+-+----++--+--+-++++++++----++++++++-+--+--++----+-+-++---++")
  (pms "-++---++-+-+----++--+--+-++++++++----++++++++-+--+--++----+-+-++---++")
  (pms "++--++------+---+-+-+--++-+--+++-+--+-+++--+-++--+-+-+---+------++--+")
  (pms "++--++------+---+-+-+--++-+--+++-+--+-+++--+-++--+-+-+---+------++--+").
Definition w121 : QuadSeq := mkQuad 121
  (pms "+-+-+-+----++-++---+++-------+++-++-----+-++-+++-++++++--++----++--++++++-+++-++-+-----++-+++-------+++---++-++----+-+-+-")
  (pms "--+-+-+----++-++---+++-------+++-++-----+-++-+++-++++++--++----++--++++++-+++-++-+-----++-+++-------+++---++-++----+-+-+-")
  (pms "+-+--++-++---+-++-+-+++-+---++----+------+---++-+-++-+--+--++++--+--+-++-+-++---+------+----++---+-+++-+-++-+---++-++--+-")
  (pms "+-+--++-++---+-++-+-+++-+---++----+------+---++-+-++-+--+--++++--+--+-++-+-++---+------+----++---+-+++-+-++-+---++-++--+-").
Lemma w69_pm : pm_quad 69 w69. Proof. pm32. Qed.
Lemma w121_pm : pm_quad 121 w121. Proof. pm32. Qed.
Lemma numeral69 : canonical_numeral (chars "69") 69.
Proof. split; [exact (decimal_more ["6"%char] 6 9 (decimal_digit 6 ltac:(lia)) ltac:(lia))|]. right. intros r. discriminate. Qed.
Example C104_instance : env_ok env0 /\ three_types Williamson /\ canonical_numeral (chars "69") 69 /\ pm_quad 69 w69 /\ pm_quad 121 w121 /\
  map (verify w69) [QuaternionType; WilliamsonType; Williamson] = [Some true; Some true; Some true] /\
  map (verify w121) [QuaternionType; WilliamsonType; Williamson] = [Some true; Some true; Some true] /\
  pl_seq (place_of no_files (chars "ws") (chars "69")) = None.
Proof.
  split; [exact env0_ok|]. split; [unfold three_types; tauto|]. split; [exact numeral69|]. split; [exact w69_pm|]. split; [exact w121_pm|].
  split; [vm_compute; reflexivity|]. split; [vm_compute; reflexivity|reflexivity].
Qed.
