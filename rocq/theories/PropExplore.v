(* Property theorems C98: the exploratory searches of main.rs; and one more theorem for C97. *)
From Coq Require Import Ascii String List ZArith Lia Arith Bool Permutation Relations.
From Verif Require Import Base Quat ModelSequence ModelWilliamson ModelEquivalence EquivFacts SpecEquiv SpecPrint ModelFind SpecFind ModelExplore SpecExplore ExploreThms AgreeStrict ModelMain SpecMain PropMain PropEquivalence PropFind Spec.
Import ListNotations.
Notation length := List.length.
Open Scope nat_scope.

(* fixing the first letter to 1 loses nothing: over Q24 there are exactly 24 perfect sequences for each one listed *)
Theorem C98_first_letter_q24 : forall sc n l, schedule_ok sc -> 1 <= n -> NoDup l -> (forall v, In v l <-> length v = n /\ incl v Q24 /\ perfect v) ->
  exists r, optim_find_q24 sc n None = Some r /\ length l = 24 * fst r.
Proof. exact q24_count. Qed.
Print Assumptions C98_first_letter_q24.
(* over QPLUS there are exactly 8 perfect sequences starting with a unit of Q8 for each one listed *)
Theorem C98_first_letter_q8 : forall sc n l, schedule_ok sc -> 1 <= n -> NoDup l -> (forall v, In v l <-> length v = n /\ incl v QPLUS /\ In (hd Q1 v) Q8 /\ perfect v) ->
  exists r, optim_find sc n None = Some r /\ length l = 8 * fst r.
Proof. exact qplus_count. Qed.
Print Assumptions C98_first_letter_q8.
(* every perfect sequence over QPLUS is, after a rotation and a multiplication from the left by one quaternion, on a line of the search *)
Theorem C98_first_letter_listed : forall sc n v, schedule_ok sc -> 1 <= n -> length v = n -> incl v QPLUS -> perfect v ->
  exists r, optim_find sc n None = Some r /\ exists k g w line, k < n /\ In g Q24 /\ length w = n /\ (forall i, qentry w i = qmul g (qentry v (i + Z.of_nat k))) /\
    hd Q1 w = Q1 /\ prints w line /\ In line (snd r).
Proof. exact first_letter_listed. Qed.
Print Assumptions C98_first_letter_listed.
(* the search over QPLUS finds something exactly at the lengths of quaternion-type sequences *)
Theorem C98_found_iff : forall sc n, schedule_ok sc -> 1 <= n -> exists r, optim_find sc n None = Some r /\ (0 < fst r <-> exists q, pm_quad n q /\ is_QT q).
Proof. exact found_iff. Qed.
Print Assumptions C98_found_iff.
(* symmetric searches of even length that cannot find anything *)
Theorem C98_symmetric_empty : forall sc s n, schedule_ok sc -> 1 <= n -> Nat.even n = true -> ~ possible s n ->
  naive_find n (Some s) = Some (0, []) /\ optim_find sc n (Some s) = Some (0, []) /\ optim_find_q24 sc n (Some s) = Some (0, []).
Proof. exact sym_nothing. Qed.
Print Assumptions C98_symmetric_empty.
(* find_pqs *)
Theorem C98_find_pqs : forall sc sym, (forall i, schedule_ok (sc i)) -> exists rs, find_pqs sc sym = Some rs /\ length rs = 17 /\ forall i, 1 <= i <= 17 ->
  match nth (i - 1) rs None with
  | None => skipped sym i
  | Some r => ~ skipped sym i /\ match sym with
      | None => lists_exactly (fun v => length v = i /\ incl v QPLUS /\ hd Q1 v = Q1 /\ perfect v) r
      | Some s => lists_exactly (listed_sym s i QPLUS) r /\ (s <> SymI -> possible s i \/ r = (0, []))
      end
  end.
Proof. exact pqs_all. Qed.
Print Assumptions C98_find_pqs.
(* find_williamson and find_williamson_type *)
Theorem C98_find_williamson : exists ws wts, ModelExplore.find_williamson = Some ws /\ ModelExplore.find_williamson_type = Some wts /\ length ws = 14 /\ length wts = 14 /\
  forall n, 1 <= n <= 14 -> SpecFind.lists_quads (fun q => pm_quad n q /\ starts_minus q /\ is_W q) (nth (n - 1) ws (0, [])) /\
    SpecFind.lists_quads (fun q => pm_quad n q /\ starts_minus q /\ is_WT q) (nth (n - 1) wts (0, [])).
Proof. exact williamson_all. Qed.
Print Assumptions C98_find_williamson.
(* unique_wts: one line for each class of quaternion type; a missing directory is a panic *)
Theorem C98_unique_wts : forall n ord, ord_ok ord -> 1 <= n <= 100 -> exists fuel0, forall fuel p, fuel0 <= fuel ->
  find_unique_williamson_type_of_size fuel ord p false n = None /\ exists reps ls,
    find_unique_williamson_type_of_size fuel ord p true n = Some (unlines ls) /\ Forall2 SpecFind.quad_text reps ls /\ NoDup reps /\
    forall m, In m reps <-> pm_quad n m /\ is_QT m /\ least (reach (type_ops QuaternionType) m) m.
Proof. exact unique_wts_spec. Qed.
Print Assumptions C98_unique_wts.
(* although the file is named after Williamson-type sequences, it is not unique up to their equivalence: at length 4 it has two lines of one class *)
Theorem C98_unique_wts_refuted : forall ord, ord_ok ord -> exists fuel0, forall fuel p, fuel0 <= fuel -> exists ls la lb a b,
  find_unique_williamson_type_of_size fuel ord p true 4 = Some (unlines ls) /\ In la ls /\ In lb ls /\ la <> lb /\
  SpecFind.quad_text a la /\ SpecFind.quad_text b lb /\ is_WT a /\ is_WT b /\ reach (type_ops WilliamsonType) a b.
Proof. exact unique_wts_refuted. Qed.
Print Assumptions C98_unique_wts_refuted.
(* the inclusion of C97_qts_wts can be strict *)
Theorem C97_strict : forall (L L' : Type) (e : Env L) (e' : Env L') c c' pr pr' h h' d d' w w', env_ok e -> env_ok e' ->
  d = true \/ pl_dirs (place_of w (chars "qts") (chars "4")) = [] -> d' = true \/ pl_dirs (place_of w' (chars "wts") (chars "4")) = [] ->
  exists fuel0, forall fuel fuel', fuel0 <= fuel -> fuel0 <= fuel' -> exists pl pl' q_lines w_lines,
    driver_flags fuel e (chars "qts") (chars "4") c pr h d w (chars "qts") (chars "4") = Some pl /\
    driver_flags fuel' e' (chars "wts") (chars "4") c' pr' h' d' w' (chars "wts") (chars "4") = Some pl' /\
    pl_seq pl = Some q_lines /\ pl_seq pl' = Some w_lines /\ length w_lines < length q_lines.
Proof. exact @agree_strict. Qed.
Print Assumptions C97_strict.

(* the hypotheses: an order, a length with symmetry IV, lengths without, and the counts at length 3 *)
Example C98_instance : ord_ok ord_mix /\ schedule_ok sc_rev /\ possible SymIV 4 /\ ~ possible SymII 6 /\ ~ possible SymIII 4 /\ ~ possible SymIV 8 /\
  option_map fst (naive_find 4 (Some SymIV)) = Some 16 /\ option_map fst (naive_find 3 None) = Some 12.
Proof.
  split; [exact ord_mix_ok|]. split; [intros p l; symmetry; apply Permutation_rev|]. split; [reflexivity|]. do 3 (split; [cbn; discriminate|]). split; vm_compute; reflexivity.
Qed.
