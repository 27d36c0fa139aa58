(* Independent specification of the text printed by the commands pairs and join. *)
From Coq Require Import Ascii String List ZArith Bool Arith Sorting.Sorted.
From Verif Require Import Base ModelSequence ModelWilliamson ModelRowsum SpecRowsum ModelMatching ModelWrite ModelMain ModelLog SpecSearch SpecMain SpecPrint SpecFiles SpecSolver SpecSplit SpecMixed Spec.
Import ListNotations.
Notation length := List.length.
Open Scope nat_scope.

(* z hundredths of a second: 12.34 *)
Definition time_text (z : Z) (s : list ascii) : Prop :=
  exists k a b ks, canonical_numeral ks k /\ a < 10 /\ b < 10 /\ z = (100 * Z.of_nat k + 10 * Z.of_nat a + Z.of_nat b)%Z /\
    s = ks ++ chars "." ++ [ascii_of_nat (48 + a); ascii_of_nat (48 + b)].
(* (1, 1, -3, 5) *)
Definition sums_text (r : Quad) (s : list ascii) : Prop :=
  let '(a, b, c, d) := r in exists sa sb sc sd, signed_numeral sa a /\ signed_numeral sb b /\ signed_numeral sc c /\ signed_numeral sd d /\
    s = chars "(" ++ sa ++ chars ", " ++ sb ++ chars ", " ++ sc ++ chars ", " ++ sd ++ chars ")".
(* rowsum_1_1_-3_5 *)
Definition sums_dir (r : Quad) (s : list ascii) : Prop :=
  let '(a, b, c, d) := r in exists sa sb sc sd, signed_numeral sa a /\ signed_numeral sb b /\ signed_numeral sc c /\ signed_numeral sd d /\
    s = chars "rowsum_" ++ sa ++ chars "_" ++ sb ++ chars "_" ++ sc ++ chars "_" ++ sd.
(* the number of things with a property *)
Definition number_of {A} (P : A -> Prop) (k : nat) : Prop := exists l, NoDup l /\ (forall a, In a l <-> P a) /\ length l = k.

(* the sequences with a given row sum *)
Definition found_line (n : nat) (t : SequenceType) (z : Z) (line : list ascii) : Prop :=
  exists k ks zs, number_of (fun s : list Z => length s = n /\ pm1 s /\ total s = z /\ (t = Williamson -> symmetric s)) k /\
    canonical_numeral ks k /\ signed_numeral zs z /\ line = chars "Found " ++ ks ++ chars " sequences with rowsum " ++ zs.
Definition letters (p : Tag * Tag) : list ascii := chars (letter (fst p) ++ letter (snd p)).
Definition warning_lines (what : string) (p : Tag * Tag) (x : option (list ascii)) : list (list ascii) :=
  match x with
  | Some x => [chars "WARNING (pair " ++ letters p ++ chars "): " ++ chars what ++ chars " values approximate half-integer with error as small as " ++ x]
  | None => []
  end.
(* a pair: k is the number of lines of its file *)
Definition pair_lines_text (ck : Clock) (r : Quad) (d : Dir) (p : Tag * Tag) (k : nat) (lines : list (list ascii)) : Prop :=
  exists file ks, In (pair_name p, file) d /\ length file = k /\ canonical_numeral ks k /\
    lines = (chars "Generated " ++ ks ++ chars " pairs for pairing " ++ letters p) :: warning_lines "PSD" p (warn_psd ck r p) ++ warning_lines "CPSD" p (warn_cpsd ck r p).
(* the row sums r with directory d: k is the number of lines of the two files of pairs *)
Definition rowsum_lines (ck : Clock) (n : nat) (t : SequenceType) (pr : RowsumPairing) (r : Quad) (d : Dir) (k : nat) (lines : list (list ascii)) : Prop :=
  exists s fa fb fc fd t1 p1 p2 k1 k2 l1 l2 t2, sums_text r s /\
    (let '(a, b, c, d) := r in found_line n t a fa /\ found_line n t b fb /\ found_line n t c fc /\ found_line n t d fd) /\
    time_text (tm_seqs ck r) t1 /\ pairs_of pr Both = [p1; p2] /\ pair_lines_text ck r d p1 k1 l1 /\ pair_lines_text ck r d p2 k2 l2 /\ k = k1 + k2 /\ time_text (tm_both ck r) t2 /\
    lines = [chars "Generating .pair files for rowsums " ++ s ++ chars " ..."; fa; fb; fc; fd;
             chars "Generating all sequences with rowsums " ++ s ++ chars " took " ++ t1 ++ chars " seconds"] ++ l1 ++ l2 ++
            [chars "Generating .pair files for both pairs took " ++ t2 ++ chars " seconds"; []].
(* the command pairs *)
Definition pairs_lines (ck : Clock) (n : nat) (t : SequenceType) (pr : RowsumPairing) (f : Folder) (lines : list (list ascii)) : Prop :=
  exists rss entries ns heads ks cs tm, NoDup rss /\ (forall r, In r rss <-> feasible n r /\ normal_rowsums t r) /\
    Forall2 (fun r (e : Dir * nat * list (list ascii)) => let '(d, k, b) := e in rowsum_lines ck n t pr r d k b /\ exists name, sums_dir r name /\ In (name, d) f) rss entries /\
    canonical_numeral ns n /\ Forall2 sums_text rss heads /\ canonical_numeral ks (length rss) /\
    canonical_numeral cs (list_sum (map (fun '(_, k, _) => k) entries)) /\ time_text (tm_pairs ck) tm /\
    lines = [chars "Generating rowsum decompositions for length " ++ ns ++ chars " ..."] ++ heads ++ [chars "Generated " ++ ks ++ chars " different rowsums"; []] ++
            concat (map (fun '(_, _, b) => b) entries) ++
            [chars "Generated " ++ cs ++ chars " total pairs"; chars "Total time to generate .pair files: " ++ tm ++ chars " seconds"; []].

(* ---- join ---- *)

(* the key of a line: what precedes the first _:_ *)
Fixpoint key_text (s : list ascii) : list ascii :=
  match s with
  | [] => []
  | c :: r => if list_eq_dec ascii_dec (firstn 3 s) (chars "_:_") then [] else c :: key_text r
  end.
(* the number of pairs of lines with the same key *)
Definition same_keys (f g : list (list ascii)) : nat :=
  length (filter (fun p => if list_eq_dec ascii_dec (key_text (fst p)) (key_text (snd p)) then true else false) (list_prod f g)).
(* 4_-1_0_:_12_7 *)
Definition pair_text (s : list ascii) : Prop :=
  exists k i j ks js, ~ In ":"%char k /\ canonical_numeral ks i /\ canonical_numeral js j /\ s = k ++ chars "_:_" ++ ks ++ chars "_" ++ js.
(* a sorted file, with no key the beginning of another one *)
Definition ordered (f : list (list ascii)) : Prop := StronglySorted (fun a b => text_ltb b a = false) f /\ Forall pair_text f.
Definition separate_keys (f : list (list ascii)) : Prop :=
  forall a b r, In a f -> In b f -> key_text b = key_text a ++ r -> r = [].
(* k is the number of matches of two files: no more than the pairs of lines with the same key, and exactly
   these in sorted files *)
Definition matches (f g : list (list ascii)) (k : nat) : Prop :=
  k <= same_keys f g /\ (ordered f -> ordered g -> separate_keys (f ++ g) -> k = same_keys f g).
Definition sorted_pairs (name : list ascii) : Prop := exists s, name = s ++ chars ".pair.sorted".
Definition in_quotes (s : list ascii) : list ascii := ascii_of_nat 34 :: s ++ [ascii_of_nat 34].
(* a directory: the two files of sorted pairs in the order of the listing *)
Definition dir_lines (ls : Listing) (name : list ascii) (d : Dir) (k : nat) (lines : list (list ascii)) : Prop :=
  exists n0 f0 n1 f1 a b c ks, ls_pair ls name d = a ++ (n0, f0) :: b ++ (n1, f1) :: c /\ sorted_pairs n0 /\ sorted_pairs n1 /\
    (forall e, In e (a ++ b ++ c) -> ~ sorted_pairs (fst e)) /\ matches f0 f1 k /\ canonical_numeral ks k /\
    lines = [chars "Matching files in /" ++ name ++ chars " ..."; chars "Matches found in " ++ in_quotes n0 ++ chars " and " ++ in_quotes n1 ++ chars ": " ++ ks; []].
Definition operations (t : SequenceType) : list ascii :=
  match t with QuaternionType => chars "the NS (negate-and-swap) operation" | _ => chars "the SN (single negate) and SS (single swap) operations" end.
Definition equivalence_name (t : SequenceType) : list ascii :=
  match t with QuaternionType => chars "QT" | _ => chars "Williamson-type" end.
(* the remark on a sequence that is not amicable *)
Definition remark (q : QuadSeq) (s : list ascii) : Prop :=
  (forall u v, In u [q_a q; q_b q; q_c q; q_d q] -> In v [q_a q; q_b q; q_c q; q_d q] -> amicable u v) /\ s = [] \/
  ~ (forall u v, In u [q_a q; q_b q; q_c q; q_d q] -> In v [q_a q; q_b q; q_c q; q_d q] -> amicable u v) /\
    s = chars "Seq is valid QTS, but not amicable (not WTS): " ++ quad_text q.
Definition count_lines (what t : list ascii) (ks : list ascii) : list ascii := chars "Found " ++ ks ++ chars " " ++ t ++ chars " " ++ what.
(* the text printed by the command join that leaves the files of place pl *)
Definition join_text (ck : Clock) (ls : Listing) (n : nat) (t : SequenceType) (f : Folder) (pl : Place) (text : list ascii) : Prop :=
  exists entries k1 k2 r seq c1 c2 c3 t1 t2 remarks more,
    Forall2 (fun (e : list ascii * Dir) (b : nat * list (list ascii)) => dir_lines ls (fst e) (snd e) (fst b) (snd b)) (ls_folder ls f) entries /\
    k1 <= list_sum (map fst entries) /\ k2 <= k1 /\ pl_seq pl = Some seq /\ length r = length seq /\ canonical_numeral c1 k1 /\ canonical_numeral c2 k2 /\ canonical_numeral c3 (length seq) /\
    time_text (tm_match ck) t1 /\ time_text (tm_reduce ck) t2 /\
    (Forall (pm_quad n) r -> Forall2 line_of_quad r seq /\ (t = QuaternionType -> Forall2 remark r remarks)) /\ (t <> QuaternionType -> remarks = []) /\
    match t with
    | WilliamsonType => exists qts c4 t3, pl_qts pl = Some qts /\ canonical_numeral c4 (length qts) /\ time_text (tm_qts ck) t3 /\
        more = [chars "In order to generate all Williamson-type sequences up to Hadamard equivalence, we now generate a complete list up to QT equivalence ...";
                count_lines (chars "after reducing to equivalence") (chars "qts") c4; chars "Reducing to equivalence took " ++ t3 ++ chars " seconds."; []]
    | _ => more = []
    end /\
    text = stacked (concat (map snd entries) ++
      [chars "Matching took: " ++ t1 ++ chars " seconds."; []; count_lines (chars "after matching") (type_word t) c1;
       chars "Filtered with " ++ operations t ++ chars "; now filtering " ++ c2 ++ chars " sequences up to " ++ equivalence_name t ++ chars " equivalence ...";
       count_lines (chars "after reducing to equivalence") (type_word t) c3; chars "Reducing to equivalence took " ++ t2 ++ chars " seconds."; []]) ++
      concat remarks ++ stacked more.
