(* Independent specification of the results of the program as a whole. *)
From Coq Require Import Ascii String List ZArith Bool Arith Permutation.
From Verif Require Import Base Quat Sums ModelSequence ModelWilliamson ModelMatrices ModelGraph ModelEquivalence ModelRowsum ModelMatching ModelWrite ModelMain
  SpecEquiv EquivFacts SpecMatrix SpecPrint SpecGraph SpecSearch Spec.
Import ListNotations.
Open Scope nat_scope.

(* whatever the environment decides *)
Definition env_ok {L} (e : Env L) : Prop :=
  ord_ok (e_ord e) /\ any_listing (e_ls e) /\ canonical (e_canon e) (e_same e) /\ (forall l, Permutation (e_hms e l) l).

(* the text of a quadruple: four lines of signs in brackets *)
Definition quad_text (q : QuadSeq) : list ascii :=
  chars "[" ++ [newline] ++
  concat (map (fun s => chars "  [" ++ map sign_char s ++ chars "]" ++ [newline]) [q_a q; q_b q; q_c q; q_d q]) ++
  chars "]".
(* texts one below the other *)
Definition stacked (l : list (list ascii)) : list ascii := concat (map (fun t => t ++ [newline]) l).

(* the list holds exactly one matrix per Hadamard class of the matrices made from the quadruples of
   length n and type t *)
Definition one_matrix_per_class (n : nat) (t : SequenceType) (equ : list HM) : Prop :=
  (forall k, In k equ -> hm_hadamard (4 * n) k /\ exists q, pm_quad n q /\ is_type t q /\ HM_from_williamson q QuaternionType = Some k) /\
  (forall q, pm_quad n q -> is_type t q ->
     exists h k, HM_from_williamson q QuaternionType = Some h /\ In k equ /\ hm_equivalent (4 * n) h k) /\
  (forall i j d, i < length equ -> j < length equ -> hm_equivalent (4 * n) (nth i equ d) (nth j equ d) -> i = j).

(* d is a normalised quaternionic Hadamard matrix obtained from the circulant matrix of the quaternion
   sequence of q by multiplying rows on the left and columns on the right by units *)
Definition normal_qhm (n : nat) (q : QuadSeq) (d : QHM) : Prop :=
  qhm_size d = n /\ qhadamard n (qhm_matrix d) /\ normalised Q1 n (qhm_matrix d) /\
  Forall (Forall (fun x => In x Q24)) (qhm_matrix d) /\
  exists s u v, to_qs q = Some s /\
    forall i j, i < n -> j < n -> In (u i) Q24 /\ In (v j) Q24 /\
      cell Q1 (qhm_matrix d) i j = qmul (u i) (qmul (qentry (qs_values s) (Z.of_nat j - Z.of_nat i)) (v j)).
Definition non_commuting (n : nat) (m : list (list quat)) : Prop :=
  exists i j k l, i < n /\ j < n /\ k < n /\ l < n /\
    qmul (cell Q1 m i j) (cell Q1 m k l) <> qmul (cell Q1 m k l) (cell Q1 m i j).

(* ---- the command line ---- *)

(* s is a string of digits, at least one, with value z *)
Inductive decimal : list ascii -> Z -> Prop :=
  | decimal_digit d : d < 10 -> decimal [ascii_of_nat (48 + d)] (Z.of_nat d)
  | decimal_more s z d : decimal s z -> d < 10 -> decimal (s ++ [ascii_of_nat (48 + d)]) (10 * z + Z.of_nat d)%Z.
Definition unsigned (s : list ascii) (z : Z) : Prop := decimal s z \/ exists r, s = "+"%char :: r /\ decimal r z.
Definition signed (s : list ascii) (z : Z) : Prop := unsigned s z \/ exists r k, s = "-"%char :: r /\ decimal r k /\ z = (- k)%Z.
(* the argument s for a length, a row sum, or the number of a pair *)
Definition length_arg (s : list ascii) (z : Z) : Prop := unsigned s z /\ (z < 2 ^ 64)%Z.
Definition rowsum_arg (s : list ascii) (z : Z) : Prop := signed s z /\ (- 2 ^ 63 <= z < 2 ^ 63)%Z.
Definition byte_arg (s : list ascii) (z : Z) : Prop := unsigned s z /\ (z < 256)%Z.
Definition type_word (t : SequenceType) : list ascii :=
  chars match t with
        | QuaternionType => "qts" | WilliamsonType => "wts" | Williamson => "ws" | ItoType => "its"
        | ExtraTypeI => "et1" | ExtraTypeII => "et2" | ExtraTypeIII => "et3"
        end%string.
Definition match_word (m : MatchOption) : list ascii := chars match m with CORRELATION => "correlation" | PSD => "psd" end%string.
Definition pairing_word (p : RowsumPairing) : list ascii := chars match p with WX => "WX" | WY => "WY" | WZ => "WZ" end%string.
(* a word that names no pairing counts as no pairing *)
Definition pairing_arg (s : list ascii) (p : option RowsumPairing) : Prop :=
  match p with Some r => s = pairing_word r | None => forall r, s <> pairing_word r end.
Definition rowsums_arg (a b c d : list ascii) (rs : Quad) : Prop :=
  let '(x, y, z, u) := rs in rowsum_arg a x /\ rowsum_arg b y /\ rowsum_arg c z /\ rowsum_arg d u.
Definition command_words : list (list ascii) :=
  map chars ["qhm-all"; "amicable"; "rowsums"; "join"; "convert"; "pairs"; "pairs_rowsum"; "create"; "pair_single"]%string.
(* what the arguments (the name of the program first) ask for *)
Inductive command_line : list (list ascii) -> Command -> Prop :=
  | cl_help prog : command_line [prog] Help
  | cl_qhm_all prog t y p : length_arg y p -> command_line [prog; chars "qhm-all"; type_word t; y] (QhmAll t p)
  | cl_amicable prog y p : length_arg y p -> command_line [prog; chars "amicable"; y] (Amicable p)
  | cl_rowsums prog t y p : length_arg y p -> command_line [prog; chars "rowsums"; type_word t; y] (Rowsums t p)
  | cl_join prog t y p : length_arg y p -> command_line [prog; chars "join"; type_word t; y] (Join t p)
  | cl_convert_hm prog t y p : length_arg y p -> command_line [prog; chars "convert"; chars "hm"; type_word t; y] (ConvertHm t p)
  | cl_convert_qhm prog t y p : length_arg y p -> command_line [prog; chars "convert"; chars "qhm"; type_word t; y] (ConvertQhm t p)
  | cl_pairs prog t y p m r pr : length_arg y p -> pairing_arg r pr ->
      command_line [prog; chars "pairs"; type_word t; y; match_word m; r] (Pairs t p m pr)
  | cl_pairs_rowsum prog t y p a b c d rs m r pr : length_arg y p -> rowsums_arg a b c d rs -> pairing_arg r pr ->
      command_line [prog; chars "pairs_rowsum"; type_word t; y; a; b; c; d; match_word m; r] (PairsRowsum t p rs m pr)
  (* further arguments of create are ignored *)
  | cl_create prog t y p a b c d rs r pr more : length_arg y p -> rowsums_arg a b c d rs -> pairing_arg r pr ->
      command_line (prog :: chars "create" :: type_word t :: y :: a :: b :: c :: d :: r :: more) (Create t p rs pr)
  | cl_pair_single prog t y p a b c d rs m r pr k pk : length_arg y p -> rowsums_arg a b c d rs -> pairing_arg r pr -> byte_arg k pk ->
      command_line [prog; chars "pair_single"; type_word t; y; a; b; c; d; match_word m; r; k] (PairSingle t p rs m pr pk)
  | cl_other prog word more : ~ In word command_words -> command_line (prog :: word :: more) Unrecognized.

(* y is the number n written without a superfluous zero *)
Definition canonical_numeral (y : list ascii) (n : nat) : Prop :=
  decimal y (Z.of_nat n) /\ (y = ["0"%char] \/ forall r, y <> "0"%char :: r).
(* the two trees agree on all directories but results/pairs/<x>/find_<y> *)
Definition only (w w' : World) (x y : list ascii) : Prop := forall x' y', (x', y') <> (x, y) -> w' x' y' = w x' y'.
(* what wc -l counts *)
Definition line_count (s : list ascii) : nat := count_occ ascii_dec s newline.

(* the files result.seq and result.qseq (or those of the second pair) list the quadruples r *)
Definition lists_quads (seq : option Lines) (qseq : option (list ascii)) (r : list QuadSeq) : Prop :=
  exists out, seq = Some out /\ Forall2 line_of_quad r out /\ qseq = Some (stacked (map quad_text r)).
(* result.mat lists the matrices *)
Definition lists_matrices (mat : option (list ascii)) (equ : list HM) : Prop :=
  mat = Some (stacked (map (fun h => magma_text (hm_matrix h)) equ)).
(* result.qhm lists one normalised matrix per quadruple *)
Definition lists_qhms (n : nat) (qhm : option (list ascii)) (r : list QuadSeq) : Prop :=
  exists ds txts, Forall2 (normal_qhm n) r ds /\ Forall2 (fun d s => QHM_to_string d = Some s) ds txts /\ qhm = Some (stacked txts).

(* the type and the length whose directory a command is about *)
Definition target (c : Command) : option (SequenceType * Z) :=
  match c with
  | Help | Unrecognized => None
  | Amicable p => Some (QuaternionType, p)
  | QhmAll t p | Rowsums t p | Join t p | ConvertHm t p | ConvertQhm t p | Pairs t p _ _ | PairsRowsum t p _ _ _ | Create t p _ _ | PairSingle t p _ _ _ _ => Some (t, p)
  end.
