(* Independent specification of the files written by each command. *)
From Coq Require Import Ascii String List ZArith.
From Verif Require Import Base ModelSequence ModelWilliamson ModelRowsum ModelMatching ModelWrite ModelMain SpecMain Spec.
Import ListNotations.

(* the files of a directory find_<y>; Rowsum_dirs stands for all directories rowsum_... with their files *)
Inductive File := Rowsum_dirs | Rowsums_quad | Result_seq | Result_qseq | Result_qts_seq | Result_qts_qseq | Result_mat | Result_qhm | Qhm_all_mat.
Definition same_file (x : File) (pl pl' : Place) : Prop :=
  match x with
  | Rowsum_dirs => pl_dirs pl' = pl_dirs pl
  | Rowsums_quad => pl_quad pl' = pl_quad pl
  | Result_seq => pl_seq pl' = pl_seq pl
  | Result_qseq => pl_qseq pl' = pl_qseq pl
  | Result_qts_seq => pl_qts pl' = pl_qts pl
  | Result_qts_qseq => pl_qts_q pl' = pl_qts_q pl
  | Result_mat => pl_mat pl' = pl_mat pl
  | Result_qhm => pl_qhm pl' = pl_qhm pl
  | Qhm_all_mat => pl_all pl' = pl_all pl
  end.
(* the files a command writes *)
Definition outputs (c : Command) : list File :=
  match c with
  | Help | Unrecognized | Amicable _ => []
  | QhmAll _ _ => [Qhm_all_mat]
  | Rowsums _ _ => [Rowsums_quad]
  | Join WilliamsonType _ => [Result_seq; Result_qseq; Result_qts_seq; Result_qts_qseq]
  | Join _ _ => [Result_seq; Result_qseq]
  | ConvertHm _ _ => [Result_mat]
  | ConvertQhm _ _ => [Result_qhm]
  | Pairs _ _ _ _ | PairsRowsum _ _ _ _ _ | Create _ _ _ _ | PairSingle _ _ _ _ _ _ => [Rowsum_dirs]
  end.
(* a line of rowsums.quad: the four numbers, separated by blanks *)
Definition rowsum_line (r : Z * Z * Z * Z) (line : list ascii) : Prop :=
  let '(a, b, c, d) := r in
  exists sa sb sc sd, signed sa a /\ signed sb b /\ signed sc c /\ signed sd d /\
    line = sa ++ " "%char :: sb ++ " "%char :: sc ++ " "%char :: sd.
