(* Property theorem C50: the files of a row sum directory. *)
From Coq Require Import Ascii String List ZArith Lia Arith Bool Reals Permutation.
From Verif Require Import Base ModelSequence ModelWilliamson ModelFourier ModelMatching ModelRowsum ModelWrite SpecRowsum SpecSearch
  SpecFiles SingleFacts Spec.
Import ListNotations.
Open Scope nat_scope.

(* C50: the two pairs written by separate pair_single commands, in either order, are the files written by
   pairs_rowsum *)
Theorem C50_separate_jobs : forall t m n rs pr f, three_types t -> 1 <= n -> (Z.of_nat n < 2 ^ 62)%Z -> feasible n rs ->
  no_dir f (rowsum_dir rs) ->
  exists d c f1 d12 f2 d21,
    write_pairs_rowsum n (seqtype_to_string t) rs n m (Some pr) f = Some (f ++ [(rowsum_dir rs, d)], c) /\
    write_pair_single_rowsum n (seqtype_to_string t) rs n m (Some pr) 1 f = Some f1 /\
    write_pair_single_rowsum n (seqtype_to_string t) rs n m (Some pr) 2 f1 = Some (f ++ [(rowsum_dir rs, d12)]) /\
    write_pair_single_rowsum n (seqtype_to_string t) rs n m (Some pr) 2 f = Some f2 /\
    write_pair_single_rowsum n (seqtype_to_string t) rs n m (Some pr) 1 f2 = Some (f ++ [(rowsum_dir rs, d21)]) /\
    same_files d d12 /\ same_files d d21.
Proof. exact separate_jobs. Qed.
Print Assumptions C50_separate_jobs.

(* after create, there remain an empty file for every prepared name that is not written; for the row sums
   of the search, the join panics on the directory unless the row sums are usable *)
Theorem C50_prepared_jobs : forall t m n rs pr f, three_types t -> 1 <= n -> (Z.of_nat n < 2 ^ 62)%Z -> feasible n rs ->
  no_dir f (rowsum_dir rs) ->
  exists d c l f1 f2 d' left,
    write_pairs_rowsum n (seqtype_to_string t) rs n m (Some pr) f = Some (f ++ [(rowsum_dir rs, d)], c) /\
    decreasing_tags rs l /\
    create_rowsum_dirs rs (Some pr) f = Some f1 /\
    write_pair_single_rowsum n (seqtype_to_string t) rs n m (Some pr) 1 f1 = Some f2 /\
    write_pair_single_rowsum n (seqtype_to_string t) rs n m (Some pr) 2 f2 = Some (f ++ [(rowsum_dir rs, d')]) /\
    NoDup left /\ (forall p, In p left <-> In p (paired pr l) /\ ~ In p (paired pr [TW; TX; TY; TZ])) /\
    NoDup (map fst d') /\ Permutation d' (d ++ map (fun p => (pair_name p, [])) left) /\
    (normal_rowsums t rs -> (usable pr rs -> left = []) /\
       (~ usable pr rs -> forall ls f', any_listing ls -> In (rowsum_dir rs, d') f' -> match_pairs ls t (sortpairs f') = None)).
Proof. exact prepared_jobs. Qed.
Print Assumptions C50_prepared_jobs.

(* without a valid pairing argument, create panics, pair_single writes no file, pairs_rowsum uses WZ *)
Theorem C50_no_pairing : forall plan folder rs p m pair f,
  create_rowsum_dirs rs None f = None /\
  (str_to_seqtype folder <> None -> no_dir f (rowsum_dir rs) ->
   write_pair_single_rowsum plan folder rs p m None pair f = Some (f ++ [(rowsum_dir rs, [])])) /\
  write_pairs_rowsum plan folder rs p m None f = write_pairs_rowsum plan folder rs p m (Some WZ) f.
Proof. exact no_pairing. Qed.
Print Assumptions C50_no_pairing.

(* (1,1,3,3) for length 5: usable with the pairing WX, not with WY *)
Example C50_instance : three_types WilliamsonType /\ feasible 5 (1, 1, 3, 3)%Z /\ normal_rowsums WilliamsonType (1, 1, 3, 3)%Z /\
  usable WX (1, 1, 3, 3)%Z /\ ~ usable WY (1, 1, 3, 3)%Z /\ ~ usable WX (1, 3, 5, 7)%Z /\
  create_rowsum_dirs (1, 1, 3, 3)%Z (Some WX) [] = Some [(lit "rowsum_1_1_3_3", [(lit "pair_YZ.pair", []); (lit "pair_WX.pair", [])])] /\
  create_rowsum_dirs (1, 1, 3, 3)%Z (Some WY) [] = Some [(lit "rowsum_1_1_3_3", [(lit "pair_YW.pair", []); (lit "pair_ZX.pair", [])])] /\
  create_rowsum_dirs (1, 3, 5, 7)%Z (Some WX) [] = Some [(lit "rowsum_1_3_5_7", [(lit "pair_ZY.pair", []); (lit "pair_XW.pair", [])])].
Proof.
  split; [right; left; reflexivity|]. unfold feasible, normal_rowsums, usable.
  split; [repeat split|]. split; [repeat split; lia|]. split; [right; repeat split|]. split; [intros [H|[H _]]; [lia|discriminate H]|].
  split; [intros [H|[_ H]]; lia|]. repeat split; vm_compute; reflexivity.
Qed.
