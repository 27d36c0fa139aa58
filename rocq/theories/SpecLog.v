(* Independent specification of the clock behind a log. *)
From Coq Require Import Ascii String List ZArith.
From Verif Require Import ModelRowsum ModelMatching ModelWrite ModelLog SpecPrint Spec.
Import ListNotations.

(* times are not negative, and the numbers quoted in warnings are written with digits and a point *)
Definition number_text (s : list ascii) : Prop := s <> [] /\ Forall (fun c => In c (chars "0123456789.")) s.
Definition clock_ok (ck : Clock) : Prop :=
  (forall rs, 0 <= tm_seqs ck rs)%Z /\ (forall rs, 0 <= tm_both ck rs)%Z /\ (0 <= tm_pairs ck)%Z /\ (0 <= tm_sort ck)%Z /\
  (0 <= tm_match ck)%Z /\ (0 <= tm_reduce ck)%Z /\ (0 <= tm_qts ck)%Z /\ (0 <= tm_hm ck)%Z /\ (0 <= tm_qhm ck)%Z /\ (0 <= tm_all ck)%Z /\
  (forall rs tags s, warn_psd ck rs tags = Some s \/ warn_cpsd ck rs tags = Some s -> number_text s).
