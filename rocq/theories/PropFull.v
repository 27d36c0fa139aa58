(* Property theorems C110: jobs of a split search on a disk that fills up. *)
From Coq Require Import Ascii String List ZArith Lia Arith Bool.
From Verif Require Import Base BaseFacts Quat ModelSequence ModelWilliamson ModelEquivalence ModelRowsum SpecRowsum ModelMatching ModelWrite ModelMain ArgFacts SpecPrint SpecMain SpecSplit SplitFacts ModelJobs SpecJobs
  JobsFacts JobsThms ModelFull SpecFull FullFacts FullThms FullWide PropKilled SpecSearch Spec.
Import ListNotations.
Notation length := List.length.
Open Scope nat_scope.

(* C110: a pairs_rowsum or pair_single program with room for all it writes ends, and the files are those of an unlimited disk *)
Theorem C110_enough_space : forall args x y acts, run_actions args = Some (x, y, acts) -> forall st free pos, bytes_written acts <= free ->
  exists k, run_full acts (mkDisk st free pos) = (k, true) /\ perform acts st = Some (d_store k).
Proof. exact (fun args x y acts E => enough_space acts (calls_proper args x y acts E)). Qed.
Print Assumptions C110_enough_space.
(* on new files, it panics exactly if there is no room for a single byte of its last write (the last one with any bytes) *)
Theorem C110_panics_iff : forall args x y acts, run_actions args = Some (x, y, acts) ->
  forall pre d f o s post, acts = pre ++ WriteAt d f o s :: post -> s <> [] -> idle post ->
  forall st free pos, fresh acts st -> (snd (run_full acts (mkDisk st free pos)) = true <-> bytes_written pre < free).
Proof. exact (fun args x y acts E => noticed_iff acts (calls_proper args x y acts E)). Qed.
Print Assumptions C110_panics_iff.
(* if the room ends within the last write, the program ends as if nothing had happened, but the end of that file is missing *)
Theorem C110_unnoticed_files : forall args x y acts, run_actions args = Some (x, y, acts) ->
  forall pre d f o s post, acts = pre ++ WriteAt d f o s :: post -> s <> [] -> idle post ->
  forall st free pos, fresh acts st -> bytes_written pre < free < bytes_written acts -> exists k whole b kept lost,
  run_full acts (mkDisk st free pos) = (k, true) /\ perform acts st = Some whole /\ s = kept ++ lost /\ kept <> [] /\ lost <> [] /\ length lost + free = bytes_written acts /\
  contents whole d f = Some (b ++ kept ++ lost) /\ contents (d_store k) d f = Some (b ++ kept) /\
  forall d' f', (d', f') <> (d, f) -> contents (d_store k) d' f' = contents whole d' f'.
Proof. exact (fun args x y acts E => within_last acts (calls_proper args x y acts E)). Qed.
Print Assumptions C110_unnoticed_files.
(* "a program that does not panic has written its files" is false for every job on row sums of some quadruple *)
Theorem C110_silent_loss_refuted : forall n t y m pr, 1 <= n -> (Z.of_nat n < 2 ^ 62)%Z -> t = QuaternionType \/ t = WilliamsonType \/ t = Williamson -> canonical_numeral y n ->
  forall job args, feasible n (fst job) -> job_line t y m pr job args ->
  (exists q, pm_quad n q /\ totals q = fst job /\ (t = Williamson -> forall tg, symmetric (sequence q tg))) ->
  exists acts free, run_actions args = Some (type_word t, y, acts) /\ free < bytes_written acts /\ forall st pos, fresh acts st -> exists k whole d f b lost,
    run_full acts (mkDisk st free pos) = (k, true) /\ perform acts st = Some whole /\
    contents whole d f = Some (b ++ lost) /\ lost <> [] /\ contents (d_store k) d f = Some b.
Proof. exact full_unnoticed. Qed.
Print Assumptions C110_silent_loss_refuted.
(* the hypotheses, for a job of length 7; every store without the files of the program is fresh; a small program on disks of all sizes *)
Example C110_instance : (exists args, job_line QuaternionType (chars "7") PSD WY ((1, 1, 1, 5)%Z, Both) args /\
    exists acts pre d f o s post, run_actions args = Some (chars "qts", chars "7", acts) /\ acts = pre ++ WriteAt d f o s :: post /\ s <> [] /\ idle post /\
    fresh acts empty_disk /\ S (bytes_written pre) < bytes_written acts) /\
  feasible 7 (1, 1, 1, 5)%Z /\ canonical_numeral (chars "7") 7 /\
  (exists q, pm_quad 7 q /\ totals q = (1, 1, 1, 5)%Z /\ (QuaternionType = Williamson -> forall tg, symmetric (sequence q tg))) /\
  let d := chars "d" in let one := MakeDir d :: put_acts d (chars "f") [chars "ab"; chars "cde"] ++ put_acts d (chars "g") [[]] in
  let out := fun free => let '(k, b) := run_full one (mkDisk empty_disk free 0) in (contents (d_store k) d (chars "f"), b) in
  out 0 = (Some [], false) /\ out 1 = (Some (chars "a"), false) /\ out 2 = (Some (chars "ab"), false) /\ out 3 = (Some (chars "abc"), true) /\
  out 4 = (Some (chars "abcd"), true) /\ out 5 = (Some (chars "abcde"), true) /\ out 6 = (Some (chars "abcde"), true).
Proof.
  assert (S : forall k, k < 10 -> rowsum_arg [ascii_of_nat (48 + k)] (Z.of_nat k)).
  { intros k Hk. split; [left; left; exact (decimal_digit k Hk)|lia]. }
  assert (Pa : pm_quad 7 q7a) by (repeat split; auto; repeat (apply Forall_cons; [auto|]); apply Forall_nil).
  assert (Hf : feasible 7 (1, 1, 1, 5)%Z) by (vm_compute; tauto).
  assert (Hy : canonical_numeral (chars "7") 7) by (split; [exact (decimal_digit 7 ltac:(lia))|now right]).
  assert (Hq : exists q, pm_quad 7 q /\ totals q = (1, 1, 1, 5)%Z /\ (QuaternionType = Williamson -> forall tg, symmetric (sequence q tg))).
  { exists q7a. split; auto. split; [reflexivity|discriminate]. }
  split; [|split; [exact Hf|split; [exact Hy|split; [exact Hq|]]]].
  - assert (J : exists args, job_line QuaternionType (chars "7") PSD WY ((1, 1, 1, 5)%Z, Both) args).
    { eexists. exists [ascii_of_nat (48 + 1)], [ascii_of_nat (48 + 1)], [ascii_of_nat (48 + 1)], [ascii_of_nat (48 + 5)]; split; [|reflexivity].
      repeat split; try (apply (S 1); lia); try (apply (S 5); lia); lia. }
    destruct J as (args & J). exists args. split; auto.
    destruct (job_program 7 QuaternionType (chars "7") PSD WY ltac:(lia) ltac:(lia) ltac:(now left) Hy ((1, 1, 1, 5)%Z, Both) args Hf J) as (fl & E & _).
    destruct (job_wide 7 QuaternionType (chars "7") PSD WY ltac:(lia) ltac:(lia) ltac:(now left) Hy (1, 1, 1, 5)%Z Both args _ Hf J E) as [W B]. specialize (B Hq).
    destruct (FullWide.has_last _ B) as (pre & d & f & o & s & post & Ea & Hs & Hi). eexists _, pre, d, f, o, s, post. split; [exact E|]. split; [exact Ea|]. split; [exact Hs|]. split; [exact Hi|].
    split; [intros d' f' _; reflexivity|]. destruct (W d f o s) as [Z|Z]; [rewrite Ea; apply in_app_iff; right; now left|contradiction|].
    rewrite Ea, bytes_app. cbn [bytes_written]. lia.
  - vm_compute. repeat split.
Qed.
