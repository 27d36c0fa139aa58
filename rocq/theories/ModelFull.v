(* Model of a disk that fills up while pairs_rowsum or pair_single runs on it, on the calls of ModelJobs.

   The program calls File::write, which may write only a part of the buffer and then returns the number of
   bytes written without an error (find_write.rs:92, 232 and 248 ignore the number), and not write_all.  The next
   call that cannot write a single byte fails, and expect panics.

   Simplifications: space is counted in bytes, and directories and names take none; the program is the only one
   that uses the disk. *)
From Coq Require Import Ascii String List ZArith Bool Arith.
From Verif Require Import Base Quat ModelSequence ModelRowsum ModelMatching ModelWrite ModelMain ModelJobs.
Import ListNotations.
Notation length := List.length.
Open Scope nat_scope.

(* the files, the bytes left, and the offset of the handle in use *)
Record Disk := mkDisk { d_store : Store; d_free : nat; d_pos : nat }.
Definition file_length (st : Store) (d f : text) : nat :=
  match st d with Some files => match files f with Some b => length b | None => 0 end | None => 0 end.
(* write(2) on a regular file: bytes of the file are replaced without new space, the others need space; as many
   bytes as possible are written.  None: ENOSPC, no byte could be written. *)
Definition short_write (free : nat) (len pos : nat) (s : text) : option text :=
  let room := free + (len - pos) in
  match s with
  | [] => Some []
  | _ => if room =? 0 then None else Some (firstn room s)
  end.
(* one call; None if it panics.  File::create (find_write.rs:89 and 134) gives the space of an old file back. *)
Definition act_full (k : Disk) (a : Action) : option Disk :=
  match a with
  | MakeDir _ => let* st := act (d_store k) a in Some (mkDisk st (d_free k) (d_pos k))
  | MakeFile d f =>
      let* st := act (d_store k) a in
      Some (mkDisk st (d_free k + file_length (d_store k) d f) 0)
  | WriteAt d f _ s =>
      let len := file_length (d_store k) d f in
      let* s' := short_write (d_free k) len (d_pos k) s in
      let* st := act (d_store k) (WriteAt d f (d_pos k) s') in
      Some (mkDisk st (d_free k - (d_pos k + length s' - len)) (d_pos k + length s'))
  end.
(* a run of the program: what is left, and whether it ended without a panic *)
Fixpoint run_full (l : list Action) (k : Disk) : Disk * bool :=
  match l with
  | [] => (k, true)
  | a :: r => match act_full k a with Some k' => run_full r k' | None => (k, false) end
  end.
