(** C77: files and property types of sysfs. *)
From Verif Require Import Lib List_Model Itoa_Model Sysfs_Model Sysfs_Spec Sysfs_Proofs2 Sysfs_Proofs3 Sysfs_Refuted.

(** All histories of allowed uses, any number of files and handles: no assertion fails, no freed memory is read, and results and contents are those of snapshots. *)
Theorem C77_files : forall w size junk c os rs a,
  sizes_ok w size c -> asteps w size (ainit c) os rs a ->
  exists s, run w size junk (init c) os = Some (rs, s) /\ forall p, props s p = cont a p.
Proof. exact files_ok. Qed.
Print Assumptions C77_files.

(** In plain words: what is written and closed is there for the next handle; bytes behind it and other files are untouched. *)
Theorem C77_saved : forall w size junk c p b n,
  sizes_ok w size c -> zlen b <= size p -> 0 <= n ->
  exists s, run w size junk (init c) [Open p; Write 1 b; Close 1; Open p; Read 2 n] =
      Some ([Num 1; Num (zlen b); Unit; Num 2; Bytes (firstn (Z.to_nat n) (b ++ skipn (length b) (c p)))], s) /\
    props s p = b ++ skipn (length b) (c p) /\ forall q, q <> p -> props s q = c q.
Proof. exact saved_and_read. Qed.
Print Assumptions C77_saved.

(** Reads of any sizes of an immutable property give its bytes in order, without gap or repetition. *)
Theorem C77_immutable : forall buf lens,
  (forall n, In n lens -> 0 <= n) ->
  exists rs, imm_reads buf 0 lens = Some rs /\ concat rs = firstn (Z.to_nat (fold_right Z.add 0 lens)) buf.
Proof. exact imm_whole. Qed.
Print Assumptions C77_immutable.

(** Numbers: at most 31 characters up to the one behind the digits, at most 32 bytes written, 31 readable. *)
Theorem C77_number : forall w sgn v text rest n r,
  zlen text <= 31 -> 31 <= zlen (text ++ rest) -> n <= 32 -> n <= zlen (text ++ rest) ->
  strtol w sgn text 10 = Some r -> num_store w sgn v (text ++ rest) n = Some (match p_err r with NoErr => p_val r | _ => v end).
Proof. exact num_ok. Qed.
Print Assumptions C77_number.

(** Strings: the first line, cut to the room, when it ends inside the readable memory. *)
Theorem C77_string : forall sz mem n,
  0 < sz -> 0 <= n -> n < zlen mem \/ sz <= zlen mem \/ In 0 mem \/ In 10 mem ->
  config_store sz mem n = Some (firstn (Z.to_nat (Z.min n (sz - 1))) (line mem)).
Proof. exact config_ok. Qed.
Print Assumptions C77_string.

(** Two writes without fsync between: nothing is stored, and syncfs later reads the freed handle. *)
Theorem C77_two_writes_refuted : forall junk,
  results (go junk two_writes) = Some [Num 1; Num 3; Num 3; Unit; Unit; Num 2; Bytes []] /\
  contents (go junk two_writes) = Some [] /\ go junk (two_writes ++ [Syncfs]) = None.
Proof. exact two_writes_lost. Qed.
Print Assumptions C77_two_writes_refuted.

(** syncfs stores nothing, and makes the later fsync and close store nothing. *)
Theorem C77_syncfs_refuted : forall junk,
  results (go junk synced) = Some [Num 1; Num 3; Unit; Unit; Unit; Num 2; Bytes []] /\ contents (go junk synced) = Some [].
Proof. exact syncfs_loses. Qed.
Print Assumptions C77_syncfs_refuted.

(** dup does not store the data of the old handle, against its comment. *)
Theorem C77_dup_refuted : forall junk,
  results (go junk dupped) = Some [Num 1; Num 3; Num 2; Num 0; Bytes []] /\
  go junk [Open 0; Write 1 abc; Dup 1; Read 2 8] = None.
Proof. exact dup_stale. Qed.
Print Assumptions C77_dup_refuted.

(** A duplicate closed last reads the freed memory of the handle it comes from. *)
Theorem C77_dup_freed_refuted : forall junk,
  go junk [Open 0; Dup 1; Read 2 8; Close 1; Close 2] = None.
Proof. exact dup_freed. Qed.
Print Assumptions C77_dup_freed_refuted.

(** Behind the end: a read fails an assertion, a write shows uninitialised memory to the reader. *)
Theorem C77_seek_refuted : forall junk,
  go junk [Open 0; Seek 1 2 0; Read 1 1] = None /\
  results (go junk [Open 0; Seek 1 0 2; Write 1 abc; Seek 1 0 0; Read 1 8]) =
  Some [Num 1; Num 2; Num 3; Num 0; Bytes [junk 0%nat; junk 1%nat; 97; 98; 99]].
Proof. exact seek_behind. Qed.
Print Assumptions C77_seek_refuted.

(** Every write of more than 32 bytes to a number overflows a buffer on the stack (MAX for MIN). *)
Theorem C77_long_number_refuted : forall w sgn v mem n,
  32 < n -> num_store w sgn v mem n = None.
Proof. exact long_overflow. Qed.
Print Assumptions C77_long_number_refuted.

(** Every write from a memory of less than 31 bytes reads behind it. *)
Theorem C77_short_memory_refuted : forall w sgn v mem n,
  zlen mem < 31 -> num_store w sgn v mem n = None.
Proof. exact short_overread. Qed.
Print Assumptions C77_short_memory_refuted.

(** Bytes behind the data become part of the number. *)
Theorem C77_stale_digits_refuted : num_store 64 false 0 stale 1 = Some 542.
Proof. exact stale_digits. Qed.
Print Assumptions C77_stale_digits_refuted.

(** No data at all makes a false bool true. *)
Theorem C77_bool_refuted : forall v mem r,
  bool_store v mem = Some r -> r = true -> v = true.
Proof. exact bool_ok. Qed.
Print Assumptions C77_bool_refuted.

(** Data without newline or NUL: one byte behind is read. *)
Theorem C77_string_refuted : forall sz mem,
  zlen mem < sz -> ~ In 0 mem -> ~ In 10 mem -> config_store sz mem (zlen mem) = None.
Proof. exact config_overread. Qed.
Print Assumptions C77_string_refuted.

(** Two handles of one file, fsync, dup and stored data seen by the duplicate *)
Example C77_nonvacuous : forall junk,
  results (go junk [Open 0; Open 0; Write 1 abc; Read 2 8; Fsync 1; Write 1 [100]; Seek 1 0 1; Read 1 2; Fsync 1; Dup 1; Seek 3 0 0; Read 3 8; Close 3; Close 1; Close 2; Syncfs]) =
    Some [Num 1; Num 2; Num 3; Bytes []; Unit; Num 1; Num 1; Bytes [98; 99]; Unit; Num 3; Num 0; Bytes [97; 98; 99; 100]; Unit; Unit; Unit; Unit] /\
  imm_reads abc 0 [2; 2; 2] = Some [[97; 98]; [99]; []] /\
  num_store 64 true 7 ([45; 52; 50; 10] ++ repeat 0 60) 4 = Some (-42) /\
  config_store 3 [97; 98; 99; 10] 4 = Some [97; 98].
Proof. intros junk. vm_compute. repeat split. Qed.

