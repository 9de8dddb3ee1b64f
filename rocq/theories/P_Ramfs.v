(** C41, C42: the data of a ramfs file. *)
From Verif Require Import Lib Ramfs_Model Ramfs_Spec Ramfs_Proofs Ramfs_Proofs2 Ramfs_Proofs3.

(** Every history of reads, writes (at the position, at an offset, appending, vectored), seeks, extensions and page-aligned truncations, with memory running out anywhere, has exactly the results of a byte array: holes are zero, the size is the maximum extent, fewer bytes are written only when the memory cannot hold the pages touched. What is missing: the calls excluded by [covered], see the refutations. *)
Theorem C41_history_partial : forall M dbg CB fls m ops s' rs, 0 < M -> 0 <= CB -> Z.land m 128 = 128 ->
  run M dbg CB (init_state m fls) ops = Some (s', rs) -> covers M CB fls sinit ops rs ->
  exists ss', sruns CB fls sinit ops rs ss' /\ fsize (ino s') = size (sf ss') /\ forall p, 0 <= p -> byte_of (blocks (ino s')) p = byte (sf ss') p.
Proof. exact history. Qed.
Print Assumptions C41_history_partial.

(** With the assertions compiled out every history runs to its end. *)
Theorem C41_always_returns : forall M CB ops s, run M false CB s ops <> None.
Proof. exact run_total. Qed.
Print Assumptions C41_always_returns.

(** With them: a write starting at or before the end of a file without holes does not panic and leaves no hole, *)
Theorem C41_no_panic_without_holes : forall M i flags k buf pos, wf M i -> dense i -> 0 <= pos <= fsize i -> (if has flags O_APPEND then fsize i else pos) + zlen buf < M ->
  exists i' k' rc pos', write_nolock M true i flags k buf pos = Some (i', k', rc, pos') /\ dense i'.
Proof. exact write_dense. Qed.
Print Assumptions C41_no_panic_without_holes.

(** and shortening the file makes none. *)
Theorem C41_shrink_keeps_dense : forall M i len, wf M i -> dense i -> 0 <= len <= fsize i -> dense (fst (truncate_safe M i len)).
Proof. exact trunc_dense. Qed.
Print Assumptions C41_shrink_keeps_dense.

(** What was written is read back, and every other byte is unchanged. *)
Theorem C41_read_after_write : forall M dbg i k buf pos i' k' pos', wf M i -> 0 <= pos -> pos + zlen buf < M -> 0 < zlen buf -> write_nolock M dbg i 0 k buf pos = Some (i', k', zlen buf, pos') ->
  read_nolock M i' (zlen buf) pos = (zlen buf, buf, pos + zlen buf) /\ fsize i' = Z.max (fsize i) (pos + zlen buf) /\ forall p, 0 <= p -> ~ pos <= p < pos + zlen buf -> byte_of (blocks i') p = byte_of (blocks i) p.
Proof. exact read_after_write. Qed.
Print Assumptions C41_read_after_write.

(** Writing keeps blocks_count equal to the number of blocks. *)
Theorem C41_block_count : forall M dbg i flags k buf pos i' k' rc pos', wf M i -> 0 <= pos -> (if has flags O_APPEND then fsize i else pos) + zlen buf < M -> write_nolock M dbg i flags k buf pos = Some (i', k', rc, pos') -> bcount i = zlen (blocks i) -> bcount i' = zlen (blocks i').
Proof. exact block_count. Qed.
Print Assumptions C41_block_count.

(** lseek returns the target, or -EINVAL (-22) when it is negative or does not fit. *)
Theorem C41_seek : forall M i pos off wh, 0 < M -> 0 <= fsize i < M -> 0 <= pos < M -> - M <= off < M -> let t := target (file_of i) pos off wh in
  seek_nolock M i pos off wh = if (0 <=? t) && (t <? M) then (t, t) else (- 22, 0).
Proof. exact seek_ok. Qed.
Print Assumptions C41_seek.

(** A page fault on a hole never changes the contents; past the end it is refused; a write gets a fresh zeroed block of the file. *)
Theorem C41_fault : forall M dbg i k u va rw, wf M i -> 0 <= um_off u -> um_vaddr u <= va -> (k > 0)%nat -> let o := um_off u + (va - um_vaddr u) in find (blocks i) (o - o mod PAGE) = None ->
  exists i' m, fault dbg i k u va rw = Some (i', m) /\ feq (file_of i') (file_of i) /\ (fsize i <= o -> m = None) /\ (o < fsize i -> m = Some (if rw then FBlock (o - o mod PAGE) else FZero, true)) /\
    (o < fsize i -> rw = true -> find (blocks i') (o - o mod PAGE) = Some zeros) /\ wf M i'.
Proof. exact fault_ok. Qed.
Print Assumptions C41_fault.

(** a history of every kind of call *)
Example C41_nontrivial : exists s, run (2 ^ 63) false 12288 fresh
  [Write 3 [1; 2; 3] 5%nat; Pwrite 3 [9] 4100 5%nat; Pread 3 3 4098; Seek 3 (-1) SeekEnd; Read 3 10; Write 2 [8] 0%nat; Truncate None 4096; Truncate None 5000; Pread 1 2 4099;
   Writev 3 [Some [5]; Some []; Some [6; 7]] 9%nat; Seek 3 4100 SeekSet; Readv 3 [] [2; 1; 7]]
  = Some (s, [Ret 3 []; Ret 1 []; Ret 3 [[0; 0; 9]]; Ret 4100 []; Ret 1 [[9]]; Ret 1 []; Ret 0 []; Ret 0 []; Ret 2 [[0; 0]]; Ret 3 []; Ret 4100 []; Ret 10 [[0; 5]; [6]; [7; 0; 0; 0; 0; 0; 0]]]).
Proof. eexists. vm_compute. reflexivity. Qed.

(** With assertions, a write after a seek past the end into the middle of a page stops the kernel. *)
Theorem C41_hole_write_refuted : run (2 ^ 31) true 258048 fresh [Seek 3 5000 SeekSet; Write 3 [7] 10%nat] = None.
Proof. exact hole_panic. Qed.
Print Assumptions C41_hole_write_refuted.

(** A write up to the largest offset returns success, but the file stays empty and the position becomes negative. *)
Theorem C41_offset_overflow_refuted : forall dbg, match run (2 ^ 31) dbg 258048 fresh [Seek 3 (2 ^ 31 - 4096) SeekSet; Write 3 (repeat 7 (Z.to_nat 4096)) 10%nat] with
  | Some (s, rs) => rs = [Ret (2 ^ 31 - 4096) []; Ret 4096 []] /\ fsize (ino s) = 0 /\ fpos (hs s 3) = - 2 ^ 31
  | None => False end.
Proof. exact overflow. Qed.
Print Assumptions C41_offset_overflow_refuted.

(** A failed lseek moves the position to 0. *)
Theorem C41_failed_seek_refuted : forall dbg, exists s, run (2 ^ 31) dbg 258048 fresh [Seek 3 10 SeekSet; Seek 3 (-1) SeekSet] = Some (s, [Ret 10 []; Ret (-22) []]) /\ fpos (hs s 3) = 0.
Proof. exact failed_seek. Qed.
Print Assumptions C41_failed_seek_refuted.

(** readv stores old contents of the kernel's buffer behind the bytes it returns. *)
Theorem C41_readv_stale_refuted : forall dbg, exists s, run (2 ^ 31) dbg 258048 fresh [Write 3 [7; 8] 10%nat; Seek 3 0 SeekSet; Readv 3 [91; 92; 93; 94] [4]] = Some (s, [Ret 2 []; Ret 0 []; Ret 2 [[7; 8; 93; 94]]]).
Proof. exact readv_stale. Qed.
Print Assumptions C41_readv_stale_refuted.

(** writev writes through a handle opened for reading only, *)
Theorem C41_writev_readonly_refuted : forall dbg, ~ writable (flags2 1) /\ exists s, run (2 ^ 31) dbg 258048 fresh [Writev 1 [Some [7; 8]] 10%nat; Pread 3 5 0] = Some (s, [Ret 2 []; Ret 2 [[7; 8]]]).
Proof. exact writev_readonly. Qed.
Print Assumptions C41_writev_readonly_refuted.

(** and readv reads through one opened for writing only. *)
Theorem C41_readv_writeonly_refuted : forall dbg, ~ readable (flags2 2) /\ exists s, run (2 ^ 31) dbg 258048 fresh [Write 3 [7; 8] 10%nat; Readv 2 [] [2]] = Some (s, [Ret 2 []; Ret 2 [[7; 8]]]).
Proof. exact readv_writeonly. Qed.
Print Assumptions C41_readv_writeonly_refuted.

(** writev reports an error although its first buffer was written. *)
Theorem C41_writev_error_refuted : forall dbg, exists s, run (2 ^ 31) dbg 258048 fresh [Writev 3 [Some [7; 8]; None] 10%nat; Pread 3 5 0] = Some (s, [Ret (-14) []; Ret 2 [[7; 8]]]).
Proof. exact writev_error. Qed.
Print Assumptions C41_writev_error_refuted.

(** A read fault on a mapped hole maps the kernel's shared page of zeros writable. *)
Theorem C41_zero_page_refuted : forall dbg u va i k, va = um_vaddr u -> um_off u < fsize i -> fault dbg i k u va false = Some (i, Some (FZero, true)).
Proof. exact zero_page. Qed.
Print Assumptions C41_zero_page_refuted.

(** A write fault on a page whose block exists (created after the mmap): failed assertion, or the process gets a page which is not in the file. *)
Theorem C41_fault_block_refuted : exists i, wf (2 ^ 31) i /\ fault true i 5 (Umap 65536 4096 0) 65536 true = None /\ exists i', fault false i 5 (Umap 65536 4096 0) 65536 true = Some (i', Some (FLost, true)).
Proof. exact lost_block. Qed.
Print Assumptions C41_fault_block_refuted.

(** After shortening to len and extending again, exactly the bytes below the next page boundary are the old ones, all others are zero. What is missing: the bytes between len and that boundary should be zero. *)
Theorem C42_truncate_partial : forall M i len len2, wf M i -> Z.land (mode i) 128 = 128 -> 0 <= len < fsize i -> len <= len2 < M ->
  let i1 := fst (truncate_safe M i len) in let i2 := fst (truncate_safe M i1 len2) in
  snd (truncate_safe M i len) = 0 /\ snd (truncate_safe M i1 len2) = 0 /\ fsize i1 = len /\ fsize i2 = len2 /\
  forall p, 0 <= p -> byte_of (blocks i2) p = if p <? page_up len then byte_of (blocks i) p else 0.
Proof. exact trunc_extend. Qed.
Print Assumptions C42_truncate_partial.

(** The pages unmapped from the processes are exactly the mapped pages of the file behind the new end. *)
Theorem C42_mappings : forall M len u va, 0 <= len -> len + 4095 < 2 * M -> 0 <= um_off u -> um_off u mod 4096 = 0 -> 0 <= um_len u -> um_len u mod 4096 = 0 ->
  In va (past_eof M len u) <-> um_vaddr u <= va < um_vaddr u + um_len u /\ (va - um_vaddr u) mod 4096 = 0 /\ page_up len <= um_off u + (va - um_vaddr u).
Proof. exact past_eof_exact. Qed.
Print Assumptions C42_mappings.

Example C42_nontrivial : past_eof (2 ^ 31) 5000 (Umap 65536 16384 4096) = [69632; 73728; 77824].
Proof. reflexivity. Qed.

(** Bytes discarded by truncate come back. *)
Theorem C42_tail_refuted : forall dbg, exists s, run (2 ^ 31) dbg 258048 fresh [Write 3 [7; 8; 9] 10%nat; Truncate None 1; Truncate None 3; Pread 3 5 0] = Some (s, [Ret 3 []; Ret 0 []; Ret 0 []; Ret 3 [[7; 8; 9]]]).
Proof. exact tail_back. Qed.
Print Assumptions C42_tail_refuted.

(** truncate stores a number of bytes in blocks_count. *)
Theorem C42_block_count_refuted : forall dbg, exists s rs, run (2 ^ 31) dbg 258048 fresh [Write 3 [7; 8; 9] 10%nat; Truncate None 1] = Some (s, rs) /\ zlen (blocks (ino s)) = 1 /\ bcount (ino s) = 4096.
Proof. exact count_wrong. Qed.
Print Assumptions C42_block_count_refuted.

(** ftruncate works through a handle opened for reading only. *)
Theorem C42_readonly_handle_refuted : forall dbg, ~ writable (flags2 1) /\ exists s, run (2 ^ 31) dbg 258048 fresh [Write 3 [7; 8] 10%nat; Truncate (Some 1) 0; Pread 3 5 0] = Some (s, [Ret 2 []; Ret 0 []; Ret 0 [[]]]).
Proof. exact ftruncate_readonly. Qed.
Print Assumptions C42_readonly_handle_refuted.

(** truncate of a directory to a larger length overwrites its number of entries (a union). *)
Theorem C42_directory_refuted : truncate_safe (2 ^ 31) (Inode true 511 2 [] 0) 100 = (Inode true 511 100 [] 0, 0).
Proof. exact dir_entries. Qed.
Print Assumptions C42_directory_refuted.

