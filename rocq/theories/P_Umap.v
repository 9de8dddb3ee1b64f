(** C32: the list of user mappings. *)
From Verif Require Import Lib Umap_Model Umap_Spec Umap_Proofs.

(** After any history of mmap, munmap of ranges inside one mapping, and close: the list describes exactly the address space, byte for byte, with file, offset and protection; its mappings are disjoint and made of whole pages. What is missing: ranges not inside one mapping, see the refutations. *)
Theorem C32_history_partial : forall W l f, W > 0 -> aligned W -> reach W l f -> valid W l /\ forall a, look l a = f a.
Proof. exact history. Qed.
Print Assumptions C32_history_partial.

(** One munmap inside a mapping: exactly the range is gone, everything else keeps its file, offset and protection; without memory nothing changes. *)
Theorem C32_munmap_partial : forall W l v n oom, W > 0 -> aligned W -> valid W l -> inside l v n ->
  forall r, munmap_int W l v n oom = r ->
  valid W (maps r) /\
  (code r = Ok -> forall a, look (maps r) a = if in_range v n a then None else look l a) /\
  (code r <> Ok -> code r = Enomem /\ oom = true /\ maps r = l /\ calls r = []) /\
  (oom = false -> code r = Ok).
Proof. exact munmap_inside. Qed.
Print Assumptions C32_munmap_partial.

(** The pages unmapped and the addresses given back are exactly the range. *)
Theorem C32_pages : forall W l v n oom m, W > 0 -> aligned W -> valid W l -> inside l v n -> In m l -> vaddr m <= v < vaddr m + len m -> code (munmap_int W l v n oom) = Ok ->
  let al := (n + 4095) / PAGE * PAGE in
  In (HeapFree v al (match h m with Some _ => false | None => true end)) (calls (munmap_int W l v n oom)) /\
  (forall v' n' b, In (HeapFree v' n' b) (calls (munmap_int W l v n oom)) -> v' = v /\ n' = al) /\
  (forall hd v' n', In (FsMunmap hd v' n') (calls (munmap_int W l v n oom)) <-> h m = Some hd /\ v' = v /\ n' = al).
Proof. exact munmap_calls. Qed.
Print Assumptions C32_pages.

(** An address in no mapping: nothing happens. *)
Theorem C32_unknown : forall W l v n oom, valid W l -> (forall m, In m l -> ~ (vaddr m <= v < vaddr m + len m)) -> munmap_int W l v n oom = Res l Ok [] false.
Proof. exact unknown. Qed.
Print Assumptions C32_unknown.

(** Closing a file removes exactly its mappings. *)
Theorem C32_close : forall W l hd, valid W l -> valid W (close_handle l hd) /\ forall a, look (close_handle l hd) a = match look l a with Some (Some x, o, p) => if x =? hd then None else look l a | y => y end.
Proof. exact close_valid. Qed.
Print Assumptions C32_close.

(** Mapping a file without holes maps each block at its offset. *)
Theorem C32_file_pages : forall blocks v off n, dense 0 blocks -> 0 <= off -> aligned off -> map_blocks v off (off + n) blocks = expected v off n blocks.
Proof. exact ramfs_map. Qed.
Print Assumptions C32_file_pages.

(** A range with the length of the mapping but starting later: the whole mapping is forgotten. *)
Theorem C32_length_of_mapping_refuted : valid (2 ^ 32) [M] /\ maps (munmap_int (2 ^ 32) [M] 0x10001000 0x4000 false) = [].
Proof. exact wrong_start. Qed.
Print Assumptions C32_length_of_mapping_refuted.

(** A range over two mappings: the second stays, *)
Theorem C32_two_mappings_refuted : valid (2 ^ 32) [M; M2] /\ exists a, look (maps (munmap_int (2 ^ 32) [M; M2] 0x10000000 0x8000 false)) a <> None /\ in_range 0x10000000 0x8000 a = true.
Proof. exact two_mappings. Qed.
Print Assumptions C32_two_mappings_refuted.

(** and the first becomes a mapping of almost 4 GB. *)
Theorem C32_underflow_refuted : valid (2 ^ 32) [M; M2] /\ exists m, In m (maps (munmap_int (2 ^ 32) [M; M2] 0x10000000 0x8000 false)) /\ len m = 2 ^ 32 - 0x4000.
Proof. exact bad_record. Qed.
Print Assumptions C32_underflow_refuted.

(** A range which begins in a gap: nothing is unmapped. *)
Theorem C32_gap_refuted : valid (2 ^ 32) [M2] /\ munmap_int (2 ^ 32) [M2] 0x10003000 0x5000 false = Res [M2] Ok [] false.
Proof. exact gap_before. Qed.
Print Assumptions C32_gap_refuted.

(** An unaligned address is accepted: mappings of half pages. *)
Theorem C32_unaligned_refuted : valid (2 ^ 32) [M] /\ munmap_int (2 ^ 32) [M] 0x10000800 0x1000 false =
  Res [Um None 0x10000000 0x800 0 3; Um None 0x10001800 0x2800 0x1800 3] Ok [HeapFree 0x10000800 0x1000 true] false.
Proof. exact unaligned. Qed.
Print Assumptions C32_unaligned_refuted.

(** Unmapping a whole file mapping reads the struct which was just freed. *)
Theorem C32_use_after_free_refuted : exists l v n m, valid (2 ^ 32) l /\ inside l v n /\ In m l /\ h m <> None /\ stale (munmap_int (2 ^ 32) l v n false) = true.
Proof. exact freed_read. Qed.
Print Assumptions C32_use_after_free_refuted.

(** Mapping a file with a hole puts the later pages at wrong addresses. *)
Theorem C32_sparse_refuted : map_blocks 0x10000000 0 0x3000 [(0, 1); (0x2000, 2)] = [(0x10000000, 1); (0x10001000, 2)] /\ expected 0x10000000 0 0x3000 [(0, 1); (0x2000, 2)] = [(0x10000000, 1); (0x10002000, 2)].
Proof. exact sparse. Qed.
Print Assumptions C32_sparse_refuted.

(** On 32 bits an offset of 4 GB is taken for 0, and a length near 4 GB rounds up to 0. *)
Theorem C32_offset_refuted : pgoff (2 ^ 32) (2 ^ 20) = 0 /\ round_up (2 ^ 32) (2 ^ 32 - 1) = 0.
Proof. exact big_offset. Qed.
Print Assumptions C32_offset_refuted.

Example C32_nontrivial : maps (munmap_int (2 ^ 32) [Um (Some 7) 0x20000000 0x2000 0 1; Um (Some 8) 0x10000000 0x6000 0x3000 3] 0x10002000 5000 false) =
  [Um (Some 7) 0x20000000 0x2000 0 1; Um (Some 8) 0x10000000 0x2000 0x3000 3; Um (Some 8) 0x10004000 0x2000 0x7000 3] /\
  calls (munmap_int (2 ^ 32) [Um (Some 7) 0x20000000 0x2000 0 1; Um (Some 8) 0x10000000 0x6000 0x3000 3] 0x10002000 5000 false) =
  [FsMunmap 8 0x10002000 0x2000; FsRegister 8 0x10004000 0x2000; HeapFree 0x10002000 0x2000 false].
Proof. vm_compute. split; reflexivity. Qed.

