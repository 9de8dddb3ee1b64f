(** Model of the bookkeeping of the user mappings: kernel/mm/process_mm.c:346-474 (munmap),
    kernel/mm/process_mm_base.c:7-131 (the list of mappings), 384-397 (generic_fs_munmap),
    and of the loop of ramfs_mmap, kernel/fs/ramfs/mmap.c.h:34-65.

    The list of a process is a list of records; preemption is disabled, so each call is one
    step.  ulong arithmetic wraps modulo W (2^32 or 2^64).  The page tables and the heap of
    virtual addresses (C07) appear as the list of calls made.  The list of mappings of an
    inode is not modelled. *)
From Verif Require Import Lib.

Definition PAGE := 4096.
Record um := Um { h : option Z; vaddr : Z; len : Z; off : Z; prot : Z }.
Inductive call :=
  | FsMunmap (hd v n : Z)          (* vfs_munmap: unmaps the pages *)
  | FsRegister (hd v n : Z)        (* vfs_mmap with VFS_MM_DONT_MMAP *)
  | HeapFree (v n : Z) (actual : bool).   (* per_heap_kfree; with the pages? *)

Section U.
Variable W : Z.
Definition w (x : Z) : Z := x mod W.
(** pow2_round_up_at(n, PAGE_SIZE), include/tilck/common/utils.h:20 *)
Definition round_up (n : Z) : Z := w (n + 4095) / PAGE * PAGE.
Definition in_um (m : um) (a : Z) : bool := (vaddr m <=? a) && (a <? w (vaddr m + len m)).
(** process_get_user_mapping, process_mm_base.c:63-86: the mapping with its neighbours *)
Fixpoint get (l : list um) (a : Z) : option (list um * um * list um) :=
  match l with
  | [] => None
  | m :: r => if in_um m a then Some ([], m, r)
              else match get r a with Some (x, y, z) => Some (m :: x, y, z) | None => None end
  end.
Inductive rc := Ok | Enomem | Einval.
(** the result: list, return code, calls, and whether the freed struct was read again
    (um->h at line 409 after process_remove_user_mapping at line 367) *)
Record result := Res { maps : list um; code : rc; calls : list call; stale : bool }.
(** munmap_int, process_mm.c:346-443; oom: no memory for a struct user_mapping *)
Definition munmap_int (l : list um) (v n : Z) (oom : bool) : result :=
  let actual_len := round_up n in
  match get l v with
  | None => Res l Ok [] false
  | Some (bef, m, aft) =>
      let vend := w (vaddr m + len m) in
      let finish (l' : list um) (um2 : option um) (removed : bool) :=
        let fs := match h m with
                  | Some hd => FsMunmap hd v actual_len :: (match um2 with Some m2 => [FsRegister hd (vaddr m2) (len m2)] | None => [] end)
                  | None => [] end in
        Res l' Ok (fs ++ [HeapFree v actual_len (match h m with Some _ => false | None => true end)]) removed in
      if actual_len =? len m then finish (bef ++ aft) None true
      else if v =? vaddr m then
        finish (bef ++ Um (h m) (w (vaddr m + actual_len)) (w (len m - actual_len)) (w (off m + actual_len)) (prot m) :: aft) None false
      else if w (v + actual_len) =? vend then
        finish (bef ++ Um (h m) (vaddr m) (w (len m - actual_len)) (off m) (prot m) :: aft) None false
      else
        let m1 := Um (h m) (vaddr m) (w (v - vaddr m)) (off m) (prot m) in
        if oom then Res (bef ++ Um (h m1) (vaddr m1) (w (vend - vaddr m1)) (off m1) (prot m1) :: aft) Enomem [] false
        else
          let m2 := Um (h m) (w (v + actual_len)) (w (vend - w (v + actual_len))) (w (off m1 + len m1 + actual_len)) (prot m) in
          finish ((bef ++ m1 :: aft) ++ [m2]) (Some m2) false
  end.
(** sys_munmap, lines 445-474; the heap of virtual addresses is [begin, begin + size) *)
Definition sys_munmap (begin size : Z) (l : list um) (v n : Z) (oom : bool) : result :=
  if (n =? 0) || (size =? 0) then Res l Einval [] false
  else if negb ((begin <=? v) && (v <? begin + size)) then Res l Einval [] false
  else munmap_int l v n oom.
(** process_add_user_mapping, process_mm_base.c:38-52, at the address the heap gave *)
Definition add (l : list um) (m : um) : list um := l ++ [m].
(** remove_all_mappings_of_handle, lines 119-135: full_remove_user_mapping of each *)
Definition close_handle (l : list um) (hd : Z) : list um :=
  filter (fun m => match h m with Some x => negb (x =? hd) | None => true end) l.
(** the offset of sys_mmap_pgoff, process_mm.c:294 *)
Definition pgoff (n : Z) : Z := w (n * PAGE).
End U.

(** the loop of ramfs_mmap over the blocks (offset, page) of a file in order: the pages mapped *)
Fixpoint map_blocks (v off_begin off_end : Z) (blocks : list (Z * Z)) : list (Z * Z) :=
  match blocks with
  | [] => []
  | (o, p) :: r =>
      if o <? off_begin then map_blocks v off_begin off_end r
      else if o >=? off_end then []
      else (v, p) :: map_blocks (v + PAGE) off_begin off_end r
  end.
