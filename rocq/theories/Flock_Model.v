(** Model of kernel/fs/flock.c (per-file locks owned by a subsystem) for one mounted file
    system, and of how execve and open use them.

    The tree fs->pss_lock_root is a map from inodes to lock objects (C06).  The file systems
    of the project have no exlock_noblk, so that vfs_exlock_noblock returns -ENOLCK, or 0 on
    a read-only mount (kernel/vfs/vfs.c:945-1000); both let the caller go on, and
    vfs_exunlock does nothing.  A task can be preempted between the steps below, not inside
    them: the searches and changes of the tree are in sections with preemption disabled, the
    reference counter is atomic.  [live] tells which objects are not freed, [touched] that a
    freed one was used.  [held] counts the references given out by acquire and retain and
    not yet given to release: it is not in the code. *)
From Verif Require Import Lib.

Inductive pcs :=
  | Idle
  | Missing (i s : Z)     (* acquire, after the search has found nothing *)
  | Made (o : Z)          (* acquire, with a new object, before the insertion *)
  | Last (o : Z).         (* release, after the counter has reached 0 *)
Record st := St {
  tree : Z -> option Z; own : Z -> Z; ino : Z -> Z; refs : Z -> Z; live : Z -> bool; next : Z;
  pc : Z -> pcs; held : Z -> Z; touched : bool }.
Definition init : st := St (fun _ => None) (fun _ => 0) (fun _ => 0) (fun _ => 0) (fun _ => false) 1 (fun _ => Idle) (fun _ => 0) false.

Inductive outcome := Got (o : Z) | Busy | NoMem | More.

Definition add_ref (s : st) (o : Z) : st :=
  St (tree s) (own s) (ino s) (fupd (refs s) o (refs s o + 1)) (live s) (next s) (pc s) (fupd (held s) o (held s o + 1)) (touched s || negb (live s o)).
Definition set_pc (s : st) (t : Z) (p : pcs) : st :=
  St (tree s) (own s) (ino s) (refs s) (live s) (next s) (fupd (pc s) t p) (held s) (touched s).
Definition touch (s : st) (o : Z) : st :=
  St (tree s) (own s) (ino s) (refs s) (live s) (next s) (pc s) (held s) (touched s || negb (live s o)).

(** acquire_subsys_flock, lines 30-51: the search *)
Definition acq_find (s : st) (t i sub : Z) : st * outcome :=
  match tree s i with
  | Some o => if own s o =? sub then (add_ref s o, Got o) else (touch s o, Busy)
  | None => (set_pc s t (Missing i sub), More)
  end.
(** lines 53-85: the lock of the file system, kzalloc (which can fail), and the new object *)
Definition acq_alloc (s : st) (t i sub : Z) (mem : bool) : st * outcome :=
  if mem then
    let o := next s in
    (set_pc (St (tree s) (fupd (own s) o sub) (fupd (ino s) o i) (fupd (refs s) o 1) (fupd (live s) o true) (o + 1) (pc s) (held s) (touched s)) t (Made o), More)
  else (set_pc s t Idle, NoMem).
(** lines 87-97: bintree_insert_ptr does nothing if there is an object for the inode; its
    result is not looked at *)
Definition acq_insert (s : st) (t o : Z) : st * outcome :=
  let tr := match tree s (ino s o) with None => fupd (tree s) (ino s o) (Some o) | Some _ => tree s end in
  (set_pc (St tr (own s) (ino s) (refs s) (live s) (next s) (pc s) (fupd (held s) o (held s o + 1)) (touched s || negb (live s o))) t Idle, Got o).
(** retain_subsys_flock, lines 102-106 *)
Definition retain (s : st) (o : Z) : st := add_ref s o.
(** release_subsys_flock, lines 108-115 *)
Definition rel_dec (s : st) (t o : Z) : st :=
  let s := St (tree s) (own s) (ino s) (fupd (refs s) o (refs s o - 1)) (live s) (next s) (pc s) (fupd (held s) o (held s o - 1)) (touched s || negb (live s o)) in
  if 0 <? refs s o then s else set_pc s t (Last o).
(** lines 121-151: bintree_remove_ptr removes the object found for the inode; kfree *)
Definition rel_remove (s : st) (t o : Z) : st :=
  set_pc (St (fupd (tree s) (ino s o) None) (own s) (ino s) (refs s) (fupd (live s) o false) (next s) (pc s) (held s) (touched s || negb (live s o))) t Idle.

Inductive action := Find (t i sub : Z) | Alloc (t : Z) (mem : bool) | Insert (t : Z) | Retain (o : Z) | Dec (t o : Z) | Remove (t : Z).
(** None: not possible now *)
Definition step (s : st) (a : action) : option st :=
  match a with
  | Find t i sub => match pc s t with Idle => Some (fst (acq_find s t i sub)) | _ => None end
  | Alloc t m => match pc s t with Missing i sub => Some (fst (acq_alloc s t i sub m)) | _ => None end
  | Insert t => match pc s t with Made o => Some (fst (acq_insert s t o)) | _ => None end
  | Retain o => if 0 <? held s o then Some (retain s o) else None
  | Dec t o => match pc s t with Idle => if 0 <? held s o then Some (rel_dec s t o) else None | _ => None end
  | Remove t => match pc s t with Last o => Some (rel_remove s t o) | _ => None end
  end.

(** Whole calls, without other tasks *)
Definition acquire (s : st) (t i sub : Z) (mem : bool) : st * outcome :=
  let (s1, r) := acq_find s t i sub in
  match r with
  | More =>
      let (s2, r2) := acq_alloc s1 t i sub mem in
      match r2 with
      | More => match pc s2 t with Made o => acq_insert s2 t o | _ => (s2, r2) end
      | _ => (s2, r2)
      end
  | _ => (s1, r)
  end.
Definition release (s : st) (t o : Z) : st :=
  let s := rel_dec s t o in
  match pc s t with Last o => rel_remove s t o | _ => s end.

(** enum subsystem, include/tilck/kernel/subsystems.h:6-10 *)
Definition VFS : Z := 1.
Definition PROCMGNT : Z := 2.
(** load_elf_program, kernel/elf.c:432-441 and 575-586, as far as the lock goes: [headers],
    [rest]: load_elf_headers, everything after it succeed.  Some o: the new program holds the
    lock.  On failure the caller has no reference (kernel/execve.c:258-268) *)
Definition load_elf (s : st) (t i : Z) (headers rest : bool) : st * option Z :=
  match acquire s t i PROCMGNT true with
  | (s, Got o) =>
      if headers then if rest then (s, Some o) else (release s t o, None)
      else (s, None)
  | (s, _) => (s, None)
  end.
(** ramfs_open with O_CREAT, kernel/fs/ramfs/open.c.h:110-124 and 141-156: the new inode has
    the address [i]; [entry], [opened]: ramfs_dir_add_entry and ramfs_open_int succeed *)
Definition create_file (s : st) (t i : Z) (entry opened : bool) : st * option Z :=
  match acquire s t i VFS true with
  | (s, Got o) =>
      if entry then if opened then (s, Some o) else (release s t o, None)
      else (s, None)
  | (s, _) => (s, None)
  end.
