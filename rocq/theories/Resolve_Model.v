(** Path resolution: kernel/vfs/vfs_resolve.c.h (all), with the mount table
    look-ups and mp_add of kernel/vfs/vfs_mp.c.h lines 23-151 and ramfs_get_entry /
    ramfs_readlink (kernel/fs/ramfs/ramfs.c lines 115-174).

    Representation.
    - The file systems are a fixed world [W]: which entry a directory has under a
      name, the target of a symbolic link, the root inodes, the mount table.  The
      resolution only reads them; it is modelled as one step (what happens to a
      file system while another one is locked is not modelled).
    - A pointer [last_comp] is the offset into the path string of its frame.
      Strings are the characters before the terminating NUL.
    - The arrays of struct vfs_resolve_int_ctx (stack of 4 frames) are the
      recursion: the state of a frame is [top]; [k] is the number of frames left.
    - Locks and reference counts are recorded in a log, newest event first.
    - A look-up in something that is not a directory is not refused by the code
      (ramfs reads the union of the inode as a directory): outcome
      [Crash NotDir].  A component of NAMEMAX or more characters overflows
      [buf[RAMFS_ENTRY_MAX_LEN]] of ramfs_dir_get_entry_by_name (dir_entries.c.h
      lines 103-105): [Crash TooLong].  A link target of 256 or more characters
      would overflow sym_paths: [Crash TooLong] (symlink() does not create
      such links). *)
From Verif Require Import Lib.

Definition ENOENT := -2.  Definition ENOTDIR := -20.  Definition ELOOP := -40.
Definition EPERM := -1.  Definition EBUSY := -16.  Definition EMFILE := -24.

Definition SLASH : Z := 47.
Definition DOT : list Z := [46].
Definition DOTDOT : list Z := [46; 46].

Inductive vtype := VFile | VDir | VLink | VOther.

Definition vtype_eqb (a b : vtype) : bool :=
  match a, b with
  | VFile, VFile | VDir, VDir | VLink, VLink | VOther, VOther => true
  | _, _ => false
  end.

Record mnt := mkM { m_host : Z; m_hino : Z; m_target : Z }.

Record world := mkW {
  get : Z -> Z -> list Z -> option (Z * vtype);   (* fs, directory, name *)
  link : Z -> Z -> list Z;                        (* fs, inode: target of a symlink *)
  root : Z -> Z;                                  (* root inode of a fs *)
  mnts : list mnt;                                (* mps2, in use *)
  rootfs : Z                                      (* mp_root *)
}.

(** struct vfs_path; [v_obj = None]: inode NULL and type VFS_NONE; [v_ent]: the
    entry, given by directory and name, [None] is NULL *)
Record vpath := mkV {
  v_fs : Z; v_obj : option (Z * vtype); v_dir : Z; v_ent : option (Z * list Z); v_lc : nat }.

Inductive event := Lock (f : Z) | Unlock (f : Z) | RetFs (f : Z) | RelFs (f : Z)
                 | RetI (f i : Z) | RelI (f i : Z).

Inductive why := NotDir | TooLong | Assert | NullDeref.

Inductive res := Done (rc : Z) (top : vpath) (log : list event) | Crash (w : why).

Definition with_lc (v : vpath) (n : nat) : vpath :=
  mkV (v_fs v) (v_obj v) (v_dir v) (v_ent v) n.

Definition ret_at (v : vpath) : list event :=
  match v_obj v with Some (i, _) => [RetI (v_fs v) i] | None => [] end.
Definition rel_at (v : vpath) : list event :=
  match v_obj v with Some (i, _) => [RelI (v_fs v) i] | None => [] end.

Section Model.
  Variables (dbg : bool) (NAMEMAX : Z) (W : world).

  (** mp_get_retained_at, vfs_mp.c.h lines 29-50 *)
  Definition mp_at (f i : Z) : option Z :=
    match find (fun m => (m_hino m =? i) && (m_host m =? f)) (mnts W) with
    | Some m => Some (m_target m) | None => None end.

  (** mp_get_retained_mp_of, lines 52-70 *)
  Definition mp_of (f : Z) : option mnt := find (fun m => m_target m =? f) (mnts W).

  (** ramfs_get_entry with a NULL directory *)
  Definition root_entry (f : Z) (v : vpath) : vpath :=
    mkV f (Some (root W f, VDir)) (root W f) None (v_lc v).

  (** vfs_resolve_stack_replace_top, lines 50-64 *)
  Definition replace_top (top : vpath) (lc : nat) (np : vpath) (log : list event) : vpath * list event :=
    (with_lc np lc, ret_at np ++ rel_at top ++ log).

  (** The component that starts at [lc] and ends before [off] *)
  Definition comp (path : list Z) (lc off : nat) : list Z := firstn (off - lc) (skipn lc path).

  (** vfs_is_path_dotdot, lines 171-175 *)
  Definition is_dotdot (s : list Z) : bool :=
    match s with
    | [a; b] => (a =? 46) && (b =? 46)
    | a :: b :: c :: _ => (a =? 46) && (b =? 46) && (c =? SLASH)
    | _ => false
    end.

  Inductive gres := GRet (rc : Z) (np : vpath) (log : list event)   (* vfs_resolve_get_entry returned *)
                  | GCrash (w : why).

  (** vfs_handle_cross_fs_dotdot, lines 177-244; [None]: not handled *)
  Definition cross_dotdot (path : list Z) (top : vpath) (log : list event) : option gres :=
    if negb (is_dotdot (skipn (v_lc top) path)) then None
    else match v_obj top with
    | None => None
    | Some (i, _) =>
      if negb (i =? root W (v_fs top)) then None
      else if v_fs top =? rootfs W then Some (GRet 0 top log)
      else match mp_of (v_fs top) with
      | None => Some (GCrash NullDeref)
      | Some m =>
        if dbg && (m_host m =? v_fs top) then Some (GCrash Assert)
        else
        let e := get W (m_host m) (m_hino m) DOTDOT in
        if dbg && negb match e with Some (_, VDir) => true | _ => false end then Some (GCrash Assert)
        else Some (GRet 0
          (mkV (m_host m) e (m_hino m)
               (match e with Some _ => Some (m_hino m, DOTDOT) | None => None end) (v_lc top))
          (RelFs (v_fs top) :: Lock (m_host m) :: Unlock (v_fs top) :: RetFs (m_host m) :: log))
      end
    end.

  (** __vfs_resolve_get_entry, lines 66-91 *)
  Definition lookup (path : list Z) (off : nat) (top : vpath) (log : list event) : gres :=
    let c := comp path (v_lc top) off in
    match v_obj top with
    | Some (d, VDir) =>
      if zlen c >=? NAMEMAX then GCrash TooLong
      else
      let e := get W (v_fs top) d c in
      let np := mkV (v_fs top) e d (match e with Some _ => Some (d, c) | None => None end) (v_lc top) in
      match match e with Some (i, _) => mp_at (v_fs top) i | None => None end with
      | Some t => GRet 0 (root_entry t np)
                    (Lock t :: RelFs (v_fs top) :: Unlock (v_fs top) :: RetFs t :: log)
      | None => GRet 0 np log
      end
    | _ => GCrash NotDir
    end.

  (** vfs_resolve_symlink, lines 104-169.  [rec] is __vfs_resolve with one frame
      less; [None]: the stack is full. *)
  Definition symlink (rec : option (list Z -> vpath -> list event -> res))
             (top np : vpath) (log : list event) : gres :=
    match v_obj np with
    | Some (i, VLink) =>
      let l := link W (v_fs np) i in
      if zlen l >=? 256 then GCrash TooLong
      else
      let abs := match l with c :: _ => c =? SLASH | [] => false end in
      let log1 := if abs then Lock (rootfs W) :: RetFs (rootfs W) :: RelFs (v_fs top) :: Unlock (v_fs top) :: log
                  else log in
      let rp := if abs then root_entry (rootfs W) top else top in
      match rec with
      | None => GRet ELOOP np log1
      | Some r =>
        match r l (with_lc rp 0) (ret_at rp ++ log1) with
        | Crash w => GCrash w
        | Done rc top2 log2 =>
          GRet rc (with_lc top2 (v_lc np))
               ((if v_fs top2 =? v_fs rp then [] else [Unlock (v_fs top2)]) ++ rel_at top2 ++ log2)
        end
      end
    | _ => GCrash Assert
    end.

  (** vfs_resolve_get_entry, lines 246-277.  In line 116 [rp->fs->fsops] is used
      on [np]: the same file system, a link is never the root of a mount. *)
  Definition get_entry (rec : option (list Z -> vpath -> list event -> res))
             (path : list Z) (off : nat) (top : vpath) (res_sym : bool) (log : list event) : gres :=
    match cross_dotdot path top log with
    | Some g => g
    | None =>
      if Nat.eqb (v_lc top) off then GRet 0 top log
      else match lookup path off top log with
      | GCrash w => GCrash w
      | GRet rc np log1 =>
        match v_obj np with
        | Some (_, VLink) => if res_sym then symlink rec top np log1 else GRet 0 np log1
        | _ => GRet 0 np log1
        end
      end
    end.

  (** The loop of __vfs_resolve, lines 321-341; [s] is the string from [off] on,
      [np] the local variable *)
  Fixpoint loop (rec : option (list Z -> vpath -> list event -> res)) (path s : list Z) (off : nat)
           (top : vpath) (res_last : bool) (log : list event) : res :=
    match s with
    | [] =>
      match get_entry rec path off top res_last log with
      | GCrash w => Crash w
      | GRet rc np log1 =>
        let '(top2, log2) := replace_top top (v_lc np) np log1 in Done rc top2 log2
      end
    | c :: s' =>
      if negb (c =? SLASH) then loop rec path s' (S off) top res_last log
      else match get_entry rec path off top true log with
      | GCrash w => Crash w
      | GRet rc np log1 =>
        if negb (rc =? 0) then Done rc top log1
        else
        (* vfs_resolve_have_to_stop, lines 279-304 *)
        let stop := match v_obj np with
          | None => Some (match s' with [] => 0 | _ => ENOENT end)
          | Some (_, t) => match s' with
            | [] => Some (if vtype_eqb t VDir then 0 else ENOTDIR)
            | _ => None end
          end in
        match stop with
        | Some rc =>
          let '(top2, log2) := replace_top top (v_lc np) np log1 in Done rc top2 log2
        | None =>
          let '(top2, log2) := replace_top top (S off) np log1 in
          loop rec path s' (S off) top2 res_last log2
        end
      end
    end.

  (** __vfs_resolve, lines 306-342; [k]: the number of frames left *)
  Fixpoint resolve (k : nat) (path : list Z) (top : vpath) (res_last : bool) (log : list event) : res :=
    match path with
    | [] => Done ENOENT top log
    | _ => loop (match k with
                 | O => None
                 | S k' => Some (fun p t l => resolve k' p t true l)
                 end) path path O top res_last log
    end.

  (** Lines 423-425: back over the slashes at the end, and one more character *)
  Fixpoint back (path : list Z) (n : nat) : nat :=
    match n with
    | O => O
    | S n' => match nth_error path n' with
              | Some c => if c =? SLASH then back path n' else n'
              | None => n'
              end
    end.

  (** vfs_resolve, lines 371-436; [cwd] is the struct vfs_path of the process.
      RESOLVE_STACK_SIZE = 4: three frames are left for links. *)
  Definition vfs_resolve (path : list Z) (cwd : vpath) (res_last : bool) : res :=
    let start := match path with
      | c :: _ => if c =? SLASH then root_entry (rootfs W) cwd else cwd
      | [] => cwd end in
    match resolve 3 path (with_lc start 0) res_last (ret_at start ++ [Lock (v_fs start); RetFs (v_fs start)]) with
    | Crash w => Crash w
    | Done rc top log =>
      if rc =? 0 then
        Done 0 (match nth_error path (v_lc top) with
                | Some c => if c =? SLASH then with_lc top (back path (v_lc top)) else top
                | None => top end) (rel_at top ++ log)
      else Done rc top (RelFs (v_fs top) :: Unlock (v_fs top) :: rel_at top ++ log)
    end.

  (** mp_add, vfs_mp.c.h lines 72-151; [MAXMP]: MAX_MOUNTPOINTS.  Mounts are never
      removed, so the first free slot is behind the used ones. *)
  Inductive mres := MRet (rc : Z) (W' : world) (log : list event) | MCrash (w : why).

  Definition mp_add (MAXMP : Z) (path : list Z) (cwd : vpath) (target : Z) : mres :=
    match vfs_resolve path cwd true with
    | Crash w => MCrash w
    | Done rc v log =>
      if negb (rc =? 0) then MRet rc W log
      else match v_obj v with
      | Some (i, VDir) =>
        let f := v_fs v in
        let log1 := Unlock f :: RetI f i :: log in
        match mp_at f i with
        | Some _ => MRet EBUSY W (RelI f i :: log1)
        | None =>
          if existsb (fun m => m_target m =? target) (mnts W) then MRet EPERM W (RelI f i :: log1)
          else if zlen (mnts W) <? MAXMP
          then MRet 0 (mkW (get W) (link W) (root W) (mnts W ++ [mkM f i target]) (rootfs W)) (RetFs target :: log1)
          else MRet EMFILE W (RelFs f :: RelI f i :: log1)
        end
      | _ => MRet ENOTDIR W (RelFs (v_fs v) :: Unlock (v_fs v) :: log)
      end
    end.
End Model.
