(** Directories of ramfs: entries, link counts, handles, listing, rename.

    Files: kernel/fs/ramfs/dir_entries.c.h (all), kernel/fs/ramfs/inodes.c.h
    (all), kernel/fs/ramfs/mkdir.c.h (all), kernel/fs/ramfs/getdents.c.h (all),
    kernel/fs/ramfs/ramfs.c (unlink, on_close, on_close_last_handle, get_entry,
    symlink, chmod, rename, link), kernel/fs/ramfs/open.c.h (without O_TRUNC's
    data part, see Ramfs_Model.v), kernel/fs/ramfs/rw_ops.c.h lines 10-48
    (directory seek), kernel/vfs/vfs_getdents.c.h (all), and the wrappers of
    kernel/vfs/vfs.c that call them (vfs_close, vfs_dup, vfs_open_impl, mkdir,
    rmdir, unlink, symlink, chmod, rename, link).

    Representation.
    - An inode is named by its number [ino] (next_inode_num only grows, so the
      numbers also stand for the addresses); a freed inode is [None].
    - The entries lists of all directories are kept in one list [ents] in
      creation order; the entries_list of directory [d] is the sub-list with
      [e_dir = d] (entries are only ever appended).  The AVL tree of a directory
      holds the same entries ordered by strcmp (C04-C06); looking up a name is a
      search of the list.  [bintree_insert] of a name already present fails and
      the code ignores that: outcome [Bad DupName].
    - An access to a freed entry or inode is [Bad Freed].
    - [dbg]: ASSERT is compiled in.
    - Each path-based call runs under the exclusive lock of the file system from
      the last step of the path resolution on (vfs.c lines 291-316), a listing
      under the shared lock: one call is one step.  [close] takes no lock and
      rename resolves its paths under two separate locks; their halves are also
      given separately ([close_a], [close_b]; [rename_a], [rename_b], vfs.c
      lines 651-738) and used to refute the claims for such interleavings.
    - The path is given as the directory it ends in and the last component
      ([PEnt], with an optional trailing slash) or as the root ([PRoot]); how a
      path gets there is Resolve_Model.v.
    - Times, the rwlocks and the file data are not modelled here. *)
From Verif Require Import Lib.

Definition EPERM := -1.   Definition ENOENT := -2.    Definition EBADF := -9.
Definition ENOMEM := -12. Definition EACCES := -13.   Definition EFAULT := -14.
Definition EBUSY := -16.  Definition EEXIST := -17.   Definition ENOTDIR := -20.
Definition EISDIR := -21. Definition EINVAL := -22.   Definition ENOSPC := -28.
Definition ENAMETOOLONG := -36. Definition ENOTEMPTY := -39.

Inductive ftype := FFile | FDir | FLink.

Definition ftype_eqb (a b : ftype) : bool :=
  match a, b with FFile, FFile | FDir, FDir | FLink, FLink => true | _, _ => false end.

(** struct ramfs_entry (ramfs_int.h lines 60-67); [e_dir] is the directory whose
    list holds it *)
Record entry := mkE { e_id : Z; e_dir : Z; e_name : list Z; e_tgt : Z }.

(** struct ramfs_inode (ramfs_int.h lines 71-108) *)
Record inode := mkI {
  i_type : ftype;
  i_mode : Z;            (* the permission bits, mode & 0777 *)
  i_nlink : Z;
  i_refs : Z;            (* REF_COUNTED_OBJECT *)
  i_num : Z;             (* num_entries *)
  i_parent : Z;          (* parent_dir *)
  i_path : list Z        (* target of a symlink *)
}.

(** struct ramfs_handle (ramfs_int.h lines 110-122); [h_reg]: its node is linked
    in the inode's handles_list; [h_dpos]: the current entry, [None] is the list
    head (end of the list) *)
Record handle := mkH {
  h_id : Z; h_ino : Z; h_reg : bool; h_dpos : option Z; h_pos : Z }.

Record st := mkS {
  ino : Z -> option inode;
  ents : list entry;
  hnds : list handle;
  pins : list Z;         (* inodes retained by a cwd or a mount point *)
  nexti : Z; nexte : Z; nexth : Z
}.

Inductive bad := Freed | BadType | Overflow | NullDeref | Assert | DupName | ListCorrupt.

(** One record copied to the user buffer by getdents; [d_eid] is a ghost *)
Record dent := mkD { d_eid : Z; d_ino : Z; d_off : Z; d_reclen : Z; d_type : ftype;
                     d_name : list Z }.

Inductive res := Ok (s : st) (rc : Z) (out : list dent) | Bad (w : bad).
Definition ok (s : st) (rc : Z) : res := Ok s rc [].

Definition ROOT : Z := 1.
Definition SLASH : Z := 47.
Definition DOT : list Z := [46].
Definition DOTDOT : list Z := [46; 46].

Fixpoint name_eqb (a b : list Z) : bool :=
  match a, b with
  | [], [] => true
  | x :: a', y :: b' => (x =? y) && name_eqb a' b'
  | _, _ => false
  end.

Definition set_ino (s : st) (m : Z -> option inode) :=
  mkS m (ents s) (hnds s) (pins s) (nexti s) (nexte s) (nexth s).
Definition set_ents (s : st) (l : list entry) :=
  mkS (ino s) l (hnds s) (pins s) (nexti s) (nexte s) (nexth s).
Definition set_hnds (s : st) (l : list handle) :=
  mkS (ino s) (ents s) l (pins s) (nexti s) (nexte s) (nexth s).
Definition set_pins (s : st) (l : list Z) :=
  mkS (ino s) (ents s) (hnds s) l (nexti s) (nexte s) (nexth s).

Definition with_nlink (i : inode) (n : Z) :=
  mkI (i_type i) (i_mode i) n (i_refs i) (i_num i) (i_parent i) (i_path i).
Definition with_refs (i : inode) (n : Z) :=
  mkI (i_type i) (i_mode i) (i_nlink i) n (i_num i) (i_parent i) (i_path i).
Definition with_num (i : inode) (n : Z) :=
  mkI (i_type i) (i_mode i) (i_nlink i) (i_refs i) n (i_parent i) (i_path i).
Definition with_mode (i : inode) (n : Z) :=
  mkI (i_type i) n (i_nlink i) (i_refs i) (i_num i) (i_parent i) (i_path i).

(** Change the inode [i]; it must be allocated *)
Definition upd (s : st) (i : Z) (f : inode -> inode) : option st :=
  match ino s i with
  | Some x => Some (set_ino s (fupd (ino s) i (Some (f x))))
  | None => None
  end.

(** The entries_list of directory [d] *)
Definition dents (s : st) (d : Z) : list entry := filter (fun e => e_dir e =? d) (ents s).

Definition find_name (s : st) (d : Z) (n : list Z) : option entry :=
  find (fun e => (e_dir e =? d) && name_eqb (e_name e) n) (ents s).

Definition find_eid (s : st) (x : Z) : option entry :=
  find (fun e => e_id e =? x) (ents s).

Definition find_h (s : st) (x : Z) : option handle :=
  find (fun h => h_id h =? x) (hnds s).

Section Model.
  Variables (dbg : bool)
            (NAMEMAX : Z)    (* RAMFS_ENTRY_MAX_LEN, ramfs_int.h lines 51-58: 231 on 32 bit, 207 on 64 bit *)
            (DSZ : Z).       (* sizeof(struct linux_dirent64): 20 on i386, 24 elsewhere *)

  (** ramfs_dir_add_entry, dir_entries.c.h lines 19-63 *)
  Definition add_entry (s : st) (a : bool) (d : Z) (iname : list Z) (ie : Z) : res :=
    match ino s d with
    | None => Bad Freed
    | Some D =>
      if negb (ftype_eqb (i_type D) FDir) then Bad BadType
      else let enl := zlen iname + 1 in
      if enl =? 1 then ok s ENOENT
      else if enl >? NAMEMAX then ok s ENAMETOOLONG
      else if negb a then ok s ENOSPC
      else match ino s ie with
      | None => Bad Freed
      | Some _ =>
        let name := if last iname 0 =? SLASH then removelast iname else iname in
        match find_name s d name with
        | Some _ => Bad DupName
        | None =>
          let s1 := mkS (ino s) (ents s ++ [mkE (nexte s) d name ie]) (hnds s) (pins s)
                        (nexti s) (nexte s + 1) (nexth s) in
          match upd s1 ie (fun i => with_nlink i (i_nlink i + 1)) with
          | None => Bad Freed
          | Some s2 =>
            match upd s2 d (fun i => with_num i (i_num i + 1)) with
            | None => Bad Freed
            | Some s3 => ok s3 0
            end
          end
        end
      end
    end.

  (** list_next_obj: the entry after [x] in the list *)
  Fixpoint next_eid (l : list entry) (x : Z) : option Z :=
    match l with
    | [] => None
    | e :: l' => if e_id e =? x
                 then match l' with [] => None | e' :: _ => Some (e_id e') end
                 else next_eid l' x
    end.

  (** The loop over handles_list, lines 78-82 *)
  Definition move_dpos (s : st) (d x : Z) (h : handle) : handle :=
    if h_reg h && (h_ino h =? d)
       && match h_dpos h with Some y => y =? x | None => false end
    then mkH (h_id h) (h_ino h) (h_reg h) (next_eid (dents s d) x) (h_pos h)
    else h.

  (** ramfs_dir_remove_entry, dir_entries.c.h lines 65-97; [x] is the entry
      pointer, [None] = NULL *)
  Definition remove_entry (s : st) (d : Z) (x : option Z) : res :=
    match x with
    | None => Bad NullDeref
    | Some x =>
      match find_eid s x with
      | None => Bad Freed
      | Some e =>
        match ino s d, ino s (e_tgt e) with
        | Some D, Some T =>
          if negb (ftype_eqb (i_type D) FDir) then Bad BadType
          else
          let s1 := set_hnds s (map (move_dpos s d x) (hnds s)) in
          let s2 := set_ents s1 (filter (fun f => negb (e_id f =? x)) (ents s1)) in
          if dbg && negb (0 <? i_nlink T) then Bad Assert
          else match upd s2 (e_tgt e) (fun i => with_nlink i (i_nlink i - 1)) with
          | None => Bad Freed
          | Some s3 =>
            match upd s3 d (fun i => with_num i (i_num i - 1)) with
            | None => Bad Freed
            | Some s4 => ok s4 0
            end
          end
        | _, _ => Bad Freed
        end
      end
    end.

  (** ramfs_new_inode and the initialisations, inodes.c.h lines 7-25, 27-84 *)
  Definition new_inode (s : st) (t : ftype) (mode parent : Z) (path : list Z) : st * Z :=
    let i := nexti s in
    (mkS (fupd (ino s) i (Some (mkI t (Z.land mode 511) 0 0 0 parent path)))
         (ents s) (hnds s) (pins s) (i + 1) (nexte s) (nexth s), i).

  Definition kfree (s : st) (i : Z) : st := set_ino s (fupd (ino s) i None).

  (** ramfs_destroy_inode, inodes.c.h lines 86-121 (a file's blocks are gone: the
      callers truncate first) *)
  Definition destroy (s : st) (i : Z) : res :=
    match ino s i with
    | None => Bad Freed
    | Some x =>
      if dbg && negb ((i_refs x =? 0) && (i_nlink x =? 0)) then Bad Assert
      else if dbg && ftype_eqb (i_type x) FDir
              && match dents s i with [] => false | _ => true end then Bad Assert
      else ok (kfree s i) 0
    end.

  Definition bind (r : res) (f : st -> Z -> res) : res :=
    match r with Ok s rc _ => f s rc | Bad w => Bad w end.

  (** ramfs_create_inode_dir, inodes.c.h lines 27-67; [al 0] the inode, [al 1] and
      [al 2] the entries.  The result code is the number of the new inode, 0 for
      NULL. *)
  Definition create_dir (s : st) (al : nat -> bool) (mode : Z) (parent : option Z) : res :=
    if negb (al 0%nat) then ok s 0
    else
    let par := match parent with Some p => p | None => nexti s end in
    let '(s1, i) := new_inode s FDir mode par [] in
    bind (add_entry s1 (al 1%nat) i DOT i) (fun s2 rc =>
      if rc <? 0 then ok (kfree s2 i) 0
      else bind (add_entry s2 (al 2%nat) i DOTDOT par) (fun s3 rc =>
        if rc <? 0 then
          (* i->entries_tree_root: the "." entry *)
          bind (remove_entry s3 i (match dents s3 i with e :: _ => Some (e_id e) | [] => None end))
               (fun s4 _ => ok (kfree s4 i) 0)
        else ok s3 i)).

  (** struct vfs_path after the resolution: inode, dir_inode, dir_entry, last_comp *)
  Record path := mkP { p_ino : option Z; p_dir : Z; p_ent : option Z; p_last : list Z }.

  Inductive parg := PRoot | PEnt (d : Z) (name : list Z) (slash : bool).

  Inductive pres := POk (p : path) | PErr (rc : Z) | PBad (w : bad).

  (** ramfs_get_entry (ramfs.c lines 125-153) on the last component, with
      ramfs_dir_get_entry_by_name (dir_entries.c.h lines 99-112) and the check of
      a trailing slash (vfs_resolve.c.h lines 283-299).  The component is copied
      to [buf[RAMFS_ENTRY_MAX_LEN]] without a check.  A directory inode that is
      not a directory is not refused: its union is read as a directory. *)
  Definition mkpath (s : st) (a : parg) : pres :=
    match a with
    | PRoot => POk (mkP (Some ROOT) ROOT None [SLASH])
    | PEnt d name slash =>
      if zlen name + 1 >? NAMEMAX then PBad Overflow
      else match ino s d with
      | None => PBad Freed
      | Some D =>
        if negb (ftype_eqb (i_type D) FDir) then PBad BadType
        else
        let lc := if slash then name ++ [SLASH] else name in
        match find_name s d name with
        | None => POk (mkP None d None lc)
        | Some e =>
          match ino s (e_tgt e) with
          | None => PBad Freed
          | Some T =>
            if slash && negb (ftype_eqb (i_type T) FDir) then PErr ENOTDIR
            else POk (mkP (Some (e_tgt e)) d (Some (e_id e)) lc)
          end
        end
      end
    end.

  Definition with_path (s : st) (a : parg) (f : path -> res) : res :=
    match mkpath s a with
    | POk p => f p | PErr rc => ok s rc | PBad w => Bad w end.

  Definition has (mode bits : Z) : bool := Z.land mode bits =? bits.

  (** vfs_mkdir_impl (vfs.c lines 383-398), ramfs_mkdir (mkdir.c.h lines 5-28);
      [al 3]: the named entry *)
  Definition do_mkdir (s : st) (al : nat -> bool) (mode : Z) (p : path) : res :=
    match p_ino p with
    | Some _ => ok s EEXIST
    | None =>
      match ino s (p_dir p) with
      | None => Bad Freed
      | Some D =>
        if negb (has (i_mode D) 192) then ok s EACCES
        else bind (create_dir s al mode (Some (p_dir p))) (fun s1 n =>
          if n =? 0 then ok s1 ENOSPC
          else bind (add_entry s1 (al 3%nat) (p_dir p) (p_last p) n) (fun s2 rc =>
            if negb (rc =? 0) then bind (destroy s2 n) (fun s3 _ => ok s3 rc)
            else ok s2 rc))
      end
    end.

  Definition is_dot (l : list Z) : bool :=
    match l with [c] => c =? 46 | _ => false end.

  (** ramfs_rmdir, mkdir.c.h lines 30-78.  The tree root is removed twice: with
      at most two entries these are the entries of the directory (here: in list
      order). *)
  Definition do_rmdir (s : st) (p : path) : res :=
    match p_ino p with
    | None => ok s ENOENT                       (* vfs_rmdir_impl *)
    | Some i =>
      match ino s i, ino s (p_dir p) with
      | Some Ix, Some D =>
        if negb (ftype_eqb (i_type Ix) FDir) then ok s ENOTDIR
        else if negb (has (i_mode D) 128) then ok s EACCES
        else match p_ent p with
        | None => ok s EINVAL
        | Some x =>
          if is_dot (p_last p) then ok s EINVAL
          else if i_num Ix >? 2 then ok s ENOTEMPTY
          else if i_refs Ix >? 0 then ok s EBUSY
          else
          let root s := match dents s i with e :: _ => Some (e_id e) | [] => None end in
          bind (remove_entry s i (root s)) (fun s1 _ =>
          bind (remove_entry s1 i (root s1)) (fun s2 _ =>
          bind (remove_entry s2 (p_dir p) (Some x)) (fun s3 _ =>
          bind (destroy s3 i) (fun s4 _ => ok s4 0))))
        end
      | _, _ => Bad Freed
      end
    end.

  (** ramfs_unlink, ramfs.c lines 16-54 (the truncation frees the blocks, not
      modelled here) *)
  Definition do_unlink (s : st) (p : path) : res :=
    match p_ino p with
    | None => ok s ENOENT                       (* vfs_unlink_impl *)
    | Some i =>
      match ino s i, ino s (p_dir p) with
      | Some Ix, Some D =>
        if ftype_eqb (i_type Ix) FDir then ok s EISDIR
        else if negb (has (i_mode D) 128) then ok s EACCES
        else bind (remove_entry s (p_dir p) (p_ent p)) (fun s1 _ =>
          match ino s1 i with
          | None => Bad Freed
          | Some Ix1 =>
            if (i_nlink Ix1 =? 0) && (i_refs Ix1 =? 0)
            then bind (destroy s1 i) (fun s2 _ => ok s2 0)
            else ok s1 0
          end)
      | _, _ => Bad Freed
      end
    end.

  (** vfs_symlink_impl, ramfs_symlink (ramfs.c lines 160-172) with
      ramfs_create_inode_symlink (inodes.c.h lines 123-151); [al 5]: the copy of
      the target *)
  Definition do_symlink (s : st) (al : nat -> bool) (target : list Z) (p : path) : res :=
    match p_ino p with
    | Some _ => ok s EEXIST
    | None =>
      if negb (al 0%nat) then ok s ENOSPC
      else
      let '(s1, i) := new_inode s FLink 511 (p_dir p) target in
      if negb (al 5%nat) then ok (kfree s1 i) ENOSPC
      else add_entry s1 (al 3%nat) (p_dir p) (p_last p) i
    end.

  (** ramfs_link, ramfs.c lines 292-306 *)
  Definition do_link (s : st) (al : nat -> bool) (oldp newp : path) : res :=
    match p_ino oldp with
    | None => ok s ENOENT
    | Some o =>
      match ino s o with
      | None => Bad Freed
      | Some Ox =>
        if negb (ftype_eqb (i_type Ox) FFile) then ok s EPERM
        else match p_ino newp with
        | Some _ => ok s EEXIST
        | None => add_entry s (al 3%nat) (p_dir newp) (p_last newp) o
        end
      end
    end.

  (** ramfs_rename, ramfs.c lines 233-290 *)
  Definition do_rename (s : st) (al : nat -> bool) (oldp newp : path) : res :=
    match p_ino oldp with
    | None => ok s ENOENT                       (* vfs_rename_or_link *)
    | Some o =>
      let finish s1 :=
        bind (add_entry s1 (al 3%nat) (p_dir newp) (p_last newp) o) (fun s2 rc =>
          if negb (rc =? 0) then ok s2 rc
          else bind (remove_entry s2 (p_dir oldp) (p_ent oldp)) (fun s3 _ => ok s3 0)) in
      match p_ino newp with
      | None => finish s
      | Some n =>
        match ino s o, ino s n with
        | Some Ox, Some Nx =>
          if ftype_eqb (i_type Nx) FDir then
            if negb (ftype_eqb (i_type Ox) FDir) then ok s EISDIR
            else if i_num Nx >? 2 then ok s ENOTEMPTY
            else bind (do_rmdir s newp) (fun s1 rc =>
                   if negb (rc =? 0) then ok s1 rc else finish s1)
          else bind (do_unlink s newp) (fun s1 rc =>
                   if negb (rc =? 0) then ok s1 rc else finish s1)
        | _, _ => Bad Freed
        end
      end
    end.

  Record oflags := mkF { f_wr : bool; f_rdwr : bool; f_creat : bool; f_excl : bool;
                         f_dir : bool; f_trunc : bool }.

  (** ramfs_open_existing_checks, open.c.h lines 60-91 *)
  Definition open_checks (f : oflags) (Ix : inode) : Z :=
    if negb (f_wr f) && negb (has (i_mode Ix) 256) then EACCES
    else if f_wr f && negb (has (i_mode Ix) 128) then EACCES
    else if f_rdwr f && negb (has (i_mode Ix) 384) then EACCES
    else if f_dir f && negb (ftype_eqb (i_type Ix) FDir) then ENOTDIR
    else if f_creat f && f_excl f then EEXIST
    else if (f_wr f || f_rdwr f) && ftype_eqb (i_type Ix) FDir then EISDIR
    else if f_trunc f && negb (f_wr f || f_rdwr f) then EINVAL
    else 0.

  (** ramfs_open_int, open.c.h lines 18-58; [al 4]: the handle.  A success
      returns the handle's number. *)
  Definition open_int (s : st) (al : nat -> bool) (i : Z) : res :=
    if negb (al 4%nat) then ok s ENOMEM
    else match ino s i with
    | None => Bad Freed
    | Some Ix =>
      match upd s i (fun x => with_refs x (i_refs x + 1)) with
      | None => Bad Freed
      | Some s1 =>
        let isd := ftype_eqb (i_type Ix) FDir in
        let dpos := if isd then match dents s i with e :: _ => Some (e_id e) | [] => None end
                    else None in
        ok (mkS (ino s1) (ents s1) (hnds s1 ++ [mkH (nexth s) i isd dpos 0]) (pins s1)
                (nexti s1) (nexte s1) (nexth s1 + 1)) (nexth s)
      end
    end.

  (** vfs_open_impl (vfs.c lines 318-351), ramfs_open (open.c.h lines 93-151);
      [al 6]: the lock of kernel/fs/flock.c is obtained *)
  Definition do_open (s : st) (al : nat -> bool) (f : oflags) (mode : Z) (p : path) : res :=
    let typ := match p_ino p with
               | Some i => match ino s i with Some Ix => Some (i_type Ix) | None => None end
               | None => None end in
    if f_dir f && negb (match typ with Some FDir => true | _ => false end) then ok s ENOTDIR
    else match p_ino p with
    | None =>
      if negb (f_creat f) then ok s ENOENT
      else match ino s (p_dir p) with
      | None => Bad Freed
      | Some D =>
        if negb (has (i_mode D) 192) then ok s EACCES
        else if negb (al 0%nat) then ok s ENOSPC
        else
        let '(s1, i) := new_inode s FFile mode (p_dir p) [] in
        if negb (al 6%nat) then bind (destroy s1 i) (fun s2 _ => ok s2 EBUSY)
        else bind (add_entry s1 (al 3%nat) (p_dir p) (p_last p) i) (fun s2 rc =>
          if negb (rc =? 0) then bind (destroy s2 i) (fun s3 _ => ok s3 rc)
          else open_int s2 al i)
      end
    | Some i =>
      match ino s (p_dir p), ino s i with
      | Some D, Some Ix =>
        if negb (has (i_mode D) 320) then ok s EACCES
        else if negb (open_checks f Ix =? 0) then ok s (open_checks f Ix)
        else if ftype_eqb (i_type Ix) FFile && (f_wr f || f_rdwr f) && negb (al 6%nat)
        then ok s EBUSY
        else open_int s al i
      | _, _ => Bad Freed
      end
    end.

  (** vfs_close, first half: ramfs_on_close (ramfs.c lines 56-65) and
      release_inode.  The list node of a handle made by dup() is a copy of the
      original's node: unlinking it corrupts the list. *)
  Definition close_a (s : st) (h : Z) : res :=
    match find_h s h with
    | None => Bad Freed
    | Some H =>
      match ino s (h_ino H) with
      | None => Bad Freed
      | Some Ix =>
        if ftype_eqb (i_type Ix) FDir && negb (h_reg H) then Bad ListCorrupt
        else match upd s (h_ino H) (fun x => with_refs x (i_refs x - 1)) with
        | None => Bad Freed
        | Some s1 =>
          ok (set_hnds s1 (filter (fun g => negb (h_id g =? h)) (hnds s1)))
             (i_refs Ix - 1)
        end
      end
    end.

  (** vfs_close, second half: ramfs_on_close_last_handle (ramfs.c lines 67-90),
      called when the count became 0 *)
  Definition close_b (s : st) (i : Z) : res :=
    match ino s i with
    | None => Bad Freed
    | Some Ix => if i_nlink Ix =? 0 then bind (destroy s i) (fun s1 _ => ok s1 0) else ok s 0
    end.

  Definition do_close (s : st) (h : Z) : res :=
    match find_h s h with
    | None => Bad Freed
    | Some H => bind (close_a s h) (fun s1 n =>
                  if n =? 0 then close_b s1 (h_ino H) else ok s1 0)
    end.

  (** vfs_dup, vfs.c lines 72-113: the handle is copied as it is *)
  Definition do_dup (s : st) (a : bool) (h : Z) : res :=
    match find_h s h with
    | None => Bad Freed
    | Some H =>
      if negb a then ok s ENOMEM
      else match upd s (h_ino H) (fun x => with_refs x (i_refs x + 1)) with
      | None => Bad Freed
      | Some s1 =>
        ok (mkS (ino s1) (ents s1)
                (hnds s1 ++ [mkH (nexth s) (h_ino H) false (h_dpos H) (h_pos H)])
                (pins s1) (nexti s1) (nexte s1) (nexth s1 + 1)) (nexth s)
      end
    end.

  (** The list from the entry [x] on; [None]: the pointer dangles *)
  Fixpoint from_eid (l : list entry) (x : Z) : option (list entry) :=
    match l with
    | [] => None
    | e :: l' => if e_id e =? x then Some l else from_eid l' x
    end.

  Definition set_h (s : st) (h : Z) (f : handle -> handle) : st :=
    set_hnds s (map (fun g => if h_id g =? h then f g else g) (hnds s)).

  Inductive gres := GOk (rc : Z) (dpos : option Z) (pos : Z) (out : list dent) | GBad (w : bad).

  (** The loop of ramfs_getdents (getdents.c.h lines 17-28) with vfs_getdents_cb
      (vfs_getdents.c.h lines 36-97; the file system keeps its position, so the
      skipping is not used).  [l] is what is left of the list from [dpos] on,
      [offset] the bytes written so far, [lim] the number of accessible bytes of
      the user buffer. *)
  Fixpoint gd (s : st) (l : list entry) (bufsz lim offset pos : Z) (out : list dent) : gres :=
    match l with
    | [] => GOk (if offset <? 2147483648 then offset else offset - 4294967296) None pos out
    | e :: l' =>
      match ino s (e_tgt e) with
      | None => GBad Freed
      | Some T =>
        let nlen := zlen (e_name e) + 1 in
        let sz := DSZ + nlen in
        if u32 (offset + sz) >? bufsz then
          GOk (if offset =? 0 then EINVAL
               else if offset <? 2147483648 then offset else offset - 4294967296)
              (Some (e_id e)) pos out
        else if (offset + DSZ >? lim) || (offset + 19 + nlen >? lim) then
          GOk EFAULT (Some (e_id e)) pos out
        else gd s l' bufsz lim (offset + sz) (pos + 1)
                (out ++ [mkD (e_id e) (e_tgt e) (pos + 1) sz (i_type T) (e_name e)])
      end
    end.

  (** vfs_getdents64, vfs_getdents.c.h lines 99-128, with ramfs_getdents *)
  Definition do_getdents (s : st) (h bufsz lim : Z) : res :=
    match find_h s h with
    | None => Bad Freed
    | Some H =>
      match ino s (h_ino H) with
      | None => Bad Freed
      | Some Ix =>
        if negb (ftype_eqb (i_type Ix) FDir) then ok s ENOTDIR
        else if negb (has (i_mode Ix) 256) then ok s EACCES
        else
        let from := match h_dpos H with
                    | None => Some []
                    | Some x => from_eid (dents s (h_ino H)) x end in
        match from with
        | None => Bad Freed
        | Some l =>
          match gd s l bufsz lim 0 (h_pos H) [] with
          | GBad w => Bad w
          | GOk rc dpos pos out =>
            Ok (set_h s h (fun g => mkH (h_id g) (h_ino g) (h_reg g) dpos pos)) rc out
          end
        end
      end
    end.

  (** ramfs_dir_seek, rw_ops.c.h lines 10-28, SEEK_SET *)
  Definition do_seek (s : st) (h off : Z) : res :=
    match find_h s h with
    | None => Bad Freed
    | Some H =>
      match ino s (h_ino H) with
      | None => Bad Freed
      | Some Ix =>
        if negb (ftype_eqb (i_type Ix) FDir) then ok s EBADF    (* a file: Ramfs_Model.v *)
        else if off <? 0 then ok s EINVAL
        else match aget (dents s (h_ino H)) off with
        | None => ok s (h_pos H)
        | Some e => ok (set_h s h (fun g => mkH (h_id g) (h_ino g) (h_reg g) (Some (e_id e)) off)) off
        end
      end
    end.

  (** ramfs_chmod, ramfs.c lines 206-231 *)
  Definition typebits (t : ftype) : Z :=
    match t with FFile => 32768 | FDir => 16384 | FLink => 40960 end.
  Definition do_chmod (s : st) (mode : Z) (p : path) : res :=
    match p_ino p with
    | None => ok s ENOENT
    | Some i =>
      match ino s i with
      | None => Bad Freed
      | Some Ix =>
        let special := mode - Z.land mode 511 in
        if (special =? 0) || (special =? typebits (i_type Ix))
        then match upd s i (fun x => with_mode x (Z.land mode 511)) with
             | None => Bad Freed | Some s1 => ok s1 0 end
        else ok s EPERM
      end
    end.

  (** chdir and mount retain a directory inode (vfs_retain_inode_at), a later
      chdir releases it *)
  Definition do_pin (s : st) (p : path) : res :=
    match p_ino p with
    | None => ok s ENOENT
    | Some i =>
      match ino s i with
      | None => Bad Freed
      | Some Ix =>
        if negb (ftype_eqb (i_type Ix) FDir) then ok s ENOTDIR
        else match upd s i (fun x => with_refs x (i_refs x + 1)) with
        | None => Bad Freed
        | Some s1 => ok (set_pins s1 (i :: pins s1)) 0
        end
      end
    end.

  Fixpoint remove1 (x : Z) (l : list Z) : list Z :=
    match l with [] => [] | y :: l' => if y =? x then l' else y :: remove1 x l' end.

  Definition do_unpin (s : st) (i : Z) : res :=
    match upd s i (fun x => with_refs x (i_refs x - 1)) with
    | None => Bad Freed
    | Some s1 => ok (set_pins s1 (remove1 i (pins s1))) 0
    end.

  Inductive op :=
  | OOpen (al : nat -> bool) (f : oflags) (mode : Z) (a : parg)
  | OClose (h : Z)
  | OMkdir (al : nat -> bool) (mode : Z) (a : parg)
  | ORmdir (a : parg)
  | OUnlink (a : parg)
  | OSymlink (al : nat -> bool) (target : list Z) (a : parg)
  | OLink (al : nat -> bool) (a b : parg)
  | ORename (al : nat -> bool) (a b : parg)
  | OChmod (mode : Z) (a : parg)
  | OChdir (a : parg)
  | OUnpin (i : Z)
  | OGetdents (h bufsz lim : Z)
  | OSeek (h off : Z)
  | ODup (a : bool) (h : Z).

  Definition step (s : st) (o : op) : res :=
    match o with
    | OOpen al f m a => with_path s a (do_open s al f m)
    | OClose h => do_close s h
    | OMkdir al m a => with_path s a (do_mkdir s al m)
    | ORmdir a => with_path s a (do_rmdir s)
    | OUnlink a => with_path s a (do_unlink s)
    | OSymlink al t a => with_path s a (do_symlink s al t)
    | OLink al a b => with_path s a (fun p => with_path s b (fun q => do_link s al p q))
    | ORename al a b => with_path s a (fun p => with_path s b (fun q => do_rename s al p q))
    | OChmod m a => with_path s a (do_chmod s m)
    | OChdir a => with_path s a (do_pin s)
    | OUnpin i => do_unpin s i
    | OGetdents h b l => do_getdents s h b l
    | OSeek h off => do_seek s h off
    | ODup a h => do_dup s a h
    end.

  (** rename, the two halves: the old path is resolved under the shared lock and
      its inode retained; the lock is released; the new path is resolved under
      the exclusive lock and the saved struct vfs_path of the old path is used. *)
  Definition rename_a (s : st) (a : parg) : option (st * path) :=
    match mkpath s a with
    | POk p => match p_ino p with
               | Some i => match upd s i (fun x => with_refs x (i_refs x + 1)) with
                           | Some s1 => Some (s1, p) | None => None end
               | None => None end
    | _ => None
    end.
  Definition rename_b (s : st) (al : nat -> bool) (oldp : path) (b : parg) : res :=
    with_path s b (fun q =>
      match p_ino oldp with
      | None => ok s ENOENT
      | Some i => match upd s i (fun x => with_refs x (i_refs x - 1)) with
                  | Some s1 => do_rename s1 al oldp q | None => Bad Freed end
      end).

  (** ramfs_create, ramfs.c lines 340-366 *)
  Definition init : st :=
    match create_dir (mkS (fun _ => None) [] [] [] ROOT 0 0) (fun _ => true) 511 None with
    | Ok s _ _ => s
    | Bad _ => mkS (fun _ => None) [] [] [] ROOT 0 0
    end.

  Fixpoint run (s : st) (l : list op) : res :=
    match l with
    | [] => ok s 0
    | o :: l' => match step s o with Ok s1 _ _ => run s1 l' | Bad w => Bad w end
    end.
End Model.
