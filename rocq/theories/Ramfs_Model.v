(** Model of the data of a ramfs file: kernel/fs/ramfs/blocks.c.h, kernel/fs/ramfs/rw_ops.c.h,
    the page fault handler of kernel/fs/ramfs/mmap.c.h:76-124, and the entry points of
    kernel/vfs/vfs.c:114-206, 827-916.

    - offt is a signed integer in [-M, M) (M = 2^31 or 2^63); -fwrapv, so sums wrap ([sw]);
    - the tree of blocks is its in-order list (offset, page), justified by C04 and C06; the
      content of a page is a function of the offset in the page;
    - a call is one step: the inode's lock is held (C16), and one handle is used by one call
      at a time;
    - [k]: how many more blocks can be allocated (ramfs_new_block, blocks.c.h:5-27, fails
      without effect); a fresh block is zeroed (kzmalloc);
    - [dbg]: assertions compiled in; a failed one is [None].
    Not modelled: page frame reference counts, times, the locks. *)
From Verif Require Import Lib.

Definition PAGE := 4096.
(** struct ramfs_block, ramfs_int.h:32-37 *)
Definition block : Type := (Z * (Z -> Z))%type.
Definition zeros : Z -> Z := fun _ => 0.
(** struct ramfs_inode, ramfs_int.h:66-106: the fields in use; for a directory [fsize] is
    num_entries (the union) *)
Record inode := Inode { isdir : bool; mode : Z; fsize : Z; blocks : list block; bcount : Z }.
(** struct ramfs_handle: position and flags *)
Record handle := Handle { fpos : Z; fl : Z }.
Definition O_WRONLY := 1.
Definition O_RDWR := 2.
Definition O_APPEND := 1024.
Definition EBADF := 9.
Definition EACCES := 13.
Definition EFAULT := 14.
Definition EISDIR := 21.
Definition EINVAL := 22.
Definition ENOSPC := 28.
Definition has (x m : Z) : bool := negb (Z.land x m =? 0).

(** bintree_find_ptr *)
Fixpoint find (l : list block) (page : Z) : option (Z -> Z) :=
  match l with
  | [] => None
  | (o, c) :: r => if o =? page then Some c else find r page
  end.
(** bintree_insert_ptr: [None] when the offset is present *)
Fixpoint insert (l : list block) (b : block) : option (list block) :=
  match l with
  | [] => Some [b]
  | (o, c) :: r =>
      if fst b =? o then None
      else if fst b <? o then Some (b :: l)
      else match insert r b with Some r' => Some ((o, c) :: r') | None => None end
  end.
(** memcpy into the page of the block at [page] *)
Fixpoint store (l : list block) (page : Z) (c : Z -> Z) : list block :=
  match l with
  | [] => []
  | (o, c0) :: r => if o =? page then (o, c) :: r else (o, c0) :: store r page c
  end.
Definition memcpy (c : Z -> Z) (off : Z) (buf : list Z) (from n : Z) : Z -> Z :=
  fun i => if (off <=? i) && (i <? off + n) then znth 0 buf (from + (i - off)) else c i.
(** n bytes of a page *)
Definition bytes (c : Z -> Z) (off n : Z) : list Z := map (fun k => c (off + Z.of_nat k)) (seq 0 (Z.to_nat n)).

Section R.
Variable M : Z.
Variable dbg : bool.
Variable CB : Z.    (* IO_COPYBUF_SIZE *)
Definition sw (x : Z) : Z := (x + M) mod (2 * M) - M.

(** the loop of ramfs_read_nolock, rw_ops.c.h:270-309; the fuel is len: each turn reads a byte or stops *)
Fixpoint read_loop (fuel : nat) (i : inode) (pos buf_rem : Z) (out : list Z) : list Z * Z :=
  match fuel with
  | O => (out, pos)
  | S fuel =>
      if negb (buf_rem >? 0) then (out, pos)
      else
        let page := pos - pos mod PAGE in
        let page_off := pos mod PAGE in
        let page_rem := PAGE - page_off in
        let file_rem := sw (fsize i - pos) in
        let to_read := Z.min (Z.min page_rem buf_rem) file_rem in
        if pos >=? fsize i then (out, pos)
        else if to_read <=? 0 then (out, pos)
        else
          let data := match find (blocks i) page with Some c => bytes c page_off to_read | None => bytes zeros 0 to_read end in
          read_loop fuel i (sw (pos + to_read)) (buf_rem - to_read) (out ++ data)
  end.
(** ramfs_read_nolock, lines 258-312: return code, bytes, new position *)
Definition read_nolock (i : inode) (len pos : Z) : Z * list Z * Z :=
  if isdir i then (- EISDIR, [], pos)
  else let '(out, pos) := read_loop (Z.to_nat (sw len)) i pos (sw len) [] in (zlen out, out, pos).

(** one turn of the loop of ramfs_write_nolock, lines 341-378: the inode with the data written *)
Inductive turn := TFail | TStop (i : inode) | TNext (i : inode) (pos n : Z) (k : nat).
Definition write_turn (i : inode) (k : nat) (buf : list Z) (pos buf_rem tot : Z) : turn :=
  let page := pos - pos mod PAGE in
  let page_off := pos mod PAGE in
  let to_write := Z.min (PAGE - page_off) buf_rem in
  let go i c k :=
    let i := Inode (isdir i) (mode i) (fsize i) (store (blocks i) page (memcpy c page_off buf tot to_write)) (bcount i) in
    let pos := sw (pos + to_write) in
    let i := if pos >? fsize i then Inode (isdir i) (mode i) pos (blocks i) (bcount i) else i in
    TNext i pos to_write k in
  match find (blocks i) page with
  | Some c => go i c k
  | None =>
      if dbg && negb (page_off =? 0) then TFail
      else match k with
           | O => TStop i
           | S k =>
               match insert (blocks i) (page, zeros) with
               | None => TFail
               | Some l => go (Inode (isdir i) (mode i) (fsize i) l (bcount i + 1)) zeros k
               end
           end
  end.
Fixpoint write_loop (fuel : nat) (i : inode) (k : nat) (buf : list Z) (pos buf_rem tot : Z) : option (inode * nat * Z * Z) :=
  match fuel with
  | O => Some (i, k, pos, tot)
  | S fuel =>
      if negb (buf_rem >? 0) then Some (i, k, pos, tot)
      else match write_turn i k buf pos buf_rem tot with
           | TFail => None
           | TStop i => Some (i, O, pos, tot)
           | TNext i pos n k => write_loop fuel i k buf pos (buf_rem - n) (tot + n)
           end
  end.
(** ramfs_write_nolock, lines 328-384: inode, blocks left, return code, new position *)
Definition write_nolock (i : inode) (flags : Z) (k : nat) (buf : list Z) (pos : Z) : option (inode * nat * Z * Z) :=
  if dbg && isdir i then None
  else
    let pos := if has flags O_APPEND then fsize i else pos in
    match write_loop (length buf) i k buf pos (zlen buf) 0 with
    | None => None
    | Some (i, k, pos, tot) => Some (i, k, (if (zlen buf >? 0) && (tot =? 0) then - ENOSPC else tot), pos)
    end.

(** ramfs_seek_nolock, lines 32-73, for a file: return value, new position *)
Inductive whence := SeekSet | SeekCur | SeekEnd.
Definition seek_nolock (i : inode) (pos off : Z) (wh : whence) : Z * Z :=
  let pos := match wh with
             | SeekSet => off
             | SeekCur => sw (pos + off)
             | SeekEnd => sw (fsize i + off)
             end in
  if pos <? 0 then (- EINVAL, 0) else (pos, pos).

(** the loop of ramfs_inode_truncate, lines 199-216: removes the last block while its offset is >= len *)
Fixpoint drop_last (fuel : nat) (l : list block) (len : Z) : list block :=
  match fuel with
  | O => l
  | S fuel =>
      match rev l with
      | [] => l
      | (o, _) :: r => if o <? len then l else drop_last fuel (rev r) len
      end
  end.
(** pow2_round_up_at(n, PAGE_SIZE) on ulong *)
Definition round_up (n : Z) : Z := (n + (PAGE - 1)) mod (2 * M) / PAGE * PAGE.
(** ramfs_inode_truncate, lines 176-223 *)
Definition inode_truncate (i : inode) (len : Z) : inode * Z :=
  if (len <? 0) || (len >=? fsize i) then (i, - EINVAL)
  else if isdir i then (i, - EISDIR)
  else (Inode (isdir i) (mode i) len (drop_last (length (blocks i)) (blocks i) len) (round_up len), 0).
(** ramfs_inode_extend, blocks.c.h:53-61 *)
Definition inode_extend (i : inode) (len : Z) : inode * Z :=
  (Inode (isdir i) (mode i) len (blocks i) (bcount i), 0).
(** ramfs_inode_truncate_safe, lines 225-247, with no_perm_check = false *)
Definition truncate_safe (i : inode) (len : Z) : inode * Z :=
  if Z.land (mode i) 128 =? 128 then
    if len <? fsize i then inode_truncate i len
    else if len >? fsize i then inode_extend i len
    else (i, 0)
  else (i, - EACCES).

(** ramfs_unmap_past_eof_mappings, lines 152-174: the virtual addresses unmapped for one
    mapping (virtual address, length, offset in the file), all page aligned *)
Record umap := Umap { um_vaddr : Z; um_len : Z; um_off : Z }.
Definition past_eof (len : Z) (u : umap) : list Z :=
  let rlen := round_up len in
  if um_off u + um_len u <=? rlen then []
  else
    let voff := if rlen >=? um_off u then rlen - um_off u else 0 in
    map (fun k => um_vaddr u + voff + PAGE * Z.of_nat k) (seq 0 (Z.to_nat ((um_len u - voff + PAGE - 1) / PAGE))).

(** ramfs_handle_fault_int, mmap.c.h:76-124, for a page that is not present: what is mapped
    there and whether writable.  [None]: panic or failed assertion; [Some (i, None)]: returns
    false.  With the assertion off, a block whose offset is already in the tree stays outside it. *)
Inductive frame := FZero | FBlock (page : Z) | FLost.
Definition fault (i : inode) (k : nat) (u : umap) (va : Z) (rw : bool) : option (inode * option (frame * bool)) :=
  let abs_off := um_off u + (va - um_vaddr u) in
  if abs_off >=? fsize i then Some (i, None)
  else if rw then
    let page := abs_off - abs_off mod PAGE in
    match k with
    | O => None
    | S _ => match insert (blocks i) (page, zeros) with
             | Some l => Some (Inode (isdir i) (mode i) (fsize i) l (bcount i + 1), Some (FBlock page, true))
             | None => if dbg then None else Some (Inode (isdir i) (mode i) (fsize i) (blocks i) (bcount i + 1), Some (FLost, true))
             end
    end
  else Some (i, Some (FZero, true)).

(** vfs_read and vfs_pread, vfs.c:114-158; vfs_write and vfs_pwrite, lines 130-175 *)
Definition can_read (h : handle) : bool := negb (has (fl h) O_WRONLY && negb (has (fl h) O_RDWR)).
Definition can_write (h : handle) : bool := has (fl h) (Z.lor O_WRONLY O_RDWR).
(** copy_to_user of the buffer: the bytes stored, per user buffer *)
Definition copied (cbuf data : list Z) (n : Z) : list Z := firstn (Z.to_nat n) (data ++ skipn (length data) cbuf).
(** ramfs_readv_nolock, lines 384-412; [cbuf]: what io_copybuf holds from earlier calls; the
    user buffers are writable.  The return value, what is stored in each user buffer, the position *)
Fixpoint readv (i : inode) (cbuf : list Z) (iov : list Z) (pos ret : Z) (outs : list (list Z)) : Z * list (list Z) * Z :=
  match iov with
  | [] => (ret, outs, pos)
  | n :: iov =>
      let len := Z.min n CB in
      let '(rc, data, pos) := read_nolock i len pos in
      if rc <? 0 then (rc, outs, pos)
      else
        let outs := outs ++ [copied cbuf data len] in
        if rc <? n then (ret + rc, outs, pos)
        else readv i (data ++ skipn (length data) cbuf) iov pos (ret + rc) outs
  end.
(** ramfs_writev_nolock, lines 427-458; a user buffer is [None] when it cannot be read *)
Fixpoint writev (i : inode) (flags : Z) (k : nat) (iov : list (option (list Z))) (pos ret : Z) : option (inode * Z * Z) :=
  match iov with
  | [] => Some (i, ret, pos)
  | None :: _ => Some (i, - EFAULT, pos)
  | Some buf :: iov =>
      match write_nolock i flags k (firstn (Z.to_nat CB) buf) pos with
      | None => None
      | Some (i, k, rc, pos) =>
          if rc <? 0 then Some (i, rc, pos)
          else if rc <? zlen buf then Some (i, ret + rc, pos)
          else writev i flags k iov pos (ret + rc)
      end
  end.

(** one call on an open file *)
Record state := St { ino : inode; hs : Z -> handle }.
Inductive op :=
  | Read (h len : Z)
  | Pread (h len off : Z)
  | Write (h : Z) (buf : list Z) (k : nat)
  | Pwrite (h : Z) (buf : list Z) (off : Z) (k : nat)
  | Seek (h off : Z) (wh : whence)
  | Truncate (h : option Z) (len : Z)        (* vfs_truncate, or vfs_ftruncate of a handle (vfs.c:207-217) *)
  | Readv (h : Z) (cbuf : list Z) (iov : list Z)
  | Writev (h : Z) (iov : list (option (list Z))) (k : nat).
Inductive result := Ret (rc : Z) (data : list (list Z)).
Definition set_pos (s : state) (h pos : Z) : Z -> handle :=
  fun x => if x =? h then Handle pos (fl (hs s h)) else hs s x.
Definition step (s : state) (o : op) : option (state * result) :=
  match o with
  | Read h len =>
      if negb (can_read (hs s h)) then Some (s, Ret (- EBADF) [])
      else let '(rc, data, pos) := read_nolock (ino s) len (fpos (hs s h)) in Some (St (ino s) (set_pos s h pos), Ret rc [data])
  | Pread h len off =>
      if negb (can_read (hs s h)) then Some (s, Ret (- EBADF) [])
      else let '(rc, data, _) := read_nolock (ino s) len off in Some (s, Ret rc [data])
  | Write h buf k =>
      if negb (can_write (hs s h)) then Some (s, Ret (- EBADF) [])
      else match write_nolock (ino s) (fl (hs s h)) k buf (fpos (hs s h)) with
           | None => None
           | Some (i, _, rc, pos) => Some (St i (set_pos s h pos), Ret rc [])
           end
  | Pwrite h buf off k =>
      if negb (can_write (hs s h)) then Some (s, Ret (- EBADF) [])
      else match write_nolock (ino s) (fl (hs s h)) k buf off with
           | None => None
           | Some (i, _, rc, _) => Some (St i (hs s), Ret rc [])
           end
  | Seek h off wh =>
      let '(rc, pos) := seek_nolock (ino s) (fpos (hs s h)) off wh in Some (St (ino s) (set_pos s h pos), Ret rc [])
  | Truncate _ len => let '(i, rc) := truncate_safe (ino s) len in Some (St i (hs s), Ret rc [])
  | Readv h cbuf iov =>
      let '(rc, outs, pos) := readv (ino s) cbuf iov (fpos (hs s h)) 0 [] in Some (St (ino s) (set_pos s h pos), Ret rc outs)
  | Writev h iov k =>
      match writev (ino s) (fl (hs s h)) k iov (fpos (hs s h)) 0 with
      | None => None
      | Some (i, rc, pos) => Some (St i (set_pos s h pos), Ret rc [])
      end
  end.
Fixpoint run (s : state) (ops : list op) : option (state * list result) :=
  match ops with
  | [] => Some (s, [])
  | o :: ops =>
      match step s o with
      | None => None
      | Some (s, r) => match run s ops with Some (s, rs) => Some (s, r :: rs) | None => None end
      end
  end.
(** ramfs_create_inode_file, inodes.c.h:69-88: an empty file *)
Definition new_file (m : Z) : inode := Inode false m 0 [] 0.
End R.
