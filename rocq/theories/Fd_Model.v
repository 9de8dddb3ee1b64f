(* File descriptors: kernel/fs/fs_syscalls.c (open, close, dup, dup2, fcntl, pipe2,
   close-on-exec), vfs_close and vfs_dup of kernel/vfs/vfs.c, kernel/fs/kernelfs.c,
   the handles in kernel/fork.c and kernel/exit.c.

   A handle is an object of the heap with its own position, flags and pointer to
   an inode; a process has a table of pointers to handles. Every system call is
   one step: the table is the process' own (it has one thread) and the
   counters are atomic. Path resolution and the file systems' open are an
   outcome: an error, or the object opened, retained. A kmalloc is an oracle:
   the address it returns depends on the state, None being out of memory.
   Memory mappings and file locks of a handle are not described (C33, C46). *)
From Coq Require Import ZArith List Bool Lia.
From Verif Require Import Lib.
Import ListNotations.
Open Scope Z_scope.

Inductive out (A : Type) : Type :=
| Ok (a : A)
| Uaf              (* a freed handle is used *)
| Oob              (* the table is read outside its bounds *)
| Afail            (* an ASSERT fails; in release builds NULL is dereferenced, or a count is wrong *)
| Panic.           (* NOT_IMPLEMENTED() *)
Arguments Ok {A} a.
Arguments Uaf {A}.
Arguments Oob {A}.
Arguments Afail {A}.
Arguments Panic {A}.

Definition bind {A B} (x : out A) (f : A -> out B) : out B :=
  match x with Ok a => f a | Uaf => Uaf | Oob => Oob | Afail => Afail | Panic => Panic end.
Notation "'bnd' p <- x ; f" := (bind x (fun p => f))
  (at level 200, p pattern, x at level 100, f at level 200).

Definition ENOMEM := -12.
Definition EBADF := -9.
Definition EFAULT := -14.
Definition EINVAL := -22.
Definition EMFILE := -24.
Definition EOPNOTSUPP := -95.

Definition O_APPEND := 1024.
Definition O_NONBLOCK := 2048.
Definition O_ASYNC := 8192.
Definition O_DIRECT := 16384.
Definition O_NOATIME := 262144.
Definition O_CLOEXEC := 524288.
Definition O_TMPFILE := 4259840.
Definition has (fl b : Z) : bool := negb (Z.land fl b =? 0).

(* include/tilck/kernel/fs/vfs_base.h FS_HANDLE_BASE_FIELDS: the inode, fl_flags
   (bit 0 is O_WRONLY), fd_flags (bit 0 is FD_CLOEXEC), h_fpos *)
Record hnd := Hnd { h_o : Z; h_fl : Z; h_fd : Z; h_pos : Z }.
Definition wronly (x : hnd) : bool := Z.odd (h_fl x).
Definition cloexec (x : hnd) : bool := Z.odd (h_fd x).

(* an inode that outlives its handles (here: a file), or a pipe, which does not *)
Inductive okind := ONone | OFile | OPipe.

Record st := St {
  hs : Z -> option hnd;        (* the handles *)
  tb : Z -> Z -> option Z;     (* process, descriptor: handle *)
  pr : Z -> bool;              (* the processes *)
  ok : Z -> okind;             (* the inodes *)
  rf : Z -> Z;                 (* inode: ref_count, as far as handles go *)
  rd : Z -> Z;                 (* pipe: read_handles *)
  wr : Z -> Z;                 (* pipe: write_handles *)
  fr : Z -> Z }.               (* mounted file system: ref_count *)

(* KRN_MAX_HANDLES, and the file system of an inode *)
Record cfg := Cfg { maxh : Z; fs : Z -> Z }.

Definition set_tb s p fd h := St (hs s) (fupd (tb s) p (fupd (tb s p) fd h)) (pr s) (ok s) (rf s) (rd s) (wr s) (fr s).
Definition set_hs s h x := St (fupd (hs s) h x) (tb s) (pr s) (ok s) (rf s) (rd s) (wr s) (fr s).
Definition set_ok s o k := St (hs s) (tb s) (pr s) (fupd (ok s) o k) (rf s) (rd s) (wr s) (fr s).
Definition add_rf s o n := St (hs s) (tb s) (pr s) (ok s) (fupd (rf s) o (rf s o + n)) (rd s) (wr s) (fr s).
Definition add_fr s f n := St (hs s) (tb s) (pr s) (ok s) (rf s) (rd s) (wr s) (fupd (fr s) f (fr s f + n)).
(* the counter of the end of the pipe that x is *)
Definition add_end s x n :=
  if wronly x
  then St (hs s) (tb s) (pr s) (ok s) (rf s) (rd s) (fupd (wr s) (h_o x) (wr s (h_o x) + n)) (fr s)
  else St (hs s) (tb s) (pr s) (ok s) (rf s) (fupd (rd s) (h_o x) (rd s (h_o x) + n)) (wr s) (fr s).
Definition get_end s x := if wronly x then wr s (h_o x) else rd s (h_o x).

(* a pointer to a handle is followed *)
Definition deref s h : out hnd := match hs s h with Some x => Ok x | None => Uaf end.

(* fs_syscalls.c:44-57 get_fs_handle, with is_fd_in_valid_range *)
Definition get_h c s p fd : option Z := if (0 <=? fd) && (fd <? maxh c) then tb s p fd else None.

(* fs_syscalls.c:20-34 get_free_handle_num_ge *)
Fixpoint free_from s p (n : nat) fd : out Z :=
  match n with
  | O => Ok (-1)
  | S n' => if fd <? 0 then Oob else
            match tb s p fd with None => Ok fd | Some _ => free_from s p n' (fd + 1) end
  end.
Definition free_ge c s p ge : out Z := free_from s p (Z.to_nat (maxh c - ge)) ge.

(* vfs.c:27-64 vfs_close, with pipe.c:407-443 pipe_on_handle_close and
   kernelfs.c:38-42, pipe.c destroy_pipe for the last handle of a pipe *)
Definition close c s h : out st :=
  bnd x <- deref s h;
  let o := h_o x in
  let pipe := match ok s o with OPipe => true | _ => false end in
  if pipe && (get_end s x <=? 0) then Afail else
  let s := if pipe then add_end s x (-1) else s in
  if rf s o <=? 0 then Afail else
  let s := add_rf s o (-1) in
  let s := if pipe && (rf s o =? 0) then set_ok s o ONone else s in
  let s := set_hs s h None in
  let s := add_fr s (fs c o) (-1) in
  if fr s (fs c o) <=? 0 then Afail else Ok s.

(* vfs.c:74-117 vfs_dup, with pipe.c:446-474 pipe_on_handle_dup *)
Definition dup c (al : st -> option Z) s h : out (st * option Z) :=
  bnd x <- deref s h;
  match al s with
  | None => Ok (s, None)
  | Some y =>
      let s := set_hs s y (Some (Hnd (h_o x) (h_fl x) 0 (h_pos x))) in
      let s := add_rf s (h_o x) 1 in
      let s := match ok s (h_o x) with OPipe => add_end s x 1 | _ => s end in
      Ok (add_fr s (fs c (h_o x)) 1, Some y)
  end.

(* fs_syscalls.c:59-106 sys_open, vfs.c:308-343 vfs_open_impl: [err] is the
   failure of the resolution or of the file system's open, if it is negative;
   o the object that was opened *)
Definition sys_open c al s p o flags err : out (st * Z) :=
  if has flags O_ASYNC then Ok (s, EINVAL) else
  if Z.land flags O_TMPFILE =? O_TMPFILE then Ok (s, EOPNOTSUPP) else
  bnd fd <- free_ge c s p 0;
  if fd <? 0 then Ok (s, EMFILE) else
  if err <? 0 then Ok (s, err) else
  match al s with
  | None => Ok (s, ENOMEM)
  | Some y =>
      let s := set_hs s y (Some (Hnd o flags (if has flags O_CLOEXEC then 1 else 0) 0)) in
      let s := add_fr (add_rf s o 1) (fs c o) 1 in
      Ok (set_tb s p fd (Some y), fd)
  end.

(* fs_syscalls.c:162-178 *)
Definition sys_close c s p fd : out (st * Z) :=
  match get_h c s p fd with
  | None => Ok (s, EBADF)
  | Some h => bnd s <- close c s h; Ok (set_tb s p fd None, 0)
  end.

(* fs_syscalls.c:681-745 *)
Definition sys_dup2 c al s p oldfd newfd : out (st * Z) :=
  let inr fd := (0 <=? fd) && (fd <? maxh c) in
  if negb (inr oldfd) then Ok (s, EBADF) else
  if negb (inr newfd) then Ok (s, EBADF) else
  if newfd =? oldfd then Ok (s, EINVAL) else
  match get_h c s p oldfd with
  | None => Ok (s, EBADF)
  | Some h =>
      bnd s <- match get_h c s p newfd with None => Ok s | Some h' => close c s h' end;
      bnd (s, r) <- dup c al s h;
      match r with
      | None => Ok (s, ENOMEM)
      | Some y => Ok (set_tb s p newfd (Some y), newfd)
      end
  end.

(* fs_syscalls.c:757-771 *)
Definition sys_dup c al s p oldfd : out (st * Z) :=
  bnd fd <- free_ge c s p 0;
  if (0 <=? fd) && (fd <? maxh c) then sys_dup2 c al s p oldfd fd else Ok (s, EMFILE).

(* fs_syscalls.c:829-847 fcntl F_DUPFD *)
Definition dupfd c al s p fd arg : out (st * Z) :=
  match get_h c s p fd with
  | None => Ok (s, EBADF)
  | Some _ => bnd n <- free_ge c s p arg; sys_dup2 c al s p fd n
  end.

(* fs_syscalls.c:849-861 F_DUPFD_CLOEXEC *)
Definition dupfd_cloexec c al s p fd arg : out (st * Z) :=
  match get_h c s p fd with
  | None => Ok (s, EBADF)
  | Some _ =>
      bnd n <- free_ge c s p arg;
      bnd (s, rc) <- sys_dup2 c al s p fd n;
      if rc =? 0 then
        match get_h c s p n with
        | None => Afail
        | Some h2 =>
            bnd x <- deref s h2;
            Ok (set_hs s h2 (Some (Hnd (h_o x) (h_fl x) (Z.lor (h_fd x) 1) (h_pos x))), rc)
        end
      else Ok (s, rc)
  end.

(* fs_syscalls.c:863-868 F_SETFD, F_GETFD *)
Definition setfd c s p fd arg : out (st * Z) :=
  match get_h c s p fd with
  | None => Ok (s, EBADF)
  | Some h => bnd x <- deref s h;
              Ok (set_hs s h (Some (Hnd (h_o x) (h_fl x) (Z.land arg 65535) (h_pos x))), 0)
  end.
Definition getfd c s p fd : out Z :=
  match get_h c s p fd with None => Ok EBADF | Some h => bnd x <- deref s h; Ok (h_fd x) end.

(* sys_types.h:290-296, fs_syscalls.c:870-892 F_SETFL, F_GETFL *)
Definition CHANGEABLE := 289792.
Definition setfl c s p fd arg : out (st * Z) :=
  match get_h c s p fd with
  | None => Ok (s, EBADF)
  | Some h =>
      bnd x <- deref s h;
      if has arg (Z.lor O_ASYNC O_DIRECT) then Panic else
      let fl := Z.lor (Z.land arg CHANGEABLE) (Z.land (h_fl x) (Z.lnot CHANGEABLE)) in
      Ok (set_hs s h (Some (Hnd (h_o x) fl (h_fd x) (h_pos x))), 0)
  end.
Definition getfl c s p fd : out Z :=
  match get_h c s p fd with None => Ok EBADF | Some h => bnd x <- deref s h; Ok (h_fl x) end.

(* reading, writing, seeking in a file: the position of the handle *)
Definition advance c s p fd n : out (st * Z) :=
  match get_h c s p fd with
  | None => Ok (s, EBADF)
  | Some h => bnd x <- deref s h;
              Ok (set_hs s h (Some (Hnd (h_o x) (h_fl x) (h_fd x) (h_pos x + n))), n)
  end.

(* kernelfs.c:91-123 kfs_create_new_handle, pipe.c:512-535; 125-134 kfs_destroy_handle *)
Definition kfs_create c (al : st -> option Z) s o fl : st * option Z :=
  match al s with
  | None => (s, None)
  | Some y =>
      let x := Hnd o fl 0 0 in
      let s := add_fr (add_rf (set_hs s y (Some x)) o 1) (fs c o) 1 in
      (add_end s x 1, Some y)
  end.
Definition kfs_destroy c s h : out st :=
  bnd x <- deref s h;
  if rf s (h_o x) <=? 0 then Afail else
  let s := set_hs (add_rf s (h_o x) (-1)) h None in
  if fr s (fs c (h_o x)) <=? 0 then Afail else Ok (add_fr s (fs c (h_o x)) (-1)).

(* pipe.c:476-510 create_pipe *)
Definition piped s o : st :=
  St (hs s) (tb s) (pr s) (fupd (ok s) o OPipe) (fupd (rf s) o 0) (fupd (rd s) o 0) (fupd (wr s) o 0) (fr s).

(* fs_syscalls.c:1167-1184 err_end *)
Definition pipe_err c s p o (rh wh : option (Z * Z)) (rc : Z) : out (st * Z) :=
  bnd s <- match rh with
           | None => Ok s
           | Some (fd, h) => kfs_destroy c (set_tb s p fd None) h end;
  bnd s <- match wh with
           | None => Ok s
           | Some (fd, h) => kfs_destroy c (set_tb s p fd None) h end;
  Ok (set_ok s o ONone, rc).

(* fs_syscalls.c:1157-1160 *)
Definition pipe_cx s r w : out (st * Z) :=
  bnd x <- deref s r;
  let s := set_hs s r (Some (Hnd (h_o x) (h_fl x) (Z.lor (h_fd x) 1) (h_pos x))) in
  bnd x <- deref s w;
  Ok (set_hs s w (Some (Hnd (h_o x) (h_fl x) (Z.lor (h_fd x) 1) (h_pos x))), 0).

(* fs_syscalls.c:1097-1197 sys_pipe2: [alo] is create_pipe, [fault] the failure to
   copy the descriptors to the program *)
Definition sys_pipe2 c al (alo : st -> option Z) s p flags (fault : bool) : out (st * Z) :=
  if has flags O_DIRECT then Ok (s, EINVAL) else
  if has flags O_NONBLOCK then Ok (s, EINVAL) else
  match alo s with
  | None => Ok (s, ENOMEM)
  | Some o =>
      bnd fd0 <- free_ge c (piped s o) p 0;
      if fd0 <? 0 then pipe_err c (piped s o) p o None None EMFILE else
      match kfs_create c al (piped s o) o 0 with
      | (s, None) => pipe_err c s p o None None EFAULT
      | (s, Some r) =>
          bnd fd1 <- free_ge c (set_tb s p fd0 (Some r)) p 0;
          if fd1 <? 0 then pipe_err c (set_tb s p fd0 (Some r)) p o (Some (fd0, r)) None EMFILE else
          match kfs_create c al (set_tb s p fd0 (Some r)) o 1 with
          | (s, None) => pipe_err c s p o (Some (fd0, r)) None EFAULT
          | (s, Some w) =>
              if fault then pipe_err c (set_tb s p fd1 (Some w)) p o (Some (fd0, r)) (Some (fd1, w)) EFAULT else
              if has flags O_CLOEXEC then pipe_cx (set_tb s p fd1 (Some w)) r w
              else Ok (set_tb s p fd1 (Some w), 0)
          end
      end
  end.

Definition idx (n : Z) : list Z := map Z.of_nat (seq 0 (Z.to_nat n)).

(* fs_syscalls.c:812-827 close_cloexec_handles, exit.c:98-111 close_all_handles *)
Fixpoint close_those (which : hnd -> bool) c s p (l : list Z) : out st :=
  match l with
  | [] => Ok s
  | i :: l =>
      match tb s p i with
      | None => close_those which c s p l
      | Some h =>
          bnd x <- deref s h;
          if which x then bnd s <- close c s h; close_those which c (set_tb s p i None) p l
          else close_those which c s p l
      end
  end.
Definition exec c s p : out st := close_those cloexec c s p (idx (maxh c)).
Definition exit c s p : out st :=
  bnd s <- close_those (fun _ => true) c s p (idx (maxh c));
  Ok (St (hs s) (tb s) (fupd (pr s) p false) (ok s) (rf s) (rd s) (wr s) (fr s)).

(* fork.c:34-37 *)
Fixpoint fork_undo c s q (l : list Z) : out st :=
  match l with
  | [] => Ok s
  | j :: l =>
      match tb s q j with
      | None => Afail
      | Some h => bnd s <- close c s h; fork_undo c s q l
      end
  end.
(* fork.c:14-55 fork_dup_all_handles: [d] the descriptors done, the last one first *)
Fixpoint fork_dup c al s q (l d : list Z) : out (st * bool) :=
  match l with
  | [] => Ok (s, true)
  | i :: l =>
      match tb s q i with
      | None => fork_dup c al s q l (i :: d)
      | Some h =>
          bnd (s, r) <- dup c al s h;
          match r with
          | None => bnd s <- fork_undo c s q (rev d); Ok (s, false)
          | Some y => fork_dup c al (set_tb s q i (Some y)) q l (i :: d)
          end
      end
  end.
(* fork.c:58-189 do_fork, process.c:222: the child starts with the table of its
   parent; when out of memory it is freed *)
Definition fork c al s p q : out (st * Z) :=
  let s := St (hs s) (fupd (tb s) q (tb s p)) (fupd (pr s) q true) (ok s) (rf s) (rd s) (wr s) (fr s) in
  bnd (s, r) <- fork_dup c al s q (idx (maxh c)) [];
  if r : bool then Ok (s, q)
  else Ok (St (hs s) (fupd (tb s) q (fun _ => None)) (fupd (pr s) q false) (ok s) (rf s) (rd s) (wr s) (fr s),
           ENOMEM).
