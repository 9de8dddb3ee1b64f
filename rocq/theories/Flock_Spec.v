From Verif Require Import Lib Flock_Model.

(** some task is inside acquire or release for the file [i], between the two critical
    sections *)
Definition inside (s : st) (i : Z) : Prop :=
  exists t, match pc s t with
            | Idle => False
            | Missing j _ => j = i
            | Made o | Last o => ino s o = i
            end.
(** all executions *)
Inductive reach : st -> Prop :=
  | R0 : reach init
  | RS s a s' : reach s -> step s a = Some s' -> reach s'.
(** the executions in which calls for the same file do not overlap.  Calls for different
    files interleave freely, and so does retain *)
Definition alone (s : st) (a : action) : Prop :=
  match a with Find _ i _ => ~ inside s i | Dec _ o => ~ inside s (ino s o) | _ => True end.
Inductive reach_alone : st -> Prop :=
  | A0 : reach_alone init
  | AS s a s' : reach_alone s -> alone s a -> step s a = Some s' -> reach_alone s'.
(** two subsystems hold the lock of one file *)
Definition two_owners (s : st) : Prop :=
  exists o1 o2, 0 < held s o1 /\ 0 < held s o2 /\ ino s o1 = ino s o2 /\ own s o1 <> own s o2.
(** the executions from [s] on in which one reference to [o] is never released *)
Inductive kept (o : Z) (s : st) : st -> Prop :=
  | K0 : kept o s s
  | KS s1 a s2 : kept o s s1 -> alone s1 a -> (forall t, a = Dec t o -> 1 < held s1 o) -> step s1 a = Some s2 -> kept o s s2.

(** The files of ramfs beside the locks: links, open handles, existence; an inode is an address.
    A program is started (kernel/elf.c:429-440, 569: its handle is closed again, the lock stays), a file is unlinked
    (kernel/fs/ramfs/ramfs.c:36-50: destroyed if no link and no handle is left) *)
Record files := Files { nlink : Z -> Z; handles : Z -> Z; exists_ : Z -> bool }.
Definition unlink (f : files) (i : Z) : files :=
  let n := nlink f i - 1 in
  Files (fupd (nlink f) i n) (handles f) (if (n =? 0) && (handles f i =? 0) then fupd (exists_ f) i false else exists_ f).
