(** Concrete histories for which the directory operations of ramfs go wrong *)
From Verif Require Import Lib Dir_Model Dir_Spec.

(** All allocations succeed; all but the [k]-th *)
Definition yes : nat -> bool := fun _ => true.
Definition fails (k : nat) : nat -> bool := fun n => negb (Nat.eqb n k).

Definition O_CREAT_RDWR := mkF false true true false false false.
Definition O_RDONLY_DIR := mkF false false false false true false.

Definition at_ (d : Z) (n : list Z) := PEnt d n false.
Definition na := [97]. Definition nb := [98]. Definition nc := [99]. Definition nd := [100].

Definition mkfile (d : Z) (n : list Z) := OOpen yes O_CREAT_RDWR 511 (at_ d n).
Definition mkdir (d : Z) (n : list Z) := OMkdir yes 511 (at_ d n).

(** The entries as (directory, name, target) *)
Definition names (s : st) : list (Z * list Z * Z) :=
  map (fun e => (e_dir e, e_name e, e_tgt e)) (ents s).

(** The outcome of a history from the empty file system (64 bit) *)
Definition history (dbg : bool) (l : list op) : res := run dbg 207 24 (init dbg 207) l.
Definition after (dbg : bool) (l : list op) (o : op) : res :=
  match history dbg l with Ok s _ _ => step dbg 207 24 s o | Bad w => Bad w end.

(** ** rename *)
(** rename("/a", "/a") with the file closed: the file is destroyed, then its
    freed inode gets a new name *)
Lemma rename_same_name dbg : history dbg [mkfile 1 na; OClose 0; ORename yes (at_ 1 na) (at_ 1 na)] = Bad Freed.
Proof. destruct dbg; reflexivity. Qed.

(** link("/a", "/b"); rename("/a", "/b"): both names denote the same file, POSIX
    says nothing is to be done; here "/a" disappears *)
Lemma rename_same_object dbg :
  match after dbg [mkfile 1 na; OLink yes (at_ 1 na) (at_ 1 nb)] (ORename yes (at_ 1 na) (at_ 1 nb)) with
  | Ok s rc _ => rc = 0 /\ names s = [(1, DOT, 1); (1, DOTDOT, 1); (1, nb, 2)]
  | Bad _ => False
  end.
Proof. destruct dbg; vm_compute; auto. Qed.

(** mkdir("/a"); mkdir("/a/b"); rename("/a", "/a/b/c"): accepted; the directory
    is now only reachable from itself *)
Lemma rename_into_itself dbg :
  match after dbg [mkdir 1 na; mkdir 2 nb] (ORename yes (at_ 1 na) (at_ 3 nc)) with
  | Ok s rc _ => rc = 0 /\ (forall e, In e (ents s) -> e_dir e = 1 -> e_tgt e = 1) /\
                 (forall e, In e (ents s) -> e_tgt e = 2 -> e_dir e = 2 \/ e_dir e = 3) /\ ino s 2 <> None
  | Bad _ => False
  end.
Proof. destruct dbg; vm_compute; (split; [reflexivity|]); (split; [|split; [|discriminate]]); intros e H; repeat destruct H as [<- | H]; cbn; auto; try discriminate; contradiction. Qed.

(** mkdir("/a"); mkdir("/b"); rename("/a", "/b/c"): ".." of the moved directory
    still is the root *)
Lemma rename_stale_dotdot dbg :
  match after dbg [mkdir 1 na; mkdir 1 nb] (ORename yes (at_ 1 na) (at_ 3 nc)) with
  | Ok s rc _ => rc = 0 /\ leads s 3 nc 2 /\ leads s 2 DOTDOT 1 /\ ~ leads s 2 DOTDOT 3
  | Bad _ => False
  end.
Proof.
  destruct dbg; vm_compute; (split; [reflexivity|]); (split; [eexists; split; [split; [do 7 right; left; reflexivity|split; reflexivity]|reflexivity]|]);
  (split; [eexists; split; [split; [do 3 right; left; reflexivity|split; reflexivity]|reflexivity]|]);
  intros (e & (H & D & N) & T); repeat destruct H as [<- | H]; cbn in *; congruence || contradiction.
Qed.

(** mkdir("/a"); mkdir("/a/b"); rename("/a/b", "/c"); rmdir("/a"): the entry ".."
    of the moved directory still counts as a link of "/a": the ASSERT of
    ramfs_destroy_inode fails; without it "/a" is freed and "/c/.." dangles *)
Lemma rename_then_rmdir_asserts :
  history true [mkdir 1 na; mkdir 2 nb; ORename yes (at_ 2 nb) (at_ 1 nc); ORmdir (at_ 1 na)] = Bad Assert.
Proof. reflexivity. Qed.
Lemma rename_then_dotdot_freed :
  history false [mkdir 1 na; mkdir 2 nb; ORename yes (at_ 2 nb) (at_ 1 nc); ORmdir (at_ 1 na); OChdir (at_ 3 DOTDOT)] = Bad Freed.
Proof. reflexivity. Qed.

(** mkdir("/a"); create("/b"); rename("/a", "/b"): a directory replaces a file *)
Lemma rename_dir_over_file dbg :
  match after dbg [mkdir 1 na; mkfile 1 nb] (ORename yes (at_ 1 na) (at_ 1 nb)) with
  | Ok s rc _ => rc = 0 /\ names s = [(1, DOT, 1); (1, DOTDOT, 1); (2, DOT, 2); (2, DOTDOT, 1); (1, nb, 2)]
  | Bad _ => False
  end.
Proof. destruct dbg; vm_compute; auto. Qed.

(** rename("/", "/a") *)
Lemma rename_root dbg : history dbg [ORename yes PRoot (at_ 1 na)] = Bad NullDeref.
Proof. destruct dbg; reflexivity. Qed.

(** mkdir("/a"); rename("/a/.", "/b"): the entry "." is moved out of "/a" *)
Lemma rename_dot dbg :
  match after dbg [mkdir 1 na] (ORename yes (at_ 2 DOT) (at_ 1 nb)) with
  | Ok s rc _ => rc = 0 /\ names s = [(1, DOT, 1); (1, DOTDOT, 1); (2, DOTDOT, 1); (1, na, 2); (1, nb, 2)]
  | Bad _ => False
  end.
Proof. destruct dbg; vm_compute; auto. Qed.

(** rename("/a", "/b") with "/b" existing and no memory for the new entry: ENOSPC,
    but "/b" is gone *)
Lemma rename_enospc dbg :
  match after dbg [mkfile 1 na; mkfile 1 nb] (ORename (fails 3) (at_ 1 na) (at_ 1 nb)) with
  | Ok s rc _ => rc = ENOSPC /\ names s = [(1, DOT, 1); (1, DOTDOT, 1); (1, na, 2)]
  | Bad _ => False
  end.
Proof. destruct dbg; vm_compute; auto. Qed.

(** The old path is resolved under a lock of its own: unlink("/a") by another
    task before the second half *)
Lemma rename_race dbg :
  match history dbg [mkfile 1 na] with
  | Ok s _ _ =>
    match rename_a 207 s (at_ 1 na) with
    | Some (s1, p) =>
      match step dbg 207 24 s1 (OUnlink (at_ 1 na)) with
      | Ok s2 _ _ => rename_b dbg 207 s2 yes p (at_ 1 nb) = Bad Freed
      | Bad _ => False
      end
    | None => False
    end
  | Bad _ => False
  end.
Proof. destruct dbg; reflexivity. Qed.

(** ** mkdir, rmdir, symlink *)
(** rmdir("/a/./"): only "." without a slash is refused *)
Lemma rmdir_dot_slash dbg : history dbg [mkdir 1 na; ORmdir (PEnt 2 DOT true)] = Bad Freed.
Proof. destruct dbg; reflexivity. Qed.

(** mkdir with no memory for the named entry: ramfs_destroy_inode on a directory
    that has its "." and "..": the ASSERT fails; without it the parent keeps a link
    count too many and the two entries are leaked *)
Lemma mkdir_no_entry : history true [OMkdir (fails 3) 511 (at_ 1 na)] = Bad Assert.
Proof. reflexivity. Qed.
Lemma mkdir_no_entry_leak :
  match after false [] (OMkdir (fails 3) 511 (at_ 1 na)) with
  | Ok s rc _ => rc = ENOSPC /\ ino s 2 = None /\ names s = [(1, DOT, 1); (1, DOTDOT, 1); (2, DOT, 2); (2, DOTDOT, 1)] /\
      exists R, ino s 1 = Some R /\ i_nlink R = 3
  | Bad _ => False
  end.
Proof. vm_compute. eauto 6. Qed.

(** The same with enough memory: a name of 206 characters and a slash *)
Lemma mkdir_longest_name_slash : history true [OMkdir yes 511 (PEnt 1 (repeat 97 206) true)] = Bad Assert.
Proof. reflexivity. Qed.

(** symlink with no memory for the entry: the inode is never freed *)
Lemma symlink_leak dbg :
  match after dbg [] (OSymlink (fails 3) na (at_ 1 nb)) with
  | Ok s rc _ => rc = ENOSPC /\ ino s 2 <> None /\ ~ used s 2
  | Bad _ => False
  end.
Proof.
  destruct dbg; vm_compute; (split; [reflexivity|]); (split; [discriminate|]);
  intros [(e & [<- | [<- | []]] & H) | [(h & [] & _) | []]]; discriminate.
Qed.

(** ** Path components *)
(** A component of 207 characters: written past the end of [buf] *)
Lemma long_component dbg : history dbg [OUnlink (at_ 1 (repeat 97 207))] = Bad Overflow.
Proof. destruct dbg; reflexivity. Qed.

(** A file used as a directory: create("/a"), open("/a/b") *)
Lemma file_as_directory dbg : history dbg [mkfile 1 na; mkfile 2 nb] = Bad BadType.
Proof. destruct dbg; reflexivity. Qed.

(** open("/a/", O_CREAT) creates a regular file *)
Lemma create_with_slash dbg :
  match after dbg [] (OOpen yes O_CREAT_RDWR 511 (PEnt 1 na true)) with
  | Ok s rc _ => rc = 0 /\ leads s 1 na 2 /\ ~ is_dir s 2
  | Bad _ => False
  end.
Proof.
  destruct dbg; vm_compute; (split; [reflexivity|]); (split; [eexists; (split; [split; [do 2 right; left; reflexivity|split; reflexivity]|reflexivity])|]);
  intros (D & ED & TD); injection ED as <-; discriminate.
Qed.

(** ** Handles *)
(** dup of a directory handle: the copy is not in handles_list.  The entry it
    stands at is removed, the next getdents uses the freed entry *)
Lemma dup_dangling dbg :
  history dbg [mkdir 1 na; mkfile 2 nb; OOpen yes O_RDONLY_DIR 0 (at_ 1 na); OSeek 1 2; ODup true 1;
               OUnlink (at_ 2 nb); OGetdents 2 1000 1000] = Bad Freed.
Proof. destruct dbg; reflexivity. Qed.
(** ... and closing both unlinks the same node twice *)
Lemma dup_close dbg :
  history dbg [OOpen yes O_RDONLY_DIR 0 PRoot; ODup true 0; OClose 0; OClose 1] = Bad ListCorrupt.
Proof. destruct dbg; reflexivity. Qed.

(** close takes no lock: unlink between the two halves frees the inode first *)
Lemma close_race dbg :
  match history dbg [mkfile 1 na] with
  | Ok s _ _ =>
    match close_a s 0 with
    | Ok s1 rc _ => rc = 0 /\
      match step dbg 207 24 s1 (OUnlink (at_ 1 na)) with
      | Ok s2 _ _ => close_b dbg s2 2 = Bad Freed
      | Bad _ => False
      end
    | Bad _ => False
    end
  | Bad _ => False
  end.
Proof. destruct dbg; vm_compute; auto. Qed.

(** ** Listing *)
(** The buffer's second page is not accessible: EFAULT, and the entries already
    copied are not delivered again *)
Lemma efault_loses dbg :
  match history dbg [mkfile 1 na; OOpen yes O_RDONLY_DIR 0 PRoot] with
  | Ok s _ _ =>
    match step dbg 207 24 s (OGetdents 1 1000 60) with
    | Ok s1 rc out => rc = EFAULT /\ map d_name out = [DOT; DOTDOT] /\
      match step dbg 207 24 s1 (OGetdents 1 1000 1000) with
      | Ok _ _ out' => map d_name out' = [na]
      | Bad _ => False
      end
    | Bad _ => False
    end
  | Bad _ => False
  end.
Proof. destruct dbg; vm_compute; auto. Qed.

(** telldir/seekdir: after reading up to "b" (d_off 4), "a" is removed; seeking
    back to 4 skips "c" *)
Lemma seekdir_skips dbg :
  match history dbg [mkfile 1 na; mkfile 1 nb; mkfile 1 nc; mkfile 1 nd; OOpen yes O_RDONLY_DIR 0 PRoot] with
  | Ok s _ _ =>
    match step dbg 207 24 s (OGetdents 4 110 110) with
    | Ok s1 _ out => map (fun r => (d_name r, d_off r)) out = [(DOT, 1); (DOTDOT, 2); (na, 3); (nb, 4)] /\
      match run dbg 207 24 s1 [OUnlink (at_ 1 na); OSeek 4 4] with
      | Ok s2 _ _ => leads s2 1 nc 4 /\ match step dbg 207 24 s2 (OGetdents 4 1000 1000) with
        | Ok _ _ out' => map d_name out' = [nd] | Bad _ => False end
      | Bad _ => False
      end
    | Bad _ => False
    end
  | Bad _ => False
  end.
Proof.
  destruct dbg; vm_compute; (split; [reflexivity|]); (split; [|reflexivity]); eexists; (split; [split; [do 3 right; left; reflexivity|split; reflexivity]|reflexivity]).
Qed.

(** A seek beyond the end is not refused: it succeeds and leaves the position *)
Lemma seek_beyond_end dbg :
  match after dbg [OOpen yes O_RDONLY_DIR 0 PRoot] (OSeek 0 2) with
  | Ok s rc _ => rc = 0 /\ match step dbg 207 24 s (OGetdents 0 1000 1000) with
      | Ok _ _ out => map d_name out = [DOT; DOTDOT] | Bad _ => False end
  | Bad _ => False
  end.
Proof. destruct dbg; vm_compute; auto. Qed.
