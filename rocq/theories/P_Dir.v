(** C43, C44, C45: the directories of ramfs. *)
From Verif Require Import Lib Dir_Model Dir_Spec Dir_Proofs8 Dir_Refuted.

(** From the empty file system, every history of the calls admitted by [allowed] runs without an access to freed memory, a failed assertion, a duplicate name or a dangling handle position. What is missing: the calls [allowed] excludes (see the refutations) and calls overlapping in time. *)
Theorem C43_no_error_partial : forall dbg NAMEMAX DSZ, 3 <= NAMEMAX -> forall s o, reach dbg NAMEMAX DSZ s -> allowed NAMEMAX s o -> exists s' rc out, step dbg NAMEMAX DSZ s o = Ok s' rc out /\ reach dbg NAMEMAX DSZ s'.
Proof. exact no_error. Qed.
Print Assumptions C43_no_error_partial.

(** In a directory every name occurs once. *)
Theorem C43_names_unique_partial : forall dbg NAMEMAX DSZ, 3 <= NAMEMAX -> forall s e f, reach dbg NAMEMAX DSZ s -> In e (ents s) -> In f (ents s) -> e_dir e = e_dir f -> e_name e = e_name f -> e = f.
Proof. exact names_unique. Qed.
Print Assumptions C43_names_unique_partial.

(** The link count is the number of entries naming the inode, the entry count of a directory the number of its entries, the reference count the number of open handles, current directories and mounts. *)
Theorem C43_counts_exact_partial : forall dbg NAMEMAX DSZ, 3 <= NAMEMAX -> forall s i x, reach dbg NAMEMAX DSZ s -> ino s i = Some x -> i_nlink x = count (fun e => e_tgt e =? i) (ents s) /\ (i_type x = FDir -> i_num x = count (fun e => e_dir e =? i) (ents s)) /\ i_refs x = count (fun h => h_ino h =? i) (hnds s) + count (fun p => p =? i) (pins s).
Proof. exact counts_exact. Qed.
Print Assumptions C43_counts_exact_partial.

(** An inode is allocated exactly as long as it has a name, an open handle or is a current directory. *)
Theorem C43_freed_exactly_partial : forall dbg NAMEMAX DSZ, 3 <= NAMEMAX -> forall s i, reach dbg NAMEMAX DSZ s -> (ino s i <> None <-> used s i).
Proof. exact allocated_iff_used. Qed.
Print Assumptions C43_freed_exactly_partial.

(** The directories form a tree, each with its "." and the right ".." (see [tree]). *)
Theorem C43_tree_partial : forall dbg NAMEMAX DSZ, 3 <= NAMEMAX -> forall s, reach dbg NAMEMAX DSZ s -> tree s.
Proof. exact is_tree. Qed.
Print Assumptions C43_tree_partial.

(** The position of an open directory handle is always an entry of that directory. *)
Theorem C43_handle_positions_partial : forall dbg NAMEMAX DSZ, 3 <= NAMEMAX -> forall s h y, reach dbg NAMEMAX DSZ s -> In h (hnds s) -> h_dpos h = Some y -> exists e, In e (ents s) /\ e_id e = y /\ e_dir e = h_ino h.
Proof. exact handles_point. Qed.
Print Assumptions C43_handle_positions_partial.

(** rmdir: a failure changes nothing; a success was on an empty directory nobody uses, removes exactly it. *)
Theorem C43_rmdir : forall dbg NAMEMAX DSZ, 3 <= NAMEMAX -> forall s d n sl s' rc out, reach dbg NAMEMAX DSZ s -> allowed NAMEMAX s (ORmdir (PEnt d n sl)) -> step dbg NAMEMAX DSZ s (ORmdir (PEnt d n sl)) = Ok s' rc out -> (rc <> 0 /\ s' = s) \/ (rc = 0 /\ exists i, leads s d n i /\ is_dir s i /\ i <> ROOT /\ (forall f, In f (ents s) -> e_dir f = i -> dots (e_name f)) /\ (forall h, In h (hnds s) -> h_ino h <> i) /\ ~ In i (pins s) /\ (forall f, In f (ents s') <-> In f (ents s) /\ e_dir f <> i /\ ~ named s d n f) /\ ino s' i = None /\ others_kept s s' i).
Proof. exact rmdir_effect. Qed.
Print Assumptions C43_rmdir.

(** and it does succeed on such a directory. *)
Theorem C43_rmdir_succeeds : forall dbg NAMEMAX DSZ, 3 <= NAMEMAX -> forall s d n i D, reach dbg NAMEMAX DSZ s -> allowed NAMEMAX s (ORmdir (PEnt d n false)) -> leads s d n i -> ~ dots n -> is_dir s i -> (forall f, In f (ents s) -> e_dir f = i -> dots (e_name f)) -> (forall h, In h (hnds s) -> h_ino h <> i) -> ~ In i (pins s) -> ino s d = Some D -> Z.land (i_mode D) 128 = 128 -> exists s', step dbg NAMEMAX DSZ s (ORmdir (PEnt d n false)) = Ok s' 0 [].
Proof. exact rmdir_succeeds. Qed.
Print Assumptions C43_rmdir_succeeds.

(** unlink: a failure changes nothing; a success removes exactly that name, and the file when nothing uses it any more. *)
Theorem C43_unlink : forall dbg NAMEMAX DSZ, 3 <= NAMEMAX -> forall s d n sl s' rc out, reach dbg NAMEMAX DSZ s -> allowed NAMEMAX s (OUnlink (PEnt d n sl)) -> step dbg NAMEMAX DSZ s (OUnlink (PEnt d n sl)) = Ok s' rc out -> (rc <> 0 /\ s' = s) \/ (rc = 0 /\ exists i, leads s d n i /\ ~ is_dir s i /\ (forall f, In f (ents s') <-> In f (ents s) /\ ~ named s d n f) /\ (ino s' i = None <-> ~ used s' i) /\ others_kept s s' i).
Proof. exact unlink_effect. Qed.
Print Assumptions C43_unlink.

(** and it does succeed on a name of a file in a writable directory. *)
Theorem C43_unlink_succeeds : forall dbg NAMEMAX DSZ, 3 <= NAMEMAX -> forall s d n i D, reach dbg NAMEMAX DSZ s -> allowed NAMEMAX s (OUnlink (PEnt d n false)) -> leads s d n i -> ~ is_dir s i -> ino s d = Some D -> Z.land (i_mode D) 128 = 128 -> exists s', step dbg NAMEMAX DSZ s (OUnlink (PEnt d n false)) = Ok s' 0 [].
Proof. exact unlink_succeeds. Qed.
Print Assumptions C43_unlink_succeeds.

(** mkdir: on failure the same entries and inodes; on success exactly one new, empty directory under a name not used before. *)
Theorem C43_mkdir : forall dbg NAMEMAX DSZ, 3 <= NAMEMAX -> forall s al m d n sl s' rc out, reach dbg NAMEMAX DSZ s -> allowed NAMEMAX s (OMkdir al m (PEnt d n sl)) -> step dbg NAMEMAX DSZ s (OMkdir al m (PEnt d n sl)) = Ok s' rc out -> (rc <> 0 /\ ents s' = ents s /\ hnds s' = hnds s /\ pins s' = pins s /\ forall i, ino s i = None <-> ino s' i = None) \/ (rc = 0 /\ (forall f, ~ named s d n f) /\ exists i x, ino s i = None /\ ino s' i = Some x /\ i_type x = FDir /\ i_mode x = Z.land m 511 /\ i_parent x = d /\ leads s' d n i /\ leads s' i DOT i /\ leads s' i DOTDOT d /\ (forall f, In f (ents s') -> e_dir f = i -> dots (e_name f)) /\ (forall f, In f (ents s) -> In f (ents s')) /\ (forall f, In f (ents s') -> In f (ents s) \/ e_dir f = i \/ named s' d n f) /\ others_kept s s' i).
Proof. exact mkdir_effect. Qed.
Print Assumptions C43_mkdir.

(** link: on failure nothing changes; on success the new name leads to the same file. *)
Theorem C43_link : forall dbg NAMEMAX DSZ, 3 <= NAMEMAX -> forall s al a d n sl s' rc out, reach dbg NAMEMAX DSZ s -> allowed NAMEMAX s (OLink al a (PEnt d n sl)) -> step dbg NAMEMAX DSZ s (OLink al a (PEnt d n sl)) = Ok s' rc out -> (rc <> 0 /\ s' = s) \/ (rc = 0 /\ (forall f, ~ named s d n f) /\ exists d0 n0 sl0 i x, a = PEnt d0 n0 sl0 /\ leads s d0 n0 i /\ ino s i = Some x /\ i_type x = FFile /\ leads s' d n i /\ (forall f, In f (ents s) -> In f (ents s')) /\ (forall f, In f (ents s') -> In f (ents s) \/ named s' d n f)).
Proof. exact link_effect. Qed.
Print Assumptions C43_link.

(** symlink: on success a new link with the given target. *)
Theorem C43_symlink : forall dbg NAMEMAX DSZ, 3 <= NAMEMAX -> forall s al t d n sl s' rc out, reach dbg NAMEMAX DSZ s -> allowed NAMEMAX s (OSymlink al t (PEnt d n sl)) -> step dbg NAMEMAX DSZ s (OSymlink al t (PEnt d n sl)) = Ok s' rc out -> (rc <> 0 /\ ents s' = ents s) \/ (rc = 0 /\ (forall f, ~ named s d n f) /\ exists i x, ino s i = None /\ ino s' i = Some x /\ i_type x = FLink /\ i_path x = t /\ leads s' d n i /\ (forall f, In f (ents s) -> In f (ents s')) /\ (forall f, In f (ents s') -> In f (ents s) \/ named s' d n f)).
Proof. exact symlink_effect. Qed.
Print Assumptions C43_symlink.

(** open: a new handle on the object named, which is created only when the name was not used and O_CREAT was given. *)
Theorem C43_open : forall dbg NAMEMAX DSZ, 3 <= NAMEMAX -> forall s al f m d n sl s' rc out, reach dbg NAMEMAX DSZ s -> allowed NAMEMAX s (OOpen al f m (PEnt d n sl)) -> step dbg NAMEMAX DSZ s (OOpen al f m (PEnt d n sl)) = Ok s' rc out -> (rc < 0 /\ hnds s' = hnds s /\ (al 4%nat = true -> ents s' = ents s)) \/ exists g, hnds s' = hnds s ++ [g] /\ h_id g = rc /\ (forall h, In h (hnds s) -> h_id h <> rc) /\ h_pos g = 0 /\ leads s' d n (h_ino g) /\ ((leads s d n (h_ino g) /\ ents s' = ents s) \/ ((forall e, ~ named s d n e) /\ f_creat f = true /\ ino s (h_ino g) = None /\ (exists x, ino s' (h_ino g) = Some x /\ i_type x = FFile /\ i_mode x = Z.land m 511) /\ (forall e, In e (ents s) -> In e (ents s')) /\ (forall e, In e (ents s') -> In e (ents s) \/ named s' d n e))).
Proof. exact open_effect. Qed.
Print Assumptions C43_open.

(** close: the inode is freed exactly when nothing uses it any more. *)
Theorem C43_close : forall dbg NAMEMAX DSZ, 3 <= NAMEMAX -> forall s h s' rc out, reach dbg NAMEMAX DSZ s -> allowed NAMEMAX s (OClose h) -> step dbg NAMEMAX DSZ s (OClose h) = Ok s' rc out -> rc = 0 /\ ents s' = ents s /\ hnds s' = filter (fun k => negb (h_id k =? h)) (hnds s) /\ forall g, In g (hnds s) -> h_id g = h -> (ino s' (h_ino g) = None <-> ~ used s' (h_ino g)) /\ others_kept s s' (h_ino g).
Proof. exact close_effect. Qed.
Print Assumptions C43_close.

(** a history through all the calls: a file linked twice, opened, unlinked twice, closed *)
Example C43_nontrivial : match history true [mkdir 1 na; mkfile 2 nb; OLink yes (at_ 2 nb) (at_ 1 nc); OSymlink yes nb (at_ 2 nd);
    OUnlink (at_ 2 nb); OUnlink (at_ 1 nc); OChdir (at_ 1 na); OUnlink (at_ 2 nd); ORmdir (at_ 1 na); OUnpin 2; ORmdir (at_ 1 na)] with
  | Ok s _ _ => names s = [(1, DOT, 1); (1, DOTDOT, 1)] /\ ino s 2 = None /\ ino s 4 = None /\
      (exists x, ino s 3 = Some x /\ i_nlink x = 0 /\ i_refs x = 1) /\
      match step true 207 24 s (OClose 0) with Ok s' _ _ => ino s' 3 = None | Bad _ => False end
  | Bad _ => False end.
Proof. vm_compute. eauto 9. Qed.

(** A successful rename: the new name leads to the object, the same as before, the old name is gone, all other names stay except the replaced object's, a replaced directory was empty and not in use, and everything else is the same. With C43_tree: the tree stays a tree. *)
Theorem C44_rename : forall dbg NAMEMAX DSZ, 3 <= NAMEMAX -> forall s al d n sl d' n' sl' s' rc out, reach dbg NAMEMAX DSZ s -> allowed NAMEMAX s (ORename al (PEnt d n sl) (PEnt d' n' sl')) -> step dbg NAMEMAX DSZ s (ORename al (PEnt d n sl) (PEnt d' n' sl')) = Ok s' rc out -> rc = 0 -> exists i x y, leads s d n i /\ leads s' d' n' i /\ (forall f, ~ named s' d n f) /\ ino s i = Some x /\ ino s' i = Some y /\ same_object x y /\ i_refs x = i_refs y /\ (forall f, In f (ents s') -> In f (ents s) \/ named s' d' n' f) /\ (forall f, In f (ents s) -> ~ named s d n f -> ~ named s d' n' f -> (forall r, leads s d' n' r -> is_dir s r -> e_dir f <> r) -> In f (ents s')) /\ (forall r, leads s d' n' r -> is_dir s r -> is_dir s i /\ (forall f, In f (ents s) -> e_dir f = r -> dots (e_name f)) /\ (forall h, In h (hnds s) -> h_ino h <> r) /\ ~ In r (pins s)) /\ (forall j z, ino s j = Some z -> ~ leads s d' n' j -> exists w, ino s' j = Some w /\ same_object z w).
Proof. exact rename_effect. Qed.
Print Assumptions C44_rename.

(** A failed rename changes nothing. What is missing: running out of memory when the new name exists, see the refutation. *)
Theorem C44_failed_rename_partial : forall dbg NAMEMAX DSZ, 3 <= NAMEMAX -> forall s al d n sl d' n' sl' s' rc out, reach dbg NAMEMAX DSZ s -> allowed NAMEMAX s (ORename al (PEnt d n sl) (PEnt d' n' sl')) -> step dbg NAMEMAX DSZ s (ORename al (PEnt d n sl) (PEnt d' n' sl')) = Ok s' rc out -> rc <> 0 -> al 3%nat = true \/ (forall f, ~ named s d' n' f) -> s' = s.
Proof. exact rename_failed. Qed.
Print Assumptions C44_failed_rename_partial.

Example C44_nontrivial : match after true [mkdir 1 na; mkdir 1 nb; mkfile 2 nc; mkdir 1 nc] (ORename yes (at_ 2 nc) (at_ 3 nd)), after true [mkdir 1 na; mkdir 1 nb; mkfile 2 nc; mkdir 1 nc] (ORename yes (at_ 1 na) (at_ 1 nb)) with
  | Ok s rc _, Ok s' rc' _ => rc = 0 /\ rc' = 0 /\ names s = [(1, DOT, 1); (1, DOTDOT, 1); (2, DOT, 2); (2, DOTDOT, 1); (1, na, 2); (3, DOT, 3); (3, DOTDOT, 1); (1, nb, 3); (5, DOT, 5); (5, DOTDOT, 1); (1, nc, 5); (3, nd, 4)] /\
      names s' = [(1, DOT, 1); (1, DOTDOT, 1); (2, DOT, 2); (2, DOTDOT, 1); (2, nc, 4); (5, DOT, 5); (5, DOTDOT, 1); (1, nc, 5); (1, nb, 2)] /\ ino s' 3 = None
  | _, _ => False end.
Proof. vm_compute. auto. Qed.

(** A listing (from open or rewind on) with any calls in between reports no entry twice, and every old entry with its name and inode. *)
Theorem C45_once : forall dbg NAMEMAX DSZ, 3 <= NAMEMAX -> forall s0 g s log, at_start dbg NAMEMAX DSZ s0 g -> listing dbg NAMEMAX DSZ (h_id g) s0 s log -> NoDup (map d_eid log) /\ forall r e, In r log -> In e (ents s0) -> d_eid r = e_id e -> e_dir e = h_ino g /\ d_name r = e_name e /\ d_ino r = e_tgt e.
Proof. exact listing_once. Qed.
Print Assumptions C45_once.

(** When getdents returns 0, every entry that was there all the time has been reported exactly once. *)
Theorem C45_complete : forall dbg NAMEMAX DSZ, 3 <= NAMEMAX -> forall s0 g s log b l s' out, at_start dbg NAMEMAX DSZ s0 g -> listing dbg NAMEMAX DSZ (h_id g) s0 s log -> 19 <= DSZ -> DSZ + NAMEMAX < 2147483648 -> 0 <= b < 2147483648 -> b <= l -> step dbg NAMEMAX DSZ s (OGetdents (h_id g) b l) = Ok s' 0 out -> out = [] /\ forall e, In e (ents s0) -> e_dir e = h_ino g -> In e (ents s) -> count (fun r => d_eid r =? e_id e) log = 1 /\ exists r, In r log /\ d_eid r = e_id e /\ d_name r = e_name e /\ d_ino r = e_tgt e.
Proof. exact listing_complete. Qed.
Print Assumptions C45_complete.

(** Each call reports existing entries of the directory, fills at most the buffer, returns the number of bytes; the possible errors. *)
Theorem C45_records : forall dbg NAMEMAX DSZ, 3 <= NAMEMAX -> forall s h bufsz lim s' rc out g, reach dbg NAMEMAX DSZ s -> In g (hnds s) -> h_id g = h -> step dbg NAMEMAX DSZ s (OGetdents h bufsz lim) = Ok s' rc out -> ents s' = ents s /\ ino s' = ino s /\ (forall r, In r out -> exists e, In e (ents s) /\ e_dir e = h_ino g /\ describes s r e) /\ (19 <= DSZ -> DSZ + NAMEMAX < 2147483648 -> 0 <= bufsz < 2147483648 -> bytes out <= bufsz /\ (0 <= rc -> rc = bytes out) /\ (rc < 0 -> rc = EINVAL \/ rc = EFAULT \/ ~ readable s (h_ino g)) /\ (rc = EINVAL -> out = [] /\ bufsz < DSZ + NAMEMAX) /\ (rc = EFAULT -> lim < bufsz)).
Proof. exact getdents_effect. Qed.
Print Assumptions C45_records.

(** With room for one record and an accessible buffer there is no error, and 0 is returned only when nothing was delivered. *)
Theorem C45_progress : forall dbg NAMEMAX DSZ, 3 <= NAMEMAX -> forall s h g, reach dbg NAMEMAX DSZ s -> In g (hnds s) -> h_id g = h -> readable s (h_ino g) -> 19 <= DSZ -> DSZ + NAMEMAX < 2147483648 -> forall b l, DSZ + NAMEMAX <= b < 2147483648 -> b <= l -> exists s' rc out, step dbg NAMEMAX DSZ s (OGetdents h b l) = Ok s' rc out /\ 0 <= rc /\ (out = [] -> rc = 0).
Proof. exact listing_progress. Qed.
Print Assumptions C45_progress.

(** in pieces, with removals and a creation in between *)
Example C45_nontrivial : match history true [mkfile 1 na; mkfile 1 nb; mkfile 1 nc; OOpen yes O_RDONLY_DIR 0 PRoot] with
  | Ok s _ _ => match step true 207 24 s (OGetdents 3 60 60) with
    | Ok s1 rc out => rc = 53 /\ map d_name out = [DOT; DOTDOT] /\
      match run true 207 24 s1 [OUnlink (at_ 1 na); mkfile 1 nd; OUnlink (at_ 1 nc)] with
      | Ok s2 _ _ => match step true 207 24 s2 (OGetdents 3 1000 1000) with
        | Ok s3 rc' out' => rc' = 52 /\ map d_name out' = [nb; nd] /\ match step true 207 24 s3 (OGetdents 3 1000 1000) with Ok _ rc'' o => rc'' = 0 /\ o = [] | Bad _ => False end
        | Bad _ => False end
      | Bad _ => False end
    | Bad _ => False end
  | Bad _ => False end.
Proof. vm_compute. auto 9. Qed.

(** rmdir("/a/./") frees twice. *)
Theorem C43_rmdir_dot_slash_refuted : forall dbg, history dbg [mkdir 1 na; ORmdir (PEnt 2 DOT true)] = Bad Freed.
Proof. exact rmdir_dot_slash. Qed.
Print Assumptions C43_rmdir_dot_slash_refuted.

(** mkdir that gets no memory for the name stops the kernel, *)
Theorem C43_mkdir_no_memory_refuted : history true [OMkdir (fails 3) 511 (at_ 1 na)] = Bad Assert.
Proof. exact mkdir_no_entry. Qed.
Print Assumptions C43_mkdir_no_memory_refuted.

(** or leaves two entries and a wrong link count. *)
Theorem C43_mkdir_leak_refuted : match after false [] (OMkdir (fails 3) 511 (at_ 1 na)) with
  | Ok s rc _ => rc = ENOSPC /\ ino s 2 = None /\ names s = [(1, DOT, 1); (1, DOTDOT, 1); (2, DOT, 2); (2, DOTDOT, 1)] /\
      exists R, ino s 1 = Some R /\ i_nlink R = 3
  | Bad _ => False
  end.
Proof. exact mkdir_no_entry_leak. Qed.
Print Assumptions C43_mkdir_leak_refuted.

(** The same for the longest name followed by a slash, with enough memory. *)
Theorem C43_mkdir_longest_refuted : history true [OMkdir yes 511 (PEnt 1 (repeat 97 206) true)] = Bad Assert.
Proof. exact mkdir_longest_name_slash. Qed.
Print Assumptions C43_mkdir_longest_refuted.

(** symlink that gets no memory for the name leaks the inode. *)
Theorem C43_symlink_leak_refuted : forall dbg, match after dbg [] (OSymlink (fails 3) na (at_ 1 nb)) with
  | Ok s rc _ => rc = ENOSPC /\ ino s 2 <> None /\ ~ used s 2
  | Bad _ => False
  end.
Proof. exact symlink_leak. Qed.
Print Assumptions C43_symlink_leak_refuted.

(** A component of 207 characters overflows a buffer on the stack. *)
Theorem C43_long_component_refuted : forall dbg, history dbg [OUnlink (at_ 1 (repeat 97 207))] = Bad Overflow.
Proof. exact long_component. Qed.
Print Assumptions C43_long_component_refuted.

(** A file used as a directory is not refused. *)
Theorem C43_file_as_directory_refuted : forall dbg, history dbg [mkfile 1 na; mkfile 2 nb] = Bad BadType.
Proof. exact file_as_directory. Qed.
Print Assumptions C43_file_as_directory_refuted.

(** open("/a/", O_CREAT) creates a regular file. *)
Theorem C43_create_slash_refuted : forall dbg, match after dbg [] (OOpen yes O_CREAT_RDWR 511 (PEnt 1 na true)) with
  | Ok s rc _ => rc = 0 /\ leads s 1 na 2 /\ ~ is_dir s 2
  | Bad _ => False
  end.
Proof. exact create_with_slash. Qed.
Print Assumptions C43_create_slash_refuted.

(** Closing a directory handle and its duplicate corrupts the list of handles. *)
Theorem C43_dup_close_refuted : forall dbg, history dbg [OOpen yes O_RDONLY_DIR 0 PRoot; ODup true 0; OClose 0; OClose 1] = Bad ListCorrupt.
Proof. exact dup_close. Qed.
Print Assumptions C43_dup_close_refuted.

(** unlink between the two halves of close: use after free. *)
Theorem C43_close_race_refuted : forall dbg, match history dbg [mkfile 1 na] with
  | Ok s _ _ =>
    match close_a s 0 with
    | Ok s1 rc _ => rc = 0 /\
      match step dbg 207 24 s1 (OUnlink (at_ 1 na)) with
      | Ok s2 _ _ => close_b dbg s2 2 = Bad Freed
      | Bad _ => False
      end
    | Bad _ => False
    end
  | Bad _ => False
  end.
Proof. exact close_race. Qed.
Print Assumptions C43_close_race_refuted.

(** rename of a name to itself uses the freed file. *)
Theorem C44_same_name_refuted : forall dbg, history dbg [mkfile 1 na; OClose 0; ORename yes (at_ 1 na) (at_ 1 na)] = Bad Freed.
Proof. exact rename_same_name. Qed.
Print Assumptions C44_same_name_refuted.

(** rename between two names of the same file removes one. *)
Theorem C44_same_object_refuted : forall dbg, match after dbg [mkfile 1 na; OLink yes (at_ 1 na) (at_ 1 nb)] (ORename yes (at_ 1 na) (at_ 1 nb)) with
  | Ok s rc _ => rc = 0 /\ names s = [(1, DOT, 1); (1, DOTDOT, 1); (1, nb, 2)]
  | Bad _ => False
  end.
Proof. exact rename_same_object. Qed.
Print Assumptions C44_same_object_refuted.

(** A directory can be moved into itself. *)
Theorem C44_into_itself_refuted : forall dbg, match after dbg [mkdir 1 na; mkdir 2 nb] (ORename yes (at_ 1 na) (at_ 3 nc)) with
  | Ok s rc _ => rc = 0 /\ (forall e, In e (ents s) -> e_dir e = 1 -> e_tgt e = 1) /\
                 (forall e, In e (ents s) -> e_tgt e = 2 -> e_dir e = 2 \/ e_dir e = 3) /\ ino s 2 <> None
  | Bad _ => False
  end.
Proof. exact rename_into_itself. Qed.
Print Assumptions C44_into_itself_refuted.

(** A directory moved to another one keeps the old "..". *)
Theorem C44_dotdot_refuted : forall dbg, match after dbg [mkdir 1 na; mkdir 1 nb] (ORename yes (at_ 1 na) (at_ 3 nc)) with
  | Ok s rc _ => rc = 0 /\ leads s 3 nc 2 /\ leads s 2 DOTDOT 1 /\ ~ leads s 2 DOTDOT 3
  | Bad _ => False
  end.
Proof. exact rename_stale_dotdot. Qed.
Print Assumptions C44_dotdot_refuted.

(** After that removing the old parent stops the kernel, *)
Theorem C44_dotdot_assert_refuted : history true [mkdir 1 na; mkdir 2 nb; ORename yes (at_ 2 nb) (at_ 1 nc); ORmdir (at_ 1 na)] = Bad Assert.
Proof. exact rename_then_rmdir_asserts. Qed.
Print Assumptions C44_dotdot_assert_refuted.

(** or leaves ".." pointing to freed memory. *)
Theorem C44_dotdot_freed_refuted : history false [mkdir 1 na; mkdir 2 nb; ORename yes (at_ 2 nb) (at_ 1 nc); ORmdir (at_ 1 na); OChdir (at_ 3 DOTDOT)] = Bad Freed.
Proof. exact rename_then_dotdot_freed. Qed.
Print Assumptions C44_dotdot_freed_refuted.

(** A directory replaces a file. *)
Theorem C44_dir_over_file_refuted : forall dbg, match after dbg [mkdir 1 na; mkfile 1 nb] (ORename yes (at_ 1 na) (at_ 1 nb)) with
  | Ok s rc _ => rc = 0 /\ names s = [(1, DOT, 1); (1, DOTDOT, 1); (2, DOT, 2); (2, DOTDOT, 1); (1, nb, 2)]
  | Bad _ => False
  end.
Proof. exact rename_dir_over_file. Qed.
Print Assumptions C44_dir_over_file_refuted.

(** rename of the root dereferences a null pointer. *)
Theorem C44_root_refuted : forall dbg, history dbg [ORename yes PRoot (at_ 1 na)] = Bad NullDeref.
Proof. exact rename_root. Qed.
Print Assumptions C44_root_refuted.

(** rename of "." moves that entry. *)
Theorem C44_dot_refuted : forall dbg, match after dbg [mkdir 1 na] (ORename yes (at_ 2 DOT) (at_ 1 nb)) with
  | Ok s rc _ => rc = 0 /\ names s = [(1, DOT, 1); (1, DOTDOT, 1); (2, DOTDOT, 1); (1, na, 2); (1, nb, 2)]
  | Bad _ => False
  end.
Proof. exact rename_dot. Qed.
Print Assumptions C44_dot_refuted.

(** A failed rename has already removed the target. *)
Theorem C44_enospc_refuted : forall dbg, match after dbg [mkfile 1 na; mkfile 1 nb] (ORename (fails 3) (at_ 1 na) (at_ 1 nb)) with
  | Ok s rc _ => rc = ENOSPC /\ names s = [(1, DOT, 1); (1, DOTDOT, 1); (1, na, 2)]
  | Bad _ => False
  end.
Proof. exact rename_enospc. Qed.
Print Assumptions C44_enospc_refuted.

(** unlink between the two resolutions of rename: use after free. *)
Theorem C44_race_refuted : forall dbg, match history dbg [mkfile 1 na] with
  | Ok s _ _ =>
    match rename_a 207 s (at_ 1 na) with
    | Some (s1, p) =>
      match step dbg 207 24 s1 (OUnlink (at_ 1 na)) with
      | Ok s2 _ _ => rename_b dbg 207 s2 yes p (at_ 1 nb) = Bad Freed
      | Bad _ => False
      end
    | None => False
    end
  | Bad _ => False
  end.
Proof. exact rename_race. Qed.
Print Assumptions C44_race_refuted.

(** A duplicated directory handle is left at a freed entry. *)
Theorem C45_dup_dangling_refuted : forall dbg, history dbg [mkdir 1 na; mkfile 2 nb; OOpen yes O_RDONLY_DIR 0 (at_ 1 na); OSeek 1 2; ODup true 1;
               OUnlink (at_ 2 nb); OGetdents 2 1000 1000] = Bad Freed.
Proof. exact dup_dangling. Qed.
Print Assumptions C45_dup_dangling_refuted.

(** After a fault the entries already copied are lost. *)
Theorem C45_efault_refuted : forall dbg, match history dbg [mkfile 1 na; OOpen yes O_RDONLY_DIR 0 PRoot] with
  | Ok s _ _ =>
    match step dbg 207 24 s (OGetdents 1 1000 60) with
    | Ok s1 rc out => rc = EFAULT /\ map d_name out = [DOT; DOTDOT] /\
      match step dbg 207 24 s1 (OGetdents 1 1000 1000) with
      | Ok _ _ out' => map d_name out' = [na]
      | Bad _ => False
      end
    | Bad _ => False
    end
  | Bad _ => False
  end.
Proof. exact efault_loses. Qed.
Print Assumptions C45_efault_refuted.

(** A position from d_off does not survive a removal: an entry is skipped. *)
Theorem C45_seekdir_refuted : forall dbg, match history dbg [mkfile 1 na; mkfile 1 nb; mkfile 1 nc; mkfile 1 nd; OOpen yes O_RDONLY_DIR 0 PRoot] with
  | Ok s _ _ =>
    match step dbg 207 24 s (OGetdents 4 110 110) with
    | Ok s1 _ out => map (fun r => (d_name r, d_off r)) out = [(DOT, 1); (DOTDOT, 2); (na, 3); (nb, 4)] /\
      match run dbg 207 24 s1 [OUnlink (at_ 1 na); OSeek 4 4] with
      | Ok s2 _ _ => leads s2 1 nc 4 /\ match step dbg 207 24 s2 (OGetdents 4 1000 1000) with
        | Ok _ _ out' => map d_name out' = [nd] | Bad _ => False end
      | Bad _ => False
      end
    | Bad _ => False
    end
  | Bad _ => False
  end.
Proof. exact seekdir_skips. Qed.
Print Assumptions C45_seekdir_refuted.

(** A seek to the end succeeds without moving. *)
Theorem C45_seek_end_refuted : forall dbg, match after dbg [OOpen yes O_RDONLY_DIR 0 PRoot] (OSeek 0 2) with
  | Ok s rc _ => rc = 0 /\ match step dbg 207 24 s (OGetdents 0 1000 1000) with
      | Ok _ _ out => map d_name out = [DOT; DOTDOT] | Bad _ => False end
  | Bad _ => False
  end.
Proof. exact seek_beyond_end. Qed.
Print Assumptions C45_seek_end_refuted.

