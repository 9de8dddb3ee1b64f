(** C40: path resolution. *)
From Verif Require Import Lib Resolve_Model Resolve_Spec Resolve_Proofs2 Resolve_Proofs3 Resolve_Proofs4 Resolve_Proofs5 Resolve_Proofs6 Resolve_Refuted.

(** When vfs_resolve returns, the result is the one of the walk over the names, one at a time, across mounts and links, with the errors of the walk. That it returns (or crashes) on every path, also with cyclic links, is part of the model: all functions are total. *)
Theorem C40_follows_walk : forall dbg NAMEMAX W, good W -> forall path cwd d fo rc v log,
  in_tree W (v_fs cwd) -> v_obj cwd = Some (d, VDir) -> tidy path ->
  vfs_resolve dbg NAMEMAX W path cwd fo = Done rc v log ->
  exists o, resolves W (v_fs cwd, d) path fo o /\ agrees rc v o.
Proof. exact follows_walk. Qed.
Print Assumptions C40_follows_walk.

(** The walk has one result. *)
Theorem C40_walk_unique : forall W, good W -> forall cwd path fo o o', resolves W cwd path fo o -> resolves W cwd path fo o' -> o = o'.
Proof. exact resolves_det. Qed.
Print Assumptions C40_walk_unique.

(** The other direction: what the walk gives is returned. What is missing: walks that end with ENOTDIR and names that are too long, see the refutations. *)
Theorem C40_returns_partial : forall dbg NAMEMAX W, good W -> forall path cwd d fo o,
  in_tree W (v_fs cwd) -> v_obj cwd = Some (d, VDir) -> tidy path -> ~ long_name NAMEMAX W path ->
  resolves W (v_fs cwd, d) path fo o -> o <> Fail ENOTDIR ->
  exists rc v log, vfs_resolve dbg NAMEMAX W path cwd fo = Done rc v log /\ agrees rc v o.
Proof. exact walk_result. Qed.
Print Assumptions C40_returns_partial.

(** These are the only crashes; no ASSERT fails. *)
Theorem C40_crash_only : forall dbg NAMEMAX W, good W -> forall path cwd d fo w,
  in_tree W (v_fs cwd) -> v_obj cwd = Some (d, VDir) -> vfs_resolve dbg NAMEMAX W path cwd fo = Crash w ->
  (w = NotDir /\ resolves W (v_fs cwd, d) path fo (Fail ENOTDIR)) \/ (w = TooLong /\ long_name NAMEMAX W path).
Proof. exact crash_only. Qed.
Print Assumptions C40_crash_only.

(** A path that ends with two slashes differs only when the object is missing: ENOENT. *)
Theorem C40_untidy_paths : forall dbg NAMEMAX W, good W -> forall path cwd d fo rc v log,
  in_tree W (v_fs cwd) -> v_obj cwd = Some (d, VDir) ->
  vfs_resolve dbg NAMEMAX W path cwd fo = Done rc v log ->
  exists o, resolves W (v_fs cwd, d) path fo o /\
    (agrees rc v o \/ (~ tidy path /\ rc = ENOENT /\ exists q n, o = Missing q n)).
Proof. exact untidy_paths. Qed.
Print Assumptions C40_untidy_paths.

(** last_comp points to the last name, with the slash behind it if there is one, in every world. *)
Theorem C40_last_name : forall dbg NAMEMAX W path cwd fo v log ns c, tidy path ->
  vfs_resolve dbg NAMEMAX W path cwd fo = Done 0 v log -> names path = ns ++ [c] ->
  skipn (v_lc v) path = c ++ (if trailing path then [SLASH] else []).
Proof. exact last_comp_ok. Qed.
Print Assumptions C40_last_name.

(** The directory and entry reported are those of the last name, looked up in the directory the other names lead to. *)
Theorem C40_last_directory : forall dbg NAMEMAX W, good W -> forall path cwd d fo v log ns c,
  in_tree W (v_fs cwd) -> v_obj cwd = Some (d, VDir) ->
  vfs_resolve dbg NAMEMAX W path cwd fo = Done 0 v log -> names path = ns ++ [c] ->
  exists s f d', start W (v_fs cwd, d) path s /\ walk W 3 s ns true true (Obj (f, d') VDir) /\
    located W f d' c (fo || trailing path) v.
Proof. exact parent_ok. Qed.
Print Assumptions C40_last_directory.

(** No inode reference is left over or dropped too often, in every world, on success and on failure. *)
Theorem C40_inode_references : forall dbg NAMEMAX W path cwd fo rc v log,
  vfs_resolve dbg NAMEMAX W path cwd fo = Done rc v log -> forall f i, irefs f i log = 0.
Proof. exact inode_refs. Qed.
Print Assumptions C40_inode_references.

(** On success exactly one reference is held, on the file system of the result, in every world. *)
Theorem C40_fs_references : forall dbg NAMEMAX W path cwd fo v log,
  vfs_resolve dbg NAMEMAX W path cwd fo = Done 0 v log -> forall f, fsrefs f log = one (v_fs v =? f).
Proof. exact fs_refs. Qed.
Print Assumptions C40_fs_references.

(** Locks: one at a time, of retained file systems; on success the one of the result is held, on failure nothing. What is missing: worlds with links and mounts, see the refutations. *)
Theorem C40_locks_partial : forall dbg NAMEMAX W path cwd fo rc v log, calm W cwd ->
  vfs_resolve dbg NAMEMAX W path cwd fo = Done rc v log ->
  disciplined log /\
  (if rc =? 0 then forall f, locks f log = one (v_fs v =? f) /\ fsrefs f log = one (v_fs v =? f)
   else forall f, locks f log = 0 /\ fsrefs f log = 0).
Proof. exact lock_balance. Qed.
Print Assumptions C40_locks_partial.

(** across a mount and back, through a link, a missing name, a cyclic link *)
Example C40_nontrivial :
  match vfs_resolve true 231 W1 (sl ++ m_ ++ sl ++ y_ ++ sl ++ DOTDOT ++ sl ++ DOTDOT ++ sl ++ d_ ++ sl ++ f_) cwd1 true with
  | Done rc v log => rc = 0 /\ v_fs v = 0 /\ v_obj v = Some (7, VFile) /\ v_dir v = 4 /\ v_lc v = 13%nat | _ => False end /\
  match vfs_resolve true 231 W1 (l_ ++ sl ++ y_) cwd1 true with
  | Done rc v log => rc = 0 /\ v_fs v = 5 /\ v_obj v = Some (502, VDir) | _ => False end /\
  match vfs_resolve true 231 W1 (d_ ++ sl ++ x_) cwd1 true with
  | Done rc v log => rc = 0 /\ v_obj v = None /\ v_dir v = 4 | _ => False end /\
  match vfs_resolve true 231 W1 (sl ++ [111] ++ sl ++ x_) cwd1 true with
  | Done rc v log => rc = ELOOP | _ => False end /\
  good W1 /\ good_cwd W1 cwd1.
Proof. split; [vm_compute; tauto|]. split; [vm_compute; tauto|]. split; [vm_compute; tauto|].
  split; [vm_compute; tauto|]. split; [exact W1_good|exact cwd1_good]. Qed.

(** Mounting keeps the table: one mount per place, each file system once, within the array. *)
Theorem C40_mount_table : forall dbg NAMEMAX W MAXMP path cwd t rc W' log,
  mp_add dbg NAMEMAX W MAXMP path cwd t = MRet rc W' log ->
  NoDup (map (fun m => (m_host m, m_hino m)) (mnts W)) -> NoDup (map m_target (mnts W)) -> zlen (mnts W) <= MAXMP ->
  NoDup (map (fun m => (m_host m, m_hino m)) (mnts W')) /\ NoDup (map m_target (mnts W')) /\ zlen (mnts W') <= MAXMP.
Proof. exact mp_add_table. Qed.
Print Assumptions C40_mount_table.

(** A mount on a directory that is not a root and has no mount directly above or below keeps the world good. *)
Theorem C40_mount_good : forall dbg NAMEMAX W, good W -> forall MAXMP path cwd t W' log, good_cwd W cwd ->
  mp_add dbg NAMEMAX W MAXMP path cwd t = MRet 0 W' log ->
  forall f i j v lg, vfs_resolve dbg NAMEMAX W path cwd true = Done 0 v lg -> v_fs v = f -> v_obj v = Some (i, VDir) ->
  i <> root W f -> f <> t -> get W f i DOTDOT = Some (j, VDir) -> j <> i -> uncovered W (f, j) ->
  (forall m j', In m (mnts W) -> get W (m_host m) (m_hino m) DOTDOT = Some (j', VDir) -> (m_host m, j') <> (f, i)) ->
  good W'.
Proof. exact mp_add_good. Qed.
Print Assumptions C40_mount_good.

(** After a mount: nothing locked, references on the host, its inode and the mounted file system. *)
Theorem C40_mount_references : forall dbg NAMEMAX W MAXMP path cwd t W' log, calm W cwd ->
  mp_add dbg NAMEMAX W MAXMP path cwd t = MRet 0 W' log ->
  exists v i lg, vfs_resolve dbg NAMEMAX W path cwd true = Done 0 v lg /\ v_obj v = Some (i, VDir) /\
    (forall f, locks f log = 0) /\
    (forall f, fsrefs f log = one (v_fs v =? f) + one (t =? f)) /\
    (forall f j, irefs f j log = one ((v_fs v =? f) && (i =? j))).
Proof. exact mp_add_refs. Qed.
Print Assumptions C40_mount_references.

(** A failed mount leaves nothing behind. What is missing: EBUSY and EPERM, see the refutation. *)
Theorem C40_mount_failure_partial : forall dbg NAMEMAX W MAXMP path cwd t rc W' log, calm W cwd ->
  mp_add dbg NAMEMAX W MAXMP path cwd t = MRet rc W' log -> rc <> 0 -> rc <> EBUSY -> rc <> EPERM ->
  W' = W /\ (forall f, locks f log = 0 /\ fsrefs f log = 0) /\ (forall f i, irefs f i log = 0).
Proof. exact mp_add_fail. Qed.
Print Assumptions C40_mount_failure_partial.

Example C40_mount_nontrivial : match mp_add true 231 W1 16 (sl ++ d_) cwd1 9 with
  | MRet rc W' log => rc = 0 /\ mnts W' = [mkM 0 2 5; mkM 0 4 9] | MCrash _ => False end.
Proof. vm_compute. auto. Qed.

(** A link across a mount: the result is not locked. *)
Theorem C40_link_mount_unlocked_refuted : exists W cwd path v log, good W /\ good_cwd W cwd /\ tidy path /\
  vfs_resolve true 231 W path cwd true = Done 0 v log /\ locks (v_fs v) log = 0.
Proof. exact link_mount_unlocked. Qed.
Print Assumptions C40_link_mount_unlocked_refuted.

(** ... and unlocked twice on a later error. *)
Theorem C40_link_mount_double_unlock_refuted : exists W cwd path v log, good W /\ good_cwd W cwd /\ tidy path /\
  vfs_resolve true 231 W path cwd true = Done ENOENT v log /\ locks 5 log = -1 /\ ~ disciplined log.
Proof. exact link_mount_double_unlock. Qed.
Print Assumptions C40_link_mount_double_unlock_refuted.

(** An error inside such a link: one file system released too often, the other for ever retained. *)
Theorem C40_link_mount_failure_refuted : exists W cwd path v log, good W /\ good_cwd W cwd /\ tidy path /\
  vfs_resolve true 231 W path cwd true = Done ENOENT v log /\
  locks 5 log = 0 /\ fsrefs 5 log = 1 /\ locks 0 log = -1 /\ fsrefs 0 log = -1.
Proof. exact link_mount_failure_leak. Qed.
Print Assumptions C40_link_mount_failure_refuted.

(** ELOOP with an absolute link on a mounted file system. *)
Theorem C40_eloop_refuted : exists W cwd path v log, good W /\ good_cwd W cwd /\ tidy path /\
  vfs_resolve true 231 W path cwd true = Done ELOOP v log /\
  exists f, fsrefs f log <> 0 /\ exists g, locks g log <> 0.
Proof. exact eloop_unbalanced. Qed.
Print Assumptions C40_eloop_refuted.

(** "/abc//": the last name is "c//". *)
Theorem C40_last_name_refuted : exists W cwd path v log, good W /\ good_cwd W cwd /\
  vfs_resolve true 231 W path cwd true = Done 0 v log /\
  names path = [[97; 98; 99]] /\ skipn (v_lc v) path = [99; SLASH; SLASH].
Proof. exact last_comp_two_slashes. Qed.
Print Assumptions C40_last_name_refuted.

(** "/x/" and "/x//". *)
Theorem C40_missing_two_slashes_refuted : exists W cwd v log v' log', good W /\ good_cwd W cwd /\
  vfs_resolve true 231 W (sl ++ x_ ++ sl) cwd false = Done 0 v log /\ v_obj v = None /\
  vfs_resolve true 231 W (sl ++ x_ ++ sl ++ sl) cwd false = Done ENOENT v' log' /\
  names (sl ++ x_ ++ sl) = names (sl ++ x_ ++ sl ++ sl).
Proof. exact missing_two_slashes. Qed.
Print Assumptions C40_missing_two_slashes_refuted.

(** "/f/x" where f is a file: the file is used as a directory. *)
Theorem C40_name_in_file_refuted : exists W cwd path, good W /\ good_cwd W cwd /\ tidy path /\
  vfs_resolve true 231 W path cwd true = Crash NotDir.
Proof. exact name_in_file. Qed.
Print Assumptions C40_name_in_file_refuted.

(** A name that does not fit the buffer of the directory search. *)
Theorem C40_name_overflow_refuted : exists W cwd path, good W /\ good_cwd W cwd /\ tidy path /\ zlen path < 256 /\
  vfs_resolve true 231 W path cwd true = Crash TooLong.
Proof. exact name_overflow. Qed.
Print Assumptions C40_name_overflow_refuted.

(** A dangling link: directory of the target, name of the link. *)
Theorem C40_dangling_link_refuted : exists W cwd path v log p n, good W /\ good_cwd W cwd /\ tidy path /\
  vfs_resolve true 231 W path cwd true = Done 0 v log /\ v_obj v = None /\
  resolves W (0, 1) path true (Missing p n) /\ v_dir v = snd p /\ skipn (v_lc v) path <> n.
Proof. exact dangling_link_name. Qed.
Print Assumptions C40_dangling_link_refuted.

(** "/m" and "/m/." differ when a file system is mounted on the root of another one. *)
Theorem C40_mount_on_root_refuted : exists W cwd v log v' log',
  vfs_resolve true 231 W (sl ++ m_) cwd true = Done 0 v log /\ v_fs v = 5 /\
  vfs_resolve true 231 W (sl ++ m_ ++ sl ++ DOT) cwd true = Done 0 v' log' /\ v_fs v' = 6.
Proof. exact mount_on_root. Qed.
Print Assumptions C40_mount_on_root_refuted.

(** mp_add accepts that. *)
Theorem C40_mount_on_root_accepted_refuted : exists W W' cwd log, good W /\ good_cwd W cwd /\
  mp_add true 231 W 16 (sl ++ m_) cwd 6 = MRet 0 W' log /\ mnts W' = [mkM 0 2 5; mkM 5 501 6] /\ ~ good W'.
Proof. exact mount_on_root_accepted. Qed.
Print Assumptions C40_mount_on_root_accepted_refuted.

(** ".." out of a mount whose parent directory was covered later. *)
Theorem C40_dotdot_covered_refuted : exists W cwd v log v' log', good_cwd W cwd /\
  vfs_resolve true 231 W DOTDOT cwd true = Done 0 v log /\ (v_fs v, v_obj v) = (0, Some (2, VDir)) /\
  vfs_resolve true 231 W (sl ++ m_) cwd true = Done 0 v' log' /\ v_fs v' = 6 /\ mounted W (0, 2) (6, root W 6).
Proof. exact dotdot_covered. Qed.
Print Assumptions C40_dotdot_covered_refuted.

(** ".." in the root gives directory and entry of the last chdir, which may be gone. *)
Theorem C40_dotdot_stale_refuted : exists W cwd v log, good W /\ good_cwd W cwd /\
  vfs_resolve true 231 W DOTDOT cwd true = Done 0 v log /\
  v_dir v = 77 /\ v_ent v = Some (77, DOTDOT) /\ (forall n, get W 0 77 n = None).
Proof. exact dotdot_stale. Qed.
Print Assumptions C40_dotdot_stale_refuted.

(** A refused mount keeps a reference. *)
Theorem C40_mount_leak_refuted : exists W cwd rc W' log, good W /\ good_cwd W cwd /\
  mp_add true 231 W 16 (sl ++ d_) cwd 5 = MRet rc W' log /\ rc = EPERM /\ fsrefs 0 log = 1.
Proof. exact mp_add_leak. Qed.
Print Assumptions C40_mount_leak_refuted.

(** The root file system mounted on its own subdirectory is accepted. *)
Theorem C40_mount_on_itself_refuted : exists W W' cwd log, good W /\ good_cwd W cwd /\
  mp_add true 231 W 16 (sl ++ m_ ++ sl ++ y_) cwd 7 = MRet 0 W' log /\ good W' /\
  exists W'' log2, mp_add true 231 W 16 (sl ++ d_) cwd 0 = MRet 0 W'' log2 /\ ~ good W''.
Proof. exact mount_on_itself. Qed.
Print Assumptions C40_mount_on_itself_refuted.

