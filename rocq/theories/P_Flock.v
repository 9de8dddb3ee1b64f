(** C46: locks of files by subsystems. *)
From Verif Require Import Lib Flock_Model Flock_Spec Flock_Proofs Flock_Proofs2.

(** If calls for the same file do not overlap (calls for different files may), there is at most one lock object in use for a file, so that all its holders are of one subsystem. What is missing: calls for the same file can overlap, see the refutations *)
Theorem C46_one_owner_partial : forall s, reach_alone s ->
  (forall o1 o2, 0 < held s o1 -> 0 < held s o2 -> ino s o1 = ino s o2 -> o1 = o2) /\ ~ two_owners s.
Proof. exact one_owner. Qed.
Print Assumptions C46_one_owner_partial.

(** Under the same condition the counter is the number of acquisitions not yet released, and a lock object in use is never freed *)
Theorem C46_counted_partial : forall s, reach_alone s -> touched s = false /\ forall o, 0 < held s o -> live s o = true /\ refs s o = held s o /\ tree s (ino s o) = Some o.
Proof. exact counted. Qed.
Print Assumptions C46_counted_partial.

(** Under the same condition, outside the calls: a file has no lock exactly when everything acquired for it has been released *)
Theorem C46_disappears_partial : forall s i, reach_alone s -> ~ inside s i ->
  (tree s i = None <-> forall o, ino s o = i -> held s o = 0) /\ (forall o, live s o = true -> ino s o = i -> 0 < held s o \/ tree s i <> Some o).
Proof. exact disappears. Qed.
Print Assumptions C46_disappears_partial.

(** A whole call of acquire: fails with -ETXTBSY exactly when another subsystem holds the lock *)
Theorem C46_acquire_partial : forall s t i u mem, reach_alone s -> pc s t = Idle -> ~ inside s i ->
  let r := acquire s t i u mem in
  reach_alone (fst r) /\ pc (fst r) t = Idle /\
  match snd r with
  | Got o => ino (fst r) o = i /\ own (fst r) o = u /\ held (fst r) o = held s o + 1
  | Busy => exists o, ino s o = i /\ 0 < held s o /\ own s o <> u
  | NoMem => mem = false
  | More => False
  end /\
  ((exists o, ino s o = i /\ 0 < held s o /\ own s o <> u) <-> snd r = Busy).
Proof. exact acquire_ok. Qed.
Print Assumptions C46_acquire_partial.

(** A whole call of release: the lock disappears with the last reference, and not before *)
Theorem C46_release_partial : forall s t o, reach_alone s -> pc s t = Idle -> 0 < held s o -> ~ inside s (ino s o) ->
  let s' := release s t o in
  reach_alone s' /\ pc s' t = Idle /\ held s' o = held s o - 1 /\ (held s o = 1 -> tree s' (ino s o) = None /\ live s' o = false) /\ (1 < held s o -> tree s' (ino s o) = Some o).
Proof. exact release_ok. Qed.
Print Assumptions C46_release_partial.

(** Overlapping calls: two subsystems get the lock of one file, because nothing is held between the search and the insertion, and the failed insertion is not noticed *)
Theorem C46_two_owners_refuted : exists s, reach s /\ two_owners s.
Proof. exact race_two_owners. Qed.
Print Assumptions C46_two_owners_refuted.

(** Overlapping calls of one subsystem: after the second holder has released it, the first still has its lock, but the file is not locked any more *)
Theorem C46_lock_lost_refuted : exists s o, reach s /\ 0 < held s o /\ tree s (ino s o) = None /\ forall t, pc s t = Idle.
Proof. exact race_lock_lost. Qed.
Print Assumptions C46_lock_lost_refuted.

(** Acquiring while the last reference is being released gives an object which is then freed *)
Theorem C46_use_after_free_refuted : exists s o, reach s /\ 0 < held s o /\ live s o = false.
Proof. exact race_use_after_free. Qed.
Print Assumptions C46_use_after_free_refuted.

(** Executing a file which is not an ELF program (a script, for example) leaves it locked for ever: it cannot be opened for writing any more *)
Theorem C46_failed_exec_refuted : forall s t i rest, reach_alone s -> (forall t, pc s t = Idle) -> (forall o, ino s o = i -> held s o = 0) ->
  let (s', r) := load_elf s t i false rest in r = None /\ exists o, ino s' o = i /\ held s' o = 1 /\ snd (acquire s' t i VFS true) = Busy.
Proof. exact exec_leak. Qed.
Print Assumptions C46_failed_exec_refuted.

(** If the directory entry of a new file cannot be made, the lock of its inode is never released: the next inode at the same address cannot be executed *)
Theorem C46_failed_create_refuted : forall s t i opened, reach_alone s -> (forall t, pc s t = Idle) -> (forall o, ino s o = i -> held s o = 0) ->
  let (s', r) := create_file s t i false opened in r = None /\ exists o, ino s' o = i /\ held s' o = 1 /\ snd (acquire s' t i PROCMGNT true) = Busy.
Proof. exact create_leak. Qed.
Print Assumptions C46_failed_create_refuted.

(** ... in every continuation in which the forgotten reference is not released, and there is no one who could *)
Theorem C46_for_ever_refuted : forall s t i rest, reach_alone s -> (forall t, pc s t = Idle) -> (forall o, ino s o = i -> held s o = 0) ->
  let (s', r) := load_elf s t i false rest in r = None /\ exists o, ino s' o = i /\ forall s'' t', kept o s' s'' -> snd (acq_find s'' t' i VFS) = Busy.
Proof. exact exec_for_ever. Qed.
Print Assumptions C46_for_ever_refuted.

(** As long as a reference is kept, other subsystems are refused *)
Theorem C46_kept_partial : forall o s s' t u, reach_alone s -> 0 < held s o -> kept o s s' -> u <> own s o -> snd (acq_find s' t (ino s o) u) = Busy.
Proof. exact for_ever. Qed.
Print Assumptions C46_kept_partial.

(** Unlinking the file of a running program destroys it (ramfs frees its pages although they are mapped), and a new file at the address of its inode cannot be created *)
Theorem C46_unlinked_refuted : forall s t i f, reach_alone s -> (forall t, pc s t = Idle) -> (forall o, ino s o = i -> held s o = 0) ->
  exists_ f i = true -> nlink f i = 1 -> handles f i = 0 ->
  exists s' o, load_elf s t i true true = (s', Some o) /\ 0 < held s' o /\ ino s' o = i /\ exists_ (unlink f i) i = false /\
    snd (create_file s' t i true true) = None.
Proof. exact unlinked. Qed.
Print Assumptions C46_unlinked_refuted.

(** two acquisitions of file 5 by the file system, one of file 6 by the process manager in between *)
Example C46_nontrivial :
  let s := fst (acquire init 1 5 VFS true) in
  let s := fst (acquire s 2 6 PROCMGNT true) in
  let r := acquire s 2 5 VFS true in
  snd r = Got 1 /\ refs (fst r) 1 = 2 /\ snd (acquire (fst r) 3 5 PROCMGNT true) = Busy /\
  tree (release (fst r) 1 1) 5 = Some 1 /\ tree (release (release (fst r) 1 1) 2 1) 5 = None /\ tree (fst r) 6 = Some 2.
Proof. vm_compute. auto 10. Qed.

