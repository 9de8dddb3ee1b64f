(** C28, C56: process and kernel-thread ids. *)
From Verif Require Import Lib Pid_Model Pid_Spec Pid_Proofs.

(** create_new_pid returns an id in range that no task has, unless every id is in use or names a process group or session. Missing: the case of a stale group (needed, see C28_duplicate_refuted), and ids that only name a group when none else is free. *)
Theorem C28_pid_is_free_partial : forall s, reach s -> no_stale_group s ->
  exists r, new_pid s = Some r /\
    ((0 <= r <= max_pid /\ ~ live s r) \/ (r = -1 /\ forall y, 0 <= y <= max_pid -> live s y \/ named s y)).
Proof. exact pid_result. Qed.
Print Assumptions C28_pid_is_free_partial.

(** The condition holds by itself as long as no process has an id above the last one given out, that is until ids wrap around *)
Theorem C28_no_wrap_no_condition : forall s, (forall t, In t (tasks s) -> tid t <= max_pid -> tid t <= cmax s) -> no_stale_group s.
Proof. exact no_wrap_no_stale. Qed.
Print Assumptions C28_no_wrap_no_condition.

(** The ids of the tasks in the table are pairwise different, in every state reached by forks, kernel-thread creations (failed ones too), removals, setpgid and setsid. Missing: see above. *)
Theorem C28_ids_unique_partial : forall s, reach s -> NoDup (map tid (tasks s)).
Proof. exact ids_unique. Qed.
Print Assumptions C28_ids_unique_partial.

(** No step fails: the new id is always insertable and no ASSERT of the allocator fails. Missing: see above. *)
Theorem C28_no_failure_partial : forall s a, reach s -> allowed s a -> step s a <> Fail.
Proof. exact never_duplicate. Qed.
Print Assumptions C28_no_failure_partial.

(** The `do … while` of create_new_pid ends for every table and every choice of groups and sessions *)
Theorem C28_search_terminates : forall s, (forall t, In t (tasks s) -> 0 <= tid t) -> exists r, new_pid s = Some r.
Proof. exact pid_always_ends. Qed.
Print Assumptions C28_search_terminates.

(** After a wrap-around, with a live member of a dead process' group above, create_new_pid returns the id of a live process *)
Theorem C28_duplicate_refuted : exists l s r, run st_init l = Some s /\ new_pid s = Some r /\ 0 <= r /\ live s r.
Proof. exact duplicate_pid. Qed.
Print Assumptions C28_duplicate_refuted.

(** The comment at kernel/sched.c:292-306 says that a new process does not accidentally become the leader of a group; it can, without any wrap-around *)
Theorem C28_avoids_group_ids_refuted : exists s r, reach s /\ no_stale_group s /\ new_pid s = Some r /\ 0 <= r /\ ~ live s r /\ named s r.
Proof. exact accidental_leader. Qed.
Print Assumptions C28_avoids_group_ids_refuted.

(** setpgid accepts any group id that does not exist *)
Theorem C28_setpgid_existing_group_refuted : forall s t x pg, reach s -> In x (tasks s) -> tid x = t -> kern x = false -> 0 < pg -> (forall y, In y (tasks s) -> pgid y <> pg) ->
  exists s', step s (SetPgid t pg) = Ok s' 0 /\ exists y, In y (tasks s') /\ tid y = t /\ pgid y = pg.
Proof. exact setpgid_any. Qed.
Print Assumptions C28_setpgid_existing_group_refuted.

(** setpgid and setsid change no id *)
Theorem C28_groups_keep_ids : forall s a s' r, match a with SetPgid _ _ | SetSid _ => True | _ => False end -> step s a = Ok s' r -> map tid (tasks s') = map tid (tasks s) /\ cmax s' = cmax s /\ ckmax s' = ckmax s.
Proof. exact groups_keep_ids. Qed.
Print Assumptions C28_groups_keep_ids.

(** A successful setsid makes the caller the leader of a group and session that did not exist *)
Theorem C28_setsid_result : forall s t s', reach s -> step s (SetSid t) = Ok s' t -> 0 <= t -> (forall x, In x (tasks s) -> pgid x <> t) /\
  exists y, In y (tasks s') /\ tid y = t /\ pgid y = t /\ sid y = t.
Proof. exact setsid_result. Qed.
Print Assumptions C28_setsid_result.

(** create_new_kernel_tid returns an id in range that no task has, and fails only if there is none *)
Theorem C56_ktid_is_free : forall s, reach s ->
  exists r, new_ktid s = Some r /\
    ((0 <= r <= max_ktid /\ ~ live s (r + ktid_start)) \/ (r = -1 /\ forall y, 0 <= y <= max_ktid -> live s (y + ktid_start))).
Proof. exact ktid_result. Qed.
Print Assumptions C56_ktid_is_free.

Example C28_ex : match run st_init [Fork 1 false; Fork 2 false; Remove 2; Fork 1 false] with Some s => new_pid s = Some 5 /\ map tid (tasks s) = [1; 3; 4; 10000] | None => False end.
Proof. vm_compute. auto. Qed.
Example C56_ex : match run st_init [Kthread false; Kthread false; Remove 10001; Kthread true] with Some s => new_ktid s = Some 4 /\ map tid (tasks s) = [1; 10000; 10002] | None => False end.
Proof. vm_compute. auto. Qed.

