From Verif Require Import Lib Wait_Model Wait_Spec Wait_Proofs.

(** No ASSERT fails and no NULL pointer is followed, whatever the processes do. *)
Theorem C29_no_failure : forall s a, reach s -> allowed s a -> exists s' r, step s a = Ok s' r.
Proof. exact no_failure. Qed.
Print Assumptions C29_no_failure.

(** The lists of children are exact and without repetitions; every process has a parent that lives. *)
Theorem C29_family : forall s, reach s ->
  (forall p c, In c (kids s p) <-> child s p c) /\ (forall p, NoDup (kids s p)) /\
  (forall c, liv s c = true -> c <> 1 -> liv s (ppid (pr s c)) = true /\ stt (pr s (ppid (pr s c))) <> Zomb) /\
  liv s 1 = true /\ stt (pr s 1) <> Zomb.
Proof. exact family. Qed.
Print Assumptions C29_family.

(** The whole history of every process id: forked, exited, collected, in this order; collected at most once for each fork, by the process that forked it or by init, with the status of its exit; never reported after its collection. *)
Theorem C29_life : forall s c, reach s -> c <> 1 -> exists ph, life c (hist s) = Some ph /\ in_phase s c ph.
Proof. exact life_of. Qed.
Print Assumptions C29_life.

(** A zombie stays, with its status, until a wait of its parent returns it. *)
Theorem C29_zombie_kept : forall s a s' r c, reach s -> allowed s a -> step s a = Ok s' r -> liv s c = true -> stt (pr s c) = Zomb ->
  (liv s' c = true /\ stt (pr s' c) = Zomb /\ wst (pr s' c) = wst (pr s c)) \/
  (exists p tid o fault, a = Wait p tid o fault /\ matches s p tid c /\ r = Some (Returns (if fault then EFAULT else c)) /\ liv s' c = false).
Proof. exact zombie_kept. Qed.
Print Assumptions C29_zombie_kept.

(** wait4 returns a child it was asked for that died, stopped or continued; it fails with ECHILD only if there is no child to wait for; it returns 0 or sleeps only if none of them has anything to report. *)
Theorem C29_wait_result : forall s p tid o fault s' r, reach s -> running s p -> step s (Wait p tid o fault) = Ok s' (Some r) -> wait_ok s p tid o fault s' r.
Proof. exact wait_result. Qed.
Print Assumptions C29_wait_result.

(** The children of a process that exits go to init; the process becomes a zombie with its exit status, unless its parent (or, before it died, the parent's parent) ignores SIGCHLD, in which case it is removed. *)
Theorem C29_exit_result : forall s p ret sig s' r, reach s -> running s p -> p <> 1 -> step s (Exit p ret sig) = Ok s' r ->
  (forall c, child s p c -> child s' 1 c) /\
  (forall t, t <> p -> liv s' t = liv s t) /\
  (if areap (pr s p) || ign (pr s (ppid (pr s p)))
   then liv s' p = false
   else liv s' p = true /\ stt (pr s' p) = Zomb /\ wst (pr s' p) = exitcode ret sig /\ ppid (pr s' p) = ppid (pr s p)) /\
  (forall t, t <> p -> areap (pr s' t) = true -> areap (pr s t) = true \/ (ppid (pr s t) = p /\ ign (pr s p) = true)).
Proof. exact exit_result. Qed.
Print Assumptions C29_exit_result.

(** The status of a dead process gives back what it exited with. *)
Theorem C29_status_decodes : forall ret sig, 0 <= ret < 256 -> 0 <= sig < 128 ->
  WEXITSTATUS (exitcode ret sig) = ret /\ WTERMSIG (exitcode ret sig) = sig /\ (WIFEXITED (exitcode ret sig) <-> sig = 0).
Proof. exact status_decodes. Qed.
Print Assumptions C29_status_decodes.

(** A child exits with 7, its own child goes to init, init collects both. *)
Example C29_ex :
  option_map (fun s => (hist s, liv s 2, liv s 3, kids s 1))
    (runb st_init [Fork 1 2 false; Fork 2 3 false; Exit 2 7 0; Wait 1 2 wnone false; Exit 3 0 9; Wait 1 (-1) wnone false])
  = Some ([EReaped 1 3 9; EExit 3 9; EReaped 1 2 1792; EExit 2 1792; EFork 2 3; EFork 1 2], false, false, []).
Proof. vm_compute. reflexivity. Qed.

(** If the status cannot be copied to the user, the child is collected all the same and its status is lost (kernel/waitpid.c). *)
Theorem C29_status_lost_refuted : exists s s', reach s /\ child s 1 2 /\ stt (pr s 2) = Zomb /\ step s (Wait 1 2 wnone true) = Ok s' (Some (Returns EFAULT)) /\ liv s' 2 = false.
Proof. exact status_lost. Qed.
Print Assumptions C29_status_lost_refuted.

(** A child that is stopped again after a wait without WCONTINUED did not see it continue is not reported as stopped. *)
Theorem C29_second_stop_refuted : exists s1 s2 s3 s4, reach s1 /\ child s1 1 2 /\ stt (pr s1 2) = Stop /\
  step s1 (ContSig 2) = Ok s2 None /\ stt (pr s2 2) = Run /\ step s2 (StopSig 2 19) = Ok s3 None /\ stt (pr s3 2) = Stop /\
  step s3 (Wait 1 2 wunt false) = Ok s4 (Some (Returns 0)).
Proof. exact second_stop. Qed.
Print Assumptions C29_second_stop_refuted.

(** A child that has just been forked can be reported as continued: stop_reported is copied by fork. *)
Theorem C29_fork_continued_refuted : exists s1 s2 s3, reach s1 /\ running s1 2 /\ step s1 (Fork 2 3 false) = Ok s2 None /\ step s2 (Wait 2 3 wcon false) = Ok s3 (Some (Returns 3)) /\ liv s1 3 = false.
Proof. exact fork_continued. Qed.
Print Assumptions C29_fork_continued_refuted.

(** A child that waits for its own vforked child is reported as stopped. *)
Theorem C29_vfork_stopped_refuted : exists s s', reach s /\ child s 1 2 /\ vfs (pr s 2) = true /\ step s (Wait 1 2 wunt false) = Ok s' (Some (Returns 2)).
Proof. exact vfork_stopped. Qed.
Print Assumptions C29_vfork_stopped_refuted.

(** No process sleeps in wait4 while a child it waits for is a zombie. Missing: wait4(0, ...), and histories in which setpgid moves a zombie (both refuted below). *)
Theorem C30_no_forgotten_waiter_partial : forall s p tid o c, reach_z s -> liv s p = true -> wo (pr s p) = Some (tid, o) -> tid <> 0 -> matches s p tid c -> stt (pr s c) <> Zomb.
Proof. exact no_forgotten. Qed.
Print Assumptions C30_no_forgotten_waiter_partial.

(** A process that sleeps in wait4(pid) has that child and the child is not a zombie: all histories. *)
Theorem C30_no_forgotten_pid : forall s p tid o, reach s -> liv s p = true -> wo (pr s p) = Some (tid, o) -> 0 < tid -> child s p tid /\ stt (pr s tid) <> Zomb.
Proof. exact no_forgotten_pid. Qed.
Print Assumptions C30_no_forgotten_pid.

(** An exit wakes up the parent that waits for the child. Missing: wait4(0, ...). *)
Theorem C30_exit_wakes_partial : forall s p ret sig s' r tid o, reach s -> running s p -> p <> 1 -> step s (Exit p ret sig) = Ok s' r ->
  wo (pr s (ppid (pr s p))) = Some (tid, o) -> tid <> 0 -> matches s (ppid (pr s p)) tid p -> stt (pr s' (ppid (pr s p))) <> Sleep.
Proof. exact exit_wakes. Qed.
Print Assumptions C30_exit_wakes_partial.

(** A stop signal stops the child and wakes up the parent that waits for it with WUNTRACED. Missing: wait4(0, ...). *)
Theorem C30_stop_wakes_partial : forall s t sig s' r, reach s -> liv s t = true -> stt (pr s t) <> Zomb -> t <> 1 -> step s (StopSig t sig) = Ok s' r ->
  stopped_now (pr s' t) /\
  forall tid o, wo (pr s (ppid (pr s t))) = Some (tid, o) -> tid <> 0 -> matches s (ppid (pr s t)) tid t -> untraced o = true -> stt (pr s' (ppid (pr s t))) <> Sleep.
Proof. exact stop_wakes. Qed.
Print Assumptions C30_stop_wakes_partial.

(** SIGCONT continues the child and wakes up the parent that waits for it with WCONTINUED. Missing: wait4(0, ...), a child in vfork. *)
Theorem C30_cont_wakes_partial : forall s t s' r, reach s -> liv s t = true -> stt (pr s t) <> Zomb -> t <> 1 -> vfs (pr s t) = false -> step s (ContSig t) = Ok s' r ->
  ~ stopped_now (pr s' t) /\
  forall tid o, wo (pr s (ppid (pr s t))) = Some (tid, o) -> tid <> 0 -> matches s (ppid (pr s t)) tid t -> continued o = true -> stt (pr s' (ppid (pr s t))) <> Sleep.
Proof. exact cont_wakes. Qed.
Print Assumptions C30_cont_wakes_partial.

(** Three waiters at different levels: by pid, by group, any; all woken up. *)
Example C30_ex :
  option_map (fun s => (stt (pr s 1), stt (pr s 2), stt (pr s 3), wts s 4))
    (runb st_init [Fork 1 2 false; Fork 2 3 false; Fork 3 4 false; SetPgid 3 3; Wait 3 4 wnone false; Wait 2 (-3) wnone false; Wait 1 (-1) wnone false;
                   Exit 4 1 0; Wait 3 4 wnone false; Exit 3 1 0; Wait 2 (-3) wnone false; Exit 2 1 0])
  = Some (Run, Zomb, Zomb, []).
Proof. vm_compute. reflexivity. Qed.

(** wait4(0, ...), for a child in the caller's group, sleeps for ever: is_waiting_on_multiple_children requires tid < 0 (kernel/waitpid.c). *)
Theorem C30_wait_own_group_refuted : exists s p o c, reach_z s /\ liv s p = true /\ stt (pr s p) = Sleep /\ wo (pr s p) = Some (0, o) /\ matches s p 0 c /\ stt (pr s c) = Zomb.
Proof. exact waitpid0. Qed.
Print Assumptions C30_wait_own_group_refuted.

(** setpgid on a zombie moves it into the group its parent waits for; the parent sleeps on. *)
Theorem C30_moved_zombie_refuted : exists s p tid o c, reach s /\ liv s p = true /\ stt (pr s p) = Sleep /\ tid < -1 /\ wo (pr s p) = Some (tid, o) /\ matches s p tid c /\ stt (pr s c) = Zomb.
Proof. exact zombie_moved. Qed.
Print Assumptions C30_moved_zombie_refuted.

(** A stopped child resumed by a signal other than SIGCONT does not wake up a parent that waits with WCONTINUED, though the wait would return it. *)
Theorem C30_resumed_unseen_refuted : exists s p o c, reach_z s /\ liv s p = true /\ stt (pr s p) = Sleep /\ wo (pr s p) = Some (c, o) /\ child s p c /\ reportable (pr s c) o.
Proof. exact resumed_unseen. Qed.
Print Assumptions C30_resumed_unseen_refuted.

