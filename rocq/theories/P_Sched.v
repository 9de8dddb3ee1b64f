(** C26, C27: the scheduler. *)
From Verif Require Import Lib Avl_Model Avl_Spec Sched_Model Sched_Spec Sched_Proofs.

(** No ASSERT or NOT_REACHED of the modelled code fails, for any order of actions and interrupts *)
Theorem C26_no_assertion_fails : forall idle kproc workers prio latency gran pool, config idle kproc workers pool ->
  let Reach := reach idle kproc workers prio latency gran pool in
  let Step := step idle kproc workers prio latency gran in
  let Allowed := allowed idle kproc workers pool in
  forall s a, Reach s -> Allowed s a -> Step s a <> None.
Proof. intros idle kproc workers prio latency gran pool C. exact (never_fails idle kproc workers prio latency gran pool C). Qed.
Print Assumptions C26_no_assertion_fails.

(** The tree holds exactly the runnable tasks other than idle and the workers, each once; its count and its sum of vruntimes are right *)
Theorem C26_run_queue_exact : forall idle kproc workers prio latency gran pool, config idle kproc workers pool ->
  let Reach := reach idle kproc workers prio latency gran pool in
  let Step := step idle kproc workers prio latency gran in
  let Allowed := allowed idle kproc workers pool in
  forall s, Reach s -> queue_exact idle workers s.
Proof. intros idle kproc workers prio latency gran pool C. exact (queue_is_exact idle kproc workers prio latency gran pool C). Qed.
Print Assumptions C26_run_queue_exact.

(** The key of a queued task never changes while it is queued *)
Theorem C26_keys_stable : forall idle kproc workers prio latency gran pool, config idle kproc workers pool ->
  let Reach := reach idle kproc workers prio latency gran pool in
  let Step := step idle kproc workers prio latency gran in
  let Allowed := allowed idle kproc workers pool in
  forall s a s' t, Reach s -> Allowed s a -> Step s a = Some s' -> ts (q s) t = Runnable -> vr (q s') t = vr (q s) t.
Proof. intros idle kproc workers prio latency gran pool C. exact (keys_stable idle kproc workers prio latency gran pool C). Qed.
Print Assumptions C26_keys_stable.

(** Task states change only by these steps: in particular, a runnable task stays runnable until it is chosen to run, stopped, or acts itself *)
Theorem C26_states_change_only : forall idle kproc workers prio latency gran pool, config idle kproc workers pool ->
  let Reach := reach idle kproc workers prio latency gran pool in
  let Step := step idle kproc workers prio latency gran in
  let Allowed := allowed idle kproc workers pool in
  forall s a s' t, Reach s -> Allowed s a -> Step s a = Some s' -> ts (q s') t <> ts (q s) t -> moves s a t (ts (q s') t).
Proof. intros idle kproc workers prio latency gran pool C. exact (step_moves idle kproc workers prio latency gran pool C). Qed.
Print Assumptions C26_states_change_only.

(** At most one task is RUNNING *)
Theorem C27_one_running : forall idle kproc workers prio latency gran pool, config idle kproc workers pool ->
  let Reach := reach idle kproc workers prio latency gran pool in
  let Step := step idle kproc workers prio latency gran in
  let Allowed := allowed idle kproc workers pool in
  forall s t u, Reach s -> ts (q s) t = Running -> ts (q s) u = Running -> t = u.
Proof. intros idle kproc workers prio latency gran pool C. exact (one_running idle kproc workers prio latency gran pool C). Qed.
Print Assumptions C27_one_running.

(** Outside the scheduler, only the current task is RUNNING *)
Theorem C27_running_is_current : forall idle kproc workers prio latency gran pool, config idle kproc workers pool ->
  let Reach := reach idle kproc workers prio latency gran pool in
  let Step := step idle kproc workers prio latency gran in
  let Allowed := allowed idle kproc workers pool in
  forall s t, Reach s -> ts (q s) t = Running -> ph s = Run -> t = curr s.
Proof. intros idle kproc workers prio latency gran pool C. exact (running_is_curr idle kproc workers prio latency gran pool C). Qed.
Print Assumptions C27_running_is_current.

(** A runnable worker of the best priority is chosen if there is one *)
Theorem C27_workers_first : forall idle kproc workers prio latency gran pool, config idle kproc workers pool ->
  let Reach := reach idle kproc workers prio latency gran pool in
  let Step := step idle kproc workers prio latency gran in
  let Allowed := allowed idle kproc workers pool in
  forall s cs rs s', Reach s -> ph s = Sched1 cs rs -> Step s Next = Some s' ->
    q s' = q s /\
    ((exists w, ph s' = Chosen cs w /\ In w workers /\ ts (q s) w = Runnable /\
                forall u, In u workers -> ts (q s) u = Runnable -> prio w <= prio u) \/
     ph s' = Sched2 cs rs /\ forall u, In u workers -> ts (q s) u <> Runnable).
Proof. intros idle kproc workers prio latency gran pool C. exact (workers_first idle kproc workers prio latency gran pool). Qed.
Print Assumptions C27_workers_first.

(** Otherwise the choice is the queued task that is least by (vruntime, tid); or the current task if no queued task has a lower or equal vruntime and no reschedule was requested; idle only if there is nothing to run *)
Theorem C27_fair_choice : forall idle kproc workers prio latency gran pool, config idle kproc workers pool ->
  let Reach := reach idle kproc workers prio latency gran pool in
  let Step := step idle kproc workers prio latency gran in
  let Allowed := allowed idle kproc workers pool in
  forall s cs rs s', Reach s -> ph s = Sched2 cs rs -> Step s Next = Some s' ->
    q s' = q s /\ exists x, ph s' = Chosen cs x /\
      ((queued idle workers s x /\ (forall u, queued idle workers s u -> before s x u) /\
          (cs = Running -> curr s <> idle -> rs = true \/ vr (q s) x <= vr (q s) (curr s))) \/
       (x = curr s /\ cs = Running /\ forall u, queued idle workers s u -> rs = false /\ curr s <> idle /\ vr (q s) x < vr (q s) u) \/
       (x = idle /\ cs <> Running /\ forall u, ~ queued idle workers s u)).
Proof. intros idle kproc workers prio latency gran pool C. exact (fair_choice idle kproc workers prio latency gran pool C). Qed.
Print Assumptions C27_fair_choice.

(** The task chosen is the one that runs: it is kept with a new quantum, or switched to *)
Theorem C27_chosen_keeps_or_switches : forall idle kproc workers prio latency gran pool, config idle kproc workers pool ->
  let Reach := reach idle kproc workers prio latency gran pool in
  let Step := step idle kproc workers prio latency gran in
  let Allowed := allowed idle kproc workers pool in
  forall s cs x s', Reach s -> ph s = Chosen cs x -> Step s Next = Some s' ->
    (x = curr s /\ ph s' = Run /\ curr s' = x /\ ts (q s') x = Running /\ used s' x = 0 /\ slice s' x = compute_slice latency gran s') \/
    (x <> curr s /\ ph s' = Switch1 x /\ curr s' = curr s /\ ts (q s') x = Runnable).
Proof. intros idle kproc workers prio latency gran pool C. exact (chosen_runs idle kproc workers prio latency gran pool C). Qed.
Print Assumptions C27_chosen_keeps_or_switches.

(** switch_to_task makes it RUNNING with a new quantum *)
Theorem C27_switch_starts_quantum : forall idle kproc workers prio latency gran pool, config idle kproc workers pool ->
  let Reach := reach idle kproc workers prio latency gran pool in
  let Step := step idle kproc workers prio latency gran in
  let Allowed := allowed idle kproc workers pool in
  forall s x s', Reach s -> ph s = Switch1 x -> Step s Next = Some s' ->
    ph s' = Switch2 x /\ ts (q s') x = Running /\ used s' x = 0 /\ slice s' x = compute_slice latency gran s'.
Proof. intros idle kproc workers prio latency gran pool C. exact (switch_runs idle kproc workers prio latency gran pool). Qed.
Print Assumptions C27_switch_starts_quantum.

(** and then current *)
Theorem C27_switch_ends : forall idle kproc workers prio latency gran pool, config idle kproc workers pool ->
  let Reach := reach idle kproc workers prio latency gran pool in
  let Step := step idle kproc workers prio latency gran in
  let Allowed := allowed idle kproc workers pool in
  forall s x s', Reach s -> ph s = Switch2 x \/ ph s = Switch3 x -> Step s Next = Some s' ->
    ts (q s') x = Running /\ (ph s' = Run /\ curr s' = x \/ ph s' = Switch3 x /\ ts (q s) (curr s) = Zombie).
Proof. intros idle kproc workers prio latency gran pool C. exact (switch_ends idle kproc workers prio latency gran pool C). Qed.
Print Assumptions C27_switch_ends.

(** min_vruntime never decreases *)
Theorem C27_min_vruntime_grows : forall idle kproc workers prio latency gran pool, config idle kproc workers pool ->
  let Reach := reach idle kproc workers prio latency gran pool in
  let Step := step idle kproc workers prio latency gran in
  let Allowed := allowed idle kproc workers pool in
  forall s a s', Reach s -> Allowed s a -> Step s a = Some s' -> minv s <= minv s'.
Proof. intros idle kproc workers prio latency gran pool C. exact (min_grows idle kproc workers prio latency gran pool C). Qed.
Print Assumptions C27_min_vruntime_grows.

(** nor does the vruntime of an existing task *)
Theorem C27_vruntime_grows : forall idle kproc workers prio latency gran pool, config idle kproc workers pool ->
  let Reach := reach idle kproc workers prio latency gran pool in
  let Step := step idle kproc workers prio latency gran in
  let Allowed := allowed idle kproc workers pool in
  forall s a s' t, Reach s -> Allowed s a -> Step s a = Some s' -> ts (q s) t <> Dead -> vr (q s) t <= vr (q s') t.
Proof. intros idle kproc workers prio latency gran pool C. exact (vr_grows idle kproc workers prio latency gran pool C). Qed.
Print Assumptions C27_vruntime_grows.

(** min_vruntime is in fact the largest vruntime: no task is ahead of it *)
Theorem C27_min_is_upper_bound : forall idle kproc workers prio latency gran pool, config idle kproc workers pool ->
  let Reach := reach idle kproc workers prio latency gran pool in
  let Step := step idle kproc workers prio latency gran in
  let Allowed := allowed idle kproc workers pool in
  forall s t, Reach s -> 0 <= vr (q s) t <= minv s.
Proof. intros idle kproc workers prio latency gran pool C. exact (vr_below idle kproc workers prio latency gran pool C). Qed.
Print Assumptions C27_min_is_upper_bound.

(** A tick charges the running task and no other *)
Theorem C27_tick_charges_current : forall idle kproc workers prio latency gran pool, config idle kproc workers pool ->
  let Reach := reach idle kproc workers prio latency gran pool in
  let Step := step idle kproc workers prio latency gran in
  let Allowed := allowed idle kproc workers pool in
  forall s s', Reach s -> Allowed s Tick -> Step s Tick = Some s' -> ts (q s) (curr s) = Running -> curr s <> idle ->
    vr (q s') (curr s) = vr (q s) (curr s) + scale /\ forall t, t <> curr s -> vr (q s') t = vr (q s) t.
Proof. intros idle kproc workers prio latency gran pool C. exact (tick_charges idle kproc workers prio latency gran pool C). Qed.
Print Assumptions C27_tick_charges_current.

(** A slice is the latency divided among the runnable tasks, but not below the minimum granularity *)
Theorem C27_slice_bounds : forall idle kproc workers prio latency gran pool, config idle kproc workers pool ->
  let Reach := reach idle kproc workers prio latency gran pool in
  let Step := step idle kproc workers prio latency gran in
  let Allowed := allowed idle kproc workers pool in
  forall s, Reach s -> 0 < gran -> 0 <= latency -> latency * scale < 2 ^ 32 -> gran * scale < 2 ^ 32 ->
    compute_slice latency gran s = Z.max (latency * scale / (zlen (inorder (root (q s))) + 1)) (gran * scale) /\
    gran * scale <= compute_slice latency gran s <= Z.max latency gran * scale.
Proof. intros idle kproc workers prio latency gran pool C. exact (slice_bounds idle kproc workers prio latency gran pool C). Qed.
Print Assumptions C27_slice_bounds.

(** A task woken up by wake_up is moved to at most WAKEUP_VRUNTIME_BONUS behind min_vruntime, and never back; a reschedule is requested *)
Theorem C27_woken_vruntime_floor : forall idle kproc workers prio latency gran pool, config idle kproc workers pool ->
  let Reach := reach idle kproc workers prio latency gran pool in
  let Step := step idle kproc workers prio latency gran in
  let Allowed := allowed idle kproc workers pool in
  forall s t s', Reach s -> ph s = Wake1 t Runnable -> ts (q s) t = Sleeping -> Step s Next = Some s' ->
    vr (q s') t = Z.max (vr (q s) t) (Z.max 0 (minv s - bonus)) /\ ph s' = Wake2 t Runnable /\
    (curr s <> idle -> ~ In (curr s) workers -> resched s' = true).
Proof. intros idle kproc workers prio latency gran pool C. exact (wake_floor idle kproc workers prio latency gran pool C). Qed.
Print Assumptions C27_woken_vruntime_floor.

(** and so is a task woken up by its timer *)
Theorem C27_timer_vruntime_floor : forall idle kproc workers prio latency gran pool, config idle kproc workers pool ->
  let Reach := reach idle kproc workers prio latency gran pool in
  let Step := step idle kproc workers prio latency gran in
  let Allowed := allowed idle kproc workers pool in
  forall s t s', Reach s -> Allowed s (TimerFire t) -> ts (q s) t = Sleeping -> stopp s t = false -> Step s (TimerFire t) = Some s' ->
    ts (q s') t = Runnable /\ vr (q s') t = Z.max (vr (q s) t) (Z.max 0 (minv s - bonus)) /\ resched s' = true /\ tready s' t = true.
Proof. intros idle kproc workers prio latency gran pool C. exact (timer_floor idle kproc workers prio latency gran pool C). Qed.
Print Assumptions C27_timer_vruntime_floor.

(** At the end of wake_up the task is runnable, whatever the interrupts in between *)
Theorem C27_wake_up_effective : forall idle kproc workers prio latency gran pool, config idle kproc workers pool ->
  let Reach := reach idle kproc workers prio latency gran pool in
  let Step := step idle kproc workers prio latency gran in
  let Allowed := allowed idle kproc workers pool in
  forall s t s', Reach s -> ph s = Wake2 t Runnable -> Step s Next = Some s' -> ts (q s') t = Runnable /\ ph s' = Run.
Proof. intros idle kproc workers prio latency gran pool C. exact (wake_done idle kproc workers prio latency gran pool). Qed.
Print Assumptions C27_wake_up_effective.

(** A task whose vruntime is least among the queued tasks and the current one is eligible (the EEVDF predicate) *)
Theorem C27_least_is_eligible : forall idle kproc workers prio latency gran pool, config idle kproc workers pool ->
  let Reach := reach idle kproc workers prio latency gran pool in
  let Step := step idle kproc workers prio latency gran in
  let Allowed := allowed idle kproc workers pool in
  forall s t, Reach s -> zsum (vr (q s)) (inorder (root (q s))) + vr (q s) (curr s) < 2 ^ 64 ->
    (forall u, queued idle workers s u -> vr (q s) t <= vr (q s) u) -> vr (q s) t <= vr (q s) (curr s) -> is_eligible s t = true.
Proof. intros idle kproc workers prio latency gran pool C. exact (least_is_eligible idle kproc workers prio latency gran pool C). Qed.
Print Assumptions C27_least_is_eligible.

(** At each tick the used time grows; once the slice is used, a reschedule is requested *)
Theorem C27_tick_requests_reschedule : forall idle kproc workers prio latency gran s s', step idle kproc workers prio latency gran s Tick = Some s' ->
    used s' (curr s) = u32 (used s (curr s) + scale) /\
    (ts (q s) (curr s) <> Running \/ ~ In (curr s) workers /\ slice s (curr s) <= used s' (curr s) -> resched s' = true).
Proof. exact tick_resched. Qed.
Print Assumptions C27_tick_requests_reschedule.

(** Tasks that leave the STOPPED state skip the vruntime floor: after SIGCONT a task is ahead of all the others by as long as it was stopped *)
Theorem C27_continued_vruntime_floor_refuted : exists s s', reach 10 0 cfg_workers (fun t => t) 6 1 cfg_pool s /\ step 10 0 cfg_workers (fun t => t) 6 1 s (Cont 2) = Some s' /\
  ts (q s) 2 = Stopped /\ ts (q s') 2 = Runnable /\ vr (q s') 2 < minv s' - bonus.
Proof. exact stale_continue. Qed.
Print Assumptions C27_continued_vruntime_floor_refuted.

(** A stopped task is resumed by a wake-up: it slept with a timeout, SIGSTOP was deferred, the timer fired, and then the object it waited for was signalled *)
Theorem C27_stopped_stays_stopped_refuted : exists s s', reach 10 0 cfg_workers (fun t => t) 6 1 cfg_pool s /\ step 10 0 cfg_workers (fun t => t) 6 1 s Next = Some s' /\
  ph s = Wake2 2 Runnable /\ ts (q s) 2 = Stopped /\ ts (q s') 2 = Runnable.
Proof. exact stopped_woken. Qed.
Print Assumptions C27_stopped_stays_stopped_refuted.

(** A task that stops itself keeps running if a timer it left armed fired before *)
Theorem C27_self_stop_effective_refuted : exists s s1 s2 s3, reach 10 0 cfg_workers (fun t => t) 6 1 cfg_pool s /\ step 10 0 cfg_workers (fun t => t) 6 1 s (Stop 1) = Some s1 /\
  ts (q s1) 1 = Stopped /\ step 10 0 cfg_workers (fun t => t) 6 1 s1 Schedule = Some s2 /\ step 10 0 cfg_workers (fun t => t) 6 1 s2 Next = Some s3 /\
  ts (q s3) 1 = Running /\ ph s3 = Run /\ curr s3 = 1.
Proof. exact stop_lost. Qed.
Print Assumptions C27_self_stop_effective_refuted.

(** In the same way the parent of a vforked child runs while the child uses its memory; the ASSERT at the end of the vfork fails *)
Theorem C27_vfork_parent_stays_stopped_refuted : exists s, reach 10 0 cfg_workers (fun t => t) 6 1 cfg_pool s /\ vfs s 1 = true /\ ts (q s) 1 = Running /\
  step 10 0 cfg_workers (fun t => t) 6 1 s (VforkDone 1) = None.
Proof. exact vfork_assert. Qed.
Print Assumptions C27_vfork_parent_stays_stopped_refuted.

(** The running worker is not considered when a reschedule is requested: it loses the CPU to a worker of lower priority *)
Theorem C27_worker_not_preempted_by_lower_refuted : exists s s', reach 10 0 cfg_workers (fun t => t) 6 1 cfg_pool s /\ ph s = Sched1 Running true /\ curr s = 20 /\
  ts (q s) 20 = Running /\ step 10 0 cfg_workers (fun t => t) 6 1 s Next = Some s' /\ ph s' = Chosen Running 21.
Proof. exact worker_inversion. Qed.
Print Assumptions C27_worker_not_preempted_by_lower_refuted.

(** or to an ordinary task *)
Theorem C27_worker_not_preempted_by_task_refuted : exists s s', reach 10 0 cfg_workers (fun t => t) 6 1 cfg_pool s /\ ph s = Sched2 Running true /\ curr s = 20 /\
  ts (q s) 20 = Running /\ step 10 0 cfg_workers (fun t => t) 6 1 s Next = Some s' /\ ph s' = Chosen Running 1.
Proof. exact worker_preempted. Qed.
Print Assumptions C27_worker_not_preempted_by_task_refuted.

(** The order by vruntime is not the order by EEVDF deadline (claimed by the comment on the selector): slices are computed with different numbers of runnable tasks *)
Theorem C27_deadline_order_refuted : exists s, reach 10 0 cfg_workers (fun t => t) 6 1 cfg_pool s /\ queued 10 cfg_workers s 2 /\ queued 10 cfg_workers s 3 /\
  vr (q s) 2 < vr (q s) 3 /\ dline s 3 < dline s 2.
Proof. exact deadline_order. Qed.
Print Assumptions C27_deadline_order_refuted.

(** The configuration above is one; a reachable state with two queued tasks, in which the second one (forked later) is chosen after the first one ran *)
Example C26_nontrivial : config 10 0 cfg_workers cfg_pool.
Proof. exact cfg_ok. Qed.
Example C27_nontrivial :
  match runs 10 0 cfg_workers (fun t => t) 6 1 cfg_pool (st_init 10 0) ([Fork 1; Fork 2; Fork 3] ++ switch ++ [Tick; Tick] ++ switch) with
  | Some s => (curr s, inorder (root (q s)), cnt (q s), sum (q s), vr (q s) 1, minv s)
  | None => (0, [], 0, 0, 0, 0)
  end = (2, [3; 1], 2, 32, 32, 32).
Proof. vm_compute. reflexivity. Qed.
