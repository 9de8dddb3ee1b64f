(** C53: poll and select. *)
From Verif Require Import Lib Poll_Model Poll_Spec Poll_Proofs Poll_Proofs2.

(** A sleeping poll never has a ready file whose condition is not still to be signalled. What is missing: signals taken by another waiter, see the refutation. *)
Theorem C53_no_lost_event_partial : forall n tmo t0 r0 s, reach n tmo t0 r0 s -> asleep s -> forall i, 0 <= i < n -> ready s i = true -> due s i = true.
Proof. exact no_lost. Qed.
Print Assumptions C53_no_lost_event_partial.

(** That signal wakes it, and left alone it returns a positive count. *)
Theorem C53_signal_reports : forall n tmo t0 r0 s i, reach n tmo t0 r0 s -> asleep s -> pending s = false -> 0 <= i < n -> ready s i = true ->
  exists k, pc (times k (alone n tmo) (signal s i)) = Done Ready.
Proof. exact signal_reports. Qed.
Print Assumptions C53_signal_reports.

(** While asleep it is registered on all its conditions, whatever was signalled and rearmed before. *)
Theorem C53_registered : forall n tmo t0 r0 s, reach n tmo t0 r0 s -> asleep s -> forall i, 0 <= i < n -> linked s i = true.
Proof. exact registered_all. Qed.
Print Assumptions C53_registered.

(** It returns 0 only after its timeout, so never with an infinite one. *)
Theorem C53_zero_means_timeout : forall n tmo t0 r0 s, reach n tmo t0 r0 s -> pc s = Done Zero -> exists t, tmo = Some t /\ t0 + t <= now s.
Proof. exact zero_timeout. Qed.
Print Assumptions C53_zero_means_timeout.

(** It returns EINTR only for a pending signal. *)
Theorem C53_eintr_means_signal : forall n tmo t0 r0 s, reach n tmo t0 r0 s -> pc s = Done Eintr -> pending s = true.
Proof. exact eintr_pending. Qed.
Print Assumptions C53_eintr_means_signal.

(** It never returns a positive count when no file was ready at any moment. *)
Theorem C53_ready_means_ready : forall n tmo t0 r0 s, reach_never n tmo t0 r0 s -> pc s <> Done Ready.
Proof. exact never_ready. Qed.
Print Assumptions C53_ready_means_ready.

(** With a timeout it sleeps only with the timer armed, not before the end of the timeout. *)
Theorem C53_timer_armed : forall n tmo t0 r0 s t, reach n tmo t0 r0 s -> asleep s -> tmo = Some t -> exists e, timer s = Some e /\ t0 + t <= e.
Proof. exact sleeps_armed. Qed.
Print Assumptions C53_timer_armed.

(** When the timer fires it returns 0. *)
Theorem C53_timer_returns : forall n tmo t0 r0 s s', reach n tmo t0 r0 s -> asleep s -> pending s = false -> step n tmo s Fire = Some s' ->
  exists k, pc (times k (alone n tmo) s') = Done Zero.
Proof. exact fire_returns. Qed.
Print Assumptions C53_timer_returns.

(** When a POSIX signal arrives it returns EINTR. *)
Theorem C53_signal_interrupts : forall n tmo t0 r0 s s', reach n tmo t0 r0 s -> asleep s -> step n tmo s Posix = Some s' ->
  exists k, pc (times k (alone n tmo) s') = Done Eintr.
Proof. exact posix_returns. Qed.
Print Assumptions C53_signal_interrupts.

(** When it has returned nothing of its waiter is left in any list, and its timer is not armed. *)
Theorem C53_done_clean : forall n tmo t0 r0 s r, reach n tmo t0 r0 s -> pc s = Done r -> (forall i, linked s i = false) /\ signaled s = [] /\ timer s = None.
Proof. exact done_clean. Qed.
Print Assumptions C53_done_clean.

(** What it returns at once: the files are the ones asked for, every reported event is true, and the count is the number of open files with an event. What is missing: all the events, POLLNVAL in the count, see the refutations. *)
Theorem C53_reports_honest_partial : forall handle l tmo l' c sl, sys_poll handle l tmo = Returns l' c sl ->
  Forall2 (kept true) l l' /\ Forall (honest handle) l' /\ c = zlen (filter (nonzero handle) l').
Proof. exact poll_honest. Qed.
Print Assumptions C53_reports_honest_partial.

(** A file ready for a requested event is reported at once. *)
Theorem C53_ready_at_once : forall handle l tmo, (exists p, In p l /\ reports handle p) -> exists l' c, sys_poll handle l tmo = Returns l' c false /\ c > 0.
Proof. exact poll_ready. Qed.
Print Assumptions C53_ready_at_once.

(** It waits only with a non-zero timeout and nothing to report. *)
Theorem C53_waits_unready : forall handle l tmo l', sys_poll handle l tmo = Waits l' -> tmo <> 0 /\ ~ (exists p, In p l' /\ reports handle p).
Proof. exact poll_waits. Qed.
Print Assumptions C53_waits_unready.

(** Before waiting, the alternative names of the events are unified *)
Theorem C53_names_unified : forall handle p p' c, prep_fd handle p = (p', c) -> handle (p_fd p) <> None ->
  (wants_in (p_events p') <-> exists b, In b [0; 1; 6; 7] /\ Z.testbit (p_events p) b = true) /\
  (wants_out (p_events p') <-> exists b, In b [2; 8; 9] /\ Z.testbit (p_events p) b = true).
Proof. exact prep_names. Qed.
Print Assumptions C53_names_unified.

(** With kcond_signal_one taken by another waiter, the poll sleeps on, with a ready file and nothing to wake it. *)
Theorem C53_other_waiter_refuted : exists s, reach_any 1 None 0 (fun _ => false) s /\ asleep s /\ ready s 0 = true /\ due s 0 = false /\ timer s = None.
Proof. exact lost_wakeup. Qed.
Print Assumptions C53_other_waiter_refuted.

(** A file readable and writable is not reported as writable. *)
Theorem C53_all_events_refuted : exists handle l l' p c, sys_poll handle l 0 = Returns l' c false /\ In p l' /\
  (exists f, handle (p_fd p) = Some f /\ write_ready f = true) /\ wants_out (p_events p) /\ ~ wants_out (p_revents p) /\ p_revents p <> 0.
Proof. exact both_ready. Qed.
Print Assumptions C53_all_events_refuted.

(** A descriptor with POLLNVAL reported is not counted; a negative descriptor is not ignored. *)
Theorem C53_count_refuted : exists handle l l' p, sys_poll handle l 0 = Returns l' 0 false /\ In p l' /\ p_fd p = -1 /\ p_revents p <> 0.
Proof. exact nval_uncounted. Qed.
Print Assumptions C53_count_refuted.

(** POLLRDNORM is never reported with timeout 0, but is with another timeout. *)
Theorem C53_names_refuted : exists handle l l' p f, sys_poll handle l 0 = Returns l' 0 false /\ In p l' /\ p_events p = POLLRDNORM /\ handle (p_fd p) = Some f /\ read_ready f = true /\
  (exists l2, sys_poll handle l 1 = Returns l2 1 false).
Proof. exact rdnorm_ignored. Qed.
Print Assumptions C53_names_refuted.

(** With an infinite timeout and files without conditions it returns 0 at once. *)
Theorem C53_infinite_refuted : exists handle l l', sys_poll handle l (-1) = Returns l' 0 false.
Proof. exact infinite_zero. Qed.
Print Assumptions C53_infinite_refuted.

(** A file without read_ready function opened read-only is never readable. *)
Theorem C53_read_only_refuted : forall f, f_read f = None -> f_flags f = 0 -> read_ready f = false.
Proof. exact rdonly_unready. Qed.
Print Assumptions C53_read_only_refuted.

(** A select with zero timeout waits. *)
Theorem C53_select_poll_refuted : select_ticks 0 0 = 1 /\ select_blocks (Some (0, 0)) = true.
Proof. exact select_sleeps. Qed.
Print Assumptions C53_select_poll_refuted.

(** The ticks of a select fit in 32 bits. *)
Theorem C53_select_ticks : forall sec usec, 1 <= select_ticks sec usec < 2 ^ 32.
Proof. exact select_bounds. Qed.
Print Assumptions C53_select_ticks.

(** Two files, one becomes ready while the poll sleeps. *)
Example C53_nontrivial :
  let s := match crun 2 (Some 5) (init (fun _ => false) 7) [Poll; Poll; Poll; Poll; Signal 1; Poll; Poll; Poll; Poll; Poll; Poll; Poll; Poll; Tick; Tick; Become 1] with Some s => s | None => init (fun _ => true) 0 end in
  state s = Sleeping /\ timer s = Some 12 /\ now s = 9 /\ ready s 1 = true /\ due s 1 = true /\
  pc (times 8 (alone 2 (Some 5)) (signal s 1)) = Done Ready.
Proof. vm_compute. repeat split. Qed.

