(** Property C14 (and a refutation for C10).  Specification in Kcond_Spec.v:
    [reach] ranges over every interleaving of waits, signals, timer expiries and
    POSIX signals in which no POSIX signal interrupts a timed wait; [reach_any]
    drops that restriction. *)
From Verif Require Import Lib Kcond_Model Kcond_Spec Kcond_Proofs.
From Verif Require Kmutex_Model Kmutex_Spec.

(** A wait registers the task and releases the mutex in one step; from then on
    the task counts as waiting *)
Theorem C14_registered_before_release :
  forall r s tr t timed usem s' evs, reach r s tr -> allowed r s tr (CWait t timed usem) ->
  step s (CWait t timed usem) = Ok s' evs ->
  waiting (tr ++ evs) = waiting tr ++ [t] /\ (usem = true -> ~ holds (tr ++ evs) t).
Proof. exact wait_registers. Qed.
Print Assumptions C14_registered_before_release.

(** The waiting tasks of the history are exactly the ones asleep *)
Theorem C14_waiting_iff_asleep :
  forall r s tr t, reach r s tr -> (In t (waiting tr) <-> exists u, c_pc s t = CAsleep u).
Proof. exact waiting_iff. Qed.
Print Assumptions C14_waiting_iff_asleep.

(** Signal-all wakes exactly the waiting tasks, in their order *)
Theorem C14_signal_all_wakes_all :
  forall r s tr s' evs, reach r s tr -> step s SignalAll = Ok s' evs ->
  evs = [ESignal false (waiting tr)] /\ waiting (tr ++ evs) = [].
Proof. exact signal_all_wakes. Qed.
Print Assumptions C14_signal_all_wakes_all.

(** Signal-one wakes exactly the oldest waiting task, provided no task whose
    timer expired has yet to run *)
Theorem C14_signal_one_wakes_oldest_partial :
  forall r s tr s' evs, reach r s tr -> none_expired s tr ->
  step s SignalOne = Ok s' evs ->
  evs = [ESignal true (firstn 1 (waiting tr))] /\ waiting (tr ++ evs) = skipn 1 (waiting tr).
Proof. exact signal_one_oldest. Qed.
Print Assumptions C14_signal_one_wakes_oldest_partial.

(** Otherwise a signal can reach nobody although a task waits *)
Theorem C14_signal_one_swallowed_refuted :
  exists s tr s', reach false s tr /\ waiting tr = [2] /\
  step s SignalOne = Ok s' [ESignal true []] /\ waiting (tr ++ [ESignal true []]) = [2].
Proof. exact signal_swallowed. Qed.
Print Assumptions C14_signal_one_swallowed_refuted.

(** A wait returns true only after a signal or an interruption, false only after
    its timer, and a wait with a mutex returns owning it *)
Theorem C14_return_reason_and_ownership :
  forall r s tr a s' evs t b, reach r s tr -> allowed r s tr a -> quiet s a ->
  step s a = Ok s' evs -> In (ERet t b) evs ->
  (if b then why tr t = BySignal \/ why tr t = ByInterrupt else why tr t = ByTimer) /\
  ((a = CLock t /\ holds (tr ++ evs) t) \/ (a = CResume t /\ c_pc s t = CReady false)).
Proof. exact return_reason. Qed.
Print Assumptions C14_return_reason_and_ownership.

(** A wait without timeout can return "signalled" although nobody signalled *)
Theorem C14_spurious_return_refuted :
  exists s tr, reach false s tr /\ In (ERet 1 true) tr /\ (forall b k, In (ESignal b k) tr -> False).
Proof. exact spurious_return. Qed.
Print Assumptions C14_spurious_return_refuted.

Theorem C14_no_assertion_fails :
  forall r s tr a, reach r s tr -> allowed r s tr a -> quiet s a -> step s a <> AssertFail.
Proof. exact no_assert_fail. Qed.
Print Assumptions C14_no_assertion_fails.

(** The timer of an interrupted wait stays armed and later wakes the task out of
    kmutex_lock while another task holds the mutex (the ASSERT after the sleep
    fails; a build without assertions returns from kmutex_lock) *)
Theorem C10_stale_timer_refuted :
  exists s tr, reach_any false s tr /\ holds tr 2 /\
  Kmutex_Model.m_owner (c_m s) = Some 2 /\
  step s (Mutex (Kmutex_Model.Resume 1)) = AssertFail.
Proof. exact stale_timer. Qed.
Print Assumptions C10_stale_timer_refuted.

Definition demo : list action :=
  [Mutex (Kmutex_Model.Lock 1); CWait 1 false true; Mutex (Kmutex_Model.Lock 2); CWait 2 true true;
   Mutex (Kmutex_Model.Lock 3); SignalOne; CResume 1; CLock 1; TimerFire 2; CResume 2; CLock 2;
   Mutex (Kmutex_Model.Unlock 3); CLock 1].
Example C14_nontrivial :
  match run (kcond_init false) demo with
  | Some (s, tr) => run_ok false (kcond_init false) [] demo /\
      holds tr 1 /\ ~ holds tr 3 /\ In (ERet 1 true) tr /\ why tr 2 = ByTimer /\ waiting tr = []
  | None => False
  end.
Proof. vm_compute. repeat split; auto; try (intros H; discriminate). tauto. Qed.
