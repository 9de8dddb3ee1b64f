From Verif Require Import Lib Poll_Model.

(** Signals reach the polling task (kcond_signal_all, or no other waiter before it); with
    preemption disabled only ticks pass *)
Definition allowed (n : Z) (s : st) (a : action) : Prop :=
  match a with
  | SignalOther _ => False
  | Become i | Unready i | Signal i => 0 <= i < n /\ (forall el, pc s <> Arm el)
  | Posix => forall el, pc s <> Arm el
  | _ => True
  end.
Inductive reach (n : Z) (tmo : option Z) (t0 : Z) (r0 : Z -> bool) : st -> Prop :=
  | R0 : reach n tmo t0 r0 (init r0 t0)
  | RS s a s' : reach n tmo t0 r0 s -> allowed n s a -> step n tmo s a = Some s' -> reach n tmo t0 r0 s'.
(** with signals which go to other waiters *)
Definition allowed_any (n : Z) (s : st) (a : action) : Prop :=
  match a with SignalOther i => 0 <= i < n /\ (forall el, pc s <> Arm el) | _ => allowed n s a end.
Inductive reach_any (n : Z) (tmo : option Z) (t0 : Z) (r0 : Z -> bool) : st -> Prop :=
  | Y0 : reach_any n tmo t0 r0 (init r0 t0)
  | YS s a s' : reach_any n tmo t0 r0 s -> allowed_any n s a -> step n tmo s a = Some s' -> reach_any n tmo t0 r0 s'.

(** runs in which no source is ever ready *)
Inductive reach_never (n : Z) (tmo : option Z) (t0 : Z) (r0 : Z -> bool) : st -> Prop :=
  | N0 : (forall i, 0 <= i < n -> r0 i = false) -> reach_never n tmo t0 r0 (init r0 t0)
  | NS s a s' : reach_never n tmo t0 r0 s -> step n tmo s a = Some s' ->
      (forall i, 0 <= i < n -> ready s' i = false) -> reach_never n tmo t0 r0 s'.

Definition asleep (s : st) : Prop := state s = Sleeping.
(** the task, left alone with the CPU *)
Definition alone (n : Z) (tmo : option Z) (s : st) : st :=
  match state s with Running => pstep n tmo s | Runnable => set_wait s Running (wobj s) (pc s) | Sleeping => s end.
Fixpoint times (k : nat) (f : st -> st) (s : st) : st := match k with O => s | S m => times m f (f s) end.

(** ** Reports *)
(** the events requested, the alternative names included *)
Definition wants_in (e : Z) : Prop := Z.testbit e 0 = true.
Definition wants_out (e : Z) : Prop := Z.testbit e 2 = true.
(** a file has something to report *)
Definition reportable (f : file) (e : Z) : Prop :=
  (wants_in e /\ read_ready f = true) \/ (wants_out e /\ write_ready f = true) \/ except_ready f <> 0.
Definition reports (handle : Z -> option file) (p : pollfd) : Prop := exists f, handle (p_fd p) = Some f /\ reportable f (p_events p).
(** the reported events are true *)
Definition honest (handle : Z -> option file) (p : pollfd) : Prop :=
  match handle (p_fd p) with
  | None => p_revents p = POLLNVAL
  | Some f =>
      p_revents p = 0 \/ (p_revents p = POLLIN /\ read_ready f = true) \/ (p_revents p = POLLOUT /\ write_ready f = true) \/
      (except_ready f > 0 /\ p_revents p = except_ready f) \/ (except_ready f < 0 /\ p_revents p = POLLERR)
  end.
(** the open files with something reported *)
Definition nonzero (handle : Z -> option file) (p : pollfd) : bool :=
  match handle (p_fd p) with Some _ => negb (p_revents p =? 0) | None => false end.
(** what the caller asked for is kept; [wide]: events of the alternative names may be added *)
Definition kept (wide : bool) (p p' : pollfd) : Prop :=
  p_fd p' = p_fd p /\ (if wide then forall b, Z.testbit (p_events p) b = true -> Z.testbit (p_events p') b = true else p_events p' = p_events p).
