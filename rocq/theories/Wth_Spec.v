From Verif Require Import Lib Wth_Model.

Definition quiet (s : st) : Prop := forall p, prod s p = PIdle.
(** While a call of wth_enqueue_on or the timer interrupt is in progress no other task runs *)
Definition allowed (s : st) (a : action) : Prop :=
  match a with Enqueue _ _ | Expire _ _ | Prod _ => True | _ => quiet s end.
Inductive reach (top : bool) (size : Z) : st -> Prop :=
  | R0 : reach top size init
  | RS s a s' : reach top size s -> allowed s a -> step top size s a = Some s' -> reach top size s'.

(** there is something to do for the worker *)
Definition work_left (top : bool) (s : st) : Prop := queue s <> [] \/ (top = true /\ deferred s <> []).
(** the worker waits inside a job *)
Definition in_job_wait (s : st) : Prop := exists e, pc s = WBlocked e.
(** a call in progress is going to make the worker runnable *)
Definition wake_coming (s : st) : Prop :=
  exists p, match prod s p with PCheck true true | PTick | PClear | PCas => True | _ => False end.
(** the worker, left alone with the CPU: it is given the CPU when it is runnable; its jobs
    do not block *)
Definition alone (top : bool) (s : st) : st := if on_cpu s then wstep top s else match state s with Runnable => set_w s Running true (pc s) | _ => s end.
Fixpoint times (n : nat) (f : st -> st) (s : st) : st := match n with O => s | S m => times m f (f s) end.

(** the unnamed workers of priority at least [lowest] *)
Definition eligible (lowest : Z) (w : worker) : Prop := named w = false /\ prio w <= lowest.
