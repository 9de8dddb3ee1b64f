(** Model of kernel/ksem.c as a transition system.  ksem_signal and each stretch
    of ksem_wait between sleeps run with preemption disabled and are atomic
    with respect to other tasks.  Time is abstract: a timed waiter's wake-up
    timer may fire at any moment ([TimerFire]); whether the deadline test
    "get_ticks() >= end_ticks" holds is chosen by the schedule ([expired]),
    except that it holds once the timer has fired, because the timer is armed
    for a tick not earlier than end_ticks (kernel/timer.c:122-151).  A timer that
    fires before the task is asleep makes the scheduler return at once
    (kernel/sched.c:1137-1158): here the same as firing just after. *)
From Verif Require Import Lib.

Inductive timeout := Forever | NoWait | Timed.

Inductive pc :=
| Out                                            (* not inside ksem_wait *)
| Asleep (units : Z) (timed : bool)
| Woken (units : Z) (timed : bool) (fired : bool).  (* runnable inside ksem_wait *)

(** struct ksem, include/tilck/kernel/sync.h:150-155, and the state of the tasks
    using it; wait_list as the list of (task, units) *)
Record ksem := mk_s {
  s_max : option Z;        (* None: KSEM_NO_MAX *)
  s_cnt : Z;               (* int *)
  s_wait : list (Z * Z);
  s_pc : Z -> pc
}.

(** ksem_init, kernel/ksem.c:11-17 *)
Definition ksem_init (val : Z) (max : option Z) : ksem := mk_s max val [] (fun _ => Out).

Inductive action :=
| Wait (t units : Z) (tmo : timeout) (expired : bool)
| Resume (t : Z) (expired : bool)
| Signal (units : Z)
| TimerFire (t : Z).

Inductive event :=
| EGrant (t units : Z)       (* ksem_wait returned 0 *)
| ENotGranted (t units : Z)  (* ksem_wait returned -ETIME *)
| EInvalid                   (* -EINVAL *)
| EBlock (t units : Z)       (* the task goes to sleep *)
| ESignalled (units : Z)     (* ksem_signal returned 0 *)
| EQuota (units : Z)         (* ksem_signal returned -EDQUOT *)
| ETick.

Inductive outcome := Disabled | AssertFail | Ok (s : ksem) (ev : event).

Definition linked (s : ksem) (t : Z) : bool := existsb (fun x => fst x =? t) (s_wait s).
Definition unlink (t : Z) (l : list (Z * Z)) : list (Z * Z) :=
  filter (fun x => negb (fst x =? t)) l.

(** The exit of ksem_wait: wait_obj_reset (kernel/ksem.c:65), then
    kernel/ksem.c:84-91 *)
Definition finish (s : ksem) (t units : Z) : outcome :=
  let w := unlink t (s_wait s) in
  let pcs := fupd (s_pc s) t Out in
  if units <=? s_cnt s then Ok (mk_s (s_max s) (s32 (s_cnt s - units)) w pcs) (EGrant t units)
  else Ok (mk_s (s_max s) (s_cnt s) w pcs) (ENotGranted t units).

(** The loop of ksem_do_wait, kernel/ksem.c:45-60, entered with preemption
    disabled: leaves, or links the task and sleeps *)
Definition wait_loop (s : ksem) (t units : Z) (timed expired : bool) : outcome :=
  if s_cnt s <? units then
    if timed && expired then finish s t units
    else if linked s t then AssertFail      (* wait_obj_set: wobj already in use *)
    else Ok (mk_s (s_max s) (s_cnt s) (s_wait s ++ [(t, units)])
                  (fupd (s_pc s) t (Asleep units timed))) (EBlock t units)
  else finish s t units.

(** ksem_wait, kernel/ksem.c:68-92 *)
Definition wait (s : ksem) (t units : Z) (tmo : timeout) (expired : bool) : outcome :=
  if 0 <? units then
    if match s_max s with Some mx => mx <? units | None => false end then Ok s EInvalid
    else
      match tmo with
      | NoWait =>
          if units <=? s_cnt s
          then Ok (mk_s (s_max s) (s32 (s_cnt s - units)) (s_wait s) (s_pc s)) (EGrant t units)
          else Ok s (ENotGranted t units)
      | Forever => wait_loop s t units false expired
      | Timed => wait_loop s t units true expired
      end
  else AssertFail.

(** The list_for_each loop of ksem_signal, kernel/ksem.c:126-143: returns the
    tasks left in the list and the task states.  wake_up unlinks the task and
    makes it runnable; a task whose timer fired already is only unlinked. *)
Definition wake_pc (p : pc) : pc :=
  match p with Asleep u timed => Woken u timed false | p => p end.
Fixpoint signal_loop (rem : Z) (l : list (Z * Z)) (pcs : Z -> pc) : list (Z * Z) * (Z -> pc) :=
  match l with
  | [] => ([], pcs)
  | (t, wu) :: r =>
      if rem <=? 0 then (l, pcs)
      else if wu <=? rem then signal_loop (rem - wu) r (fupd pcs t (wake_pc (pcs t)))
      else let '(r', pcs') := signal_loop rem r pcs in ((t, wu) :: r', pcs')
  end.

(** ksem_signal, kernel/ksem.c:94-148 *)
Definition signal (s : ksem) (units : Z) : outcome :=
  if 0 <? units then
    if match s_max s with Some mx => mx <? units | None => false end then Ok s EInvalid
    else if match s_max s with Some mx => s32 (mx - units) <? s_cnt s | None => false end
    then Ok s (EQuota units)
    else
      let cnt := s32 (s_cnt s + units) in
      let '(w, pcs) := signal_loop cnt (s_wait s) (s_pc s) in
      Ok (mk_s (s_max s) cnt w pcs) (ESignalled units)
  else AssertFail.

Definition step (s : ksem) (a : action) : outcome :=
  match a with
  | Wait t units tmo expired =>
      match s_pc s t with Out => wait s t units tmo expired | _ => Disabled end
  | Resume t expired =>
      match s_pc s t with
      | Woken units timed fired => wait_loop s t units timed (expired || fired)
      | _ => Disabled
      end
  | Signal units => signal s units
  | TimerFire t =>     (* task_primary_timer_fire, kernel/timer.c:232-260 *)
      match s_pc s t with
      | Asleep units true => Ok (mk_s (s_max s) (s_cnt s) (s_wait s)
                                      (fupd (s_pc s) t (Woken units true true))) ETick
      | Woken units true _ => Ok (mk_s (s_max s) (s_cnt s) (s_wait s)
                                      (fupd (s_pc s) t (Woken units true true))) ETick
      | _ => Disabled
      end
  end.
