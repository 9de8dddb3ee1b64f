(** Model of kernel/kcond.c on top of the mutex model: one condition variable,
    one mutex, any number of tasks.  kcond_wait up to the context switch and
    kcond_signal_one/all run with preemption disabled and are single steps.
    [armed t]: the task's wake-up timer (struct task, primary_timer) is armed.  A
    timer that fires while its task is not sleeping only makes the task's next
    sleep return at once (kernel/sched.c:1128-1161): here the same as firing
    just after that sleep starts, so firing is a step of sleeping tasks only.
    Not modelled: panic mode, multi-object waiters (see the poll model), stop
    signals (a stopped waiter is woken late, not differently). *)
From Verif Require Import Lib.
From Verif Require Kmutex_Model.

Inductive cpc :=
| COut                          (* not inside kcond_wait *)
| CAsleep (usem : bool)         (* sleeping on the condition *)
| CReady (usem : bool)          (* runnable, before wait_obj_reset *)
| CRelock (ret : bool).         (* inside the final kmutex_lock *)

Record cst := mk_c {
  c_m : Kmutex_Model.kmutex;
  c_wait : list Z;              (* wait_list of the condition *)
  c_pc : Z -> cpc;
  c_armed : Z -> bool
}.

Definition kcond_init (recursive : bool) : cst :=
  mk_c (Kmutex_Model.kmutex_init recursive) [] (fun _ => COut) (fun _ => false).

Inductive action :=
| Mutex (a : Kmutex_Model.action)
| CWait (t : Z) (timed usem : bool)     (* usem: kcond_wait got a mutex *)
| CResume (t : Z)
| CLock (t : Z)
| SignalOne
| SignalAll
| TimerFire (t : Z)
| Interrupt (t : Z).                    (* a POSIX signal for the task *)

Inductive event :=
| EMu (e : Kmutex_Model.event)
| EWait (t : Z) (timed usem : bool)
| ESignal (one : bool) (woken : list Z)
| ETimer (t : Z)
| EIntr (t : Z)
| ERet (t : Z) (ret : bool).

Inductive outcome := Disabled | AssertFail | Ok (s : cst) (evs : list event).

Definition task_of (a : Kmutex_Model.action) : Z :=
  match a with Kmutex_Model.Lock t | Kmutex_Model.TryLock t | Kmutex_Model.Unlock t | Kmutex_Model.Resume t => t end.

Definition unlink (t : Z) (l : list Z) : list Z := filter (fun x => negb (x =? t)) l.
Definition linked (s : cst) (t : Z) : bool := existsb (Z.eqb t) (c_wait s).

(** kcond_wait up to enter_sleep_wait_state, kernel/kcond.c:27-70 *)
Definition wait (s : cst) (t : Z) (timed usem : bool) : outcome :=
  if linked s t then AssertFail      (* wait_obj_set: object in use *)
  else
    let w := c_wait s ++ [t] in
    let pcs := fupd (c_pc s) t (CAsleep usem) in
    let arm := if timed then fupd (c_armed s) t true else c_armed s in
    if usem then
      if Kmutex_Model.owner_is (c_m s) t then
        if Kmutex_Model.m_rec (c_m s) && negb (Kmutex_Model.m_count (c_m s) =? 1) then AssertFail
        else
          match Kmutex_Model.unlock (c_m s) t with
          | Kmutex_Model.Ok m' e => Ok (mk_c m' w pcs arm) [EMu e; EWait t timed usem]
          | _ => AssertFail
          end
      else AssertFail
    else Ok (mk_c (c_m s) w pcs arm) [EWait t timed usem].

(** kcond_wait after waking up: wait_obj_reset, kernel/kcond.c:85 *)
Definition resume (s : cst) (t : Z) (usem : bool) : outcome :=
  let ret := negb (linked s t) in
  let w := unlink t (c_wait s) in
  if usem then Ok (mk_c (c_m s) w (fupd (c_pc s) t (CRelock ret)) (c_armed s)) []
  else Ok (mk_c (c_m s) w (fupd (c_pc s) t COut) (c_armed s)) [ERet t ret].

(** The final kmutex_lock of kcond_wait, kernel/kcond.c:87-89 *)
Definition relock (s : cst) (t : Z) (ret : bool) : outcome :=
  let fin m' (e : Kmutex_Model.event) :=
    match e with
    | Kmutex_Model.EAcq _ => Ok (mk_c m' (c_wait s) (fupd (c_pc s) t COut) (c_armed s)) [EMu e; ERet t ret]
    | _ => Ok (mk_c m' (c_wait s) (c_pc s) (c_armed s)) [EMu e]
    end in
  match Kmutex_Model.m_pc (c_m s) t with
  | Kmutex_Model.Out => match Kmutex_Model.step (c_m s) (Kmutex_Model.Lock t) with
             | Kmutex_Model.Ok m' e => fin m' e | Kmutex_Model.AssertFail => AssertFail | Kmutex_Model.Disabled => Disabled end
  | Kmutex_Model.Woken => match Kmutex_Model.step (c_m s) (Kmutex_Model.Resume t) with
             | Kmutex_Model.Ok m' e => fin m' e | Kmutex_Model.AssertFail => AssertFail | Kmutex_Model.Disabled => Disabled end
  | Kmutex_Model.Asleep => Disabled
  end.

(** kcond_signal_int for one wait object, single-object path,
    kernel/kcond.c:165-176: only a sleeping task is woken; its timer is
    cancelled *)
Definition signal_int (s : cst) (t : Z) : cst * list Z :=
  match c_pc s t with
  | CAsleep usem =>
      (mk_c (c_m s) (unlink t (c_wait s)) (fupd (c_pc s) t (CReady usem)) (fupd (c_armed s) t false), [t])
  | _ => (s, [])
  end.

(** kcond_signal_all, kernel/kcond.c:197-208: the loop over the list *)
Fixpoint signal_each (s : cst) (l : list Z) : cst * list Z :=
  match l with
  | [] => (s, [])
  | t :: r => let '(s1, k1) := signal_int s t in
              let '(s2, k2) := signal_each s1 r in (s2, k1 ++ k2)
  end.

Definition step (s : cst) (a : action) : outcome :=
  match a with
  | Mutex ma =>
      match c_pc s (task_of ma) with
      | COut => match Kmutex_Model.step (c_m s) ma with
                | Kmutex_Model.Ok m' e => Ok (mk_c m' (c_wait s) (c_pc s) (c_armed s)) [EMu e]
                | Kmutex_Model.AssertFail => AssertFail
                | Kmutex_Model.Disabled => Disabled
                end
      | _ => Disabled
      end
  | CWait t timed usem =>
      match c_pc s t, Kmutex_Model.m_pc (c_m s) t with
      | COut, Kmutex_Model.Out => wait s t timed usem
      | _, _ => Disabled
      end
  | CResume t => match c_pc s t with CReady usem => resume s t usem | _ => Disabled end
  | CLock t => match c_pc s t with CRelock ret => relock s t ret | _ => Disabled end
  | SignalOne =>     (* kcond_signal_one, kernel/kcond.c:179-195 *)
      match c_wait s with
      | [] => Ok s [ESignal true []]
      | t :: _ => let '(s', k) := signal_int s t in Ok s' [ESignal true k]
      end
  | SignalAll => let '(s', k) := signal_each s (c_wait s) in Ok s' [ESignal false k]
  | TimerFire t =>   (* task_primary_timer_fire, kernel/timer.c:232-260 *)
      if c_armed s t then
        match c_pc s t with
        | CAsleep usem =>
            Ok (mk_c (c_m s) (c_wait s) (fupd (c_pc s) t (CReady usem)) (fupd (c_armed s) t false)) [ETimer t]
        | _ =>
            match Kmutex_Model.m_pc (c_m s) t with
            | Kmutex_Model.Asleep =>   (* the task sleeps in kmutex_lock *)
                Ok (mk_c (Kmutex_Model.mk_m (Kmutex_Model.m_rec (c_m s)) (Kmutex_Model.m_owner (c_m s)) (Kmutex_Model.m_count (c_m s)) (Kmutex_Model.m_wait (c_m s))
                                 (fupd (Kmutex_Model.m_pc (c_m s)) t Kmutex_Model.Woken))
                         (c_wait s) (c_pc s) (fupd (c_armed s) t false)) [ETimer t]
            | _ => Disabled
            end
        end
      else Disabled
  | Interrupt t =>   (* signal_wakeup_task, kernel/signal.c:265-310: wake_up; the timer stays armed *)
      match c_pc s t with
      | CAsleep usem =>
          Ok (mk_c (c_m s) (unlink t (c_wait s)) (fupd (c_pc s) t (CReady usem)) (c_armed s)) [EIntr t]
      | _ => Disabled
      end
  end.
