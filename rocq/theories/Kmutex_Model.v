(** Model of kernel/kmutex.c as a transition system.  Each function body runs
    with preemption disabled and is not called from interrupt handlers, so it
    is one atomic step of the calling task, except kmutex_lock, which has a
    second step after the task has been woken (the code after
    enter_sleep_wait_state).  Tasks are integers.  A sleeping task is woken only
    by kmutex_unlock: signals do not wake it (kernel/signal.c) and it has no
    timer.  KMUTEX_STATS and the self-test flag are not modelled. *)
From Verif Require Import Lib.

(** Where a task is with respect to the mutex: not inside a call, asleep inside
    kmutex_lock, or woken and about to continue inside kmutex_lock *)
Inductive pc := Out | Asleep | Woken.

(** struct kmutex, include/tilck/kernel/sync.h:181-192 *)
Record kmutex := mk_m {
  m_rec : bool;              (* KMUTEX_FL_RECURSIVE *)
  m_owner : option Z;
  m_count : Z;               (* u32 lock_count *)
  m_wait : list Z;           (* wait_list, as the list of waiting tasks *)
  m_pc : Z -> pc
}.

(** kmutex_init, kernel/kmutex.c:15-21 *)
Definition kmutex_init (recursive : bool) : kmutex :=
  mk_m recursive None 0 [] (fun _ => Out).

Inductive action := Lock (t : Z) | TryLock (t : Z) | Unlock (t : Z) | Resume (t : Z).

(** What callers observe: a task starts waiting, acquires, fails to acquire
    (try-lock), releases *)
Inductive event := EBlock (t : Z) | EAcq (t : Z) | EFail (t : Z) | ERel (t : Z).

(** [Disabled]: the task cannot take this step now.  [AssertFail]: a failed
    ASSERT *)
Inductive outcome := Disabled | AssertFail | Ok (m : kmutex) (ev : event).

Definition owner_is (m : kmutex) (t : Z) : bool :=
  match m_owner m with Some o => o =? t | None => false end.

(** kmutex_lock up to enter_sleep_wait_state, kernel/kmutex.c:40-85 *)
Definition lock (m : kmutex) (t : Z) : outcome :=
  match m_owner m with
  | None =>
      if m_rec m then
        if m_count m =? 0 then
          Ok (mk_m (m_rec m) (Some t) (u32 (m_count m + 1)) (m_wait m) (m_pc m)) (EAcq t)
        else AssertFail
      else Ok (mk_m (m_rec m) (Some t) (m_count m) (m_wait m) (m_pc m)) (EAcq t)
  | Some _ =>
      let sleep := Ok (mk_m (m_rec m) (m_owner m) (m_count m) (m_wait m ++ [t])
                            (fupd (m_pc m) t Asleep)) (EBlock t) in
      if m_rec m then
        if 0 <? m_count m then
          if owner_is m t then
            Ok (mk_m (m_rec m) (m_owner m) (u32 (m_count m + 1)) (m_wait m) (m_pc m)) (EAcq t)
          else sleep
        else AssertFail
      else if owner_is m t then AssertFail else sleep
  end.

(** The rest of kmutex_lock, kernel/kmutex.c:87-104 *)
Definition lock_resume (m : kmutex) (t : Z) : outcome :=
  if owner_is m t then
    if m_rec m && negb (m_count m =? 1) then AssertFail
    else Ok (mk_m (m_rec m) (m_owner m) (m_count m) (m_wait m) (fupd (m_pc m) t Out)) (EAcq t)
  else AssertFail.

(** kmutex_trylock, kernel/kmutex.c:106-142 *)
Definition trylock (m : kmutex) (t : Z) : outcome :=
  match m_owner m with
  | None =>
      Ok (mk_m (m_rec m) (Some t) (if m_rec m then u32 (m_count m + 1) else m_count m)
               (m_wait m) (m_pc m)) (EAcq t)
  | Some _ =>
      if m_rec m then
        if owner_is m t then
          Ok (mk_m (m_rec m) (m_owner m) (u32 (m_count m + 1)) (m_wait m) (m_pc m)) (EAcq t)
        else Ok m (EFail t)
      else if owner_is m t then AssertFail else Ok m (EFail t)
  end.

(** kmutex_unlock, kernel/kmutex.c:144-184 *)
Definition unlock (m : kmutex) (t : Z) : outcome :=
  if owner_is m t then
    if m_rec m && negb (0 <? m_count m) then AssertFail
    else
      let count := if m_rec m then u32 (m_count m - 1) else m_count m in
      if m_rec m && (0 <? count) then
        Ok (mk_m (m_rec m) (m_owner m) count (m_wait m) (m_pc m)) (ERel t)
      else
        match m_wait m with
        | [] => Ok (mk_m (m_rec m) None count [] (m_pc m)) (ERel t)
        | w :: ws =>
            match m_pc m w with
            | Asleep =>
                Ok (mk_m (m_rec m) (Some w) (if m_rec m then u32 (count + 1) else count) ws
                         (fupd (m_pc m) w Woken)) (ERel t)
            | _ => AssertFail
            end
        end
  else AssertFail.

(** One step of task [t]: a task inside kmutex_lock can only resume, and only
    once it is woken *)
Definition step (m : kmutex) (a : action) : outcome :=
  match a with
  | Lock t => match m_pc m t with Out => lock m t | _ => Disabled end
  | TryLock t => match m_pc m t with Out => trylock m t | _ => Disabled end
  | Unlock t => match m_pc m t with Out => unlock m t | _ => Disabled end
  | Resume t => match m_pc m t with Woken => lock_resume m t | _ => Disabled end
  end.

(** A task sleeping in kmutex_lock *)
Definition sleeping (m : kmutex) (t : Z) : Prop := m_pc m t = Asleep.
