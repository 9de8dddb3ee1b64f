(** Model of the scheduler, kernel/sched.c, with switch_to_task (kernel/switch.c),
    wake_up (kernel/wobj.c), the tasks' timers (kernel/timer.c) and the state changes
    of kernel/signal.c and kernel/fork.c.

    Interrupts are separate actions, possible at any point at which the code runs
    with interrupts enabled; [phase] is the point reached by the code of the
    current task (preemption is disabled except in phase [Run]).  Tasks are
    identified by their tid. *)
From Verif Require Import Lib Avl_Model.

(** enum task_state, include/tilck/kernel/sched.h:16-37; [Dead]: no such task *)
Inductive tstate := Dead | Runnable | Running | Sleeping | Zombie | Stopped.
Definition st_eqb (a b : tstate) : bool :=
  match a, b with
  | Dead, Dead | Runnable, Runnable | Running, Running | Sleeping, Sleeping | Zombie, Zombie | Stopped, Stopped => true
  | _, _ => false
  end.

(** VRUNTIME_SCALE and WAKEUP_VRUNTIME_BONUS, kernel/sched.c:94-108 *)
Definition scale := 16.
Definition bonus := 160.

(** The run queue: the tasks' states and vruntimes, runnable_tree_root,
    runnable_tasks_count, sum_vruntime_in_tree *)
Record rq := Rq { ts : Z -> tstate; vr : Z -> Z; root : @tree Z; cnt : Z; sum : Z }.

Inductive phase :=
| Run                                   (* the current task's own code *)
| Wake1 (t : Z) (next : tstate)         (* wake_up, before wake_vruntime_handoff *)
| Wake2 (t : Z) (next : tstate)         (* wake_up, before task_change_state_idempotent *)
| Sched0 (cs : tstate) (rs : bool)      (* do_schedule, state and need_resched read *)
| Sched1 (cs : tstate) (rs : bool)      (* before wth_get_runnable_thread *)
| Sched2 (cs : tstate) (rs : bool)      (* before sched_do_select_runnable_task *)
| Chosen (cs : tstate) (sel : Z)
| Switch1 (sel : Z)                     (* at the start of switch_to_task *)
| Switch2 (sel : Z)                     (* [sel] is RUNNING *)
| Switch3 (sel : Z).                    (* same, the old task was a zombie *)

Record st := mk {
  q : rq;
  curr : Z;
  minv : Z;                             (* min_vruntime *)
  resched : bool;                       (* __need_resched *)
  tready : Z -> bool;                   (* timer_ready *)
  stopp : Z -> bool;                    (* stop_pending *)
  vfs : Z -> bool;                      (* vfork_stopped *)
  slice : Z -> Z; used : Z -> Z; dline : Z -> Z;
  ph : phase
}.

(** sched_runnable_cmp, kernel/sched.c:123-144, on (vruntime, tid) *)
Definition runnable_cmp (a b : Z * Z) : Z :=
  if negb (fst a =? fst b) then (if fst a <? fst b then -1 else 1) else snd a - snd b.
Definition key (v : Z -> Z) (t : Z) : Z * Z := (v t, t).

Section M.
  Variables (idle kproc : Z).           (* idle_task and kernel_process *)
  Variable workers : list Z.            (* worker_threads[] in order *)
  Variable prio : Z -> Z.               (* their priorities *)
  Variables (latency gran : Z).         (* SCHED_LATENCY_TICKS, MIN_GRANULARITY_TICKS *)

  Definition worker (t : Z) : bool := existsb (Z.eqb t) workers.
  Definition queueable (t : Z) : bool := negb (worker t) && negb (t =? idle).

  (** task_add_to_state_list, kernel/sched.c:632-728; [None]: an ASSERT fails *)
  Definition add_to_list (r : rq) (t : Z) : option rq :=
    if negb (queueable t) then Some r
    else match ts r t with
    | Runnable =>
        match insert (key (vr r)) runnable_cmp (root r) t with
        | Some (root', true) => Some (Rq (ts r) (vr r) root' (cnt r + 1) (u64 (sum r + vr r t)))
        | _ => None
        end
    | Dead => None
    | _ => Some r
    end.

  (** task_remove_from_state_list, kernel/sched.c:730-800 *)
  Definition remove_from_list (r : rq) (t : Z) : option rq :=
    if negb (queueable t) then Some r
    else match ts r t with
    | Runnable =>
        match remove (key (vr r)) runnable_cmp (root r) (key (vr r) t) with
        | Some (root', Some x) =>
            if negb (x =? t) then None
            else if negb (cnt r >=? 1) then None
            else Some (Rq (ts r) (vr r) root' (cnt r - 1) (u64 (sum r - vr r t)))
        | _ => None
        end
    | Dead => None
    | _ => Some r
    end.

  Definition set_ts (r : rq) (t : Z) (x : tstate) : rq := Rq (fupd (ts r) t x) (vr r) (root r) (cnt r) (sum r).

  (** task_change_state_unsafe, kernel/sched.c:808-817 *)
  Definition change (r : rq) (t : Z) (new : tstate) : option rq :=
    if st_eqb (ts r t) new then None
    else if st_eqb (ts r t) Zombie then None
    else match remove_from_list r t with
         | None => None
         | Some r1 => add_to_list (set_ts r1 t new) t
         end.

  (** task_change_state_idempotent, kernel/sched.c:829-838 *)
  Definition change_idem (r : rq) (t : Z) (new : tstate) : option rq :=
    if st_eqb (ts r t) new then Some r else change r t new.

  Definition set_q (s : st) (r : rq) : st := mk r (curr s) (minv s) (resched s) (tready s) (stopp s) (vfs s) (slice s) (used s) (dline s) (ph s).
  Definition set_ph (s : st) (p : phase) : st := mk (q s) (curr s) (minv s) (resched s) (tready s) (stopp s) (vfs s) (slice s) (used s) (dline s) p.
  Definition set_resched (s : st) (b : bool) : st := mk (q s) (curr s) (minv s) b (tready s) (stopp s) (vfs s) (slice s) (used s) (dline s) (ph s).
  Definition set_tready (s : st) (t : Z) (b : bool) : st := mk (q s) (curr s) (minv s) (resched s) (fupd (tready s) t b) (stopp s) (vfs s) (slice s) (used s) (dline s) (ph s).
  Definition set_stopp (s : st) (t : Z) (b : bool) : st := mk (q s) (curr s) (minv s) (resched s) (tready s) (fupd (stopp s) t b) (vfs s) (slice s) (used s) (dline s) (ph s).
  Definition set_vfs (s : st) (t : Z) (b : bool) : st := mk (q s) (curr s) (minv s) (resched s) (tready s) (stopp s) (fupd (vfs s) t b) (slice s) (used s) (dline s) (ph s).
  Definition set_curr (s : st) (t : Z) : st := mk (q s) t (minv s) (resched s) (tready s) (stopp s) (vfs s) (slice s) (used s) (dline s) (ph s).
  Definition set_vr (s : st) (t v : Z) : st :=
    set_q s (Rq (ts (q s)) (fupd (vr (q s)) t v) (root (q s)) (cnt (q s)) (sum (q s))).

  (** sched_compute_slice, kernel/sched.c:896-901 *)
  Definition compute_slice (s : st) : Z :=
    let nr := u32 (cnt (q s) + 1) in
    Z.max (u32 (latency * scale) / nr) (u32 (gran * scale)).

  (** sched_refresh_slice_deadline, kernel/sched.c:950-955 *)
  Definition refresh (s : st) (t : Z) : st :=
    let x := compute_slice s in
    mk (q s) (curr s) (minv s) (resched s) (tready s) (stopp s) (vfs s) (fupd (slice s) t x) (used s)
       (fupd (dline s) t (u64 (vr (q s) t + x))) (ph s).

  (** sched_start_quantum, kernel/sched.c:981-985 *)
  Definition start_quantum (s : st) (t : Z) : st :=
    refresh (mk (q s) (curr s) (minv s) (resched s) (tready s) (stopp s) (vfs s) (slice s) (fupd (used s) t 0) (dline s) (ph s)) t.

  (** wake_vruntime_handoff, kernel/sched.c:997-1035 *)
  Definition handoff (s : st) (t : Z) : st :=
    match ts (q s) t with
    | Sleeping =>
        let floor := if minv s >? bonus then minv s - bonus else 0 in
        refresh (if vr (q s) t <? floor then set_vr s t floor else s) t
    | _ => s
    end.

  (** sched_account_ticks, kernel/sched.c:1037-1126 *)
  Definition account_ticks (s : st) : st :=
    let c := curr s in
    let running := st_eqb (ts (q s) c) Running in
    let s := mk (q s) (curr s) (minv s) (resched s) (tready s) (stopp s) (vfs s) (slice s) (fupd (used s) c (u32 (used s c + scale))) (dline s) (ph s) in
    let s :=
      if running && negb (c =? idle) then
        let s := set_vr s c (u64 (vr (q s) c + scale)) in
        if vr (q s) c >? minv s
        then mk (q s) (curr s) (vr (q s) c) (resched s) (tready s) (stopp s) (vfs s) (slice s) (used s) (dline s) (ph s)
        else s
      else s in
    let timeout := negb (worker c) && (used s c >=? slice s c) in
    if negb running || timeout then set_resched s true else s.

  (** task_primary_timer_fire, kernel/timer.c:228-260 *)
  Definition timer_fire (s : st) (t : Z) : option st :=
    let s := set_tready s t true in
    match ts (q s) t with
    | Sleeping =>
        let next := if stopp s t then Stopped else Runnable in
        let s := if stopp s t then set_stopp s t false else s in
        let s := if st_eqb next Runnable then handoff s t else s in
        match change (q s) t next with
        | None => None
        | Some r => Some (set_resched (set_q s r) true)
        end
    | _ => Some s
    end.

  (** wth_wakeup, kernel/wth_aux.c:29-46 *)
  Definition wth_wakeup (s : st) (t : Z) : st :=
    let s := match ts (q s) t with Sleeping => set_q s (set_ts (q s) t Runnable) | _ => s end in
    if negb (worker (curr s)) || (prio t <? prio (curr s)) then set_resched s true else s.

  (** wth_get_runnable_thread, kernel/wth.c:285-300 *)
  Fixpoint runnable_worker (f : Z -> tstate) (l : list Z) (sel : option Z) : option Z :=
    match l with
    | [] => sel
    | t :: l =>
        runnable_worker f l
          (if st_eqb (f t) Runnable then
             match sel with None => Some t | Some x => if prio t <? prio x then Some t else sel end
           else sel)
    end.

  (** sched_do_select_runnable_task, kernel/sched.c:1163-1250, and the fallback to idle
      of do_schedule (line 1283); [None]: the ASSERT on the selected task fails *)
  Definition select (s : st) (cs : tstate) (rs : bool) : option Z :=
    let first := get_first (root (q s)) in
    if match first with Some t => negb (st_eqb (ts (q s) t) Runnable) | None => false end then None
    else
      let sel := match first with Some t => Some t | None => if st_eqb cs Running then Some (curr s) else None end in
      match sel with
      | None => Some idle
      | Some x =>
          if negb rs && negb (curr s =? idle) && st_eqb cs Running && (vr (q s) (curr s) <? vr (q s) x)
          then Some (curr s) else Some x
      end.

  (** sched_compute_avg_vruntime and sched_is_eligible, kernel/sched.c:914-939 (used by the tests) *)
  Definition avg_vruntime (s : st) : Z := u64 (sum (q s) + vr (q s) (curr s)) / u32 (cnt (q s) + 1).
  Definition is_eligible (s : st) (t : Z) : bool := vr (q s) t <=? avg_vruntime s.

  Inductive action :=
  (* interrupts *)
  | Tick | TimerFire (t : Z) | WthWake (t : Z)
  (* the current task's code, in phase Run *)
  | Sleep                               (* prepare_to_wait_on, kernel_sleep, sys_pause, wth_run *)
  | Wake (t : Z)                        (* wake_up *)
  | Stop (t : Z) | Cont (t : Z) | Kill (t : Z)
  | Fork (t : Z)
  | Vfork | VforkDone (t : Z)
  | Exit | Reap (t : Z)
  | CancelTimer (t : Z)
  | WthNormalize                        (* the end of wth_run's loop *)
  | Schedule                            (* do_schedule is called *)
  (* the next step of wake_up or of the scheduler *)
  | Next.

  Definition with_q (s : st) (o : option rq) : option st := match o with Some r => Some (set_q s r) | None => None end.

  (** wake_up, kernel/wobj.c:116-195: up to the handoff *)
  Definition wake_up (s : st) (t : Z) : option st :=
    if t =? curr s then Some s
    else if stopp s t then Some (set_ph (set_stopp s t false) (Wake1 t Stopped))
    else Some (set_ph s (Wake1 t Runnable)).

  Definition next (s : st) : option st :=
    match ph s with
    | Run => None
    | Wake1 t nx =>
        let s := if st_eqb nx Runnable then
                   let s := handoff s t in
                   if negb (curr s =? idle) && negb (worker (curr s)) then set_resched s true else s
                 else s in
        Some (set_ph s (Wake2 t nx))
    | Wake2 t nx => with_q (set_ph s Run) (change_idem (q s) t nx)
    (* sched_should_return_immediately, kernel/sched.c:1128-1160 *)
    | Sched0 cs rs =>
        if st_eqb cs Zombie then Some (set_ph s (Sched1 cs rs))
        else if tready s (curr s) then
          match (if negb (st_eqb cs Running) then change (q s) (curr s) Running else Some (q s)) with
          | None => None
          | Some r => Some (set_ph (set_tready (set_q s r) (curr s) false) Run)
          end
        else Some (set_ph s (Sched1 cs rs))
    | Sched1 cs rs =>
        match runnable_worker (ts (q s)) workers None with
        | Some w => Some (set_ph s (Chosen cs w))
        | None => Some (set_ph s (Sched2 cs rs))
        end
    | Sched2 cs rs => match select s cs rs with Some x => Some (set_ph s (Chosen cs x)) | None => None end
    (* the end of do_schedule, kernel/sched.c:1286-1332 *)
    | Chosen cs sel =>
        if negb (sel =? curr s) then
          if st_eqb cs Running then with_q (set_ph (refresh s (curr s)) (Switch1 sel)) (change (q s) (curr s) Runnable)
          else Some (set_ph s (Switch1 sel))
        else
          match change_idem (q s) (curr s) Running with
          | None => None
          | Some r => if st_eqb cs Zombie then None
                      else Some (set_ph (start_quantum (set_tready (set_q s r) (curr s) false) sel) Run)
          end
    (* switch_to_task, kernel/switch.c:338-412 *)
    | Switch1 sel =>
        if negb (sel =? curr s) && (st_eqb (ts (q s) (curr s)) Running || negb (st_eqb (ts (q s) sel) Runnable)) then None
        else match change_idem (q s) sel Running with
             | None => None
             | Some r => Some (set_ph (start_quantum (set_q s r) sel) (Switch2 sel))
             end
    | Switch2 sel =>
        if st_eqb (ts (q s) (curr s)) Zombie then Some (set_ph (set_curr s kproc) (Switch3 sel))
        else Some (set_ph (set_tready (set_curr s sel) sel false) Run)
    | Switch3 sel => Some (set_ph (set_tready (set_curr s sel) sel false) Run)
    end.

  Definition step (s : st) (a : action) : option st :=
    match a with
    | Tick => Some (account_ticks s)
    | TimerFire t => timer_fire s t
    | WthWake t => Some (wth_wakeup s t)
    | Sleep => with_q s (change (q s) (curr s) Sleeping)
    | Wake t => wake_up s t
    (* action_stop, kernel/signal.c:360-367; sys_tilck's stop, kernel/syscalls.c:296-299, is a case of it *)
    | Stop t =>
        match ts (q s) t with
        | Sleeping => Some (set_stopp s t true)
        | Running | Runnable => with_q s (change (q s) t Stopped)
        | _ => Some s
        end
    (* action_continue, kernel/signal.c:378-404 *)
    | Cont t =>
        if vfs s t then Some s
        else match ts (q s) t with
             | Stopped => with_q s (change (q s) t Runnable)
             | Sleeping => if stopp s t then Some (set_stopp s t false) else Some s
             | _ => Some s
             end
    (* signal_wakeup_task, kernel/signal.c:262-311, for a task that may be woken up *)
    | Kill t =>
        if vfs s t then Some s
        else let s := set_stopp s t false in
             match ts (q s) t with
             | Sleeping => wake_up s t
             | Stopped => with_q s (change (q s) t Runnable)
             | _ => Some s
             end
    (* fork_vruntime_handoff (kernel/sched.c:968-972), then add_task (840-863) *)
    | Fork t =>
        let s := refresh (set_vr s t (minv s)) t in
        let s := mk (q s) (curr s) (minv s) (resched s) (fupd (tready s) t false) (fupd (stopp s) t false) (fupd (vfs s) t false) (slice s) (fupd (used s) t 0) (dline s) (ph s) in
        with_q s (add_to_list (set_ts (q s) t Runnable) t)
    (* kernel/fork.c:131-132 *)
    | Vfork => with_q (set_vfs s (curr s) true) (change (q s) (curr s) Stopped)
    (* unblock_parent_of_vforked_child, kernel/process.c:544-558 *)
    | VforkDone t =>
        if negb (st_eqb (ts (q s) t) Stopped) || negb (vfs s t) then None
        else with_q (set_vfs s t false) (change (q s) t Runnable)
    | Exit => with_q s (change (q s) (curr s) Zombie)
    (* remove_task, kernel/sched.c:865-882 *)
    | Reap t =>
        if negb (st_eqb (ts (q s) t) Zombie) then None
        else match remove_from_list (q s) t with
             | None => None
             | Some r => Some (set_q s (set_ts r t Dead))
             end
    | CancelTimer t => Some (set_tready s t false)
    | WthNormalize => match ts (q s) (curr s) with Runnable => with_q s (change (q s) (curr s) Running) | _ => Some s end
    | Schedule => Some (set_ph (set_resched s false) (Sched0 (ts (q s) (curr s)) (resched s)))
    | Next => next s
    end.

  (** After init_sched, kernel/sched.c:583-630: only idle exists, outside the tree; the
      boot code runs as kernel_process *)
  Definition st_init : st :=
    mk (Rq (fun t => if t =? idle then Runnable else if t =? kproc then Sleeping else Dead) (fun _ => 0) E 0 0)
       kproc 0 false (fun _ => false) (fun _ => false) (fun _ => false) (fun _ => 0) (fun _ => 0) (fun _ => 0) Run.
End M.
