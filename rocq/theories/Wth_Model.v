(** Model of one worker thread: kernel/wth.c, kernel/wth_aux.c and the part of
    kernel/timer.c:288-380 which hands deferred timers to worker 0.

    The ring buffer is used through C03: a write appends an element in one step and says
    whether the queue was empty.  Calls of wth_enqueue_on and of the timer interrupt
    ([prod], any number of them, see [ppc]) interleave freely, since each can be interrupted
    by the next; the worker runs only between them, because wth_enqueue_on disables
    preemption.  A section with interrupts disabled is one step.  A job is a number; while it
    runs it may block on some object ([WBlocked]) and is then to be woken by the owner of the
    object only.  need_resched, the choice among several runnable threads in do_schedule and
    the waiters for completion are not modelled here.  The fields after the empty line of
    [st] are not in the code. *)
From Verif Require Import Lib.

Inductive tstate := Running | Runnable | Sleeping.

Inductive ppc :=
  | PIdle
  | PCheck (success was_empty : bool)   (* wth.c, before line 123 *)
  | PTick                               (* timer.c, deferred_queued = true, before line 337 *)
  | PClear                              (* wth_aux.c, before line 35 *)
  | PCas.                               (* wth_aux.c, before line 36 *)
Inductive wpc :=
  | WTop                                (* wth.c, before line 215 *)
  | WTimers                             (* before line 191 *)
  | WRead                               (* before line 194 *)
  | WJob (e : Z)                        (* inside the job *)
  | WBlocked (e : Z)                    (* inside the job, which waits for some object *)
  | WDecide                             (* before line 223 *)
  | WLook                               (* before line 256 *)
  | WSched                              (* before line 257 *)
  | WNormal.                            (* before line 277 *)
Record st := St {
  state : tstate; on_cpu : bool; pc : wpc;
  waiting : bool;                       (* waiting_for_jobs *)
  queue : list Z; deferred : list Z;    (* rb, deferred_fire_list *)
  prod : Z -> ppc; granted : bool;      (* the object of a blocked job was given to it *)

  accepted : list Z; ran : list Z;      (* jobs accepted by wth_enqueue_on, jobs started *)
  fired : list Z; expired : list Z;     (* deferred timers whose callback was started, which expired *)
  broken : bool }.                      (* a job went on without the object it waited for *)

Section Worker.
Variable is_top : bool.    (* this is worker_threads[0] *)
Variable size : Z.         (* max_elems *)

(** wth_create_thread, lines 302-362: a new kernel thread is runnable *)
Definition init : st := St Runnable false WTop false [] [] (fun _ => PIdle) false [] [] [] [] false.

Definition set_prod (s : st) (p : Z) (x : ppc) : st :=
  St (state s) (on_cpu s) (pc s) (waiting s) (queue s) (deferred s) (fupd (prod s) p x) (granted s) (accepted s) (ran s) (fired s) (expired s) (broken s).
Definition set_w (s : st) (t : tstate) (cpu : bool) (w : wpc) : st :=
  St t cpu w (waiting s) (queue s) (deferred s) (prod s) (granted s) (accepted s) (ran s) (fired s) (expired s) (broken s).
Definition set_pc (s : st) (w : wpc) : st := set_w s (state s) (on_cpu s) w.
Definition set_waiting (s : st) (b : bool) : st :=
  St (state s) (on_cpu s) (pc s) b (queue s) (deferred s) (prod s) (granted s) (accepted s) (ran s) (fired s) (expired s) (broken s).

(** safe_ringbuf_write_elem in wth_enqueue_on, wth.c:121 *)
Definition enqueue (s : st) (p e : Z) : st :=
  if zlen (queue s) <? size
  then set_prod (St (state s) (on_cpu s) (pc s) (waiting s) (queue s ++ [e]) (deferred s) (prod s) (granted s) (accepted s ++ [e]) (ran s) (fired s) (expired s) (broken s))
                p (PCheck true (zlen (queue s) =? 0))
  else set_prod s p (PCheck false false).
(** one round of the loop of tick_all_timers for a deferred timer, timer.c:299-327 *)
Definition expire (s : st) (p t : Z) : st :=
  set_prod (St (state s) (on_cpu s) (pc s) (waiting s) (queue s) (deferred s ++ [t]) (prod s) (granted s) (accepted s) (ran s) (fired s) (expired s ++ [t]) (broken s)) p PTick.
(** the rest of wth_enqueue_on, wth.c:123-128, wth_wakeup, wth_aux.c:29-46, and
    wth_wakeup_top, wth_aux.c:48-51 *)
Definition pstep (s : st) (p : Z) : st :=
  match prod s p with
  | PIdle => s
  | PCheck ok we => set_prod s p (if ok && we && waiting s then PClear else PIdle)
  | PTick => set_prod s p PClear
  | PClear => set_waiting (set_prod s p PCas) false
  | PCas => set_prod (match state s with Sleeping => set_w s Runnable (on_cpu s) (pc s) | _ => s end) p PIdle
  end.

(** wth_run, lines 204-282, and wth_process_single_job, lines 178-202.  schedule() switches
    to another task if the worker sleeps; the worker goes on when it has been made runnable
    and is selected. *)
Definition wstep (s : st) : st :=
  match pc s with
  | WTop => set_pc (set_waiting s false) WTimers
  | WTimers =>
      if is_top then
        match deferred s with
        | [] => set_pc s WRead
        | t :: r => St (state s) (on_cpu s) (pc s) (waiting s) (queue s) r (prod s) (granted s) (accepted s) (ran s) (fired s ++ [t]) (expired s) (broken s)
        end
      else set_pc s WRead
  | WRead =>
      match queue s with
      | [] => set_pc s WDecide
      | e :: r => St (state s) (on_cpu s) (WJob e) (waiting s) r (deferred s) (prod s) (granted s) (accepted s) (ran s ++ [e]) (fired s) (expired s) (broken s)
      end
  | WJob e => set_pc s WTimers
  | WBlocked e =>
      if granted s
      then St (state s) (on_cpu s) (WJob e) (waiting s) (queue s) (deferred s) (prod s) false (accepted s) (ran s) (fired s) (expired s) (broken s)
      else St (state s) (on_cpu s) (WJob e) (waiting s) (queue s) (deferred s) (prod s) false (accepted s) (ran s) (fired s) (expired s) true
  | WDecide =>
      if (zlen (queue s) =? 0) && (negb is_top || (zlen (deferred s) =? 0))
      then set_waiting (set_w s Sleeping (on_cpu s) WLook) true
      else set_pc s WLook
  | WLook => if waiting s then set_pc s WSched else match state s with Runnable => set_pc s WNormal | _ => set_pc s WTop end
  | WSched => match state s with Sleeping => set_w s Sleeping false WTop | _ => set_w s Running true WTop end
  | WNormal => set_w s Running (on_cpu s) WTop
  end.
(** the job waits for an object: prepare_to_wait_on and enter_sleep_wait_state, for example
    in kmutex_lock (kernel/kmutex.c:79-86) *)
Definition block (s : st) (e : Z) : st :=
  St Sleeping false (WBlocked e) (waiting s) (queue s) (deferred s) (prod s) false (accepted s) (ran s) (fired s) (expired s) (broken s).
(** the owner of the object gives it to the job: wake_up (kernel/wobj.c:116-196) *)
Definition grant (s : st) : st :=
  St Runnable (on_cpu s) (pc s) (waiting s) (queue s) (deferred s) (prod s) true (accepted s) (ran s) (fired s) (expired s) (broken s).

Inductive action :=
  | Enqueue (p e : Z) | Expire (p t : Z) | Prod (p : Z)
  | Work | Block | Grant
  | Preempt | Resume.
Definition step (s : st) (a : action) : option st :=
  match a with
  | Enqueue p e => match prod s p with PIdle => Some (enqueue s p e) | _ => None end
  | Expire p t => match prod s p with PIdle | PTick => if is_top then Some (expire s p t) else None | _ => None end
  | Prod p => match prod s p with PIdle => None | _ => Some (pstep s p) end
  | Work => if on_cpu s then Some (wstep s) else None
  | Block => if on_cpu s then match pc s with WJob e => Some (block s e) | _ => None end else None
  | Grant => match pc s, granted s, on_cpu s with WBlocked _, false, false => Some (grant s) | _, _, _ => None end
  | Preempt => if on_cpu s then Some (set_w s (match state s with Running => Runnable | x => x end) false (pc s)) else None
  | Resume => if on_cpu s then None else match state s with Runnable => Some (set_w s Running true (pc s)) | _ => None end
  end.
End Worker.

(** worker_threads[]: name given?, priority, runnable? *)
Record worker := Wk { named : bool; prio : Z; runnable : bool }.
(** wth_get_runnable_thread, lines 284-300 *)
Fixpoint pick (sel : option worker) (l : list worker) : option worker :=
  match l with
  | [] => sel
  | t :: r =>
      pick (if runnable t then match sel with None => Some t | Some x => if prio t <? prio x then Some t else sel end else sel) r
  end.
Definition get_runnable_thread (l : list worker) : option worker := pick None l.
(** wth_enqueue_anywhere, lines 131-154: the index of the worker which took the job; the
    last argument says for which workers wth_enqueue_on succeeds *)
Fixpoint scan (ws : list worker) (lowest : Z) (space : nat -> bool) (i : nat) : option nat :=
  match i with
  | O => None
  | S j =>
      let w := nth j ws (Wk true 0 false) in
      if named w then scan ws lowest space j
      else if prio w >? lowest then scan ws lowest space j
      else if space j then Some j else scan ws lowest space j
  end.
Definition enqueue_anywhere (ws : list worker) (lowest : Z) (space : nat -> bool) : option nat :=
  if lowest =? 0 then (if space O then Some O else None) else scan ws lowest space (length ws).
(** wth_find_worker, lines 156-176 *)
Definition find_worker (ws : list worker) (lowest : Z) : nat :=
  if lowest =? 0 then O else match scan ws lowest (fun _ => true) (length ws) with Some i => i | None => O end.
