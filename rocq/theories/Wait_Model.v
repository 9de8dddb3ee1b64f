(** Model of fork, exit, wait4, stop and continue: kernel/waitpid.c, kernel/exit.c:56-96
    and 208-330, kernel/fork.c:58-175, kernel/process.c:158-180 and 541-560,
    kernel/signal.c:262-400, kernel/wobj.c:56-190.

    Every transition below runs with preemption disabled in the code, so that it is one
    step.  Process ids are given by the caller of [Fork]: C28 is about them.  User
    processes have one thread.  Of the task states, RUNNING and RUNNABLE are both [Run]
    (C26 is about the difference).  A SIGCHLD with a handler wakes up the parent: this is
    a separate step, [SigWake].  Kernel threads (which wait for each other with
    kthread_join) are not modelled. *)
From Verif Require Import Lib.

(** enum task_state *)
Inductive tstate := Run | Sleep | Stop | Zomb.
Definition st_eqb (a b : tstate) : bool :=
  match a, b with Run, Run | Sleep, Sleep | Stop, Stop | Zomb, Zomb => true | _, _ => false end.

(** wait options: WNOHANG, WUNTRACED, WCONTINUED; the last two are wait_obj.extra *)
Record opts := Opts { nohang : bool; untraced : bool; continued : bool }.
Inductive reason := died | stopped | cont.

(** The fields of struct task and struct process used here.  [wo]: the argument and the
    options of the wait, if wobj.type is WOBJ_TASK; [spend]: stop_pending; [vfs]:
    vfork_stopped; [vfk]: vforked; [srep]: stop_reported; [ign]: sa_handlers[SIGCHLD-1] is
    SIG_IGN; [areap]: automatic_reaping *)
Record proc := P { ppid : Z; pgid : Z; stt : tstate; spend : bool; vfs : bool; vfk : bool; srep : bool;
                   wst : Z; ign : bool; areap : bool; wo : option (Z * opts) }.

(** What happened, the latest first *)
Inductive event :=
| EFork (p c : Z)
| EExit (c status : Z)
| EReaped (p c status : Z)    (* a wait of [p] returned the zombie [c] with [status] *)
| ELost (p c : Z)             (* the same, but the status could not be copied to the user *)
| EAuto (c : Z)               (* automatic reaping *)
| EChange (p c status : Z).   (* a wait returned a stopped or continued child *)

(** [liv]: in the table of tasks (get_task is not NULL); [kids]: struct process.children;
    [wts]: struct task.tasks_waiting_list *)
Record st := mk { pr : Z -> proc; liv : Z -> bool; kids : Z -> list Z; wts : Z -> list Z; hist : list event }.

Definition upd (s : st) (t : Z) (p : proc) : st := mk (fupd (pr s) t p) (liv s) (kids s) (wts s) (hist s).
Definition log (s : st) (e : event) : st := mk (pr s) (liv s) (kids s) (wts s) (e :: hist s).
Definition del (x : Z) (l : list Z) : list Z := filter (fun y => negb (y =? x)) l.

(** setters *)
Definition p_state x p := P (ppid p) (pgid p) x (spend p) (vfs p) (vfk p) (srep p) (wst p) (ign p) (areap p) (wo p).
Definition p_ppid x p := P x (pgid p) (stt p) (spend p) (vfs p) (vfk p) (srep p) (wst p) (ign p) (areap p) (wo p).
Definition p_pgid x p := P (ppid p) x (stt p) (spend p) (vfs p) (vfk p) (srep p) (wst p) (ign p) (areap p) (wo p).
Definition p_spend x p := P (ppid p) (pgid p) (stt p) x (vfs p) (vfk p) (srep p) (wst p) (ign p) (areap p) (wo p).
Definition p_vfs x p := P (ppid p) (pgid p) (stt p) (spend p) x (vfk p) (srep p) (wst p) (ign p) (areap p) (wo p).
Definition p_vfk x p := P (ppid p) (pgid p) (stt p) (spend p) (vfs p) x (srep p) (wst p) (ign p) (areap p) (wo p).
Definition p_srep x p := P (ppid p) (pgid p) (stt p) (spend p) (vfs p) (vfk p) x (wst p) (ign p) (areap p) (wo p).
Definition p_wst x p := P (ppid p) (pgid p) (stt p) (spend p) (vfs p) (vfk p) (srep p) x (ign p) (areap p) (wo p).
Definition p_ign x p := P (ppid p) (pgid p) (stt p) (spend p) (vfs p) (vfk p) (srep p) (wst p) x (areap p) (wo p).
Definition p_areap x p := P (ppid p) (pgid p) (stt p) (spend p) (vfs p) (vfk p) (srep p) (wst p) (ign p) x (wo p).
Definition p_wo x p := P (ppid p) (pgid p) (stt p) (spend p) (vfs p) (vfk p) (srep p) (wst p) (ign p) (areap p) x.

(** is_task_stopped, include/tilck/kernel/sched.h:237-243 *)
Definition is_stopped (p : proc) : bool := st_eqb (stt p) Stop || (st_eqb (stt p) Sleep && spend p).

(** wake_up and wait_obj_reset, kernel/wobj.c:56-190, of a task that is not the current one *)
Definition woken (p : proc) : proc := p_wo None (p_spend false (p_state (if spend p then Stop else Run) p)).
Definition wake_up (s : st) (t : Z) : st :=
  let s := match wo (pr s t) with
           | Some (x, _) => if 0 <? x then mk (pr s) (liv s) (kids s) (fupd (wts s) x (del t (wts s x))) (hist s) else s
           | None => s
           end in
  upd s t (woken (pr s t)).

(** waitpid_should_skip_child, kernel/waitpid.c:14-57 *)
Definition skip (s : st) (waiting pos tid : Z) : bool :=
  if 0 <? tid then negb (pos =? tid)
  else if tid <? -1 then negb (pgid (pr s pos) =? - tid)
  else if tid =? 0 then negb (pgid (pr s pos) =? pgid (pr s waiting))
  else false.

(** get_task_if_changed, kernel/waitpid.c:59-86: the new stop_reported if the task is to
    be returned *)
Definition changed (p : proc) (o : opts) : option bool :=
  if st_eqb (stt p) Zomb then Some (srep p)
  else if is_stopped p && negb (srep p) && untraced o then Some true
  else if negb (is_stopped p) && srep p && continued o then Some false
  else None.

(** get_child_with_changed_status, kernel/waitpid.c:88-113 *)
Fixpoint search (s : st) (p tid : Z) (o : opts) (l : list Z) (cnt : Z) : option (Z * bool) * Z :=
  match l with
  | [] => (None, cnt)
  | c :: l =>
      if skip s p c tid then search s p tid o l cnt
      else match changed (pr s c) o with
           | Some b => (Some (c, b), cnt + 1)
           | None => search s p tid o l (cnt + 1)
           end
  end.

(** is_good_reason_to_wake_up_task, kernel/waitpid.c:130-137 *)
Definition good (o : opts) (r : reason) : bool :=
  match r with died => true | stopped => untraced o | cont => continued o end.

(** wake_up_tasks_waiting_on, kernel/waitpid.c:139-180; [None]: the parent is not in the
    table (a NULL pointer is followed) or a task in the list does not wait for a task *)
Fixpoint wake_list (s : st) (r : reason) (l : list Z) : option st :=
  match l with
  | [] => Some s
  | w :: l =>
      match wo (pr s w) with
      | None => None
      | Some (_, o) => wake_list (if st_eqb (stt (pr s w)) Sleep && good o r then wake_up s w else s) r l
      end
  end.
Definition wake_waiting (s : st) (t : Z) (r : reason) : option st :=
  match wake_list s r (wts s t) with
  | None => None
  | Some s =>
      let p := ppid (pr s t) in
      if 0 <? p then
        if negb (liv s p) then None
        else match wo (pr s p) with
             | Some (tid, o) =>
                 if st_eqb (stt (pr s p)) Sleep && (tid <? 0) && negb (skip s p t tid) && good o r then Some (wake_up s p) else Some s
             | None => Some s
             end
      else Some s
  end.

(** remove_task and free_task, kernel/sched.c:867-882, kernel/process.c:375-392 *)
Definition remove (s : st) (t : Z) : st :=
  let p := ppid (pr s t) in
  mk (pr s) (fupd (liv s) t false) (fupd (kids s) p (del t (kids s p))) (wts s) (hist s).

(** sys_wait4, kernel/waitpid.c:190-301: one iteration of the loop by process [p];
    [fault]: the status cannot be copied to the user *)
Inductive wres := Returns (r : Z) | Sleeps.
Definition ECHILD := -10.
Definition EFAULT := -14.
Definition do_wait (s : st) (p tid : Z) (o : opts) (fault : bool) : st * wres :=
  let found (c : Z) (b : bool) :=
    let s := upd s c (p_srep b (pr s c)) in
    let r := if fault then EFAULT else c in
    if st_eqb (stt (pr s c)) Zomb then (log (remove s c) (if fault then ELost p c else EReaped p c (wst (pr s c))), Returns r)
    else (log s (EChange p c (wst (pr s c))), Returns r) in
  let none (cnt : Z) :=
    if cnt =? 0 then (s, Returns ECHILD)
    else if nohang o then (s, Returns 0)
    else
      (* prepare_to_wait_on *)
      let s := if 0 <? tid then mk (pr s) (liv s) (kids s) (fupd (wts s) tid (wts s tid ++ [p])) (hist s) else s in
      (upd s p (p_state Sleep (p_wo (Some (tid, o)) (pr s p))), Sleeps) in
  if 0 <? tid then
    if negb (liv s tid && (ppid (pr s tid) =? p)) then (s, Returns ECHILD)
    else match changed (pr s tid) o with Some b => found tid b | None => none 1 end
  else match search s p tid o (kids s p) 0 with
       | (Some (c, b), _) => found c b
       | (None, cnt) => none cnt
       end.

(** handle_children_of_dying_process, kernel/exit.c:67-96: the reaper is init, pid 1 *)
Definition adopt (s : st) (p c : Z) : st :=
  let s := mk (pr s) (liv s) (fupd (kids s) p (del c (kids s p))) (wts s) (hist s) in
  let s := mk (pr s) (liv s) (fupd (kids s) 1 (kids s 1 ++ [c])) (wts s) (hist s) in
  let q := p_ppid 1 (pr s c) in
  upd s c (if ign (pr s p) then p_areap true q else q).
Fixpoint adopt_all (s : st) (p : Z) (l : list Z) : option st :=
  match l with
  | [] => Some s
  | c :: l =>
      let s := adopt s p c in
      if st_eqb (stt (pr s c)) Zomb
      then match wake_waiting s c died with Some s => adopt_all s p l | None => None end
      else adopt_all s p l
  end.

(** unblock_parent_of_vforked_child, kernel/process.c:541-560; [None]: an ASSERT fails *)
Definition unblock (s : st) (c : Z) : option st :=
  let p := ppid (pr s c) in
  if vfk (pr s c) && liv s p && st_eqb (stt (pr s p)) Stop && vfs (pr s p)
  then Some (upd s p (p_state Run (p_vfs false (pr s p))))
  else None.

(** terminate_process, kernel/exit.c:208-330, from the second disable_preemption on, and
    free_mem_for_zombie_task, kernel/process.c:158-180, which switch_to_task then calls *)
Definition exitcode (ret sig : Z) : Z := Z.lor (Z.shiftl ret 8) sig.
Definition do_exit (s : st) (p ret sig : Z) : option st :=
  let s := log (upd s p (p_wst (exitcode ret sig) (p_state Zomb (pr s p)))) (EExit p (exitcode ret sig)) in
  match adopt_all s p (kids s p) with
  | None => None
  | Some s =>
      match wake_waiting s p died with
      | None => None
      | Some s =>
          match (if vfk (pr s p) then unblock s p else Some s) with
          | None => None
          | Some s =>
              let par := ppid (pr s p) in
              let s := if liv s par && ign (pr s par) then upd s p (p_areap true (pr s p)) else s in
              if areap (pr s p) then Some (log (remove s p) (EAuto p)) else Some s
          end
      end
  end.

(** action_stop and action_continue, kernel/signal.c:322-400; signals to a zombie are
    dropped before *)
Definition stopcode (sig : Z) : Z := Z.lor (Z.shiftl sig 8) 127.
Definition do_stop (s : st) (t sig : Z) : option st :=
  let s := upd s t (p_wst (stopcode sig) (pr s t)) in
  match wake_waiting s t stopped with
  | None => None
  | Some s =>
      match stt (pr s t) with
      | Sleep => Some (upd s t (p_spend true (pr s t)))
      | Run => Some (upd s t (p_state Stop (pr s t)))
      | _ => Some s
      end
  end.
Definition do_cont (s : st) (t : Z) : option st :=
  if vfs (pr s t) then Some s
  else
    let s := upd s t (p_wst 65535 (pr s t)) in
    match wake_waiting s t cont with
    | None => None
    | Some s =>
        match stt (pr s t) with
        | Stop => Some (upd s t (p_state Run (pr s t)))
        | Sleep => Some (if spend (pr s t) then upd s t (p_spend false (pr s t)) else s)
        | _ => Some s
        end
    end.
(** signal_wakeup_task, kernel/signal.c:262-308; [b]: wobj is neither a mutex nor a semaphore *)
Definition sig_wake (s : st) (t : Z) (b : bool) : st :=
  if vfs (pr s t) then s
  else
    let s := upd s t (p_spend false (pr s t)) in
    match stt (pr s t) with
    | Sleep => if b then wake_up s t else s
    | Stop => upd s t (p_state Run (pr s t))
    | _ => s
    end.

Inductive action :=
| Fork (p c : Z) (v : bool)                       (* fork; [v]: vfork *)
| Exec (p : Z)                                    (* only its effect on vfork *)
| Exit (p ret sig : Z)
| Wait (p tid : Z) (o : opts) (fault : bool)
| StopSig (t sig : Z)
| ContSig (t : Z)
| SigWake (t : Z) (b : bool)
| SleepOn (p : Z)                                 (* any other sleep and its wake-up *)
| WakeUp (p : Z)
| SetPgid (t g : Z)
| SetIgn (p : Z) (b : bool).                      (* signal(SIGCHLD) *)

Inductive result := Ok (s : st) (r : option wres) | Fail.
Definition ok (o : option st) : result := match o with Some s => Ok s None | None => Fail end.

Definition step (s : st) (a : action) : result :=
  match a with
  | Fork p c v =>
      (* memcpy from the parent, kernel/process.c:220-221 *)
      let q := P p (pgid (pr s p)) Run (spend (pr s p)) (vfs (pr s p)) v (srep (pr s p)) (wst (pr s p)) (ign (pr s p)) false None in
      let s := mk (fupd (pr s) c q) (fupd (liv s) c true) (fupd (fupd (kids s) c []) p (fupd (kids s) c [] p ++ [c])) (fupd (wts s) c []) (EFork p c :: hist s) in
      Ok (if v then upd s p (p_state Stop (p_vfs true (pr s p))) else s) None
  | Exec p => if vfk (pr s p) then match unblock s p with Some s => Ok (upd s p (p_vfk false (pr s p))) None | None => Fail end else Ok s None
  | Exit p ret sig => ok (do_exit s p ret sig)
  | Wait p tid o fault => let '(s, r) := do_wait s p tid o fault in Ok s (Some r)
  | StopSig t sig => ok (do_stop s t sig)
  | ContSig t => ok (do_cont s t)
  | SigWake t b => Ok (sig_wake s t b) None
  | SleepOn p => Ok (upd s p (p_state Sleep (pr s p))) None
  | WakeUp p => Ok (wake_up s p) None
  | SetPgid t g => Ok (upd s t (p_pgid g (pr s t))) None
  | SetIgn p b => Ok (upd s p (p_ign b (pr s p))) None
  end.

(** init, the child of the kernel process (pid 0) *)
Definition st_init : st :=
  mk (fun _ => P 0 1 Run false false false false 0 false false None) (fun t => t =? 1) (fun p => if p =? 0 then [1] else []) (fun _ => []) [].
