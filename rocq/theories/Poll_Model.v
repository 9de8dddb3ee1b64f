(** Model of kernel/poll.c, of the waiters on several conditions (kernel/wobj.c:198-327,
    kernel/kcond.c:139-165) and of the readiness functions of kernel/vfs/vfs_op_ready.c.h.

    Part 1: the state of one task inside poll_wait_on_cond, with its surroundings.  What it
    polls is a list of [n] sources, numbered from 0 in the order in which the loops visit
    them; every source has a condition.  (A file contributes a source for each of POLLIN,
    POLLOUT and exceptions; the loops stop looking at a file after its first ready source,
    which does not matter until the task stops polling.)  Looking at a source is one step;
    so are the sections with preemption disabled, except that ticks may pass between reading
    the time and arming the timer.  Arming the timer and going to sleep is one step, the
    window in between being covered by timer_ready (kernel/sched.c:1137-1158).  Stop signals
    are not modelled.  [due i] (not in the code): source i became ready and its condition
    has not been signalled since. *)
From Verif Require Import Lib.

Inductive tstate := Running | Runnable | Sleeping.
Inductive result := Ready | Zero | Eintr.
Inductive pcs :=
  | Reg (k : Z)        (* poll_set_conds, next source *)
  | Check (k : Z) (found : bool)   (* poll_count_ready_fds, next source *)
  | Sect               (* before line 202 *)
  | Arm (el : Z)       (* before line 226, [el] = elapsed *)
  | Asleep             (* in enter_sleep_wait_state, line 230 *)
  | Woken              (* before line 233 *)
  | Rearm              (* before line 249 *)
  | Out (r : result)   (* before line 254 *)
  | Done (r : result).
Record st := St {
  ready : Z -> bool; linked : Z -> bool; signaled : list Z;
  state : tstate; wobj : bool;     (* curr->wobj.type != WOBJ_NONE *)
  pc : pcs; now : Z; start : Z; timer : option Z; pending : bool;
  due : Z -> bool }.

Section Poll.
Variable n : Z.                    (* sources *)
Variable timeout : option Z.       (* ticks; None: no limit *)

Definition set_pc (s : st) (p : pcs) : st := St (ready s) (linked s) (signaled s) (state s) (wobj s) p (now s) (start s) (timer s) (pending s) (due s).
Definition set_ready (s : st) (r : Z -> bool) (d : Z -> bool) : st := St r (linked s) (signaled s) (state s) (wobj s) (pc s) (now s) (start s) (timer s) (pending s) d.
Definition set_list (s : st) (l : Z -> bool) (g : list Z) (p : pcs) : st := St (ready s) l g (state s) (wobj s) p (now s) (start s) (timer s) (pending s) (due s).
Definition set_timer (s : st) (t : option Z) (p : pcs) : st := St (ready s) (linked s) (signaled s) (state s) (wobj s) p (now s) (start s) t (pending s) (due s).
Definition set_wait (s : st) (t : tstate) (w : bool) (p : pcs) : st := St (ready s) (linked s) (signaled s) t w p (now s) (start s) (timer s) (pending s) (due s).

Definition init (r : Z -> bool) (t : Z) : st :=
  St r (fun _ => false) [] Running false (Reg 0) t t None false (fun _ => false).

(** mobj_waiter_rearm_signaled, wobj.c:305-322 *)
Definition rearm_all (l : Z -> bool) (g : list Z) : Z -> bool := fold_left (fun f i => fupd f i true) g l.

(** one step of the polling task, poll.c:157-261 *)
Definition pstep (s : st) : st :=
  match pc s with
  | Reg k => if k <? n then set_list s (fupd (linked s) k true) (signaled s) (Reg (k + 1)) else set_pc s (Check 0 false)
  | Check k f =>
      if k <? n then set_pc s (Check (k + 1) (f || ready s k))
      else if f then set_pc s (Out Ready) else set_pc s Sect
  | Sect =>
      match signaled s with
      | _ :: _ => set_list s (rearm_all (linked s) (signaled s)) [] (Check 0 false)
      | [] =>
          match timeout with
          | Some t => if now s - start s >=? t then set_pc s (Out Zero) else set_pc s (Arm (now s - start s))
          | None => set_wait s Sleeping true Asleep
          end
      end
  | Arm el =>
      match timeout with
      | Some t => set_wait (set_timer s (Some (now s + (t - el))) (pc s)) Sleeping true Asleep
      | None => s
      end
  | Asleep => match state s with Running => set_pc s Woken | _ => s end
  | Woken =>
      if pending s then set_pc s (Out Zero)
      else match timeout with
           | Some _ => if wobj s then set_wait s (state s) false (Out Zero) else set_timer s None Rearm
           | None => set_pc s Rearm
           end
  | Rearm => set_list s (rearm_all (linked s) (signaled s)) [] (Check 0 false)
  | Out r => (* the timer, free_mobj_waiter, the result *)
      set_list (set_timer s None (pc s)) (fun _ => false) [] (Done (if pending s then Eintr else r))
  | Done _ => s
  end.
(** kcond_signal_int for the element of source i, kcond.c:155-164: wait_obj_reset, the list
    of signalled elements, wake_up *)
Definition wake (s : st) : st := match state s with Sleeping => set_wait s Runnable false (pc s) | _ => s end.
Definition signal (s : st) (i : Z) : st :=
  let s1 := set_ready s (ready s) (fupd (due s) i false) in
  if linked s1 i
  then wake (set_list s1 (fupd (linked s1) i false) (signaled s1 ++ [i]) (pc s1))
  else s1.

Inductive action :=
  | Poll                       (* the task *)
  | Resume                     (* it is selected by the scheduler *)
  | Become (i : Z)             (* a source becomes ready *)
  | Unready (i : Z)            (* somebody else takes the data *)
  | Signal (i : Z)             (* the condition of the source is signalled *)
  | SignalOther (i : Z)        (* kcond_signal_one, but another waiter is first *)
  | Tick
  | Fire                       (* the timer, timer.c:232-260 *)
  | Posix.                     (* a POSIX signal arrives *)
Definition step (s : st) (a : action) : option st :=
  match a with
  | Poll => match state s with Running => Some (pstep s) | _ => None end
  | Resume => match state s with Runnable => Some (set_wait s Running (wobj s) (pc s)) | _ => None end
  | Become i => Some (set_ready s (fupd (ready s) i true) (fupd (due s) i true))
  | Unready i => Some (set_ready s (fupd (ready s) i false) (due s))
  | Signal i => Some (signal s i)
  | SignalOther i => Some (set_ready s (ready s) (fupd (due s) i false))
  | Tick => Some (St (ready s) (linked s) (signaled s) (state s) (wobj s) (pc s) (now s + 1) (start s) (timer s) (pending s) (due s))
  | Fire =>
      match timer s with
      | Some t => if t <=? now s
                  then Some (set_timer (match state s with Sleeping => set_wait s Runnable (wobj s) (pc s) | _ => s end) None (pc s))
                  else None
      | None => None
      end
  | Posix => Some (let s1 := wake s in St (ready s1) (linked s1) (signaled s1) (state s1) (wobj s1) (pc s1) (now s1) (start s1) (timer s1) true (due s1))
  end.
End Poll.

(** Part 2: what poll reports, for files which do not change meanwhile. *)
Definition POLLIN := 1. Definition POLLPRI := 2. Definition POLLOUT := 4. Definition POLLERR := 8.
Definition POLLNVAL := 32. Definition POLLRDNORM := 64. Definition POLLRDBAND := 128.
Definition POLLWRNORM := 256. Definition POLLWRBAND := 512.
Definition has (x m : Z) : bool := negb (Z.land x m =? 0).
(** the ready functions of a file, if it has them, and the flags it was opened with *)
Record file := File { f_read : option bool; f_write : option bool; f_except : option Z; f_flags : Z; f_conds : bool }.
(** vfs_read_ready, vfs_write_ready, vfs_except_ready, vfs_op_ready.c.h:5-33;
    O_RDONLY = 0, O_WRONLY = 1, O_RDWR = 2 *)
Definition read_ready (f : file) : bool := match f_read f with None => has (f_flags f) (Z.lor 2 0) | Some b => b end.
Definition write_ready (f : file) : bool := match f_write f with None => has (f_flags f) (Z.lor 2 1) | Some b => b end.
Definition except_ready (f : file) : Z := match f_except f with None => 0 | Some z => z end.
Record pollfd := Pfd { p_fd : Z; p_events : Z; p_revents : Z }.
Section Files.
Variable handle : Z -> option file.    (* get_fs_handle *)
(** the body of the loop of poll_count_ready_fds, lines 118-152 *)
Definition check_fd (p : pollfd) : pollfd * Z :=
  match handle (p_fd p) with
  | None => (Pfd (p_fd p) (p_events p) POLLNVAL, 0)
  | Some f =>
      if has (p_events p) POLLIN && read_ready f then (Pfd (p_fd p) (p_events p) (Z.lor (p_revents p) POLLIN), 1)
      else if has (p_events p) POLLOUT && write_ready f then (Pfd (p_fd p) (p_events p) (Z.lor (p_revents p) POLLOUT), 1)
      else if negb (except_ready f =? 0)
           then (Pfd (p_fd p) (p_events p) (Z.lor (p_revents p) (if except_ready f >? 0 then except_ready f else POLLERR)), 1)
           else (p, 0)
  end.
Fixpoint count_ready (l : list pollfd) : list pollfd * Z :=
  match l with
  | [] => ([], 0)
  | p :: r => let (p', c) := check_fd p in let (r', c') := count_ready r in (p' :: r', c + c')
  end.
(** poll_count_conds, lines 13-55: clears revents, unifies the requested events, counts the
    conditions (here only whether a file has any) *)
Definition prep_fd (p : pollfd) : pollfd * Z :=
  match handle (p_fd p) with
  | None => (Pfd (p_fd p) (p_events p) POLLNVAL, 0)
  | Some f =>
      let e1 := if has (p_events p) (Z.lor POLLIN (Z.lor POLLRDNORM (Z.lor POLLRDBAND POLLPRI))) then Z.lor (p_events p) POLLIN else p_events p in
      let e2 := if has e1 (Z.lor POLLOUT (Z.lor POLLWRNORM POLLWRBAND)) then Z.lor e1 POLLOUT else e1 in
      (Pfd (p_fd p) e2 0, if f_conds f then 1 else 0)
  end.
Fixpoint count_conds (l : list pollfd) : list pollfd * Z :=
  match l with
  | [] => ([], 0)
  | p :: r => let (p', c) := prep_fd p in let (r', c') := count_conds r in (p' :: r', c + c')
  end.
(** sys_poll, lines 263-312, as long as the files do not change; [waits] if it waits on
    conditions, [sleeps] if it just sleeps for the given time *)
Inductive outcome := Returns (l : list pollfd) (count : Z) (sleeps : bool) | Waits (l : list pollfd).
Definition sys_poll (l : list pollfd) (timeout : Z) : outcome :=
  let l0 := map (fun p => Pfd (p_fd p) (p_events p) 0) l in
  let (l1, c1) := count_ready l0 in
  if c1 >? 0 then Returns l1 c1 false
  else
    let (l2, conds) := if timeout =? 0 then (l1, 0) else count_conds l1 in
    if conds >? 0 then
      let (l3, c3) := count_ready l2 in
      if c3 >? 0 then Returns l3 c3 false else Waits l3
    else let (l3, c3) := count_ready l2 in Returns l3 c3 (timeout >? 0).
End Files.

(** select_read_user_tv, kernel/select.c:186-190: the timeout in ticks; KRN_TIMER_HZ = 250.
    The sum is taken in u64. *)
Definition select_ticks (sec usec : Z) : Z := Z.min (Z.max (u64 (u64 (u64 sec * 250) + u64 usec / 4000)) 1) (2 ^ 32 - 1).
(** sys_select, lines 378-410: waits or sleeps *)
Definition select_blocks (tv : option (Z * Z)) : bool := match tv with None => true | Some (sec, usec) => select_ticks sec usec >? 0 end.
