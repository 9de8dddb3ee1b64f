(** Model of the signal state of one task, kernel/signal.c.  [nb] is NBITS (32 on
    i386, 64 on x86_64 and riscv64).  A set of signals is an array of words,
    here a function from word index to word; only the first [words nb] exist.
    User pointers are modelled by what reading them gives. *)
From Verif Require Import Lib.

Definition NSIG : Z := 64.
Definition SIGKILL : Z := 9.
Definition SIGSTOP : Z := 19.
Definition SIG_DFL : Z := 0.
Definition SIG_IGN : Z := 1.
Definition set := Z -> Z.

(** K_SIGACTION_MASK_WORDS, include/tilck/kernel/signal.h:35 *)
Definition words (nb : Z) : Z := NSIG / nb.

(** [1 << index], an int: undefined beyond bit 31, negative at bit 31 (-fwrapv) *)
Definition shl_int (index : Z) : option Z :=
  if index <? 31 then Some (2 ^ index) else if index =? 31 then Some (- 2 ^ 31) else None.
(** [~(1u << index)], an unsigned int, converted to ulong *)
Definition not_shl_u (index : Z) : option Z :=
  if index <? 32 then Some (2 ^ 32 - 1 - 2 ^ index) else None.

(** __add_sig, kernel/signal.c:21-35; [None]: undefined behaviour *)
Definition add_sig (nb : Z) (s : set) (signum : Z) : option set :=
  let slot := (signum - 1) / nb in
  let index := (signum - 1) mod nb in
  if slot >=? words nb then Some s
  else match shl_int index with
       | None => None
       | Some m => Some (fupd s slot (Z.lor (s slot) (wrap nb m)))
       end.

(** __del_sig, kernel/signal.c:45-59 *)
Definition del_sig (nb : Z) (s : set) (signum : Z) : option set :=
  let slot := (signum - 1) / nb in
  let index := (signum - 1) mod nb in
  if slot >=? words nb then Some s
  else match not_shl_u index with
       | None => None
       | Some m => Some (fupd s slot (Z.land (s slot) m))
       end.

(** __is_sig_set, kernel/signal.c:67-81 *)
Definition is_sig_set (nb : Z) (s : set) (signum : Z) : option bool :=
  let slot := (signum - 1) / nb in
  let index := (signum - 1) mod nb in
  if slot >=? words nb then Some false
  else match shl_int index with
       | None => None
       | Some m => Some (negb (Z.land (s slot) (wrap nb m) =? 0))
       end.

(** The fields of struct task and struct process involved *)
Record task := mk_task {
  pend : set; fpend : set; mask : set; omask : set;
  hnd : Z -> Z;                         (* sa_handlers[signum - 1] *)
  nested : Z; susp : bool               (* nested_sig_handlers, in_sigsuspend *)
}.
Definition task_init : task :=
  mk_task (fun _ => 0) (fun _ => 0) (fun _ => 0) (fun _ => 0) (fun _ => SIG_DFL) 0 false.

Definition set_pend (t : task) (p f : set) : task := mk_task p f (mask t) (omask t) (hnd t) (nested t) (susp t).
Definition set_mask (t : task) (m : set) : task := mk_task (pend t) (fpend t) m (omask t) (hnd t) (nested t) (susp t).
Definition set_nested (t : task) (n : Z) : task := mk_task (pend t) (fpend t) (mask t) (omask t) (hnd t) n (susp t).

(** get_first_set_bit_index_l, include/tilck/common/utils.h:141-152 *)
Fixpoint first_bit (fuel : nat) (i v : Z) : Z :=
  match fuel with O => i | S f => if Z.testbit v i then i else first_bit f (i + 1) v end.

(** get_first_pending_sig, kernel/signal.c:93-110 *)
Fixpoint first_pending (nb : Z) (t : task) (n : nat) (i : Z) : option Z :=
  match n with
  | O => Some (-1)
  | S n' =>
      if pend t i =? 0 then first_pending nb t n' (i + 1)
      else
        let signum := i * nb + first_bit (Z.to_nat nb) 0 (pend t i) + 1 in
        match is_sig_set nb (mask t) signum with
        | None => None
        | Some true => first_pending nb t n' (i + 1)
        | Some false => Some signum
        end
  end.
Definition get_first_pending_sig (nb : Z) (t : task) : option Z := first_pending nb t (Z.to_nat (words nb)) 0.

(** pending_signals, kernel/signal.c:542-569 *)
Definition pending_signals (nb : Z) (t : task) : bool :=
  if nested t >? 0 then false
  else negb (Z.ldiff (pend t 0) (mask t 0) =? 0) ||
       ((words nb =? 2) && negb (Z.ldiff (pend t 1) (mask t 1) =? 0)).

Inductive ret :=
| Ret (v : Z)                           (* system call result *)
| Kill (sig : Z)                        (* the task is killed by [sig] *)
| Handle (addr sig : Z)                 (* user mode resumes in a handler *)
| NoSig                                 (* nothing to deliver *)
| Sent (wake : bool).                   (* wake: signal_wakeup_task called *)
Inductive outcome := UB | AssertFail | Ok (t : task) (r : ret).

(** process_signals, kernel/signal.c:195-263; [ret]: sig_state is sig_in_return;
    [fault]: setup_sig_handler fails *)
Definition process_signals (nb : Z) (t0 : task) (inret fault : bool) : outcome :=
  let t := set_mask t0 (fun i => Z.ldiff (mask t0 i) (fpend t0 i)) in
  match is_sig_set nb (pend t) SIGKILL with
  | None => UB
  | Some true => Ok t (Kill SIGKILL)
  | Some false =>
      if (nested t >? 0) && negb inret then Ok t NoSig
      else
        match get_first_pending_sig nb t with
        | None => UB
        | Some sig =>
            if sig <? 0 then Ok t NoSig
            else if hnd t sig =? SIG_DFL then Ok t (Kill sig)
            else
              match del_sig nb (pend t) sig, del_sig nb (fpend t) sig with
              | Some p, Some f =>
                  let t1 := set_pend t p f in
                  if fault then Ok t1 (Kill SIGKILL)
                  else Ok (set_nested t1 (nested t1 + 1)) (Handle (hnd t sig) sig)
              | _, _ => UB
              end
        end
  end.

(** signal_default_actions, kernel/signal.c:410-449 *)
Inductive action := Terminate | Ignore | Stop | Continue.
Definition default_action (signum : Z) : action :=
  if (signum =? 17) || (signum =? 23) then Ignore
  else if signum =? 18 then Continue
  else if (19 <=? signum) && (signum <=? 22) then Stop
  else Terminate.

(** add_pending_sig and the wake-up decision, kernel/signal.c:37-43, 313-323, 498-504 *)
Definition queue_sig (nb : Z) (t : task) (signum : Z) (fl_fault : bool) : outcome :=
  match add_sig nb (pend t) signum, (if fl_fault then add_sig nb (fpend t) signum else Some (fpend t)) with
  | Some p, Some f =>
      let t1 := set_pend t p f in
      match is_sig_set nb (mask t1) signum with
      | None => UB
      | Some b => Ok t1 (Sent (negb b))
      end
  | _, _ => UB
  end.

(** do_send_signal, kernel/signal.c:451-505; stopping and continuing change the
    task's scheduling state, which is not part of this model *)
Definition do_send_signal (nb : Z) (t : task) (init : bool) (signum : Z) (fl_fault : bool) : outcome :=
  if (signum <? 0) || (signum >=? NSIG) then AssertFail
  else if signum =? 0 then Ok t (Sent false)
  else if nested t <? 0 then Ok t (Sent false)
  else
    let h := if init && (hnd t signum =? SIG_DFL) then SIG_IGN else hnd t signum in
    if h =? SIG_IGN then Ok t (Sent false)
    else if h =? SIG_DFL then
      match default_action signum with
      | Terminate => queue_sig nb t signum fl_fault
      | _ => Ok t (Sent false)
      end
    else queue_sig nb t signum fl_fault.

(** A user pointer to a struct k_sigaction: NULL, faulting, or handler and flags *)
Inductive uact := ANull | AFault | AOk (handler flags : Z).
Definition unsupported : Z := 134217735.    (* SA_NOCLDSTOP|SA_NOCLDWAIT|SA_SIGINFO|SA_ONSTACK *)
Definition EINVAL : Z := 22.
Definition EFAULT : Z := 14.
Definition EPERM : Z := 1.
Definition EINTR : Z := 4.
Definition ENOSYS : Z := 38.

(** sys_rt_sigaction and sigaction_int, kernel/signal.c:641-746; the copy of the
    old action to user memory only affects the result and is left out *)
Definition sys_rt_sigaction (nb : Z) (t : task) (signum : Z) (act : uact) (sigsetsize : Z) : outcome :=
  if (signum <? 1) || (signum >=? NSIG) then Ok t (Ret (- EINVAL))
  else if (signum =? SIGKILL) || (signum =? SIGSTOP) then Ok t (Ret (- EINVAL))
  else if sigsetsize <? 8 then Ok t (Ret (- EINVAL))
  else
    match act with
    | ANull => Ok t (Ret 0)
    | AFault => Ok t (Ret (- EFAULT))
    | AOk h fl =>
        if negb (Z.land fl unsupported =? 0) then Ok t (Ret (- EINVAL))
        else Ok (mk_task (pend t) (fpend t) (mask t) (omask t) (fupd (hnd t) signum h) (nested t) (susp t)) (Ret 0)
    end.

Inductive how := SigBlock | SigUnblock | SigSetmask | SigOther.

(** The loop of sys_rt_sigprocmask, kernel/signal.c:781-811; [us] gives the words
    of the user's set, [None] where reading faults *)
Fixpoint mask_loop (n : nat) (i : Z) (us : Z -> option Z) (h : how) (m : set) : set * Z :=
  match n with
  | O => (m, 0)
  | S n' =>
      match us i with
      | None => (m, - EFAULT)
      | Some w =>
          match h with
          | SigBlock => mask_loop n' (i + 1) us h (fupd m i (Z.lor (m i) w))
          | SigUnblock => mask_loop n' (i + 1) us h (fupd m i (Z.ldiff (m i) w))
          | SigSetmask => mask_loop n' (i + 1) us h (fupd m i w)
          | SigOther => (m, - EINVAL)
          end
      end
  end.

(** sys_rt_sigprocmask, kernel/signal.c:748-818; [us = None]: NULL; [oldfault]:
    writing the old set faults *)
Definition sys_rt_sigprocmask (nb : Z) (t : task) (h : how) (us : option (Z -> option Z)) (oldfault : bool) : outcome :=
  if oldfault then Ok t (Ret (- EFAULT))
  else
    match us with
    | None => Ok t (Ret 0)
    | Some us =>
        let (m, rc) := mask_loop (Z.to_nat (words nb)) 0 us h (mask t) in
        if negb (rc =? 0) then Ok (set_mask t m) (Ret rc)
        else
          match del_sig nb m SIGSTOP with
          | None => UB
          | Some m1 => match del_sig nb m1 SIGKILL with None => UB | Some m2 => Ok (set_mask t m2) (Ret 0) end
          end
    end.

(** sys_rt_sigsuspend up to sys_pause, kernel/signal.c:855-917; [us = None]: the
    copy faults.  The task then sleeps until pending_signals() and returns
    -EINTR. *)
Definition sys_rt_sigsuspend (nb : Z) (t : task) (us : option set) (sigsetsize : Z) : outcome :=
  if nested t >? 0 then Ok t (Ret (- EPERM))
  else if susp t then AssertFail
  else if sigsetsize <? 8 then Ok t (Ret (- EINVAL))
  else
    match us with
    | None => Ok (mk_task (pend t) (fpend t) (mask t) (mask t) (hnd t) (nested t) (susp t)) (Ret (- EFAULT))
    | Some m =>
        match del_sig nb m SIGKILL with
        | None => UB
        | Some m1 =>
            match del_sig nb m1 SIGSTOP with
            | None => UB
            | Some m2 => Ok (mk_task (pend t) (fpend t) m2 (mask t) (hnd t) (nested t) true) (Ret (- EINTR))
            end
        end
    end.

(** sys_rt_sigreturn, kernel/signal.c:953-1003 *)
Definition sys_rt_sigreturn (nb : Z) (t : task) (fault : bool) : outcome :=
  if nested t >? 0 then
    match process_signals nb t true fault with
    | Ok t1 NoSig =>
        let t2 := if susp t1 then mk_task (pend t1) (fpend t1) (omask t1) (omask t1) (hnd t1) (nested t1) false else t1 in
        Ok (set_nested t2 (nested t2 - 1)) NoSig
    | Ok t1 (Handle a s) => Ok (set_nested t1 (nested t1 - 1)) (Handle a s)
    | o => o
    end
  else Ok t (Ret (- ENOSYS)).

(** execve_final_steps, kernel/execve.c:150-152, with
    reset_all_custom_signal_handlers, kernel/signal.c:124-136 *)
Definition execve (t : task) : outcome :=
  Ok (mk_task (pend t) (fpend t) (mask t) (omask t)
        (fun n => if (hnd t n =? SIG_DFL) || (hnd t n =? SIG_IGN) then hnd t n
                  else if (1 <=? n) && (n <? NSIG) then SIG_DFL else hnd t n) 0 false) (Ret 0).
