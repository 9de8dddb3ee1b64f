(** Signal sets as sets of numbers; histories of one task. *)
From Verif Require Import Lib Signal_Model.

(** Membership: the bit of signal [n] in the layout that user space sees *)
Definition member (nb : Z) (s : set) (n : Z) : bool := Z.testbit (s ((n - 1) / nb)) ((n - 1) mod nb).

(** Everything that happens to a task *)
Inductive op :=
| Sigaction (signum : Z) (act : uact) (sigsetsize : Z)
| Sigprocmask (h : how) (us : option (Z -> option Z)) (oldfault : bool)
| Sigsuspend (us : option set) (sigsetsize : Z)
| Sigreturn (fault : bool)
| Execve
| Send (init : bool) (signum : Z) (fl_fault : bool)
| Deliver (fault : bool).               (* process_signals on the way to user mode *)

Definition step (nb : Z) (t : task) (o : op) : outcome :=
  match o with
  | Sigaction n a sz => sys_rt_sigaction nb t n a sz
  | Sigprocmask h us of => sys_rt_sigprocmask nb t h us of
  | Sigsuspend us sz => sys_rt_sigsuspend nb t us sz
  | Sigreturn f => sys_rt_sigreturn nb t f
  | Execve => execve t
  | Send i n f => do_send_signal nb t i n f
  | Deliver f => process_signals nb t false f
  end.

(** User memory holds words *)
Definition word (nb w : Z) : Prop := 0 <= w < 2 ^ nb.
Definition op_ok (nb : Z) (o : op) : Prop :=
  match o with
  | Sigprocmask _ (Some us) _ => forall i w, us i = Some w -> word nb w
  | Sigsuspend (Some m) _ => forall i, word nb (m i)
  | Send _ n _ => 0 <= n < NSIG
  | _ => True
  end.

(** The user's mask is readable completely or not at all *)
Definition whole_mask (nb : Z) (o : op) : Prop :=
  match o with
  | Sigprocmask _ (Some us) _ => us 0 = None \/ forall i, 0 <= i < words nb -> us i <> None
  | _ => True
  end.

Inductive reach (nb : Z) (ok : op -> Prop) : task -> Prop :=
| reach_init : reach nb ok task_init
| reach_step : forall t o t' r, reach nb ok t -> op_ok nb o -> ok o -> step nb t o = Ok t' r -> reach nb ok t'.

Definition protected (nb : Z) (t : task) : Prop :=
  member nb (mask t) SIGKILL = false /\ member nb (mask t) SIGSTOP = false /\
  hnd t SIGKILL = SIG_DFL /\ hnd t SIGSTOP = SIG_DFL.

Definition arch (nb : Z) : Prop := nb = 32 \/ nb = 64.

(** Signals whose bit [1 << index] can be computed *)
Definition easy (nb n : Z) : Prop := nb = 32 \/ nb = 64 /\ n <= 31.

(** Pending signals all easy *)
Definition easy_pending (nb : Z) (t : task) : Prop := forall n, 1 <= n <= 64 -> member nb (pend t) n = true -> easy nb n.

(** The blocked set that counts: fault signals cannot be blocked *)
Definition blocked (nb : Z) (t : task) (n : Z) : bool := member nb (mask t) n && negb (member nb (fpend t) n).

Fixpoint run (nb : Z) (t : task) (l : list op) : option (task * list ret) :=
  match l with
  | [] => Some (t, [])
  | o :: l => match step nb t o with
              | Ok t' r => match run nb t' l with Some (t2, rs) => Some (t2, r :: rs) | None => None end
              | _ => None
              end
  end.

Definition const (w : Z) : option (Z -> option Z) := Some (fun i => if i =? 0 then Some w else Some 0).

(** What a signal does to a task that has installed [h] for it; POSIX: SIGCHLD and
    SIGURG are ignored by default, SIGCONT continues, SIGSTOP, SIGTSTP, SIGTTIN and
    SIGTTOU stop; init is not affected by signals it does not handle *)
Definition queued (init : bool) (h n : Z) : bool :=
  if h =? SIG_IGN then false
  else if h =? SIG_DFL then negb init && negb (existsb (Z.eqb n) [17; 18; 19; 20; 21; 22; 23])
  else true.
