(** Scheduler: what is assumed of the callers, and what is claimed. *)
From Verif Require Import Lib Avl_Model Avl_Spec Sched_Model.

Definition live (x : tstate) : Prop := x <> Dead /\ x <> Zombie.
Definition active (x : tstate) : Prop := x = Running \/ x = Runnable.

Section S.
  Variables (idle kproc : Z) (workers : list Z) (prio : Z -> Z) (latency gran : Z).
  (** The tids of all the tasks that ever exist *)
  Variable pool : list Z.

  Definition ordinary (t : Z) : Prop := In t pool /\ t <> idle /\ t <> kproc.
  Definition user (t : Z) : Prop := ordinary t /\ ~ In t workers.

  (** The configuration: the trees' capacity (C05), idle and kernel_process apart *)
  Definition config : Prop :=
    NoDup pool /\ zlen pool <= 5702885 /\ In idle pool /\ In kproc pool /\ idle <> kproc /\
    ~ In idle workers /\ ~ In kproc workers.

  (** Correct use.  Only the current task's code runs, in phase [Run]; idle and
      kernel_process never sleep, exit or get woken; vruntimes fit 64 bits; only live
      tasks are signalled; tids are unique (C28); the parent of a vforked child is
      still stopped when the child is done with it (see the refutations). *)
  Definition allowed (s : st) (a : action) : Prop :=
    let f := ts (q s) in
    match a with
    | Tick => vr (q s) (curr s) + scale < 2 ^ 64
    | TimerFire t => ordinary t /\ live (f t)
    | WthWake t => ordinary t /\ In t workers /\ live (f t)
    | Next => ph s <> Run
    | _ => ph s = Run /\
      match a with
      | Sleep => ordinary (curr s) /\ active (f (curr s))
      | Wake t => ordinary t /\ live (f t)
      | Stop t => user t /\ live (f t) /\ (t = curr s -> f t <> Sleeping)
      | Cont t => user t /\ live (f t)
      | Kill t => user t /\ live (f t)
      | Fork t => ordinary t /\ f t = Dead
      | Vfork => user (curr s) /\ active (f (curr s))
      | VforkDone t => user t /\ f t = Stopped /\ vfs s t = true
      | Exit => ordinary (curr s) /\ active (f (curr s))
      | Reap t => ordinary t /\ f t = Zombie /\ t <> curr s
      | WthNormalize => ordinary (curr s) /\ In (curr s) workers
      | _ => True
      end
    end.

  Inductive reach : st -> Prop :=
  | reach_init : reach (st_init idle kproc)
  | reach_step : forall s a s', reach s -> allowed s a -> step idle kproc workers prio latency gran s a = Some s' -> reach s'.

  Definition zsum (f : Z -> Z) (l : list Z) : Z := fold_right (fun t a => f t + a) 0 l.

  (** The run queue holds exactly the runnable tasks that are neither idle nor workers *)
  Definition queue_exact (s : st) : Prop :=
    NoDup (inorder (root (q s))) /\
    (forall t, In t (inorder (root (q s))) <-> ts (q s) t = Runnable /\ t <> idle /\ ~ In t workers) /\
    cnt (q s) = zlen (inorder (root (q s))) /\
    sum (q s) = (zsum (vr (q s)) (inorder (root (q s)))) mod 2 ^ 64.

  Definition queued (s : st) (t : Z) : Prop := ts (q s) t = Runnable /\ t <> idle /\ ~ In t workers.

  (** [t] precedes [u] in the order of the run queue *)
  Definition before (s : st) (t u : Z) : Prop := vr (q s) t < vr (q s) u \/ vr (q s) t = vr (q s) u /\ t <= u.

  (** Which steps change the state of task [t] to [n] *)
  Definition moves (s : st) (a : action) (t : Z) (n : tstate) : Prop :=
    match a with
    | TimerFire x => x = t /\ ts (q s) t = Sleeping /\ n = (if stopp s t then Stopped else Runnable)
    | WthWake x => x = t /\ ts (q s) t = Sleeping /\ n = Runnable
    | Sleep => curr s = t /\ n = Sleeping
    | Stop x => x = t /\ (ts (q s) t = Running \/ ts (q s) t = Runnable) /\ n = Stopped
    | Cont x | Kill x => x = t /\ ts (q s) t = Stopped /\ vfs s t = false /\ n = Runnable
    | Fork x => x = t /\ n = Runnable
    | Vfork => curr s = t /\ n = Stopped
    | VforkDone x => x = t /\ ts (q s) t = Stopped /\ vfs s t = true /\ n = Runnable
    | Exit => curr s = t /\ n = Zombie
    | Reap x => x = t /\ ts (q s) t = Zombie /\ n = Dead
    | WthNormalize => curr s = t /\ ts (q s) t = Runnable /\ n = Running
    | Next =>
        match ph s with
        | Wake2 x nx => x = t /\ n = nx
        | Sched0 _ _ => curr s = t /\ tready s t = true /\ n = Running
        | Chosen cs x => (curr s = t /\ x = t /\ n = Running) \/ (curr s = t /\ x <> t /\ ts (q s) t = Running /\ n = Runnable)
        | Switch1 x => x = t /\ n = Running
        | _ => False
        end
    | _ => False
    end.
End S.
