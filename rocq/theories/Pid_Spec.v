From Verif Require Import Lib Pid_Model.
From Coq Require Import Sorted.

Definition live (s : st) (i : Z) : Prop := In i (map tid (tasks s)).
(** [i] names a process group or a session *)
Definition named (s : st) (i : Z) : Prop := exists t, In t (tasks s) /\ (pgid t = i \/ sid t = i).

(** No process above [cmax] (the last id given) belongs to a group or session, with an
    id between [cmax] and its own, whose leader is gone *)
Definition no_stale_group (s : st) : Prop :=
  forall t v, In t (tasks s) -> tid t <= max_pid -> v = pgid t \/ v = sid t -> cmax s < v < tid t -> live s v.

(** Processes fork, setpgid and setsid; kernel_process and init stay *)
Definition allowed (s : st) (a : action) : Prop :=
  match a with
  | Fork p _ => (exists t, In t (tasks s) /\ tid t = p /\ kern t = false) /\ no_stale_group s
  | Kthread _ => True
  | Remove t => t <> ktid_start
  | SetPgid t pg => (exists x, In x (tasks s) /\ tid x = t /\ kern x = false) /\ 0 <= pg
  | SetSid t => exists x, In x (tasks s) /\ tid x = t /\ kern x = false
  end.
Inductive reach : st -> Prop :=
| reach_init : reach st_init
| reach_step : forall s a s' r, reach s -> allowed s a -> step s a = Ok s' r -> reach s'.

Fixpoint run (s : st) (l : list action) : option st :=
  match l with [] => Some s | a :: l => match step s a with Ok s' _ => run s' l | Fail => None end end.
