(** Specification of the mutex: what histories of observable events mean. *)
From Verif Require Import Lib Kmutex_Model.

(** How many times [t] holds the mutex: acquisitions minus releases *)
Definition held1 (t : Z) (h : Z) (e : event) : Z :=
  match e with
  | EAcq u => if u =? t then h + 1 else h
  | ERel u => if u =? t then h - 1 else h
  | _ => h
  end.
Definition held (tr : list event) (t : Z) : Z := fold_left (held1 t) tr 0.

(** Tasks that started to wait and have not acquired yet, oldest first *)
Definition waiters1 (ws : list Z) (e : event) : list Z :=
  match e with
  | EBlock t => ws ++ [t]
  | EAcq t => remove Z.eq_dec t ws
  | _ => ws
  end.
Definition waiters (tr : list event) : list Z := fold_left waiters1 tr [].

(** Correct use by callers: unlock only what you hold, do not re-lock a
    non-recursive mutex, nesting below 2^32 *)
Definition allowed (recursive : bool) (tr : list event) (a : action) : Prop :=
  match a with
  | Lock t | TryLock t =>
      if recursive then held tr t < 4294967295 else held tr t = 0
  | Unlock t => 0 < held tr t
  | Resume _ => True
  end.

(** Every state and history reachable by any interleaving of any tasks *)
Inductive reach (recursive : bool) : kmutex -> list event -> Prop :=
| reach_init : reach recursive (kmutex_init recursive) []
| reach_step : forall m tr a m' ev,
    reach recursive m tr -> allowed recursive tr a -> step m a = Ok m' ev ->
    reach recursive m' (tr ++ [ev]).
