(** Specification of semaphores over observable histories. *)
From Verif Require Import Lib Ksem_Model.

Definition granted1 (n : Z) (e : event) : Z := match e with EGrant _ u => n + u | _ => n end.
Definition signalled1 (n : Z) (e : event) : Z := match e with ESignalled u => n + u | _ => n end.

(** Units handed out, units given back *)
Definition granted (tr : list event) : Z := fold_left granted1 tr 0.
Definition signalled (tr : list event) : Z := fold_left signalled1 tr 0.

Definition available (val : Z) (tr : list event) : Z := val + signalled tr - granted tr.

(** Callers pass positive counts *)
Definition allowed (a : action) : Prop :=
  match a with
  | Wait _ u _ _ => 0 < u <= 2147483647
  | Signal u => 0 < u <= 2147483647
  | _ => True
  end.

(** Every state reachable by any interleaving.  Without a maximum, the int
    counter must not overflow: [available] stays below 2^31. *)
Inductive reach (val : Z) (max : option Z) : ksem -> list event -> Prop :=
| reach_init : reach val max (ksem_init val max) []
| reach_step : forall s tr a s' ev,
    reach val max s tr -> allowed a -> step s a = Ok s' ev ->
    (max = None -> available val (tr ++ [ev]) <= 2147483647) ->
    reach val max s' (tr ++ [ev]).

(** Legal initialisation *)
Definition good_init (val : Z) (max : option Z) : Prop :=
  0 <= val <= 2147483647 /\ match max with Some mx => 0 < mx <= 2147483647 /\ val <= mx | None => True end.

Definition asleep (s : ksem) (t units : Z) : Prop := exists timed, s_pc s t = Asleep units timed.

(** A wake-up in flight: a task that is runnable inside ksem_wait *)
Definition in_flight (s : ksem) (t : Z) : Prop :=
  exists units timed fired, s_pc s t = Woken units timed fired.

(** All requests of the history are for [u] units *)
Definition requests_are (u : Z) (tr : list event) : Prop :=
  Forall (fun e => match e with
                   | EBlock _ v | EGrant _ v | ENotGranted _ v => v = u
                   | _ => True
                   end) tr.
