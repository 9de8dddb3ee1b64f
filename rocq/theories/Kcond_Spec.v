(** Specification of condition variables over observable histories. *)
From Verif Require Import Lib Kcond_Model.
From Verif Require Kmutex_Model Kmutex_Spec.

(** The mutex part of the history *)
Definition mu (tr : list event) : list Kmutex_Model.event :=
  flat_map (fun e => match e with EMu m => [m] | _ => [] end) tr.

Definition holds (tr : list event) (t : Z) : Prop := 0 < Kmutex_Spec.held (mu tr) t.

(** The tasks waiting on the condition, oldest first: those that called wait
    and have been neither signalled, nor timed out, nor interrupted *)
Definition drop (k : list Z) (l : list Z) : list Z :=
  filter (fun x => negb (existsb (Z.eqb x) k)) l.
Definition waiting1 (ws : list Z) (e : event) : list Z :=
  match e with
  | EWait t _ _ => ws ++ [t]
  | ESignal _ k => drop k ws
  | ETimer t | EIntr t => drop [t] ws
  | _ => ws
  end.
Definition waiting (tr : list event) : list Z := fold_left waiting1 tr [].

(** Why the last wait of a task ended *)
Inductive reason := NotYet | BySignal | ByTimer | ByInterrupt.
Definition reason1 (t : Z) (r : reason) (e : event) : reason :=
  match e with
  | EWait u _ _ => if u =? t then NotYet else r
  | ESignal _ k => if existsb (Z.eqb t) k then BySignal else r
  | ETimer u => if u =? t then ByTimer else r
  | EIntr u => if u =? t then ByInterrupt else r
  | _ => r
  end.
Definition why (tr : list event) (t : Z) : reason := fold_left (reason1 t) tr NotYet.

(** Correct use: mutex discipline; wait while holding the (once-locked) mutex.
    [quiet]: no POSIX signal interrupts a wait with an armed timer. *)
Definition allowed (recursive : bool) (s : cst) (tr : list event) (a : action) : Prop :=
  match a with
  | Mutex ma => Kmutex_Spec.allowed recursive (mu tr) ma
  | CWait t _ true => Kmutex_Spec.held (mu tr) t = 1
  | _ => True
  end.
Definition quiet (s : cst) (a : action) : Prop :=
  match a with Interrupt t => c_armed s t = false | _ => True end.

Inductive reach (recursive : bool) : cst -> list event -> Prop :=
| reach_init : reach recursive (kcond_init recursive) []
| reach_step : forall s tr a s' evs,
    reach recursive s tr -> allowed recursive s tr a -> quiet s a -> step s a = Ok s' evs ->
    reach recursive s' (tr ++ evs).

(** The same without [quiet] *)
Inductive reach_any (recursive : bool) : cst -> list event -> Prop :=
| ra_init : reach_any recursive (kcond_init recursive) []
| ra_step : forall s tr a s' evs,
    reach_any recursive s tr -> allowed recursive s tr a -> step s a = Ok s' evs ->
    reach_any recursive s' (tr ++ evs).
