(** What the callers of the timers see: a trace of events, newest first. *)
From Verif Require Import Lib Timer_Model.

(** Ticks so far *)
Fixpoint clock (tr : list event) : Z :=
  match tr with [] => 0 | ETick :: tr => clock tr + 1 | _ :: tr => clock tr end.

(** Inside the tick handler *)
Fixpoint in_tick (tr : list event) : bool :=
  match tr with [] => false | ETick :: _ => true | ETickEnd :: _ => false | _ :: tr => in_tick tr end.

(** A timer is idle, has a deadline, or has expired and waits for the worker thread *)
Inductive status := Idle | Armed (deadline : Z) | Queued.
Fixpoint state_of (tr : list event) (t : Z) : status :=
  match tr with
  | [] => Idle
  | EArm t' n :: tr => if t' =? t then Armed (clock tr + n) else state_of tr t
  | EArmIf t' n true :: tr => if t' =? t then Armed (clock tr + n) else state_of tr t
  | ECancel t' true :: tr => if t' =? t then Idle else state_of tr t
  | EFire t' :: tr => if t' =? t then Idle else state_of tr t
  | EDefer t' :: tr => if t' =? t then Queued else state_of tr t
  | _ :: tr => state_of tr t
  end.

(** Expired deferred timers, oldest first *)
Fixpoint expired (tr : list event) : list Z :=
  match tr with
  | [] => []
  | EDefer t :: tr => expired tr ++ [t]
  | EFire t :: tr => filter (fun x => negb (x =? t)) (expired tr)
  | ECancel t true :: tr => filter (fun x => negb (x =? t)) (expired tr)
  | _ :: tr => expired tr
  end.

(** Correct use.  The timers are those of [pool].  The tick interrupt does not
    nest; any other step may come between two iterations of its loop.  A deferred
    timer is not armed again while queued; deadlines fit 64 bits. *)
Definition allowed (pool : list Z) (deferred : Z -> bool) (tr : list event) (a : action) : Prop :=
  match a with
  | Arm t n => In t pool /\ 0 < n /\ clock tr + n < 2 ^ 64 /\ state_of tr t <> Queued
  | ArmIfArmed t n => In t pool /\ 0 < n /\ clock tr + n < 2 ^ 64
  | Tick => in_tick tr = false /\ clock tr + 1 < 2 ^ 64
  | TickLoop => in_tick tr = true
  | _ => True
  end.

Inductive reach (pool : list Z) (deferred : Z -> bool) : st -> list event -> Prop :=
| reach_init : reach pool deferred st_init []
| reach_step : forall s tr a s' e, reach pool deferred s tr -> allowed pool deferred tr a ->
    step deferred s a = Ok s' e -> reach pool deferred s' (e :: tr).

(** The tree's capacity, see C05 *)
Definition fits (pool : list Z) : Prop := NoDup pool /\ zlen pool <= 5702885.

(** The same without the conditions of correct use, for counterexamples *)
Fixpoint run (deferred : Z -> bool) (s : st) (l : list action) : option (st * list event) :=
  match l with
  | [] => Some (s, [])
  | a :: l =>
      match step deferred s a with
      | Fail => None
      | Ok s' e => match run deferred s' l with Some (s2, es) => Some (s2, e :: es) | None => None end
      end
  end.

(** Times [t] was armed while idle, fired, and was successfully cancelled *)
Fixpoint starts (tr : list event) (t : Z) : Z :=
  match tr with
  | [] => 0
  | EArm t' _ :: tr => starts tr t + (if t' =? t then match state_of tr t with Idle => 1 | _ => 0 end else 0)
  | _ :: tr => starts tr t
  end.
Fixpoint fires (tr : list event) (t : Z) : Z :=
  match tr with [] => 0 | EFire t' :: tr => fires tr t + (if t' =? t then 1 else 0) | _ :: tr => fires tr t end.
Fixpoint cancels (tr : list event) (t : Z) : Z :=
  match tr with [] => 0 | ECancel t' true :: tr => cancels tr t + (if t' =? t then 1 else 0) | _ :: tr => cancels tr t end.
