(** Readers and writers, from the history alone. *)
From Verif Require Import Lib RwRp_Model.

Definition reading1 (t : Z) (b : bool) (e : event) : bool :=
  match e with
  | ERead u => if u =? t then true else b
  | EReadEnd u => if u =? t then false else b
  | _ => b
  end.
Definition writing1 (t : Z) (b : bool) (e : event) : bool :=
  match e with
  | EWrite u => if u =? t then true else b
  | EWriteEnd u => if u =? t then false else b
  | _ => b
  end.
Definition reading (tr : list event) (t : Z) : bool := fold_left (reading1 t) tr false.
Definition writing (tr : list event) (t : Z) : bool := fold_left (writing1 t) tr false.

(** Correct use: lock when holding nothing, unlock what you hold; fewer than
    2^31 - 1 readers at a time *)
Definition allowed (s : rw) (tr : list event) (a : action) : Prop :=
  match a with
  | CallShLock t | CallExLock t => reading tr t = false /\ writing tr t = false
  | CallShUnlock t => reading tr t = true
  | CallExUnlock t => writing tr t = true
  | Go _ => rcount s < 2147483647
  end.

Inductive reach : rw -> list event -> Prop :=
| reach_init : reach rw_init []
| reach_step : forall s tr a s' evs,
    reach s tr -> allowed s tr a -> step s a = Ok s' evs -> reach s' (tr ++ evs).

(** Running a list of actions *)
Fixpoint run (s : rw) (l : list action) : option (rw * list event) :=
  match l with
  | [] => Some (s, [])
  | a :: l' => match step s a with
               | Ok s' evs => match run s' l' with Some (s2, tr) => Some (s2, evs ++ tr) | None => None end
               | _ => None
               end
  end.
