(** Readers, writers and registered writers, from the history alone. *)
From Verif Require Import Lib RwWp_Model.

Definition reading1 (t : Z) (b : bool) (e : event) : bool :=
  match e with
  | ERead u => if u =? t then true else b
  | EReadEnd u => if u =? t then false else b
  | _ => b
  end.
Definition reading (tr : list event) (t : Z) : bool := fold_left (reading1 t) tr false.

(** Write locks of [t] not yet given back *)
Definition depth1 (t : Z) (d : Z) (e : event) : Z :=
  match e with
  | EWrite u => if u =? t then d + 1 else d
  | EWriteEnd u => if u =? t then d - 1 else d
  | _ => d
  end.
Definition depth (tr : list event) (t : Z) : Z := fold_left (depth1 t) tr 0.

(** A writer that registered and has not got the lock yet *)
Definition queued1 (t : Z) (b : bool) (e : event) : bool :=
  match e with
  | EReg u => if u =? t then true else b
  | EWrite u => if u =? t then false else b
  | _ => b
  end.
Definition queued (tr : list event) (t : Z) : bool := fold_left (queued1 t) tr false.

(** Correct use: a reader locks when holding nothing, a writer when not reading
    (and, unless the lock is recursive, not writing); unlock what you hold; at
    most 65535 nested write locks; fewer than 2^31 - 1 readers and writers *)
Definition allowed (recursive : bool) (s : wp) (tr : list event) (a : action) : Prop :=
  nr s < 2147483647 /\ wq s < 2147483647 /\
  match a with
  | Call t RL => reading tr t = false /\ depth tr t = 0
  | Call t RU => reading tr t = true
  | Call t WL => reading tr t = false /\ (if recursive then depth tr t < 65535 else depth tr t = 0)
  | Call t WL2 => False
  | Call t WU => 0 < depth tr t
  | Go _ | Interrupt _ => True
  end.

Inductive reach (recursive : bool) : wp -> list event -> Prop :=
| reach_init : reach recursive (wp_init recursive) []
| reach_step : forall s tr a s' evs,
    reach recursive s tr -> allowed recursive s tr a -> step s a = Ok s' evs -> reach recursive s' (tr ++ evs).

(** Running a list of actions *)
Fixpoint run (s : wp) (l : list action) : option (wp * list event) :=
  match l with
  | [] => Some (s, [])
  | a :: l' => match step s a with
               | Ok s' evs => match run s' l' with Some (s2, tr) => Some (s2, evs ++ tr) | None => None end
               | _ => None
               end
  end.
