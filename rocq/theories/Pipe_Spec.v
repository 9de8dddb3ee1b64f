(** The byte stream and the open ends, from the history alone. *)
From Verif Require Import Lib Pipe_Model.

Definition written1 (acc : list Z) (e : event) : list Z :=
  match e with EWrite _ b => acc ++ b | _ => acc end.
Definition delivered1 (acc : list Z) (e : event) : list Z :=
  match e with ERead _ b => acc ++ b | _ => acc end.
(** Bytes accepted by writes, bytes delivered by reads, in order *)
Definition written (tr : list event) : list Z := fold_left written1 tr [].
Definition delivered (tr : list event) : list Z := fold_left delivered1 tr [].
(** Bytes accepted and not delivered yet *)
Definition undelivered (tr : list event) : list Z := skipn (length (delivered tr)) (written tr).

(** Open ends: one at the start, plus duplications, minus closes *)
Definition live1 (w : bool) (n : Z) (e : event) : Z :=
  match e with
  | EDup v => if Bool.eqb v w then n + 1 else n
  | EClose v => if Bool.eqb v w then n - 1 else n
  | _ => n
  end.
Definition live (w : bool) (tr : list event) : Z := fold_left (live1 w) tr 1.

Definition no_pollers (tr : list event) : Prop := forall t w, ~ In (EPoll t w) tr.

(** Correct use: an end is duplicated or closed only while it is open *)
Definition allowed (tr : list event) (a : action) : Prop :=
  match a with
  | Close _ w | Dup w => 0 < live w tr
  | _ => True
  end.

Inductive reach (N : Z) (buf : list Z) : pipe -> list event -> Prop :=
| reach_init : reach N buf (pipe_init N buf) []
| reach_step : forall s tr a s' evs,
    reach N buf s tr -> allowed tr a -> step s a = Ok s' evs -> reach N buf s' (tr ++ evs).

(** Asleep in a read / write, and woken but not yet running *)
Definition reader_asleep (s : pipe) (t : Z) : Prop := exists size nb, ppc s t = RWait size nb.
Definition writer_asleep (s : pipe) (t : Z) : Prop := exists data nb, ppc s t = WWait data nb.
Definition reader_coming (s : pipe) : Prop := exists t size nb, ppc s t = RGo size nb true.
Definition writer_coming (s : pipe) : Prop := exists t data nb, ppc s t = WGo data nb true.
