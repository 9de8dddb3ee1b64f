(** What printk promises: what is printed, and when. *)
From Verif Require Import Lib Pk_Model.

(** Bytes printed from the ring; pieces printed directly *)
Fixpoint from_ring (l : list event) : list Z :=
  match l with [] => [] | ERing p :: t => p ++ from_ring t | _ :: t => from_ring t end.
Fixpoint direct (l : list event) : list (list Z) :=
  match l with [] => [] | EDirect p :: t => p :: direct t | _ :: t => direct t end.
(** Calls with a buffer; no task is preempted inside printk *)
Definition fine (o : op) : Prop := match o with OCall c | OIrq c => 0 < bsz c | _ => True end.
Definition unparked (o : op) : Prop := match o with OPark => False | _ => True end.
(** The pieces a call prints, given whether the text before ended a line *)
Definition pieces (b : bool) (c : call) : list (list Z) := filter nonempty ((if b then [pre c] else []) ++ [body c]).
(** Calls one after the other, each to its end; what they print: a prefix where the text before ended a line *)
Definition alone (b : bool) (c : call) : list op := OCall c :: ORun :: ORun :: repeat ORun (length (pieces b c)) ++ [ORun].
Fixpoint in_turn (b : bool) (cs : list call) : list op :=
  match cs with [] => [] | c :: t => alone b c ++ in_turn (has_nl (body c)) t end.
Fixpoint texts (b : bool) (cs : list call) : list (list Z) :=
  match cs with [] => [] | c :: t => pieces b c ++ texts (has_nl (body c)) t end.
