From Verif Require Import Lib SafeRb_Model.

(** No write is in progress *)
Definition quiet (s : st) : Prop := forall p, prod s p = PIdle.
(** The rule of safe_ringbuf.h:8-27: the reader never interrupts a writer.  (Writers run
    with preemption disabled or in interrupt handlers: kernel/wth.c:100-127, term_aux.h:60-75.) *)
Definition allowed (s : st) (a : action) : Prop :=
  match a with Cons _ => quiet s | _ => True end.
Inductive reach (max : Z) (b : Z -> Z) : st -> Prop :=
  | R0 : reach max b (init b)
  | RS s a s' : reach max b s -> allowed s a -> step max s a = Some s' -> reach max b s'.
(** without the rule *)
Inductive reach_any (max : Z) (b : Z -> Z) : st -> Prop :=
  | Y0 : reach_any max b (init b)
  | YS s a s' : reach_any max b s -> step max s a = Some s' -> reach_any max b s'.

Definition at_ (l : list Z) (j : Z) : Z := nth (Z.to_nat j) l 0.
Arguments at_ : simpl never.
(** the write which has claimed the j-th slot has not yet stored its element *)
Definition pending (s : st) (j : Z) : Prop := exists p cs, prod s p = PCopy (at_ (hist s) j) cs j.
Definition ok_keys (l : list wres) : list Z := flat_map (fun r => match r with WOk _ k _ _ => [k] | _ => [] end) l.
Definition read_values (l : list rres) : list Z := flat_map (fun r => match r with ROk v => [v] | _ => [] end) l.
