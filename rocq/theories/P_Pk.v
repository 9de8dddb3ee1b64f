(** C76: printk from tasks and interrupts. *)
From Coq Require Import Permutation.
From Verif Require Import Lib Pk_Model Pk_Spec Pk_Proofs4 Pk_Refuted.

(** All histories, with preemption anywhere the code allows: never outside the ring, never full (so the two positions tell empty from full). *)
Theorem C76_room : forall r l,
  0 < zlen r -> Forall fine l -> exists s, steps (init r) l = Some s /\ zlen (ring s) = zlen r /\ full s = false /\ 0 <= used s < zlen r.
Proof. exact pk_room. Qed.
Print Assumptions C76_room.

(** No task preempted inside printk, interrupts at any step: what is printed from the ring is, at any time, a prefix of the pieces put into it, in that order. *)
Theorem C76_order : forall r l s,
  0 < zlen r -> Forall fine l -> Forall unparked l -> steps (init r) l = Some s -> exists rest, concat (logged s) = from_ring (shown s) ++ rest.
Proof. exact pk_order. Qed.
Print Assumptions C76_order.

(** There: when all calls have returned, the ring is empty and each piece of each call was printed exactly once, directly or from the ring. *)
Theorem C76_all_printed : forall r l s,
  0 < zlen r -> Forall fine l -> Forall unparked l -> steps (init r) l = Some s -> stack s = [] ->
  first s = false /\ used s = 0 /\ from_ring (shown s) = concat (logged s) /\ Permutation (direct (shown s) ++ logged s) (due s).
Proof. exact pk_all. Qed.
Print Assumptions C76_all_printed.

(** Calls one after the other print their texts in order, with a prefix where the text before ended a line. *)
Theorem C76_in_turn : forall r cs,
  Forall (fun c => 0 < bsz c) cs -> exists s, steps (init r) (in_turn true cs) = Some s /\ stack s = [] /\ shown s = map EDirect (texts true cs).
Proof. exact pk_in_turn. Qed.
Print Assumptions C76_in_turn.

(** With preemption between lines 397 and 431: all calls have returned, but a message is still in the ring. *)
Theorem C76_stuck_refuted : Forall fine (window ++ runs 12) /\ shows (steps (init ring0) (window ++ runs 12)) = Some ([EDirect [91; 93]; EDirect [65; 65; 10]], [], [], 5).
Proof. exact stuck. Qed.
Print Assumptions C76_stuck_refuted.

(** There, with an interrupt: bytes are printed that were never put into the ring; the message is lost. *)
Theorem C76_garbage_refuted : Forall fine garbled /\ exists s, steps (init ring0) garbled = Some s /\ stack s = [] /\ parked s = [] /\ from_ring (shown s) = [0; 0] /\ logged s = [[91; 93]; [66; 66; 10]].
Proof. exact garbage. Qed.
Print Assumptions C76_garbage_refuted.

(** An interrupt during a call, one during its own; a ring of 8 bytes that overflows; prefixes *)
Example C76_nonvacuous :
  shows (steps (init ring0) ([OCall (msg 65)] ++ runs 3 ++ [OIrq (msg 66)] ++ runs 5 ++ [OIrq (msg 67)] ++ runs 40)) =
    Some ([EDirect [91; 93]; EDirect [65; 65; 10]; ERing [91; 93; 91; 93; 67; 67; 10; 66; 66; 10]], [], [], 0) /\
  shows (steps (init (repeat 0 8)) ([OCall (msg 65)] ++ runs 3 ++ [OIrq (msg 66)] ++ runs 12 ++ [OIrq (msg 67)] ++ runs 40)) =
    Some ([EDirect [91; 93]; EDirect [67; 67; 10]; EDirect [65; 65; 10]; ERing [91; 93; 66; 66; 10; 91; 93]], [], [], 0) /\
  texts true [Call [91] [65] 64; Call [91] [66; 10] 64; Call [91] [67] 64] = [[91]; [65]; [66; 10]; [91]; [67]].
Proof. vm_compute. repeat split. Qed.

