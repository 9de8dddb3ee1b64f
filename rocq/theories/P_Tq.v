(** C81: the queue of terminal actions. *)
From Verif Require Import Lib Tq_Model Tq_Spec Tq_Proofs Tq_Refuted.

(** All interleavings of any number of tasks and interrupts: actions are executed in the order of their enqueueing, none is lost or repeated, at most one task is inside the mutex, and a queue that is not empty has a task that is going to execute it. *)
Theorem C81_queue : forall cap, 0 < cap -> forall m l s, run cap l (tq0 m) = Some s -> enq s = exd s ++ q s /\ zlen (q s) <= cap /\
  (forall i j, inside (pcs s i) -> inside (pcs s j) -> i = j) /\
  (q s <> [] -> exists i, drains (pcs s i)).
Proof. exact reach. Qed.
Print Assumptions C81_queue.

(** From every state the tasks inside their calls can empty the queue, without a new call. *)
Theorem C81_not_stuck : forall cap, 0 < cap -> forall m l s, run cap l (tq0 m) = Some s ->
  exists l' s', run cap l' s = Some s' /\ q s' = [] /\ exd s' = enq s' /\ Forall (fun x => internal (snd x)) l'.
Proof. exact not_stuck. Qed.
Print Assumptions C81_not_stuck.

(** When no text is changed while in the queue, the texts shown and those in the queue are the texts written. *)
Theorem C81_texts : forall cap m l s, careful cap l (tq0 m) -> run cap l (tq0 m) = Some s -> want s = shown s ++ map (mem s) (q s).
Proof. exact shown_ok. Qed.
Print Assumptions C81_texts.

(** A write has returned while its text is only in the queue (as a pointer to the buffer of the caller) *)
Theorem C81_returned_refuted : option_map view (run 32 (firstn 2 reuse) (tq0 m0)) = Some ([7; 8], [], [10; 20], Wait, Out).
Proof. exact reuse_returned. Qed.
Print Assumptions C81_returned_refuted.

(** and what is shown is the next content of the buffer. *)
Theorem C81_reuse_refuted : option_map view (run 32 reuse (tq0 m0)) = Some ([7; 8], [7; 9], [], Out, Out).
Proof. exact reuse_shown. Qed.
Print Assumptions C81_reuse_refuted.

(** Code with preemption disabled executes inside the execution of a task. *)
Theorem C81_interrupt_refuted : option_map view (run 32 [(1, Call 10); (1, Lock); (1, Read); (0, Irq 20)] (tq0 m0)) = Some ([7; 8], [7; 8], [], Exec, Out).
Proof. exact irq_inside. Qed.
Print Assumptions C81_interrupt_refuted.

(** A queue filled by tasks makes an interrupt that prints panic. *)
Theorem C81_panic_refuted : forall cap a, 0 < cap -> exists s, run cap ((1, Call a) :: repeat (2, Call a) (Z.to_nat (cap - 1))) (tq0 m0) = Some s /\
  zlen (q s) = cap /\ forall i b, step cap i (Irq b) s = None.
Proof. exact irq_panic. Qed.
Print Assumptions C81_panic_refuted.

(** A full ring of two, a task that tries again, an interrupt, and everything shown *)
Example C81_nonvacuous :
  let l := [(1, Call 10); (2, Call 20); (3, Call 30); (3, Lock); (3, Redo); (1, Lock); (1, Read); (0, Irq 40); (1, Done); (1, Read); (1, Done); (1, Read); (1, Done); (1, Read);
            (3, Store 10 5); (3, Lock); (3, Redo); (3, Lock); (3, Read); (3, Done); (3, Read)] in
  careful 2 l (tq0 m0) /\ option_map view (run 2 l (tq0 m0)) = Some ([7; 8; 0; 0], [7; 8; 0; 0], [], Out, Out).
Proof. vm_compute. intuition congruence. Qed.

