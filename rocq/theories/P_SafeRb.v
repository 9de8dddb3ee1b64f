(** C03: the ring buffer between interrupt handlers and tasks. *)
From Verif Require Import Lib SafeRb_Model SafeRb_Spec SafeRb_Proofs.

(** The elements read are, in order, the first of the elements whose slots were claimed; never more than max elements are in the buffer *)
Theorem C03_fifo : forall max, 1 <= max <= 32768 -> forall b s, reach max b s ->
  read_values (rlog s) = firstn (length (got s)) (hist s) /\ 0 <= zlen (hist s) - zlen (got s) <= max.
Proof. exact fifo. Qed.
Print Assumptions C03_fifo.

(** Every successful write has its own place in that order, holding its element; every place belongs to a successful write or to one which is about to store its element *)
Theorem C03_exactly_once : forall max, 1 <= max <= 32768 -> forall b s, reach max b s ->
  NoDup (ok_keys (wlog s)) /\
  (forall e k we em, In (WOk e k we em) (wlog s) -> 0 <= k < zlen (hist s) /\ at_ (hist s) k = e) /\
  (forall k, 0 <= k < zlen (hist s) -> In k (ok_keys (wlog s)) \/ pending s k).
Proof. exact exactly_once. Qed.
Print Assumptions C03_exactly_once.

(** An unread element is intact in its slot, unless its write is about to store it *)
Theorem C03_unread_intact : forall max, 1 <= max <= 32768 -> forall b s, reach max b s ->
  forall j, zlen (got s) <= j < zlen (hist s) -> buf s (j mod max) = at_ (hist s) j \/ pending s j.
Proof. exact unread. Qed.
Print Assumptions C03_unread_intact.

(** *was_empty says whether the buffer was empty when the slot was claimed; a write fails only if the buffer is full, a read only if it was empty when it looked; the two predicates are exact *)
Theorem C03_results_truthful : forall max, 1 <= max <= 32768 -> forall b s, reach max b s ->
  (forall e k we em, In (WOk e k we em) (wlog s) -> we = em) /\ (forall r, In (WFull r) (wlog s) -> r = true) /\ (forall r, In (REmpty r) (rlog s) -> r = true) /\
  (is_empty s = true <-> zlen (hist s) = zlen (got s)) /\ (is_full s = true <-> zlen (hist s) - zlen (got s) = max).
Proof. exact truthful. Qed.
Print Assumptions C03_results_truthful.

(** The rule that the reader never interrupts a writer is needed: otherwise it gets the old contents of the slot *)
Theorem C03_reader_first_refuted : exists s, reach_any 4 (fun _ => 0) s /\ hist s = [7] /\ read_values (rlog s) = [0].
Proof. exact reader_interrupts. Qed.
Print Assumptions C03_reader_first_refuted.

(** Concrete case: two slots; write 2 interrupts write 1 before its compare-and-swap and write 3 finds the buffer full after the retry *)
Example C03_nontrivial :
  match run 2 [Write 1 11; Prod 1 false; Prod 1 false; Write 2 22; Prod 2 false; Prod 2 false; Prod 2 false; Prod 2 false;
               Prod 1 false; Prod 1 false; Prod 1 false; Prod 1 false; Write 3 33; Prod 3 false; Prod 3 false; Prod 1 false;
               Read; Cons false; Cons false; Cons false; Cons false] (init (fun _ => 0)) with
  | Some s => hist s = [22; 11] /\ wlog s = [WOk 22 0 true true; WFull true; WOk 11 1 false false] /\ rlog s = [ROk 22] /\ is_full s = false /\ is_empty s = false
  | None => False
  end.
Proof. vm_compute. auto 6. Qed.

