(** Property C16.  [reach b s tr] ranges over every interleaving of any number of
    tasks using the lock correctly (RwWp_Spec.v), including POSIX signals that
    interrupt the waits; [b] says whether the lock is recursive. *)
From Verif Require Import Lib RwWp_Model RwWp_Spec RwWp_Proofs.

(** A writer excludes every reader and every other writer *)
Theorem C16_exclusion :
  forall b s tr t u, reach b s tr -> 0 < depth tr t ->
  reading tr u = false /\ (0 < depth tr u -> u = t).
Proof. exact exclusion. Qed.
Print Assumptions C16_exclusion.

(** A reader is admitted only when no writer is active or registered *)
Theorem C16_writers_first :
  forall b s tr a s' evs t, reach b s tr -> step s a = Ok s' evs -> In (ERead t) evs ->
  forall u, queued tr u = false /\ depth tr u <= 0.
Proof. exact writer_first. Qed.
Print Assumptions C16_writers_first.

(** If nobody holds the lock or is giving it back and a task sleeps in it, a
    registered writer is runnable *)
Theorem C16_no_lost_wakeup :
  forall b s tr t, reach b s tr ->
  (forall u, reading tr u = false /\ depth tr u = 0 /\ wpc s u <> Want RU /\ wpc s u <> Want WU) ->
  wpc s t = RWait \/ wpc s t = WWait -> exists u, wpc s u = Want WL2.
Proof. exact no_lost_wakeup. Qed.
Print Assumptions C16_no_lost_wakeup.

(** An unlock gives the lock up exactly when it is the outermost one *)
Theorem C16_outermost_unlock_releases :
  forall b s tr t, reach b s tr -> wpc s t = Want WU -> wq s < 2147483647 -> nr s < 2147483647 ->
  exists s' evs, step s (Go t) = Ok s' evs /\ exo s = Some t /\
    exo s' = if 0 <? depth tr t then Some t else None.
Proof. exact outermost_releases. Qed.
Print Assumptions C16_outermost_unlock_releases.

Theorem C16_no_assertion_fails :
  forall b s tr a, reach b s tr -> allowed b s tr a -> step s a <> AssertFail.
Proof. exact no_assert_fail. Qed.
Print Assumptions C16_no_assertion_fails.

(** Writers are not always served in arrival order, against the comment at
    kernel/rwlock.c:158-161: writer 3 overtakes writer 2 *)
Theorem C16_writers_in_order_refuted :
  exists s, reach false s [EReg 1; EWrite 1; EReg 2; EWriteEnd 1; EReg 3; EWrite 3] /\
  queued [EReg 1; EWrite 1; EReg 2; EWriteEnd 1; EReg 3; EWrite 3] 2 = true.
Proof. exact writers_not_fifo. Qed.
Print Assumptions C16_writers_in_order_refuted.

(** Non-vacuity: a recursive writer, a waiting reader and a waiting writer *)
Example C16_nontrivial :
  match runc true (wp_init true) []
     [Call 1 WL; Go 1; Call 1 WL; Go 1; Call 4 RL; Go 4; Call 2 WL; Go 2; Call 1 WU; Go 1] with
  | Some (s, tr) => depth tr 1 = 1 /\ queued tr 2 = true /\ wpc s 4 = RWait /\ exo s = Some 1 /\
      match runc true s tr [Call 1 WU; Go 1; Go 2; Call 2 WU; Go 2; Go 4] with
      | Some (s2, tr2) => depth tr2 2 = 0 /\ reading tr2 4 = true /\ exo s2 = None
      | None => False
      end
  | None => False
  end.
Proof. vm_compute. tauto. Qed.
