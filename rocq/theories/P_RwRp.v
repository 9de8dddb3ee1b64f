(** Property C15.  [reach s tr] ranges over every interleaving of any number of
    tasks that unlock only what they hold (RwRp_Spec.v); [reading tr t] and
    [writing tr t] are read off the history [tr] alone. *)
From Verif Require Import Lib RwRp_Model RwRp_Spec RwRp_Proofs.

(** A writer excludes every reader and every other writer *)
Theorem C15_exclusion :
  forall s tr t u, reach s tr -> writing tr t = true ->
  reading tr u = false /\ (writing tr u = true -> u = t).
Proof. exact exclusion. Qed.
Print Assumptions C15_exclusion.

(** While some task reads, the owner of the lock's internal mutex can always go
    on: readers are held up neither by readers nor by waiting writers *)
Theorem C15_readers_never_wait_for_readers :
  forall s tr r o, reach s tr -> reading tr r = true -> readers_lock s = Some o ->
  exists s' evs, step s (Go o) = Ok s' evs.
Proof. exact readers_dont_wait. Qed.
Print Assumptions C15_readers_never_wait_for_readers.

(** When nobody reads or writes, tasks inside the lock's code are not stuck *)
Theorem C15_no_deadlock :
  forall s tr t, reach s tr -> (forall u, reading tr u = false /\ writing tr u = false) ->
  rpc s t <> Out -> exists u s' evs, step s (Go u) = Ok s' evs.
Proof. exact no_deadlock. Qed.
Print Assumptions C15_no_deadlock.

(** No ASSERT of the rwlock fails *)
Theorem C15_no_assertion_fails :
  forall s tr a, reach s tr -> allowed s tr a -> step s a <> AssertFail.
Proof. exact no_assert_fail. Qed.
Print Assumptions C15_no_assertion_fails.

(** Non-vacuity: two tasks read together while a writer waits; after both leave
    the writer gets in *)
Example C15_nontrivial :
  match run rw_init [CallShLock 1; Go 1; Go 1; Go 1; Go 1; CallExLock 3; CallShLock 2; Go 2; Go 2; Go 2] with
  | Some (s, tr) =>
      reading tr 1 = true /\ reading tr 2 = true /\ step s (Go 3) = Disabled /\
      match run s [CallShUnlock 1; Go 1; Go 1; Go 1; CallShUnlock 2; Go 2; Go 2; Go 2; Go 2; Go 3; Go 3] with
      | Some (s2, tr2) => writing (tr ++ tr2) 3 = true /\ reading (tr ++ tr2) 1 = false
      | None => False
      end
  | None => False
  end.
Proof. vm_compute. tauto. Qed.
