(** Properties C10 and C11.  Specification in Kmutex_Spec.v: [reach r m tr]
    ranges over every interleaving of any number of tasks that unlock only what
    they hold. *)
From Verif Require Import Lib Kmutex_Model Kmutex_Spec Kmutex_Proofs.

(** At most one task holds the mutex; counting nested acquisitions *)
Theorem C10_mutual_exclusion :
  forall r m tr, reach r m tr ->
  forall t u, 0 < held tr t -> 0 < held tr u -> t = u.
Proof. exact mutual_exclusion. Qed.
Print Assumptions C10_mutual_exclusion.

(** A release never happens without a matching acquisition *)
Theorem C10_held_never_negative :
  forall r m tr, reach r m tr -> forall t, 0 <= held tr t.
Proof. exact held_nonneg. Qed.
Print Assumptions C10_held_never_negative.

(** No ASSERT of kmutex.c fails *)
Theorem C10_no_assertion_fails :
  forall r m tr a, reach r m tr -> allowed r tr a -> step m a <> AssertFail.
Proof. exact no_assert_fail. Qed.
Print Assumptions C10_no_assertion_fails.

(** Try-lock acquires exactly when nobody holds or awaits the mutex, or the
    caller re-enters a recursive mutex *)
Theorem C10_trylock_exact :
  forall r m tr t m' ev, reach r m tr -> allowed r tr (TryLock t) ->
  step m (TryLock t) = Ok m' ev ->
  (ev = EAcq t /\ ((forall u, held tr u = 0) /\ waiters tr = [] \/ r = true /\ 0 < held tr t)) \/
  (ev = EFail t /\ ((exists u, u <> t /\ 0 < held tr u) \/ waiters tr <> [])).
Proof. exact trylock_exact. Qed.
Print Assumptions C10_trylock_exact.

(** FIFO without barging: a first acquisition is by the oldest waiter, or
    nobody is waiting *)
Theorem C11_fifo_no_barging :
  forall r m tr a m' t, reach r m tr -> allowed r tr a -> step m a = Ok m' (EAcq t) ->
  held tr t = 0 -> match waiters tr with [] => True | w :: _ => t = w end.
Proof. exact fifo. Qed.
Print Assumptions C11_fifo_no_barging.

(** Whenever there are waiters, somebody holds the mutex or the oldest waiter
    has already been woken *)
Theorem C11_no_lost_wakeup :
  forall r m tr w ws, reach r m tr -> waiters tr = w :: ws ->
  (exists t, 0 < held tr t) \/ ~ sleeping m w.
Proof. exact waiters_served. Qed.
Print Assumptions C11_no_lost_wakeup.

(** The last unlock wakes exactly the oldest waiter, which can then acquire *)
Theorem C11_unlock_wakes_oldest :
  forall r m tr t m' ev w ws, reach r m tr ->
  held tr t = 1 -> waiters tr = w :: ws -> step m (Unlock t) = Ok m' ev ->
  ~ sleeping m' w /\ (forall u, u <> w -> sleeping m u -> sleeping m' u) /\
  exists m'', step m' (Resume w) = Ok m'' (EAcq w).
Proof. exact unlock_wakes_oldest. Qed.
Print Assumptions C11_unlock_wakes_oldest.

(** A run: 1 locks twice, 2 and 3 wait; 1 still holds it after one unlock *)
Example C10_C11_concrete : exists m tr,
  reach true m tr /\ held tr 1 = 1 /\ waiters tr = [2; 3] /\ sleeping m 2 /\
  allowed true tr (Unlock 1) /\ (exists m', step m (Unlock 1) = Ok m' (ERel 1)).
Proof.
  eexists. eexists. split.
  - eapply (reach_step _ _ _ (Unlock 1)).
    eapply (reach_step _ _ _ (Lock 3)).
    eapply (reach_step _ _ _ (Lock 2)).
    eapply (reach_step _ _ _ (Lock 1)).
    eapply (reach_step _ _ _ (Lock 1)).
    apply reach_init.
    all: try (vm_compute; reflexivity); vm_compute; reflexivity.
  - vm_compute. repeat split; try reflexivity. eexists; reflexivity.
Qed.
