(** Properties C12 and C13.  Specification in Ksem_Spec.v: [reach val max s tr]
    ranges over every interleaving of any number of tasks and of timer expiries;
    [available val tr] is the initial value plus the units signalled minus the
    units granted in the history [tr]. *)
From Verif Require Import Lib Ksem_Model Ksem_Spec Ksem_Proofs.

(** The counter is the conserved quantity; never negative, never above max *)
Theorem C12_units_conserved_and_bounded :
  forall val max s tr, good_init val max -> reach val max s tr ->
  s_cnt s = available val tr /\ 0 <= available val tr /\
  match max with Some mx => available val tr <= mx | None => True end.
Proof. exact conservation. Qed.
Print Assumptions C12_units_conserved_and_bounded.

(** Signal succeeds exactly when the maximum is respected *)
Theorem C12_signal_exact :
  forall val max s tr u s' ev, good_init val max -> reach val max s tr ->
  allowed (Signal u) -> step s (Signal u) = Ok s' ev ->
  match max with
  | Some mx => if mx <? u then ev = EInvalid
               else if mx <? available val tr + u then ev = EQuota u else ev = ESignalled u
  | None => ev = ESignalled u
  end.
Proof. exact signal_exact. Qed.
Print Assumptions C12_signal_exact.

(** A wait fails only if its request is not covered at that moment, and never
    when it was told to wait forever *)
Theorem C12_wait_failure_justified :
  forall val max s tr a s' t u, good_init val max -> reach val max s tr ->
  step s a = Ok s' (ENotGranted t u) -> available val tr < u /\
  match a with Wait _ _ Forever _ => False
             | Resume _ _ => exists f, s_pc s t = Woken u true f | _ => True end.
Proof. exact failure_justified. Qed.
Print Assumptions C12_wait_failure_justified.

(** No ASSERT fails; in particular a task never waits while still linked *)
Theorem C12_no_assertion_fails :
  forall val max s tr a, good_init val max -> reach val max s tr -> allowed a ->
  step s a <> AssertFail.
Proof. exact no_assert_fail. Qed.
Print Assumptions C12_no_assertion_fails.

(** Without a maximum the int counter can overflow and become negative *)
Theorem C12_unbounded_counter_refuted :
  exists s ev, step (ksem_init 2147483647 None) (Signal 1) = Ok s ev /\ s_cnt s < 0.
Proof. exact overflow_negative. Qed.
Print Assumptions C12_unbounded_counter_refuted.

(** With requests of different sizes a waiter can be forgotten: no wake-up is in
    flight, two units are free and a task that wants one sleeps *)
Theorem C13_mixed_sizes_refuted :
  exists s tr, reach 0 (Some 10) s tr /\
  (forall x, ~ in_flight s x) /\ asleep s 2 1 /\ available 0 tr = 2.
Proof. exact mixed_lost_wakeup. Qed.
Print Assumptions C13_mixed_sizes_refuted.

(** With requests of one size, whatever the timeouts and the sizes of the
    signals, no waiter is forgotten *)
Theorem C13_no_lost_wakeup_partial :
  forall val max s tr u t, good_init val max -> reach val max s tr ->
  0 < u <= 2147483647 -> requests_are u tr ->
  (forall x, ~ in_flight s x) -> forall v, asleep s t v -> v = u /\ available val tr < v.
Proof. exact uniform_no_lost_wakeup. Qed.
Print Assumptions C13_no_lost_wakeup_partial.

Definition demo : list action :=
  [Wait 1 2 Timed false; Wait 2 2 Forever false; Wait 3 2 Forever false; TimerFire 1; Signal 3; Resume 1 true;
   Signal 1; Resume 2 false; Signal 9].
Example C12_C13_nontrivial :
  match run (ksem_init 0 (Some 8)) demo with
  | Some (s, tr) =>
      tr = [EBlock 1 2; EBlock 2 2; EBlock 3 2; ETick; ESignalled 3; EGrant 1 2; ESignalled 1; EGrant 2 2; EInvalid]
      /\ s_cnt s = 0 /\ s_wait s = [(3, 2)] /\ s_pc s 3 = Asleep 2 false
  | None => False
  end.
Proof. vm_compute. repeat split. Qed.
