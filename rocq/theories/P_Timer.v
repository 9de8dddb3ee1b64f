(** Properties C23 and C24.  [reach pool deferred s tr]: some history of timer
    operations on the timers of [pool] leads to [s] with events [tr], newest first;
    [state_of tr t], [clock tr] and [expired tr] are computed from the events alone
    (Timer_Spec.v). *)
From Verif Require Import Lib Avl_Model Timer_Model Timer_Spec Timer_Proofs.

(** No operation fails *)
Theorem C23_no_failure :
  forall pool deferred, fits pool -> forall s tr a,
  reach pool deferred s tr -> allowed pool deferred tr a -> step deferred s a <> Fail.
Proof. exact no_fail. Qed.
Print Assumptions C23_no_failure.

(** The tick handler fires or queues only timers whose deadline is exactly now, the
    lowest address first, and does not stop while one is left *)
Theorem C23_tick_handler :
  forall pool deferred, fits pool -> forall s tr s' e,
  reach pool deferred s tr -> in_tick tr = true -> step deferred s TickLoop = Ok s' e ->
  match e with
  | ETickEnd => forall t d, state_of tr t = Armed d -> clock tr < d
  | EFire t => deferred t = false /\ state_of tr t = Armed (clock tr) /\ forall t', state_of tr t' = Armed (clock tr) -> t <= t'
  | EDefer t => deferred t = true /\ state_of tr t = Armed (clock tr) /\ forall t', state_of tr t' = Armed (clock tr) -> t <= t'
  | _ => False
  end.
Proof. exact tick_result. Qed.
Print Assumptions C23_tick_handler.

(** So a deadline is never left behind *)
Theorem C23_never_late :
  forall pool deferred, fits pool -> forall s tr t d,
  reach pool deferred s tr -> state_of tr t = Armed d -> in_tick tr = false -> clock tr < d.
Proof. exact never_late. Qed.
Print Assumptions C23_never_late.

(** Callbacks run for no other reason: at the deadline, or for the oldest expired
    deferred timer *)
Theorem C23_fires_when_due :
  forall pool deferred, fits pool -> forall s tr t,
  reach pool deferred s (EFire t :: tr) ->
  (deferred t = false /\ state_of tr t = Armed (clock tr)) \/
  (deferred t = true /\ state_of tr t = Queued /\ hd_error (expired tr) = Some t).
Proof. exact fired_was_armed. Qed.
Print Assumptions C23_fires_when_due.

(** Exactly once: each start ends in one firing or one successful cancel *)
Theorem C23_exactly_once :
  forall pool deferred, fits pool -> forall s tr t,
  reach pool deferred s tr ->
  starts tr t = fires tr t + cancels tr t + match state_of tr t with Idle => 0 | _ => 1 end.
Proof. exact once. Qed.
Print Assumptions C23_exactly_once.

(** The worker thread runs the expired deferred timers in order *)
Theorem C23_deferred_in_order :
  forall pool deferred, fits pool -> forall s tr,
  reach pool deferred s tr ->
  exists s' e, step deferred s RunPending = Ok s' e /\
  match expired tr with
  | [] => e = ENop /\ s' = s
  | t :: l => e = EFire t /\ state_of tr t = Queued /\ expired (e :: tr) = l
  end.
Proof. exact pending_result. Qed.
Print Assumptions C23_deferred_in_order.

(** Results of cancel, is_armed and arm_if_armed *)
Theorem C23_cancel_result :
  forall pool deferred, fits pool -> forall s tr t s' e,
  reach pool deferred s tr -> step deferred s (Cancel t) = Ok s' e ->
  e = ECancel t (match state_of tr t with Idle => false | _ => true end).
Proof. exact cancel_result. Qed.
Print Assumptions C23_cancel_result.

Theorem C23_is_armed_result :
  forall pool deferred, fits pool -> forall s tr t,
  reach pool deferred s tr ->
  step deferred s (IsArmed t) = Ok s (EIsArmed t (match state_of tr t with Idle => false | _ => true end)).
Proof. exact is_armed_result. Qed.
Print Assumptions C23_is_armed_result.

Theorem C23_arm_if_armed_result :
  forall pool deferred, fits pool -> forall s tr t n s' e,
  reach pool deferred s tr -> allowed pool deferred tr (ArmIfArmed t n) -> step deferred s (ArmIfArmed t n) = Ok s' e ->
  e = EArmIf t n (match state_of tr t with Armed _ => true | _ => false end).
Proof. exact arm_if_result. Qed.
Print Assumptions C23_arm_if_armed_result.

(** The conditions of correct use are needed.  A deadline of exactly 2^64: the timer
    cannot be cancelled and fires at once. *)
Theorem C23_wrapped_deadline_refuted :
  exists s es, run (fun _ => false) st_init [Tick; TickLoop; Arm 1 (2 ^ 64 - 1); Cancel 1; Tick; TickLoop] = Some (s, es) /\
  nth 3 es ENop = ECancel 1 false /\ nth 5 es ENop = EFire 1.
Proof. exact wrap_arm. Qed.
Print Assumptions C23_wrapped_deadline_refuted.

(** A queued deferred timer armed again is linked twice when it expires *)
Theorem C23_rearm_while_queued_refuted :
  exists s es, run (fun _ => true) st_init [Arm 1 1; Tick; TickLoop; TickLoop; Arm 1 1; Tick] = Some (s, es) /\
  step (fun _ => true) s TickLoop = Fail.
Proof. exact rearm_queued. Qed.
Print Assumptions C23_rearm_while_queued_refuted.

(** The cached timer is the earliest one *)
Theorem C24_earliest_is_minimum :
  forall pool deferred, fits pool -> forall s tr,
  reach pool deferred s tr ->
  match early s with
  | None => forall t d, state_of tr t <> Armed d
  | Some t => exists d, state_of tr t = Armed d /\ wake s t = d /\ forall t' d', state_of tr t' = Armed d' -> d <= d'
  end.
Proof. exact earliest. Qed.
Print Assumptions C24_earliest_is_minimum.

(** Three timers, one deferred, one cancelled *)
Example C23_C24_nontrivial :
  match run (fun t => t =? 3) st_init [Arm 1 2; Arm 2 1; Arm 3 2; Arm 4 2; Tick; TickLoop; TickLoop; Cancel 4; Tick; TickLoop; TickLoop; TickLoop; RunPending] with
  | Some (s, es) => (skipn 5 es, early s, dl s)
  | None => ([], None, [])
  end = ([EFire 2; ETickEnd; ECancel 4 true; ETick; EFire 1; EDefer 3; ETickEnd; EFire 3], None, []).
Proof. vm_compute. reflexivity. Qed.
