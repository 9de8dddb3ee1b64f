(** Properties C20, C21, C22.  [nb] is the word size; [reach nb ok t]: some
    history of system calls, signals sent and deliveries, each satisfying [ok],
    leads to task state [t] (Signal_Spec.v). *)
From Verif Require Import Lib Signal_Model Signal_Spec Signal_Proofs.

(** 64-bit kernels: any history, faulting pointers included *)
Theorem C20_protected_64 :
  forall t, reach 64 (fun _ => True) t -> protected 64 t.
Proof. exact protected_64. Qed.
Print Assumptions C20_protected_64.

(** 32-bit kernels; missing: sets of which only the first word is readable *)
Theorem C20_protected_32_partial :
  forall t, reach 32 (whole_mask 32) t -> protected 32 t.
Proof. exact protected_32. Qed.
Print Assumptions C20_protected_32_partial.

(** 32 bits, second word of the set unreadable: SIGKILL stays blocked, and
    sending it does not wake the task *)
Theorem C20_half_mask_refuted :
  exists t, reach 32 (fun _ => True) t /\ member 32 (mask t) SIGKILL = true /\
  exists t', step 32 t (Send false SIGKILL false) = Ok t' (Sent false).
Proof. exact half_mask. Qed.
Print Assumptions C20_half_mask_refuted.

(** A signal that is selected is pending and not blocked.  If none of the pending
    signals is blocked, the lowest one is selected. *)
Theorem C21_selection_partial :
  forall nb t, arch nb -> (forall i, word nb (pend t i)) -> easy_pending nb t ->
  exists sig, get_first_pending_sig nb t = Some sig /\
    (sig = -1 \/ 1 <= sig <= 64 /\ member nb (pend t) sig = true /\ member nb (mask t) sig = false) /\
    ((exists m, 1 <= m <= 64 /\ member nb (pend t) m = true) ->
     (forall m, 1 <= m <= 64 -> member nb (pend t) m = true -> member nb (mask t) m = false) ->
     sig <> -1 /\ forall m, 1 <= m <= 64 -> member nb (pend t) m = true -> sig <= m).
Proof. exact selects. Qed.
Print Assumptions C21_selection_partial.

(** Delivery: SIGKILL first, otherwise a pending signal that is not blocked *)
Theorem C21_delivery_sound :
  forall nb t inret fault, arch nb -> (forall i, word nb (pend t i)) -> easy_pending nb t ->
  exists t' r, process_signals nb t inret fault = Ok t' r /\
    (member nb (pend t) SIGKILL = true -> r = Kill SIGKILL) /\
    (member nb (pend t) SIGKILL = false ->
     match r with
     | NoSig => (0 < nested t /\ inret = false) \/ get_first_pending_sig nb (set_mask t (fun i => Z.ldiff (mask t i) (fpend t i))) = Some (-1)
     | Kill sig => (exists n, 1 <= n <= 64 /\ member nb (pend t) n = true /\ blocked nb t n = false /\
                      if hnd t n =? SIG_DFL then sig = n else fault = true /\ sig = SIGKILL)
     | Handle a sig => 1 <= sig <= 64 /\ member nb (pend t) sig = true /\ blocked nb t sig = false /\
                      a = hnd t sig /\ a <> SIG_DFL /\ member nb (pend t') sig = false /\ (inret = true \/ nested t <= 0)
     | _ => False
     end).
Proof. exact delivery. Qed.
Print Assumptions C21_delivery_sound.

(** Sending: what becomes pending and whether the task is woken up *)
Theorem C21_sent_signal :
  forall nb t init n f, arch nb -> easy nb n -> 1 <= n < 64 -> 0 <= nested t ->
  exists t' w, do_send_signal nb t init n f = Ok t' (Sent w) /\
    mask t' = mask t /\ hnd t' = hnd t /\ nested t' = nested t /\ susp t' = susp t /\
    if queued init (hnd t n) n
    then w = negb (member nb (mask t) n) /\ (forall m, 1 <= m <= 64 -> member nb (pend t') m = (m =? n) || member nb (pend t) m) /\
         (forall m, 1 <= m <= 64 -> member nb (fpend t') m = f && (m =? n) || member nb (fpend t) m)
    else w = false /\ t' = t.
Proof. exact send_spec. Qed.
Print Assumptions C21_sent_signal.

(** SIGKILL wakes the task and is fatal at its next return to user mode, after any
    history (with the exception of C20_half_mask_refuted on 32 bits) *)
Theorem C21_sigkill_is_fatal :
  forall nb (ok : op -> Prop) t f1 f2, arch nb -> (forall o, ok o -> nb = 64 \/ whole_mask nb o) -> reach nb ok t -> 0 <= nested t ->
  exists t' t'', step nb t (Send false SIGKILL f1) = Ok t' (Sent true) /\ step nb t' (Deliver f2) = Ok t'' (Kill SIGKILL).
Proof. exact kill_fatal. Qed.
Print Assumptions C21_sigkill_is_fatal.

(** The condition under which sleeping system calls return *)
Theorem C21_pending_signals_exact :
  forall nb t, arch nb -> (forall i, word nb (pend t i)) -> nested t <= 0 ->
  (pending_signals nb t = true <-> exists n, 1 <= n <= 64 /\ member nb (pend t) n = true /\ member nb (mask t) n = false).
Proof. exact pending_iff. Qed.
Print Assumptions C21_pending_signals_exact.

(** The hypothesis on [pend] above holds in every reachable state *)
Theorem C21_sets_are_words :
  forall nb ok t, arch nb -> reach nb ok t ->
  forall i, word nb (pend t i) /\ word nb (fpend t i) /\ word nb (mask t i) /\ word nb (omask t i).
Proof. exact words_reach. Qed.
Print Assumptions C21_sets_are_words.

(** A blocked pending signal hides every higher one in the same word *)
Theorem C21_selection_refuted :
  exists t rs, reach 32 (fun _ => True) t /\
  run 32 task_init [Sigaction 2 (AOk 4096 0) 8; Sigaction 3 (AOk 4096 0) 8; Sigprocmask SigBlock (const 2) false;
    Send false 2 false; Send false 3 false; Deliver false] = Some (t, rs) /\
  last rs (Ret 0) = NoSig /\ pending_signals 32 t = true /\ member 32 (pend t) 3 = true /\ member 32 (mask t) 3 = false.
Proof. exact hidden_signal. Qed.
Print Assumptions C21_selection_refuted.

(** ... so that sigsuspend returns with no handler run, and the next one fails
    its ASSERT(!in_sigsuspend) *)
Theorem C21_double_suspend_refuted :
  exists t, reach 32 (fun _ => True) t /\ step 32 t (Sigsuspend (Some (fun _ => 0)) 8) = AssertFail.
Proof. exact double_suspend. Qed.
Print Assumptions C21_double_suspend_refuted.

(** A signal set to SIG_IGN while pending makes the task run at address 1 *)
Theorem C21_ignored_signal_refuted :
  exists t, reach 32 (fun _ => True) t /\ exists t', step 32 t (Deliver false) = Ok t' (Handle SIG_IGN 2).
Proof. exact ignore_called. Qed.
Print Assumptions C21_ignored_signal_refuted.

(** Missing on 64 bits: signals 32 to 64 *)
Theorem C22_add_exact_partial :
  forall nb s n, arch nb -> easy nb n -> 1 <= n <= 64 ->
  exists s', add_sig nb s n = Some s' /\ forall m, 1 <= m <= 64 -> member nb s' m = (m =? n) || member nb s m.
Proof. exact add_exact. Qed.
Print Assumptions C22_add_exact_partial.

Theorem C22_test_exact_partial :
  forall nb s n, arch nb -> easy nb n -> 1 <= n <= 64 -> is_sig_set nb s n = Some (member nb s n).
Proof. exact test_exact. Qed.
Print Assumptions C22_test_exact_partial.

Theorem C22_del_exact_32 :
  forall s n, 1 <= n <= 64 ->
  exists s', del_sig 32 s n = Some s' /\ forall m, 1 <= m <= 64 -> member 32 s' m = negb (m =? n) && member 32 s m.
Proof. exact del_exact. Qed.
Print Assumptions C22_del_exact_32.

(** 64 bits: exactly what removal does; signals 33 to 64 are lost *)
Theorem C22_del_64_refuted :
  forall s n, 1 <= n <= 32 ->
  exists s', del_sig 64 s n = Some s' /\ forall m, 1 <= m <= 64 -> member 64 s' m = negb (m =? n) && (m <=? 32) && member 64 s m.
Proof. exact del_64. Qed.
Print Assumptions C22_del_64_refuted.

(** 64 bits: adding signal 32 adds all of 32 to 64, adding one above is undefined *)
Theorem C22_add_64_refuted :
  (exists s', add_sig 64 (fun _ => 0) 32 = Some s' /\ forall m, 32 <= m <= 64 -> member 64 s' m = true) /\
  forall s n, 33 <= n <= 64 -> add_sig 64 s n = None.
Proof. exact add_64. Qed.
Print Assumptions C22_add_64_refuted.

(** Non-vacuity: a history that blocks, receives, unblocks and handles a signal *)
Example C20_C21_nontrivial :
  exists t, run 32 task_init [Sigaction 40 (AOk 4096 0) 8; Sigprocmask SigSetmask (Some (fun _ => Some (2 ^ 32 - 1))) false;
     Send false 40 false; Deliver false; Sigprocmask SigUnblock (Some (fun _ => Some (2 ^ 32 - 1))) false; Deliver false; Sigreturn false] =
    Some (t, [Ret 0; Ret 0; Sent false; NoSig; Ret 0; Handle 4096 40; NoSig]) /\ member 32 (pend t) 40 = false.
Proof. eexists. split; [vm_compute; reflexivity|reflexivity]. Qed.
Example C20_masks_all_but_two :
  match run 64 task_init [Sigprocmask SigSetmask (Some (fun _ => Some (2 ^ 32 - 1))) false] with
  | Some (t, _) => map (member 64 (mask t)) [8; 9; 10; 18; 19; 20] = [true; false; true; true; false; true]
  | None => False
  end.
Proof. vm_compute. reflexivity. Qed.
Example C22_nontrivial :
  match add_sig 32 (fun _ => 0) 33 with
  | Some s => map (member 32 s) [1; 32; 33; 34; 64] = [false; false; true; false; false]
  | None => False
  end.
Proof. vm_compute. reflexivity. Qed.
