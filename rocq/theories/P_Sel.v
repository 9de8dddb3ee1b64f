(** C78: select and pselect6. *)
From Verif Require Import Lib Poll_Model Sel_Model Sel_Spec Sel_Proofs Sel_Proofs2 Sel_Refuted.

(** Whatever the sources answer and whatever ends the sleeps: every bit given was asked for and open and found ready, every bit taken away was closed or found not ready, other bits and sets stay, and the result is the number of bits. *)
Theorem C78_honest : forall handle rdy nfds mx asked timeout pend its rc c,
  select handle rdy nfds mx asked timeout pend its = Some (rc, c) -> 0 <= rc ->
  honest handle rdy nfds (qs c) asked (us c) /\ rc = bits nfds (us c).
Proof. exact select_honest. Qed.
Print Assumptions C78_honest.

(** Something ready from the start: the answer comes at once, is positive, exact and leaves the time alone. *)
Theorem C78_steady : forall handle rdy nfds mx r asked timeout pend its, steady rdy r -> 0 <= nfds <= mx ->
  (exists i fd, wants nfds asked i fd /\ handle fd <> None /\ r fd i = true) ->
  exists rc c, select handle rdy nfds mx asked timeout pend its = Some (rc, c) /\ 0 < rc /\ rc = bits nfds (us c) /\ utv c = timeout /\
    forall i fd, In i kinds -> 0 <= fd < nfds ->
      bit (us c) i fd = (bit asked i fd && (match handle fd with Some _ => true | None => false end) && r fd i)%bool.
Proof. exact select_steady. Qed.
Print Assumptions C78_steady.

(** Errors other than EINTR write neither the sets nor the time. *)
Theorem C78_errors : forall handle rdy nfds mx asked timeout pend its rc c,
  select handle rdy nfds mx asked timeout pend its = Some (rc, c) -> rc < 0 -> rc <> -4 -> us c = asked /\ utv c = timeout.
Proof. exact select_errors. Qed.
Print Assumptions C78_errors.

(** Nothing ready and a closed descriptor asked for: EBADF at once. *)
Theorem C78_ebadf : forall handle rdy nfds mx asked timeout pend its, 0 <= nfds <= mx ->
  (exists i fd, wants nfds asked i fd /\ handle fd = None) ->
  (forall t i fd, wants nfds asked i fd -> handle fd <> None -> rdy t fd i = false) ->
  exists c, select handle rdy nfds mx asked timeout pend its = Some (-9, c) /\ us c = asked.
Proof. exact select_ebadf. Qed.
Print Assumptions C78_ebadf.

(** With lasting readiness and a condition to wait on, 0 is given only with a timeout, when it is over, and the time left is then 0. *)
Theorem C78_zero : forall handle rdy nfds mx asked timeout pend its c, lasting rdy -> 0 <= nfds <= mx -> has_cond handle nfds asked ->
  select handle rdy nfds mx asked timeout pend its = Some (0, c) ->
  timeout <> None /\ utv c = Some (0, 0) /\ exists x, In x its /\ expired (ticks_of timeout) x.
Proof. exact select_zero. Qed.
Print Assumptions C78_zero.

(** The time given back is the one given, 0, or what remained at one of the checks; never one without a timeout. *)
Theorem C78_time : forall handle rdy nfds mx asked timeout pend its rc c,
  select handle rdy nfds mx asked timeout pend its = Some (rc, c) -> 0 <= rc ->
  utv c = timeout \/ timeout <> None /\ (utv c = Some (0, 0) \/ exists x, In x its /\ utv c = Some (remaining (ticks_of timeout) (el1 x))).
Proof. exact select_time. Qed.
Print Assumptions C78_time.

(** What remains, in ticks, is a normalised time. *)
Theorem C78_remaining : forall ticks el, 0 <= el -> 0 <= ticks < 2 ^ 32 ->
  in_ticks (remaining ticks el) = Z.max 0 (ticks - el) /\ 0 <= fst (remaining ticks el) /\ 0 <= snd (remaining ticks el) < 1000000.
Proof. exact remaining_ok. Qed.
Print Assumptions C78_remaining.

(** pselect6 with 64 bits: microseconds in, nanoseconds out. *)
Theorem C78_pselect64 : forall w0 w1 w2 sel, pselect true (w0, w1, w2) sel =
  (fst (sel (w0, Z.quot w1 1000)), (fst (snd (sel (w0, Z.quot w1 1000))), snd (snd (sel (w0, Z.quot w1 1000))) * 1000, w2)).
Proof. exact pselect64_ok. Qed.
Print Assumptions C78_pselect64.

(** 0 without a timeout, when the readiness is gone at the second look. *)
Theorem C78_spurious_refuted : seen 2 (select hs (answers [true; false]) 2 16 (rset [0]) None false []) = Some (0, Some [false; false], None).
Proof. exact spurious_zero. Qed.
Print Assumptions C78_spurious_refuted.

(** Without descriptors and timeout it does not wait for a signal. *)
Theorem C78_pause_refuted : seen 0 (select hs (answers []) 0 16 none3 None false []) = Some (0, None, None).
Proof. exact pause_zero. Qed.
Print Assumptions C78_pause_refuted.

(** Nor with a descriptor without condition. *)
Theorem C78_nocond_refuted : seen 3 (select hs (answers []) 3 16 (rset [2]) None false []) = Some (0, Some [false; false; false], None).
Proof. exact nocond_zero. Qed.
Print Assumptions C78_nocond_refuted.

(** EINTR after the sets and the time were written. *)
Theorem C78_eintr_refuted : seen 2 (select hs (answers [false; true; true]) 2 16 (rset [0]) (Some (1, 0)) true [It 5 false 5 ByCond]) = Some (-4, Some [true; false], Some (0, 980000)).
Proof. exact eintr_written. Qed.
Print Assumptions C78_eintr_refuted.

(** A closed descriptor is no error when another one is ready. *)
Theorem C78_closed_refuted : seen 4 (select hs (answers [true; true]) 4 16 (rset [0; 3]) None false []) = Some (1, Some [true; false; false; false], None).
Proof. exact closed_silent. Qed.
Print Assumptions C78_closed_refuted.

(** More time left than was given. *)
Theorem C78_more_left_refuted : seen 1 (select hs (answers [false; true; true]) 1 16 (rset [0]) (Some (0, 1000)) false [round ByCond]) = Some (1, Some [true], Some (0, 4000)).
Proof. exact more_left. Qed.
Print Assumptions C78_more_left_refuted.

(** After sleeping the whole time without conditions the time left is the one given. *)
Theorem C78_slept_refuted : seen 3 (select hs (answers []) 3 16 (rset [2]) (Some (5, 0)) false []) = Some (0, Some [false; false; false], Some (5, 0)).
Proof. exact slept_unchanged. Qed.
Print Assumptions C78_slept_refuted.

(** pselect6 with 32 bits does not look at the nanoseconds. *)
Theorem C78_pselect32_refuted : forall w0 w1 n1 n2 sel, fst (pselect false (w0, w1, n1) sel) = fst (pselect false (w0, w1, n2) sel).
Proof. exact pselect32_nsec. Qed.
Print Assumptions C78_pselect32_refuted.

(** and writes the microseconds left to the high word of the seconds. *)
Theorem C78_pselect32_high_refuted : forall w0 w1 n sel rc a b, sel (w0, w1) = (rc, (a, b)) -> pselect false (w0, w1, n) sel = (rc, (a, b, div1000 n * 1000)).
Proof. exact pselect32_high. Qed.
Print Assumptions C78_pselect32_high_refuted.

(** Negative seconds are the longest time, not EINVAL. *)
Theorem C78_negative_refuted : select_ticks (-1) 0 = 2 ^ 32 - 1.
Proof. exact neg_secs. Qed.
Print Assumptions C78_negative_refuted.

(** Two rounds of waiting, then one of two descriptors ready; a timeout; a signal; a closed descriptor *)
Example C78_nonvacuous :
  seen 2 (select hs (answers [false; false; false; false; false; true; false; true]) 2 16 (rset [0; 1]) (Some (1, 0)) false [round ByCond; It 30 false 30 ByCond]) =
    Some (1, Some [false; true], Some (0, 880000)) /\
  seen 2 (select hs (answers []) 2 16 (rset [0; 1]) (Some (0, 8000)) false [It 0 false 0 ByCond; It 1 false 2 ByCond]) = Some (0, Some [false; false], Some (0, 0)) /\
  option_map fst (select hs (answers []) 2 16 (rset [0]) None false [round ByCond; round BySignal]) = Some (-4) /\
  option_map fst (select hs (answers [false; true]) 4 16 (rset [0; 3]) None false []) = Some (-9).
Proof. vm_compute. repeat split. Qed.

