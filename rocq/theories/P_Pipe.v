(** Properties C17, C18, C19.  [reach N buf s tr] ranges over every interleaving
    of any number of tasks reading, writing, polling, duplicating and closing the
    ends of one pipe of capacity [N] (Pipe_Spec.v). *)
From Verif Require Import Lib Ringbuf_Model Pipe_Model Pipe_Spec Pipe_Proofs.

(** Delivered bytes are a prefix of the accepted ones; the rest is what the
    buffer holds, in order, and fits the capacity *)
Theorem C17_stream_preserved :
  forall N buf s tr, sane N buf -> reach N buf s tr ->
  written tr = delivered tr ++ undelivered tr /\ zlen (undelivered tr) <= N /\
  rb_elems (rb s) = zlen (undelivered tr) /\
  forall len, 0 <= len -> option_map snd (rb_read_bytes (rb s) len) = Some (firstn (Z.to_nat len) (undelivered tr)).
Proof. exact stream. Qed.
Print Assumptions C17_stream_preserved.

Theorem C17_no_assertion_fails :
  forall N buf s tr a, sane N buf -> reach N buf s tr -> allowed tr a -> step s a <> AssertFail.
Proof. exact no_assert_fail. Qed.
Print Assumptions C17_no_assertion_fails.

(** What a read with the mutex held does, in every case *)
Theorem C18_read_result :
  forall N buf s tr t size nb again sig, sane N buf -> reach N buf s tr -> ppc s t = RGo size nb again ->
  exists s' evs, step s (Go t sig) = Ok s' evs /\
    if again && sig then evs = [EIntr t]
    else if negb (zlen (undelivered tr) =? 0) then evs = [ERead t (firstn (Z.to_nat size) (undelivered tr))]
    else if wh s =? 0 then evs = [EEof t]
    else if nb then evs = [EAgain t]
    else evs = [] /\ reader_asleep s' t.
Proof. exact read_result. Qed.
Print Assumptions C18_read_result.

Theorem C18_write_result :
  forall N buf s tr t d nb again sig, sane N buf -> reach N buf s tr -> ppc s t = WGo d nb again ->
  exists s' evs, step s (Go t sig) = Ok s' evs /\
    if again && sig then evs = [EIntr t]
    else if rh s =? 0 then evs = [EPipe t]
    else if zlen (undelivered tr) <? N then evs = [EWrite t (firstn (Z.to_nat (N - zlen (undelivered tr))) d)]
    else if nb then evs = [EAgain t]
    else evs = [] /\ writer_asleep s' t.
Proof. exact write_result. Qed.
Print Assumptions C18_write_result.

(** The handle counters are the numbers of open ends, up to closes in progress *)
Theorem C18_handle_counts :
  forall N buf s tr (w : bool), sane N buf -> reach N buf s tr ->
  live w tr <= (if w then wh s else rh s) /\
  ((forall t, ppc s t <> CGo w) -> (if w then wh s else rh s) = live w tr) /\ 0 <= live w tr.
Proof. exact handles. Qed.
Print Assumptions C18_handle_counts.

(** End of file only when every write end is closed and nothing is unread *)
Theorem C18_eof_only_at_the_end :
  forall N buf s tr a s' evs t, sane N buf -> reach N buf s tr -> step s a = Ok s' evs -> In (EEof t) evs ->
  live true tr = 0 /\ undelivered tr = [].
Proof. exact eof_only. Qed.
Print Assumptions C18_eof_only_at_the_end.

Theorem C18_epipe_only_without_readers :
  forall N buf s tr a s' evs t, sane N buf -> reach N buf s tr -> step s a = Ok s' evs -> In (EPipe t) evs ->
  live false tr = 0.
Proof. exact epipe_only. Qed.
Print Assumptions C18_epipe_only_without_readers.

(** A poller finds the read end ready exactly when a byte is unread or all
    writers are gone, the write end exactly when there is room or no reader *)
Theorem C18_poll_readiness :
  forall N buf s tr t (w sig : bool) s' evs, sane N buf -> reach N buf s tr -> ppc s t = PGo w ->
  step s (Go t sig) = Ok s' evs ->
  (In (EPollReady t w) evs <->
   if w then zlen (undelivered tr) < N \/ rh s = 0 else undelivered tr <> [] \/ wh s = 0).
Proof. exact poll_result. Qed.
Print Assumptions C18_poll_readiness.

(** Nobody stays asleep once the other side is closed (pollers or not) *)
Theorem C19_no_sleep_after_last_close :
  forall N buf s tr t, sane N buf -> reach N buf s tr ->
  (reader_asleep s t -> 0 < live true tr \/ exists u, ppc s u = CGo true) /\
  (writer_asleep s t -> 0 < live false tr \/ exists u, ppc s u = CGo false).
Proof. exact no_wait_after_close. Qed.
Print Assumptions C19_no_sleep_after_last_close.

(** Missing for the full claim: pollers, with which it is false (below) *)
Theorem C19_no_forgotten_sleeper_partial :
  forall N buf s tr t, sane N buf -> reach N buf s tr -> no_pollers tr ->
  (reader_asleep s t -> undelivered tr <> [] -> reader_coming s) /\
  (writer_asleep s t -> zlen (undelivered tr) < N -> writer_coming s).
Proof. exact no_forgotten. Qed.
Print Assumptions C19_no_forgotten_sleeper_partial.

(** A poller takes the only wake-up: a reader sleeps with data available and
    every other task outside the pipe code *)
Theorem C19_with_pollers_refuted :
  exists s tr, reach 4 [0;0;0;0] s tr /\
  reader_asleep s 2 /\ undelivered tr = [7] /\ (forall u, u <> 2 -> ppc s u = Out).
Proof. exact forgotten_reader. Qed.
Print Assumptions C19_with_pollers_refuted.

(** With two pollers the second sleeps on although the pipe is readable *)
Theorem C19_second_poller_refuted :
  exists s tr, reach 4 [0;0;0;0] s tr /\
  ppc s 2 = PWait false /\ ready s false = true /\ (forall u, u <> 2 -> ppc s u = Out).
Proof. exact forgotten_poller. Qed.
Print Assumptions C19_second_poller_refuted.

(** Non-vacuity: a blocked reader is served across a wrap, a blocked writer too,
    then end of file and a broken pipe *)
Example C17_C18_nontrivial :
  match runc (pipe_init 4 [0;0;0;0]) []
    [Read 1 3 false; Go 1 false; Write 2 [1;2;3;4;5] false; Go 2 false; Write 2 [5;6] false; Go 2 false;
     Go 1 false; Go 2 false] with
  | Some (s, tr) =>
      tr = [EWrite 2 [1;2;3;4]; ERead 1 [1;2;3]; EWrite 2 [5;6]] /\ undelivered tr = [4;5;6] /\
      match runc s tr [Close 3 true; Go 3 false; Read 1 9 false; Go 1 false; Read 1 9 false; Go 1 false;
                       Close 1 false; Go 1 false; Write 2 [8] true; Go 2 false] with
      | Some (s2, tr2) => skipn 3 tr2 = [EClose true; ERead 1 [4;5;6]; EEof 1; EClose false; EPipe 2] /\ wh s2 = 0 /\ rh s2 = 0
      | None => False
      end
  | None => False
  end.
Proof. vm_compute. tauto. Qed.
Example C19_nontrivial :
  match runc (pipe_init 4 [0;0;0;0]) [] [Read 1 3 false; Go 1 false; Read 3 3 false; Go 3 false; Write 2 [1;2;3;4] false; Go 2 false] with
  | Some (s, tr) => ppc s 1 = RGo 3 false true /\ reader_asleep s 3
  | None => False
  end.
Proof. vm_compute. split; [reflexivity|]. exists 3, false. reflexivity. Qed.
