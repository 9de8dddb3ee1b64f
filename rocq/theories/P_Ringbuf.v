(** Property theorems C01 and C02 (ring buffer). *)
From Verif Require Import Lib Ringbuf_Model Ringbuf_Spec Ringbuf_Proofs.

(** C01: any history of operations gives the results of a bounded FIFO. The
    outcome is never [None], so no access outside the buffer and no failed
    ASSERT.  Capacity is limited to 2^31; see [C01_capacity_refuted]. *)
Theorem C01_ringbuf_is_bounded_fifo : forall N esize buf ops,
  1 <= N <= 2 ^ 31 -> 1 <= esize < 2 ^ 32 -> N * esize <= 2 ^ 32 ->
  zlen buf = N * esize -> Forall (op_ok esize) ops ->
  exists r, rb_run (ringbuf_init N esize buf) ops
            = Some (r, snd (fifo_run N [] ops)).
Proof.
  intros N e buf ops HN He HNe Hb Hok.
  exact (ringbuf_fifo N e buf ops HN (proj1 He) HNe (proj2 He) Hb Hok).
Qed.
Print Assumptions C01_ringbuf_is_bounded_fifo.

Example C01_example :
  exists r, rb_run (ringbuf_init 3 2 [0;0;0;0;0;0])
      [OpWrite [1;2]; OpWrite [3;4]; OpRead; OpWrite [5;6]; OpWrite [7;8];
       OpWrite [9;9]; OpUnwrite; OpRead; OpCount]
    = Some (r, [RBool true; RBool true; RElem (Some [1;2]); RBool true;
                RBool true; RBool false; RElem (Some [7;8]);
                RElem (Some [3;4]); RNum 1]).
Proof. eexists. vm_compute. reflexivity. Qed.

(** The same statement is false for capacities above 2^31: the u32 sum in
    ringbuf_unwrite_elem wraps and the newest element is not the one removed
    (here 10 is returned instead of 20). *)
Theorem C01_capacity_refuted : exists N buf ops r outs,
  1 <= N < 2 ^ 32 /\ zlen buf = N * 1 /\ Forall (op_ok 1) ops /\
  rb_run (ringbuf_init N 1 buf) ops = Some (r, outs) /\
  outs <> snd (fifo_run N [] ops).
Proof.
  destruct (list_of_length 4294967295) as [buf Hb]; [lia|].
  destruct (unwrite_wrap buf Hb) as [r Hr].
  exists 4294967295, buf, [OpWrite1 10; OpWrite1 20; OpUnwrite], r,
    [RBool true; RBool true; RElem (Some [10])].
  split; [lia|]. split; [rewrite Hb; reflexivity|].
  split; [repeat constructor|]. split; [exact Hr|].
  intros C. vm_compute in C. discriminate C.
Qed.
Print Assumptions C01_capacity_refuted.

(** C02: in every reachable state, a bulk write stores exactly
    min(len, room) bytes, the first ones of the caller's buffer, behind the
    bytes already held. *)
Theorem C02_bulk_write_exact : forall N buf ops r outs d,
  1 <= N <= 2 ^ 31 -> zlen buf = N -> Forall (op_ok 1) ops ->
  rb_run (ringbuf_init N 1 buf) ops = Some (r, outs) ->
  exists r' r1 r2 old,
    rb_write_bytes r d = Some (r', Z.min (zlen d) (N - rb_elems r)) /\
    rb_elems r' = rb_elems r + Z.min (zlen d) (N - rb_elems r) /\
    rb_read_bytes r (rb_elems r) = Some (r1, old) /\
    rb_read_bytes r' (rb_elems r')
      = Some (r2, old ++ firstn (Z.to_nat (Z.min (zlen d) (N - rb_elems r))) d).
Proof. exact bulk_write_exact. Qed.
Print Assumptions C02_bulk_write_exact.

(** C02: a bulk read delivers exactly min(len, available) bytes, the oldest
    ones, and leaves the rest in order. *)
Theorem C02_bulk_read_exact : forall N buf ops r outs len,
  1 <= N <= 2 ^ 31 -> zlen buf = N -> Forall (op_ok 1) ops -> 0 <= len ->
  rb_run (ringbuf_init N 1 buf) ops = Some (r, outs) ->
  exists r' out r1 r2 rest,
    rb_read_bytes r len = Some (r', out) /\
    zlen out = Z.min len (rb_elems r) /\
    rb_elems r' = rb_elems r - Z.min len (rb_elems r) /\
    rb_read_bytes r' (rb_elems r') = Some (r1, rest) /\
    rb_read_bytes r (rb_elems r) = Some (r2, out ++ rest).
Proof. exact bulk_read_exact. Qed.
Print Assumptions C02_bulk_read_exact.

(** A reachable state with both cursors in the middle, where a bulk write has
    to be split at the end of the buffer and cut to the room left. *)
Example C02_example : exists r r',
  rb_run (ringbuf_init 5 1 [0;0;0;0;0])
    [OpWriteBytes [1;2;3;4]; OpReadBytes 3] = Some (r, [RNum 4; RBytes [1;2;3]]) /\
  rb_write_bytes r [5;6;7;8;9;10] = Some (r', 4) /\
  rb_buf r' = [6;7;8;4;5].
Proof.
  do 2 eexists. split; [vm_compute; reflexivity|].
  split; [vm_compute; reflexivity|]. vm_compute; reflexivity.
Qed.
