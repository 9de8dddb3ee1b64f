(** Property C25.  [hw_ok h]: ticks of 10 to 2^30 ns and a residue that is a proper
    fraction with denominator at most 2^31 (Clock_Spec.v). *)
From Verif Require Import Lib Clock_Model Clock_Spec Clock_Proofs.

(** After any history of ticks and drift corrections *)
Theorem C25_time_is_exact :
  forall h l, hw_ok h -> Forall (op_ok (ns_per_tick h / 10)) l ->
  exists c, run (clk_init h) l = Some c /\
    time_ns c = (ticks l * ns_per_tick h + ticks l * frac_per_tick h / frac_denom h
                 + total (correction (ns_per_tick h / 10) l)) mod 2 ^ 64.
Proof. exact exact_time. Qed.
Print Assumptions C25_time_is_exact.

(** The clock moves forward at every tick, within 10% of the tick (plus 1 ns) *)
Theorem C25_forward :
  forall h l c, hw_ok h -> Forall (op_ok (ns_per_tick h / 10)) l -> run (clk_init h) l = Some c ->
  exists delta, ns_per_tick h - ns_per_tick h / 10 <= delta <= ns_per_tick h + ns_per_tick h / 10 + 1 /\
    time_ns (on_tick c) = (time_ns c + delta) mod 2 ^ 64.
Proof. exact forward. Qed.
Print Assumptions C25_forward.

(** A drift correction never moves the clock itself *)
Theorem C25_no_jump :
  forall h l d c, hw_ok h -> Forall (op_ok (ns_per_tick h / 10)) l -> drift_ok (ns_per_tick h / 10) d -> run (clk_init h) l = Some c ->
  exists c', apply_drift c d = Some c' /\ time_ns c' = time_ns c.
Proof. exact drift_steady. Qed.
Print Assumptions C25_no_jump.

(** and, once complete, leaves less than one step of the drift *)
Theorem C25_drift_corrected :
  forall st l d k, 0 < st -> Z.abs d / st <= Z.of_nat k ->
  let a := total (correction st (l ++ ODrift d :: only_ticks k)) - total (correction st l) in
  Z.abs (d + a) < st \/ d = 0.
Proof. exact drift_corrected. Qed.
Print Assumptions C25_drift_corrected.

(** x86, 19 to 1000 ticks per second: the hardware gets the divisor nearest to the
    requested rate, and the time after [k] ticks is the exact one rounded down *)
Theorem C25_pit_setup :
  forall interval, 19 <= ts_scale / interval <= 1000 -> exists h lo hi,
  pit_setup interval = Some (h, (lo, hi)) /\ lo + 256 * hi = pit_divisor (ts_scale / interval) /\ hw_ok h /\ frac_denom h = pit_freq_mhz /\
  ns_per_tick h * pit_freq_mhz + frac_per_tick h = pit_divisor (ts_scale / interval) * 10 ^ 12.
Proof. exact pit_hw. Qed.
Print Assumptions C25_pit_setup.

Theorem C25_pit_nearest :
  forall hz, 18 <= hz <= 1000 ->
  2 * Z.abs (pit_divisor hz * (1000 * hz) - pit_freq_mhz) <= 1000 * hz /\ 1193 <= pit_divisor hz <= 66288.
Proof. exact pit_divisor_nearest. Qed.
Print Assumptions C25_pit_nearest.

Theorem C25_pit_exact :
  forall interval k h r c, 19 <= ts_scale / interval <= 1000 -> pit_setup interval = Some (h, r) ->
  run (clk_init h) (only_ticks k) = Some c ->
  time_ns c = (Z.of_nat k * pit_divisor (ts_scale / interval) * 10 ^ 12 / pit_freq_mhz) mod 2 ^ 64.
Proof. exact pit_exact. Qed.
Print Assumptions C25_pit_exact.

(** 18 ticks per second pass the assertion but the divisor does not fit 16 bits:
    the hardware gets 752 instead of 66288 *)
Theorem C25_pit_18hz_refuted :
  exists h lo hi, pit_setup (ts_scale / 18) = Some (h, (lo, hi)) /\ pit_divisor 18 = 66288 /\ lo + 256 * hi = 752.
Proof. exact pit_18. Qed.
Print Assumptions C25_pit_18hz_refuted.

(** riscv, timebase 32768 Hz, 250 ticks per second: the clock falls behind the hardware
    by more than any amount up to 100 s *)
Theorem C25_riscv_refuted :
  forall B, 0 <= B <= 10 ^ 11 -> exists h cycles k c, riscv_setup 32768 4000000 = Some (h, cycles) /\
  run (clk_init h) (only_ticks k) = Some c /\ Z.of_nat k * cycles * 10 ^ 9 / 32768 - time_ns c > B.
Proof. exact riscv_lags. Qed.
Print Assumptions C25_riscv_refuted.

(** A zero denominator would add 1 ns per tick *)
Theorem C25_zero_denominator :
  forall d k c, 10 <= d < 2 ^ 30 -> run (clk_init (Hw d 0 0)) (only_ticks k) = Some c -> time_ns c = u64 (Z.of_nat k * (d + 1)).
Proof. exact no_denom. Qed.
Print Assumptions C25_zero_denominator.

(** Larger drifts: a negative or truncated number of ticks *)
Theorem C25_huge_drift_refuted :
  exists c c', run (clk_init (Hw 4000000 0 1)) [ODrift (2 ^ 31 * 400000)] = Some c /\ adj_rem c = - 2 ^ 31 /\
  run (clk_init (Hw 4000000 0 1)) [ODrift (2 ^ 32 * 400000)] = Some c' /\ adj_rem c' = 0.
Proof. exact huge_drift. Qed.
Print Assumptions C25_huge_drift_refuted.

(** Adapting the tick duration: safe for drifts smaller than the elapsed time *)
Theorem C25_nudge_partial :
  forall c last ld d, 0 < dur c < 2 ^ 31 -> 0 <= last <= time_ns c -> time_ns c < 2 ^ 63 ->
  Z.abs d < (time_ns c - last) / dur c * dur c -> exists c', nudge c last ld d = Some c' /\
  dur c - 3 * dur c / 4 <= dur c' <= dur c + 3 * dur c / 4 /\ time_ns c' = time_ns c /\ acc c' = acc c.
Proof. exact nudge_ok. Qed.
Print Assumptions C25_nudge_partial.

(** but after a minute and a drift of 80 s the duration is 0 and the next correction
    divides by zero *)
Theorem C25_nudge_refuted :
  let c := mk (61 * ts_scale) 4000000 0 1 0 0 0 in
  exists c', nudge c ts_scale 1 80000010000 = Some c' /\ dur c' = 0 /\ apply_drift c' 1 = None.
Proof. exact nudge_bad. Qed.
Print Assumptions C25_nudge_refuted.

(** Sleeping times: never rounded below the request, by at most two ticks above it *)
Theorem C25_timespec_to_ticks :
  forall d sec nsec, 1 < d < 2 ^ 32 -> 0 <= sec -> 0 <= nsec < ts_scale -> sec * ts_scale + d <= 2 ^ 64 -> sec < 2 ^ 63 ->
  let n := timespec_to_ticks d sec nsec in
  sec * ts_scale + nsec <= n * d /\ (n - 2) * d < sec * ts_scale + nsec.
Proof. exact ticks_enough. Qed.
Print Assumptions C25_timespec_to_ticks.

Theorem C25_ticks_to_timespec :
  forall d n, 0 <= d -> 0 <= n -> n * d < 2 ^ 64 ->
  let '(s, ns) := ticks_to_timespec d n in s * ts_scale + ns = n * d /\ 0 <= ns < ts_scale.
Proof. exact ticks_to_ts. Qed.
Print Assumptions C25_ticks_to_timespec.

(** The time left reported by an interrupted nanosleep covers the request *)
Theorem C25_nanosleep_remaining :
  forall d sec nsec t0 t1, 1 < d < 2 ^ 32 -> 0 <= sec -> 0 <= nsec < ts_scale -> sec * ts_scale + 3 * d + ts_scale <= 2 ^ 64 -> sec < 2 ^ 63 ->
  0 <= t0 <= t1 -> t0 + timespec_to_ticks d sec nsec < 2 ^ 64 ->
  let '(s, ns) := nanosleep_rem d sec nsec t0 t1 in
  sec * ts_scale + nsec <= (t1 - t0) * d + (s * ts_scale + ns).
Proof. exact rem_enough. Qed.
Print Assumptions C25_nanosleep_remaining.

(** A sleep of 2^55 seconds is not a sleep at all *)
Theorem C25_long_sleep_refuted : timespec_to_ticks 4000000 (2 ^ 55) 0 = 0.
Proof. exact long_sleep_short. Qed.
Print Assumptions C25_long_sleep_refuted.

(** 250 Hz on x86: 1000 ticks, then a drift of 1 ms, then 2000 ticks *)
Example C25_nontrivial :
  match pit_setup 4000000 with
  | Some (h, _) =>
      match run (clk_init h) (only_ticks 1000 ++ ODrift 1000000 :: only_ticks 2000) with
      | Some c => (h, time_ns c, adj_rem c)
      | None => (h, -1, -1)
      end
  | None => (Hw 0 0 0, -2, -2)
  end = (Hw 4000228 682545496 1193181818, 12000685716 - 2 * 400022, 0).
Proof. vm_compute. reflexivity. Qed.
