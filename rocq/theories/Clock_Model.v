(** Model of the system time: timer_irq_handler's time keeping (kernel/timer.c),
    hw_timer_setup of x86 (kernel/arch/generic_x86/pit.c) and riscv
    (kernel/arch/riscv/timer.c), the drift correction and the conversions of
    kernel/datetime.c.  TS_SCALE is 10^9.  C's signed wrap-around is explicit. *)
From Verif Require Import Lib.

Definition ts_scale := 1000000000.
Definition pit_freq_mhz := 1193181818.

Definition s64 (x : Z) : Z := let y := u64 x in if y <? 2 ^ 63 then y else y - 2 ^ 64.

(** struct hw_timer_info *)
Record hw := Hw { ns_per_tick : Z; frac_per_tick : Z; frac_denom : Z }.

(** hw_timer_setup, kernel/arch/generic_x86/pit.c:109-145: the timing and the two
    bytes sent to the hardware; [None] when an ASSERT fails *)
Definition pit_divisor (hz : Z) : Z := u32 (pit_freq_mhz + u32 (500 * hz)) / u32 (1000 * hz).
Definition pit_setup (interval : Z) : option (hw * (Z * Z)) :=
  let hz := ts_scale / interval in
  if negb ((18 <=? hz) && (hz <=? 1000)) then None
  else
    let divisor := pit_divisor hz in
    let num := u64 (u64 (divisor * ts_scale) * 1000) in
    let h := Hw (u32 (num / pit_freq_mhz)) (u32 (num mod pit_freq_mhz)) pit_freq_mhz in
    Some (h, (Z.land divisor 255, Z.land (Z.shiftr divisor 8) 255)).

(** hw_timer_setup, kernel/arch/riscv/timer.c:60-; the timer then fires every
    timebase / hz cycles (line 28 and 92) *)
Definition riscv_setup (timebase interval : Z) : option (hw * Z) :=
  let hz := ts_scale / interval in
  if timebase =? 0 then None
  else
    let a := u64 (ts_scale * (timebase / hz)) / timebase in
    if negb ((18 <=? hz) && (hz <=? 1000)) then None
    else if negb (a <? 2 ^ 32 - 1) then None
    else Some (Hw (u32 a) 0 1, timebase / hz).

(** The globals of kernel/timer.c:21-30 *)
Record clk := mk {
  time_ns : Z;                 (* u64 *)
  dur : Z;                     (* u32 __tick_duration *)
  frac : Z;                    (* u32 __tick_frac_per_tick *)
  denom : Z;                   (* u32 __tick_frac_denom *)
  acc : Z;                     (* u32 __tick_frac_acc *)
  adj_val : Z;                 (* s32 __tick_adj_val *)
  adj_rem : Z                  (* int __tick_adj_ticks_rem *)
}.
(** init_timer, kernel/timer.c:579-582 *)
Definition clk_init (h : hw) : clk := mk 0 (ns_per_tick h) (frac_per_tick h) (frac_denom h) 0 0 0.

(** timer_irq_handler, kernel/timer.c:448-478 *)
Definition on_tick (c : clk) : clk :=
  let '(delta, rem) :=
    if negb (adj_rem c =? 0) then (u32 (s32 (s32 (dur c) + adj_val c)), s32 (adj_rem c - 1))
    else (dur c, adj_rem c) in
  let t1 := u64 (time_ns c + delta) in
  let a1 := u32 (acc c + frac c) in
  let '(t2, a2) := if a1 >=? denom c then (u64 (t1 + 1), u32 (a1 - denom c)) else (t1, a1) in
  mk t2 (dur c) (frac c) (denom c) a2 (adj_val c) rem.

(** clock_apply_drift, kernel/datetime.c:113-140; [None]: division by zero.
    (A negative max_step is converted to u32 as the C code does.) *)
Definition apply_drift (c : clk) (drift : Z) : option clk :=
  if drift =? 0 then Some c
  else
    let max_step := Z.quot (s32 (dur c)) 10 in
    let abs := if drift >? 0 then u64 drift else u64 (s64 (- drift)) in
    let av := if drift >? 0 then s32 (- max_step) else max_step in
    if u32 max_step =? 0 then None
    else Some (mk (time_ns c) (dur c) (frac c) (denom c) (acc c) av (s32 (u32 (abs / u32 max_step)))).

(** clock_nudge_tick_duration, kernel/datetime.c:142-177; [last] is
    last_resync_time_ns, [last_drift] is last_drift_ns *)
Definition nudge (c : clk) (last last_drift drift : Z) : option clk :=
  if last =? 0 then Some c
  else if negb (Bool.eqb (drift >? 0) (last_drift >? 0)) then Some c
  else if dur c =? 0 then None
  else
    let gap := u64 (time_ns c - last) / dur c in
    if gap =? 0 then Some c
    else
      let adjustment := Z.quot (s64 (Z.quot drift (s64 gap) * 3)) 4 in
      Some (mk (time_ns c) (u32 (s64 (dur c - adjustment))) (frac c) (denom c) (acc c) (adj_val c) (adj_rem c)).

(** div_round_up64, include/tilck/common/utils.h *)
Definition div_round_up64 (n m : Z) : Z := u64 (n + m - 1) / m.

(** timespec_to_ticks, kernel/datetime.c:294-316, TS_SCALE = BILLION *)
Definition timespec_to_ticks (d sec nsec : Z) : Z :=
  u64 (u64 (0 + div_round_up64 (u64 (u64 sec * ts_scale)) d) + div_round_up64 (u64 nsec) d).

(** ticks_to_timespec, kernel/datetime.c:282-292 *)
Definition ticks_to_timespec (d ticks : Z) : Z * Z :=
  let tot := u64 (ticks * d) in (s64 (tot / ts_scale), tot mod ts_scale).

(** The remaining time of do_nanosleep, kernel/syscalls.c:37-63: [t0] and [t1] are
    the tick counts before sleeping and after the wake-up by a signal *)
Definition nanosleep_rem (d sec nsec t0 t1 : Z) : Z * Z :=
  let n := timespec_to_ticks d sec nsec in
  let e := u64 (t0 + n) in
  if t1 <? e then ticks_to_timespec d (u64 (e - t1)) else (0, 0).

Inductive op := OTick | ODrift (drift : Z).
Definition step (c : clk) (o : op) : option clk :=
  match o with OTick => Some (on_tick c) | ODrift d => apply_drift c d end.
Fixpoint run (c : clk) (l : list op) : option clk :=
  match l with [] => Some c | o :: l => match step c o with Some c' => run c' l | None => None end end.
