From Verif Require Import Lib Clock_Model Clock_Spec.

Lemma s64_small x : - 2 ^ 63 <= x < 2 ^ 63 -> s64 x = x.
Proof.
  intros H. unfold s64, u64, wrap. destruct (Z_lt_ge_dec x 0).
  - replace (x mod 18446744073709551616) with (x + 18446744073709551616) by (apply Z.mod_unique with (-1); lia).
    destruct (x + 18446744073709551616 <? 2 ^ 63) eqn:E; lia.
  - rewrite Z.mod_small by lia. destruct (x <? 2 ^ 63) eqn:E; lia.
Qed.

(** ** The clock under any history *)
Record inv (h : hw) (c : clk) (l : list op) : Prop := {
  v_dur : dur c = ns_per_tick h; v_frac : frac c = frac_per_tick h; v_den : denom c = frac_denom h;
  v_time : time_ns c = u64 (ticks l * ns_per_tick h + ticks l * frac_per_tick h / frac_denom h + total (correction (ns_per_tick h / 10) l));
  v_acc : acc c = (ticks l * frac_per_tick h) mod frac_denom h;
  v_val : adj_val c = per (correction (ns_per_tick h / 10) l);
  v_valb : - (ns_per_tick h / 10) <= adj_val c <= ns_per_tick h / 10;
  v_rem : adj_rem c = left (correction (ns_per_tick h / 10) l);
  v_remb : 0 <= adj_rem c < 2 ^ 31
}.

Lemma ticks_app l1 l2 : ticks (l1 ++ l2) = ticks l1 + ticks l2.
Proof. induction l1 as [|[|d] l1 IH]; cbn [app ticks]; lia. Qed.
Lemma correction_snoc st l o : correction st (l ++ [o]) = corr1 st (correction st l) o.
Proof. unfold correction. rewrite fold_left_app. reflexivity. Qed.
Lemma run_snoc c l o : run c (l ++ [o]) = match run c l with Some c' => step c' o | None => None end.
Proof.
  revert c. induction l as [|x l IH]; intros c; cbn; [destruct (step c o); reflexivity|]. destruct (step c x) as [c'|]; [apply IH|reflexivity].
Qed.

Lemma u64_u64_add a b : u64 (u64 a + b) = u64 (a + b).
Proof. unfold u64, wrap. rewrite Zplus_mod_idemp_l. reflexivity. Qed.

Lemma acc_step k f d : 0 <= f < d -> 0 <= k ->
  if (k * f) mod d + f >=? d
  then (k + 1) * f / d = k * f / d + 1 /\ ((k + 1) * f) mod d = (k * f) mod d + f - d
  else (k + 1) * f / d = k * f / d /\ ((k + 1) * f) mod d = (k * f) mod d + f.
Proof.
  intros F K. pose proof (Z.div_mod (k * f) d ltac:(lia)) as E. pose proof (Z.mod_pos_bound (k * f) d ltac:(lia)) as M.
  set (q := k * f / d) in *. set (r := (k * f) mod d) in *. assert (X : (k + 1) * f = d * q + r + f) by lia. rewrite X.
  destruct (r + f >=? d) eqn:C.
  - replace (d * q + r + f) with ((r + f - d) + (q + 1) * d) by lia. rewrite Z.div_add, Z_mod_plus_full by lia.
    rewrite Z.div_small, Z.mod_small by lia. lia.
  - replace (d * q + r + f) with ((r + f) + q * d) by lia. rewrite Z.div_add, Z_mod_plus_full by lia. rewrite Z.div_small, Z.mod_small by lia. lia.
Qed.

Lemma ticks_nonneg l : 0 <= ticks l.
Proof. induction l as [|[|d] l IH]; cbn [ticks]; lia. Qed.

Lemma step_rng d : 10 <= d < 1073741824 -> 0 < d / 10 <= 107374182.
Proof. intros H. lia. Qed.

Lemma inv_tick h c l : hw_ok h -> inv h c l ->
  inv h (on_tick c) (l ++ [OTick]) /\
  exists delta, ns_per_tick h - ns_per_tick h / 10 <= delta <= ns_per_tick h + ns_per_tick h / 10 + 1 /\ time_ns (on_tick c) = u64 (time_ns c + delta).
Proof.
  intros (D & Fr & De) I. destruct I as [I1 I2 I3 I4 I5 I6 I7 I8 I9].
  assert (D2 : 2 ^ 31 / 2 = 1073741824) by reflexivity. rewrite D2 in D.
  assert (St : 0 < ns_per_tick h / 10 <= 107374182) by (apply step_rng, D).
  pose proof (ticks_nonneg l) as K. pose proof (acc_step (ticks l) (frac_per_tick h) (frac_denom h) Fr K) as A.
  pose proof (Z.mod_pos_bound (ticks l * frac_per_tick h) (frac_denom h) ltac:(lia)) as Mb.
  assert (T : ticks (l ++ [OTick]) = ticks l + 1) by (rewrite ticks_app; cbn [ticks]; lia).
  pose proof (correction_snoc (ns_per_tick h / 10) l OTick) as CS. cbn [corr1] in CS. rewrite <- I8 in CS.
  unfold on_tick.
  assert (Hd : exists delta rem, (if negb (adj_rem c =? 0) then (u32 (s32 (s32 (dur c) + adj_val c)), s32 (adj_rem c - 1)) else (dur c, adj_rem c)) = (delta, rem) /\
     total (correction (ns_per_tick h / 10) (l ++ [OTick])) = total (correction (ns_per_tick h / 10) l) + (delta - ns_per_tick h) /\
     rem = left (correction (ns_per_tick h / 10) (l ++ [OTick])) /\ 0 <= rem < 2 ^ 31 /\
     per (correction (ns_per_tick h / 10) (l ++ [OTick])) = per (correction (ns_per_tick h / 10) l) /\
     ns_per_tick h - ns_per_tick h / 10 <= delta <= ns_per_tick h + ns_per_tick h / 10).
  { destruct (adj_rem c =? 0) eqn:R; cbn [negb].
    - exists (dur c), (adj_rem c). rewrite CS. rewrite I1. split; [reflexivity|]. split; [lia|]. split; [exact I8|]. split; [lia|]. split; [reflexivity|lia].
    - exists (ns_per_tick h + adj_val c), (adj_rem c - 1). rewrite CS. cbn [total per left]. rewrite I1.
      rewrite (s32_small (ns_per_tick h)), (s32_small (ns_per_tick h + adj_val c)), u32_small, s32_small by lia.
      split; [reflexivity|]. split; [rewrite I6; lia|]. split; [lia|]. split; [lia|]. split; [reflexivity|lia]. }
  destruct Hd as (delta & rem & -> & Ht & Hr & Hrb & Hp & Hdb). rewrite I5, I2, I3.
  rewrite (u32_small ((ticks l * frac_per_tick h) mod frac_denom h + frac_per_tick h)) by lia.
  destruct ((ticks l * frac_per_tick h) mod frac_denom h + frac_per_tick h >=? frac_denom h) eqn:C; destruct A as [A1 A2].
  - rewrite (u32_small ((ticks l * frac_per_tick h) mod frac_denom h + frac_per_tick h - frac_denom h)) by lia. split.
    + constructor; cbn [dur frac denom time_ns acc adj_val adj_rem]; rewrite ?T; try assumption; try congruence; try lia.
      rewrite I4, u64_u64_add, <- Z.add_assoc, u64_u64_add, A1, Ht. f_equal. ring.
    + exists (delta + 1). cbn [time_ns]. split; [lia|]. rewrite u64_u64_add. f_equal. lia.
  - split.
    + constructor; cbn [dur frac denom time_ns acc adj_val adj_rem]; rewrite ?T; try assumption; try congruence; try lia.
      rewrite I4, u64_u64_add, A1, Ht. f_equal. ring.
    + exists delta. cbn [time_ns]. split; [lia|reflexivity].
Qed.

Lemma inv_drift h c l d : hw_ok h -> inv h c l -> drift_ok (ns_per_tick h / 10) d ->
  exists c', apply_drift c d = Some c' /\ inv h c' (l ++ [ODrift d]) /\ time_ns c' = time_ns c.
Proof.
  intros (D & Fr & De) I [O1 O2]. destruct I as [I1 I2 I3 I4 I5 I6 I7 I8 I9].
  assert (D2 : 2 ^ 31 / 2 = 1073741824) by reflexivity. rewrite D2 in D.
  assert (St : 0 < ns_per_tick h / 10 <= 107374182) by (apply step_rng, D).
  assert (T : ticks (l ++ [ODrift d]) = ticks l) by (rewrite ticks_app; cbn [ticks]; lia).
  pose proof (correction_snoc (ns_per_tick h / 10) l (ODrift d)) as CS. cbn [corr1] in CS.
  unfold apply_drift. destruct (d =? 0) eqn:Ed.
  - exists c. split; [reflexivity|]. split; [|reflexivity]. constructor; rewrite ?T, ?CS; assumption.
  - apply Z.eqb_neq in Ed. rewrite I1. rewrite s32_small by lia. rewrite Z.quot_div_nonneg by lia.
    assert (Ab : (if d >? 0 then u64 d else u64 (s64 (- d))) = Z.abs d).
    { destruct (d >? 0) eqn:E; [rewrite u64_small; lia|]. rewrite s64_small, u64_small by lia. lia. }
    rewrite Ab. rewrite u32_small by lia. destruct (ns_per_tick h / 10 =? 0) eqn:E0; [lia|].
    assert (Q : 0 <= Z.abs d / (ns_per_tick h / 10) < 2 ^ 31) by (split; [apply Z.div_pos; lia|apply Z.div_lt_upper_bound; lia]).
    rewrite (u32_small (Z.abs d / (ns_per_tick h / 10))), (s32_small (Z.abs d / (ns_per_tick h / 10))) by lia.
    eexists. split; [reflexivity|]. split; [|reflexivity].
    assert (Vv : (if d >? 0 then s32 (- (ns_per_tick h / 10)) else ns_per_tick h / 10) = - Z.sgn d * (ns_per_tick h / 10)).
    { destruct (d >? 0) eqn:E; [rewrite s32_small by lia; rewrite Z.sgn_pos by lia; lia|rewrite Z.sgn_neg by lia; lia]. }
    constructor; cbn [dur frac denom time_ns acc adj_val adj_rem]; rewrite ?T, ?CS; cbn [total per left]; try assumption; try lia.
Qed.

Lemma inv_init h : hw_ok h -> inv h (clk_init h) [].
Proof.
  intros (D & Fr & De). constructor; cbn; try reflexivity; try lia.
Qed.

Lemma run_inv h l : hw_ok h -> Forall (op_ok (ns_per_tick h / 10)) l -> exists c, run (clk_init h) l = Some c /\ inv h c l.
Proof.
  intros Hh. induction l as [|o l IH] using rev_ind; intros F; [exists (clk_init h); split; [reflexivity|apply inv_init, Hh]|].
  apply Forall_app in F. destruct F as [F1 F2]. destruct (IH F1) as (c & E & I). rewrite run_snoc, E. apply Forall_inv in F2.
  destruct o as [|d]; cbn [step].
  - exists (on_tick c). split; [reflexivity|]. apply inv_tick; assumption.
  - destruct (inv_drift h c l d Hh I F2) as (c' & E' & I' & _). exists c'. auto.
Qed.

Lemma exact_time h l : hw_ok h -> Forall (op_ok (ns_per_tick h / 10)) l ->
  exists c, run (clk_init h) l = Some c /\
    time_ns c = (ticks l * ns_per_tick h + ticks l * frac_per_tick h / frac_denom h + total (correction (ns_per_tick h / 10) l)) mod 2 ^ 64.
Proof. intros Hh F. destruct (run_inv h l Hh F) as (c & E & I). exists c. split; [exact E|]. apply (v_time h c l I). Qed.

Lemma forward h l c : hw_ok h -> Forall (op_ok (ns_per_tick h / 10)) l -> run (clk_init h) l = Some c ->
  exists delta, ns_per_tick h - ns_per_tick h / 10 <= delta <= ns_per_tick h + ns_per_tick h / 10 + 1 /\
    time_ns (on_tick c) = (time_ns c + delta) mod 2 ^ 64.
Proof. intros Hh F E. destruct (run_inv h l Hh F) as (c' & E' & I). assert (c' = c) by congruence. subst. apply (inv_tick h c l Hh I). Qed.

Lemma drift_steady h l d c : hw_ok h -> Forall (op_ok (ns_per_tick h / 10)) l -> drift_ok (ns_per_tick h / 10) d -> run (clk_init h) l = Some c ->
  exists c', apply_drift c d = Some c' /\ time_ns c' = time_ns c.
Proof.
  intros Hh F O E. destruct (run_inv h l Hh F) as (c' & E' & I). assert (c' = c) by congruence. subst.
  destruct (inv_drift h c l d Hh I O) as (c2 & E2 & _ & T). eauto.
Qed.

(** ** A drift is corrected *)
Lemma corr_ticks st c k : 0 <= left c -> fold_left (corr1 st) (only_ticks k) c =
  Corr (total c + Z.min (Z.of_nat k) (left c) * per c) (per c) (left c - Z.min (Z.of_nat k) (left c)).
Proof.
  revert c. induction k as [|k IH]; intros c H.
  - cbn [only_ticks repeat fold_left]. rewrite Z.min_l by (cbn; lia). destruct c as [t p lf]; cbn [total per left Z.of_nat]. f_equal; lia.
  - cbn [only_ticks repeat fold_left corr1]. change (repeat OTick k) with (only_ticks k). destruct (left c =? 0) eqn:E.
    + rewrite IH by assumption. apply Z.eqb_eq in E. rewrite E. rewrite !Z.min_r by lia. f_equal; lia.
    + apply Z.eqb_neq in E. rewrite IH by (cbn [left]; lia). cbn [total per left].
      replace (Z.min (Z.of_nat (S k)) (left c)) with (Z.min (Z.of_nat k) (left c - 1) + 1) by lia. f_equal; lia.
Qed.

Lemma drift_corrected st l d k : 0 < st -> Z.abs d / st <= Z.of_nat k ->
  let a := total (correction st (l ++ ODrift d :: only_ticks k)) - total (correction st l) in
  Z.abs (d + a) < st \/ d = 0.
Proof.
  intros S K. cbn. unfold correction. rewrite fold_left_app. cbn [fold_left]. set (c := fold_left (corr1 st) l (Corr 0 0 0)). cbn [corr1].
  destruct (d =? 0) eqn:E; [right; lia|]. left. apply Z.eqb_neq in E.
  assert (Q : 0 <= Z.abs d / st) by (apply Z.div_pos; lia).
  rewrite corr_ticks by (cbn [left]; lia). cbn [total per left]. rewrite Z.min_r by lia.
  pose proof (Z.div_mod (Z.abs d) st ltac:(lia)) as DM. pose proof (Z.mod_pos_bound (Z.abs d) st ltac:(lia)) as MB.
  set (q := Z.abs d / st) in *. destruct (Z_lt_ge_dec 0 d).
  - rewrite Z.sgn_pos by lia. replace (d + (total c + q * (-1 * st) - total c)) with (d - st * q) by lia. lia.
  - rewrite Z.sgn_neg by lia. replace (d + (total c + q * (- -1 * st) - total c)) with (d + st * q) by lia. lia.
Qed.

(** ** The PIT *)
Lemma ticks_only k : ticks (only_ticks k) = Z.of_nat k.
Proof. induction k as [|k IH]; [reflexivity|]. cbn [only_ticks repeat ticks]. change (repeat OTick k) with (only_ticks k). lia. Qed.
Lemma corr_only st k : total (correction st (only_ticks k)) = 0.
Proof. unfold correction. rewrite corr_ticks by (cbn; lia). cbn. lia. Qed.
Lemma forall_ticks st k : Forall (op_ok st) (only_ticks k).
Proof. induction k; constructor; [exact Logic.I|assumption]. Qed.

Lemma pit_divisor_nearest hz : 18 <= hz <= 1000 -> 2 * Z.abs (pit_divisor hz * (1000 * hz) - pit_freq_mhz) <= 1000 * hz /\ 1193 <= pit_divisor hz <= 66288.
Proof.
  intros H. unfold pit_divisor, pit_freq_mhz. rewrite (u32_small (500 * hz)), (u32_small (1000 * hz)), u32_small by lia.
  set (n := 1193181818 + 500 * hz). pose proof (Z.div_mod n (1000 * hz) ltac:(lia)) as DM. pose proof (Z.mod_pos_bound n (1000 * hz) ltac:(lia)) as MB.
  set (q := n / (1000 * hz)) in *. split; [lia|]. split.
  - apply Z.div_le_lower_bound; lia.
  - assert (q < 66289); [|lia]. apply Z.div_lt_upper_bound; lia.
Qed.

Lemma pit_divisor_16 hz : 19 <= hz <= 1000 -> pit_divisor hz <= 65535.
Proof.
  intros H. unfold pit_divisor, pit_freq_mhz. rewrite (u32_small (500 * hz)), (u32_small (1000 * hz)), u32_small by lia.
  assert (X : (1193181818 + 500 * hz) / (1000 * hz) < 65536); [|lia]. apply Z.div_lt_upper_bound; lia.
Qed.

Lemma pit_regs d : 0 <= d < 65536 -> Z.land d 255 + 256 * Z.land (Z.shiftr d 8) 255 = d.
Proof.
  intros H. change 255 with (Z.ones 8). rewrite !Z.land_ones, Z.shiftr_div_pow2 by lia. change (2 ^ 8) with 256.
  rewrite (Z.mod_small (d / 256)) by (split; [apply Z.div_pos; lia|apply Z.div_lt_upper_bound; lia]). pose proof (Z.div_mod d 256 ltac:(lia)). lia.
Qed.

Lemma pit_hw interval : 19 <= ts_scale / interval <= 1000 -> exists h lo hi,
  pit_setup interval = Some (h, (lo, hi)) /\ lo + 256 * hi = pit_divisor (ts_scale / interval) /\ hw_ok h /\ frac_denom h = pit_freq_mhz /\
  ns_per_tick h * pit_freq_mhz + frac_per_tick h = pit_divisor (ts_scale / interval) * 10 ^ 12.
Proof.
  intros H. unfold pit_setup. set (hz := ts_scale / interval) in *. replace ((18 <=? hz) && (hz <=? 1000)) with true by lia. cbn [negb].
  destruct (pit_divisor_nearest hz ltac:(lia)) as [_ B]. pose proof (pit_divisor_16 hz H) as B2. set (d := pit_divisor hz) in *.
  rewrite (u64_small (d * ts_scale)), (u64_small (d * ts_scale * 1000)) by (unfold ts_scale; lia). set (num := d * ts_scale * 1000).
  assert (Q : 10 <= num / pit_freq_mhz < 1073741824).
  { unfold num, ts_scale, pit_freq_mhz. split; [apply Z.div_le_lower_bound; lia|apply Z.div_lt_upper_bound; lia]. }
  assert (M : 0 <= num mod pit_freq_mhz < pit_freq_mhz) by (apply Z.mod_pos_bound; reflexivity). assert (P : pit_freq_mhz <= 2 ^ 31) by (cbv; discriminate).
  rewrite (u32_small (num / pit_freq_mhz)), (u32_small (num mod pit_freq_mhz)) by lia. do 3 eexists. split; [reflexivity|].
  split; [apply pit_regs; lia|]. split; [split; [exact Q|split; [exact M|exact P]]|]. split; [reflexivity|]. cbn [ns_per_tick frac_per_tick].
  pose proof (Z.div_mod num pit_freq_mhz ltac:(discriminate)). unfold num, ts_scale in *. lia.
Qed.

Lemma pit_exact interval k h r c : 19 <= ts_scale / interval <= 1000 -> pit_setup interval = Some (h, r) -> run (clk_init h) (only_ticks k) = Some c ->
  time_ns c = (Z.of_nat k * pit_divisor (ts_scale / interval) * 10 ^ 12 / pit_freq_mhz) mod 2 ^ 64.
Proof.
  intros H E R. destruct (pit_hw interval H) as (h' & lo & hi & E' & _ & Ho & Fd & X). assert (h' = h) by congruence. subst h'.
  destruct (exact_time h (only_ticks k) Ho (forall_ticks _ k)) as (c' & E2 & T). assert (c' = c) by congruence. subst c'. rewrite T. f_equal.
  rewrite ticks_only, corr_only, Fd. rewrite <- (Z.mul_assoc (Z.of_nat k) (pit_divisor _)), <- X.
  replace (Z.of_nat k * (ns_per_tick h * pit_freq_mhz + frac_per_tick h)) with
    (Z.of_nat k * frac_per_tick h + Z.of_nat k * ns_per_tick h * pit_freq_mhz) by ring.
  rewrite Z.div_add by discriminate. lia.
Qed.

Lemma pit_18 : exists h lo hi, pit_setup (ts_scale / 18) = Some (h, (lo, hi)) /\ pit_divisor 18 = 66288 /\ lo + 256 * hi = 752.
Proof. do 3 eexists. split; [vm_compute; reflexivity|]. split; reflexivity. Qed.

(** ** riscv: truncation accumulates *)
Lemma riscv_hw : riscv_setup 32768 4000000 = Some (Hw 3997802 0 1, 131).
Proof. reflexivity. Qed.

Lemma riscv_lags B : 0 <= B <= 10 ^ 11 -> exists h cycles k c, riscv_setup 32768 4000000 = Some (h, cycles) /\
  run (clk_init h) (only_ticks k) = Some c /\ Z.of_nat k * cycles * 10 ^ 9 / 32768 - time_ns c > B.
Proof.
  intros H. exists (Hw 3997802 0 1), 131, (Z.to_nat (2 * B + 2)).
  assert (Ho : hw_ok (Hw 3997802 0 1)) by (split; [|split]; vm_compute; repeat split; congruence).
  destruct (exact_time (Hw 3997802 0 1) (only_ticks (Z.to_nat (2 * B + 2))) Ho (forall_ticks _ _)) as (c & E & T).
  exists c. split; [reflexivity|]. split; [exact E|]. rewrite T, ticks_only, corr_only. cbn [ns_per_tick frac_per_tick frac_denom].
  rewrite Z2Nat.id by lia. rewrite Z.mul_0_r, Z.div_0_l by discriminate. rewrite Z.mod_small by lia.
  assert ((2 * B + 2) * 3997802 + B + 1 <= (2 * B + 2) * 131 * 10 ^ 9 / 32768) by (apply Z.div_le_lower_bound; lia). lia.
Qed.

(** ** denom = 0 *)
Lemma no_denom d k c : 10 <= d < 2 ^ 30 -> run (clk_init (Hw d 0 0)) (only_ticks k) = Some c -> time_ns c = u64 (Z.of_nat k * (d + 1)).
Proof.
  intros D. set (P := fun (k : nat) (c : clk) => time_ns c = u64 (Z.of_nat k * (d + 1)) /\ dur c = d /\ frac c = 0 /\ denom c = 0 /\ acc c = 0 /\ adj_rem c = 0).
  assert (G : forall j i c0 c1, P i c0 -> run c0 (only_ticks j) = Some c1 -> P (i + j)%nat c1).
  { induction j as [|j IH]; intros i c0 c1 Pc R.
    - cbn in R. inversion R; subst. rewrite Nat.add_0_r. exact Pc.
    - cbn [only_ticks repeat run step] in R. apply (IH (S i)) in R; [replace (i + S j)%nat with (S i + j)%nat by lia; exact R|].
      destruct Pc as (P1 & P2 & P3 & P4 & P5 & P6). unfold on_tick. rewrite P2, P3, P4, P5, P6. change (u32 (0 + 0) >=? 0) with true. cbn [negb Z.eqb].
      split; [|auto]. cbn [time_ns]. rewrite P1, u64_u64_add, <- Z.add_assoc, u64_u64_add. f_equal. lia. }
  intros R. apply (G k 0%nat) in R; [apply R|]. repeat split; reflexivity.
Qed.

(** ** Drift too large *)
Lemma huge_drift : exists c c', run (clk_init (Hw 4000000 0 1)) [ODrift (2 ^ 31 * 400000)] = Some c /\ adj_rem c = - 2 ^ 31 /\
  run (clk_init (Hw 4000000 0 1)) [ODrift (2 ^ 32 * 400000)] = Some c' /\ adj_rem c' = 0.
Proof. do 2 eexists. split; [vm_compute; reflexivity|]. split; [reflexivity|]. split; [vm_compute; reflexivity|reflexivity]. Qed.

(** ** The nudge *)
Lemma nudge_ok c last ld d : 0 < dur c < 2 ^ 31 -> 0 <= last <= time_ns c -> time_ns c < 2 ^ 63 ->
  Z.abs d < (time_ns c - last) / dur c * dur c -> exists c', nudge c last ld d = Some c' /\
  dur c - 3 * dur c / 4 <= dur c' <= dur c + 3 * dur c / 4 /\ time_ns c' = time_ns c /\ acc c' = acc c.
Proof.
  intros D L T B. unfold nudge. assert (N : 0 <= 3 * dur c / 4) by (apply Z.div_pos; lia).
  destruct (last =? 0); [exists c; split; [reflexivity|lia]|]. destruct (negb _); [exists c; split; [reflexivity|lia]|]. replace (dur c =? 0) with false by lia.
  rewrite (u64_small (time_ns c - last)) by lia. set (g := (time_ns c - last) / dur c) in *.
  destruct (g =? 0) eqn:G; [exists c; split; [reflexivity|lia]|]. eexists. split; [reflexivity|]. cbn [dur time_ns acc].
  assert (Hg : 0 < g < 2 ^ 63).
  { assert (0 <= g) by (apply Z.div_pos; lia). split; [lia|]. unfold g. apply Z.div_lt_upper_bound; [lia|].
    assert (2 ^ 63 * 1 <= 2 ^ 63 * dur c) by (apply Z.mul_le_mono_nonneg_l; lia). lia. }
  rewrite (s64_small g) by lia.
  assert (Q : Z.abs (Z.quot d g) < dur c).
  { rewrite <- Z.quot_abs by lia. rewrite Z.quot_div_nonneg by lia. apply Z.div_lt_upper_bound; lia. }
  set (q := Z.quot d g) in *. rewrite (s64_small (q * 3)) by lia.
  assert (Q2 : Z.abs (Z.quot (q * 3) 4) <= 3 * dur c / 4).
  { rewrite <- Z.quot_abs by lia. rewrite Z.quot_div_nonneg by lia. apply Z.div_le_mono; lia. }
  set (a := Z.quot (q * 3) 4) in *.
  assert (N2 : 3 * dur c / 4 <= dur c) by (apply Z.div_le_upper_bound; lia).
  rewrite s64_small by lia. rewrite u32_small by lia. lia.
Qed.

Lemma nudge_bad : let c := mk (61 * ts_scale) 4000000 0 1 0 0 0 in
  exists c', nudge c ts_scale 1 80000010000 = Some c' /\ dur c' = 0 /\ apply_drift c' 1 = None.
Proof. eexists. split; [vm_compute; reflexivity|]. split; reflexivity. Qed.

(** ** Conversions *)
Lemma dru n m : 0 <= n -> 0 < m -> n + m <= 2 ^ 64 -> div_round_up64 n m * m >= n /\ (div_round_up64 n m - 1) * m < n /\ 0 <= div_round_up64 n m.
Proof.
  intros N M B. unfold div_round_up64. rewrite u64_small by lia. pose proof (Z.div_mod (n + m - 1) m ltac:(lia)) as DM.
  pose proof (Z.mod_pos_bound (n + m - 1) m ltac:(lia)) as MB. assert (0 <= (n + m - 1) / m) by (apply Z.div_pos; lia). lia.
Qed.

Lemma ticks_enough d sec nsec : 1 < d < 2 ^ 32 -> 0 <= sec -> 0 <= nsec < ts_scale -> sec * ts_scale + d <= 2 ^ 64 -> sec < 2 ^ 63 ->
  let n := timespec_to_ticks d sec nsec in
  sec * ts_scale + nsec <= n * d /\ (n - 2) * d < sec * ts_scale + nsec.
Proof.
  intros D S N B Hs. cbn. unfold timespec_to_ticks. rewrite Z.add_0_l. assert (Ts : ts_scale = 1000000000) by reflexivity. rewrite Ts in *.
  rewrite (u64_small sec), (u64_small (sec * 1000000000)), (u64_small nsec) by lia.
  destruct (dru (sec * 1000000000) d ltac:(lia) ltac:(lia) ltac:(lia)) as (A1 & A2 & A3).
  destruct (dru nsec d ltac:(lia) ltac:(lia) ltac:(lia)) as (B1 & B2 & B3).
  assert (L1 : div_round_up64 (sec * 1000000000) d <= sec * 1000000000).
  { destruct (Z.eq_dec (sec * 1000000000) 0) as [E|E]; [rewrite E in *; assert ((div_round_up64 0 d - 1) * d < 0 * d) by lia; apply Z.mul_lt_mono_pos_r in H; lia|].
    set (q := div_round_up64 (sec * 1000000000) d) in *. destruct (Z_le_gt_dec q 1); [lia|]. assert ((q - 1) * 1 <= (q - 1) * d) by (apply Z.mul_le_mono_nonneg_l; lia). lia. }
  assert (L2 : div_round_up64 nsec d <= nsec).
  { destruct (Z.eq_dec nsec 0) as [E|E]; [rewrite E in *; assert ((div_round_up64 0 d - 1) * d < 0 * d) by lia; apply Z.mul_lt_mono_pos_r in H; lia|].
    set (q := div_round_up64 nsec d) in *. destruct (Z_le_gt_dec q 1); [lia|]. assert ((q - 1) * 1 <= (q - 1) * d) by (apply Z.mul_le_mono_nonneg_l; lia). lia. }
  rewrite (u64_small (div_round_up64 (sec * 1000000000) d)) by lia.
  assert (S64 : div_round_up64 (sec * 1000000000) d + div_round_up64 nsec d < 2 ^ 64).
  { set (q := div_round_up64 (sec * 1000000000) d) in *. destruct (Z_le_gt_dec q 1); [lia|].
    assert ((q - 1) * 2 <= (q - 1) * d) by (apply Z.mul_le_mono_nonneg_l; lia). lia. }
  rewrite u64_small by lia. lia.
Qed.

Lemma ticks_to_ts d n : 0 <= d -> 0 <= n -> n * d < 2 ^ 64 ->
  let '(s, ns) := ticks_to_timespec d n in s * ts_scale + ns = n * d /\ 0 <= ns < ts_scale.
Proof.
  intros D N B. unfold ticks_to_timespec. assert (0 <= n * d) by (apply Z.mul_nonneg_nonneg; lia). rewrite u64_small by lia.
  assert (Ts : ts_scale = 1000000000) by reflexivity. rewrite Ts.
  pose proof (Z.div_mod (n * d) 1000000000 ltac:(lia)). pose proof (Z.mod_pos_bound (n * d) 1000000000 ltac:(lia)).
  rewrite s64_small; [lia|]. split; [apply Z.le_trans with 0; [lia|apply Z.div_pos; lia]|]. apply Z.div_lt_upper_bound; lia.
Qed.

Lemma rem_enough d sec nsec t0 t1 : 1 < d < 2 ^ 32 -> 0 <= sec -> 0 <= nsec < ts_scale -> sec * ts_scale + 3 * d + ts_scale <= 2 ^ 64 -> sec < 2 ^ 63 ->
  0 <= t0 <= t1 -> t0 + timespec_to_ticks d sec nsec < 2 ^ 64 ->
  let '(s, ns) := nanosleep_rem d sec nsec t0 t1 in
  sec * ts_scale + nsec <= (t1 - t0) * d + (s * ts_scale + ns).
Proof.
  intros D S N B Hs T Ov. assert (Ts : ts_scale = 1000000000) by reflexivity.
  pose proof (ticks_enough d sec nsec D S N ltac:(lia) Hs) as E. cbn in E. unfold nanosleep_rem. set (n := timespec_to_ticks d sec nsec) in *. destruct E as [E1 E2].
  assert (0 <= n) by (destruct (Z_lt_ge_dec n 0); [exfalso; assert (n * d <= -1 * d) by (apply Z.mul_le_mono_nonneg_r; lia); lia|lia]).
  rewrite (u64_small (t0 + n)) by lia. destruct (t1 <? t0 + n) eqn:C.
  - rewrite (u64_small (t0 + n - t1)) by lia. assert (X : (t0 + n - t1) * d <= n * d) by (apply Z.mul_le_mono_nonneg_r; lia).
    pose proof (ticks_to_ts d (t0 + n - t1) ltac:(lia) ltac:(lia) ltac:(lia)) as G. destruct (ticks_to_timespec d (t0 + n - t1)) as [s ns]. lia.
  - assert (X : n * d <= (t1 - t0) * d) by (apply Z.mul_le_mono_nonneg_r; lia). lia.
Qed.

Lemma long_sleep_short : timespec_to_ticks 4000000 (2 ^ 55) 0 = 0.
Proof. reflexivity. Qed.
