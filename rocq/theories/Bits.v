(** include/3rd_party/bithacks.h and include/tilck/common/utils.h: powers of two. *)
From Verif Require Import Lib.

(** roundup_next_power_of_2, include/3rd_party/bithacks.h:52-69.  [W] is the
    width of ulong; the last shift exists only with BITS64. *)
Definition roundup_pow2 (W v : Z) : Z :=
  let v := wrap W (v - 1) in
  let v := Z.lor v (Z.shiftr v 1) in
  let v := Z.lor v (Z.shiftr v 2) in
  let v := Z.lor v (Z.shiftr v 4) in
  let v := Z.lor v (Z.shiftr v 8) in
  let v := Z.lor v (Z.shiftr v 16) in
  let v := if W =? 64 then Z.lor v (Z.shiftr v 32) else v in
  wrap W (v + 1).

(** pow2_round_up_at, include/tilck/common/utils.h:19-23 *)
Definition pow2_round_up_at (W n u : Z) : Z := Z.land (wrap W (n + u - 1)) (wrap W (- u)).

(** Bit [i] of the result: some bit in [i, i+m) is set *)
Definition smeared (v r m : Z) : Prop :=
  0 <= r /\ forall i, 0 <= i -> Z.testbit r i = true <-> exists j, i <= j < i + m /\ Z.testbit v j = true.

Lemma smeared_1 v : 0 <= v -> smeared v v 1.
Proof.
  intros H. split; [exact H|]. intros i Hi. split.
  - intros T. exists i. split; [lia|exact T].
  - intros (j & Hj & T). assert (j = i) by lia. congruence.
Qed.

Lemma smeared_step v r m : smeared v r m -> 0 < m -> smeared v (Z.lor r (Z.shiftr r m)) (2 * m).
Proof.
  intros [H0 H] Hm. split; [apply Z.lor_nonneg; split; [exact H0|apply Z.shiftr_nonneg, H0]|].
  intros i Hi. rewrite Z.lor_spec, orb_true_iff, Z.shiftr_spec by assumption.
  rewrite (H i) by assumption. rewrite (H (i + m)) by lia. split.
  - intros [(j & Hj & T)|(j & Hj & T)]; exists j; split; try lia; exact T.
  - intros (j & Hj & T). destruct (Z_lt_le_dec j (i + m)); [left|right]; exists j; split; try lia; exact T.
Qed.

Lemma smeared_full v r m : smeared v r m -> 0 < v < 2 ^ m -> r = 2 ^ (Z.log2 v + 1) - 1.
Proof.
  intros [H0 H] Hv. assert (Hl := Z.log2_nonneg v).
  assert (Hm : 0 < m). { destruct (Z_lt_le_dec 0 m); [assumption|]. destruct (Z.eq_dec m 0) as [->|]; [cbn in Hv; lia|]. rewrite Z.pow_neg_r in Hv by lia. lia. }
  replace (2 ^ (Z.log2 v + 1) - 1) with (Z.ones (Z.log2 v + 1)) by (rewrite Z.ones_equiv; lia).
  apply Z.bits_inj'. intros i Hi.
  destruct (Z_lt_le_dec i (Z.log2 v + 1)) as [L|L].
  - rewrite Z.ones_spec_low by lia. apply H; [exact Hi|]. exists (Z.log2 v). split.
    + split; [lia|]. assert (Z.log2 v < m); [|lia]. apply Z.log2_lt_pow2; lia.
    + apply Z.bit_log2; lia.
  - rewrite Z.ones_spec_high by lia. destruct (Z.testbit r i) eqn:T; [|reflexivity].
    apply H in T; [|exact Hi]. destruct T as (j & Hj & T). rewrite Z.bits_above_log2 in T by lia. discriminate.
Qed.

Lemma roundup_exact W v : W = 32 \/ W = 64 -> 1 <= v <= 2 ^ (W - 1) -> roundup_pow2 W v = 2 ^ (Z.log2_up v).
Proof.
  intros HW Hv. assert (PW : 2 ^ W = 2 * 2 ^ (W - 1)).
  { replace W with (Z.succ (W - 1)) at 1 by lia. apply Z.pow_succ_r. destruct HW; lia. }
  assert (Hlu : Z.log2_up v <= W - 1). { apply Z.log2_up_le_pow2; lia. }
  assert (P1 : 1 <= 2 ^ Z.log2_up v < 2 ^ W).
  { split; [pose proof (Z.log2_up_nonneg v); pose proof (Z.pow_pos_nonneg 2 (Z.log2_up v)); lia|].
    apply Z.pow_lt_mono_r; lia. }
  unfold roundup_pow2. unfold wrap at 1 2 3 4 5 6 7 8 9 10.
  set (u := (v - 1) mod 2 ^ W). assert (Eu : u = v - 1) by (unfold u; apply Z.mod_small; lia).
  cbv zeta.
  pose proof (smeared_1 u ltac:(lia)) as S.
  do 5 (apply smeared_step in S; [|lia]). change (2 * 1) with 2 in S. change (2 * 2) with 4 in S.
  change (2 * 4) with 8 in S. change (2 * 8) with 16 in S. change (2 * 16) with 32 in S.
  set (w := Z.lor _ (Z.shiftr _ 16)) in *.
  assert (G : forall r m, smeared u r m -> W <= m -> wrap W (r + 1) = 2 ^ Z.log2_up v).
  { intros r m Sm Hm. destruct (Z.eq_dec v 1) as [->|Nv].
    - assert (u = 0) by lia. rewrite H in Sm. assert (r = 0).
      { apply Z.bits_inj'. intros i Hi. rewrite Z.bits_0. destruct (Z.testbit r i) eqn:T; [|reflexivity].
        apply Sm in T; [|exact Hi]. destruct T as (j & _ & T). rewrite Z.bits_0 in T. discriminate. }
      subst r. cbn [Z.add]. rewrite Z.log2_up_1. change (2 ^ 0) with 1. apply Z.mod_small. lia.
    - rewrite (smeared_full u r m Sm).
      + rewrite Z.log2_up_eqn by lia. replace (Z.pred v) with u by lia.
        replace (2 ^ (Z.log2 u + 1) - 1 + 1) with (2 ^ (Z.succ (Z.log2 u))) by (unfold Z.succ; lia).
        rewrite Z.log2_up_eqn in P1 by lia. replace (Z.pred v) with u in P1 by lia. apply Z.mod_small. lia.
      + split; [lia|]. apply Z.lt_le_trans with (2 ^ W); [lia|]. apply Z.pow_le_mono_r; lia. }
  destruct HW as [->| ->]; cbn [Z.eqb Pos.eqb].
  - apply (G _ 32); [exact S|lia].
  - apply smeared_step in S; [|lia]. apply (G _ 64); [exact S|lia].
Qed.

Lemma roundup_ge W v : W = 32 \/ W = 64 -> 1 <= v <= 2 ^ (W - 1) -> v <= roundup_pow2 W v.
Proof.
  intros HW Hv. rewrite roundup_exact by assumption. destruct (Z.eq_dec v 1) as [->|]; [cbn; lia|].
  pose proof (Z.log2_up_spec v). lia.
Qed.

Lemma roundup_pow W k : W = 32 \/ W = 64 -> 0 <= k <= W - 1 -> roundup_pow2 W (2 ^ k) = 2 ^ k.
Proof.
  intros HW Hk. rewrite roundup_exact; [rewrite Z.log2_up_pow2 by lia; reflexivity|exact HW|].
  split; [pose proof (Z.pow_pos_nonneg 2 k); lia|apply Z.pow_le_mono_r; lia].
Qed.

(** Rounding up to a multiple of 2^k *)
Lemma round_up_at_exact W n k : 0 <= k < W -> 0 <= n -> n + 2 ^ k - 1 < 2 ^ W ->
  pow2_round_up_at W n (2 ^ k) = (n + 2 ^ k - 1) / 2 ^ k * 2 ^ k.
Proof.
  intros Hk Hn Hs. unfold pow2_round_up_at, wrap.
  assert (Pk : 0 < 2 ^ k) by (apply Z.pow_pos_nonneg; lia).
  assert (Pw : 2 ^ k < 2 ^ W) by (apply Z.pow_lt_mono_r; lia).
  rewrite (Z.mod_small (n + 2 ^ k - 1)) by lia.
  assert (E : (- 2 ^ k) mod 2 ^ W = 2 ^ W - 2 ^ k).
  { symmetry. apply Z.mod_unique with (-1); [left; lia|lia]. }
  rewrite E. clear E.
  set (x := n + 2 ^ k - 1) in *.
  rewrite <- Z.shiftr_div_pow2, <- Z.shiftl_mul_pow2 by lia.
  apply Z.bits_inj'. intros i Hi. rewrite Z.land_spec, Z.shiftl_spec by assumption.
  assert (B : Z.testbit (2 ^ W - 2 ^ k) i = (k <=? i) && (i <? W)).
  { replace (2 ^ W - 2 ^ k) with (Z.shiftl (Z.ones (W - k)) k).
    2:{ rewrite Z.shiftl_mul_pow2, Z.ones_equiv by lia. rewrite Z.mul_pred_l. rewrite <- Z.pow_add_r by lia.
        replace (W - k + k) with W by lia. reflexivity. }
    rewrite Z.shiftl_spec by assumption. destruct (k <=? i) eqn:L; cbn [andb].
    - destruct (i <? W) eqn:L2; [apply Z.ones_spec_low; lia|apply Z.ones_spec_high; lia].
    - apply Z.testbit_neg_r. lia. }
  rewrite B. destruct (k <=? i) eqn:L; cbn [andb].
  - rewrite Z.shiftr_spec by lia. replace (i - k + k) with i by lia. destruct (i <? W) eqn:L2; [apply andb_true_r|].
    rewrite andb_false_r. symmetry. destruct (Z.eq_dec x 0) as [->|]; [apply Z.bits_0|].
    apply Z.bits_above_log2; [lia|]. apply Z.log2_lt_pow2; [lia|]. apply Z.lt_le_trans with (2 ^ W); [lia|].
    apply Z.pow_le_mono_r; lia.
  - rewrite andb_false_r. symmetry. apply Z.testbit_neg_r. lia.
Qed.
