From Verif Require Import Lib Crc_Model Crc_Spec.

Definition P := 3988292384.   (* 0xEDB88320 *)
Definition L (z : Z) : Z := Z.lxor (Z.shiftr z 1) (if Z.odd z then P else 0).
Fixpoint Ln (n : nat) (z : Z) : Z := match n with O => z | S n => Ln n (L z) end.
Definition feed (r : Z) (b : bool) : Z := L (Z.lxor r (Z.b2z b)).
Definition word (r : Z) : Prop := 0 <= r < 2 ^ 32.

Lemma lxor_bound n a b : 0 <= n -> 0 <= a < 2 ^ n -> 0 <= b < 2 ^ n -> 0 <= Z.lxor a b < 2 ^ n.
Proof.
  intros N A B. split; [apply Z.lxor_nonneg; lia|].
  destruct (Z.eq_dec (Z.lxor a b) 0) as [E|E]; [rewrite E; lia|]. apply Z.log2_lt_pow2; [pose proof (proj2 (Z.lxor_nonneg a b) ltac:(lia)); lia|].
  assert (N0 : 0 < n \/ n = 0) by lia. destruct N0 as [N0| ->]; [|assert (a = 0) by lia; assert (b = 0) by lia; subst; cbn in E; lia].
  eapply Z.le_lt_trans; [apply Z.log2_lxor; lia|]. apply Z.max_lub_lt; [destruct (Z.eq_dec a 0) as [->|]; [cbn; lia|apply Z.log2_lt_pow2; lia]|destruct (Z.eq_dec b 0) as [->|]; [cbn; lia|apply Z.log2_lt_pow2; lia]].
Qed.
Lemma odd_lxor a b : Z.odd (Z.lxor a b) = xorb (Z.odd a) (Z.odd b).
Proof. rewrite <- !Z.bit0_odd. apply Z.lxor_spec. Qed.
Lemma shr_lxor a b n : Z.shiftr (Z.lxor a b) n = Z.lxor (Z.shiftr a n) (Z.shiftr b n).
Proof. apply Z.shiftr_lxor. Qed.
Lemma L_lin a b : L (Z.lxor a b) = Z.lxor (L a) (L b).
Proof.
  unfold L. rewrite shr_lxor, odd_lxor. apply Z.bits_inj'. intros n _. rewrite !Z.lxor_spec. destruct (Z.odd a), (Z.odd b); cbn [xorb]; rewrite ?Z.bits_0; destruct (Z.testbit (Z.shiftr a 1) n), (Z.testbit (Z.shiftr b 1) n), (Z.testbit P n); reflexivity.
Qed.
Lemma Ln_lin n : forall a b, Ln n (Z.lxor a b) = Z.lxor (Ln n a) (Ln n b).
Proof. induction n as [|n IH]; intros a b; cbn [Ln]; [reflexivity|]. rewrite L_lin. apply IH. Qed.
Lemma L_word r : word r -> word (L r).
Proof.
  intros R. unfold L, word. apply lxor_bound; [lia| |destruct (Z.odd r); unfold P; lia]. rewrite Z.shiftr_div_pow2 by lia. change (2 ^ 1) with 2. unfold word in R. split; [apply Z.div_pos; lia|]. apply Z.div_lt_upper_bound; lia.
Qed.
Lemma L_double y : L (2 * y) = y.
Proof. unfold L. rewrite Z.odd_mul. cbn [Z.odd andb]. rewrite Z.lxor_0_r, Z.shiftr_div_pow2 by lia. change (2 ^ 1) with 2. rewrite Z.mul_comm. apply Z.div_mul. lia. Qed.
Lemma Ln_shift n : forall y, Ln n (Z.shiftl y (Z.of_nat n)) = y.
Proof.
  induction n as [|n IH]; intros y; cbn [Ln]; [apply Z.shiftl_0_r|]. rewrite <- (IH y) at 2. f_equal. rewrite Z.shiftl_mul_pow2, Z.shiftl_mul_pow2 by lia. rewrite Nat2Z.inj_succ, Z.pow_succ_r by lia.
  replace (y * (2 * 2 ^ Z.of_nat n)) with (2 * (y * 2 ^ Z.of_nat n)) by lia. apply L_double.
Qed.
Lemma L_inj a b : word a -> word b -> L a = L b -> a = b.
Proof.
  intros A B H. assert (B31 : forall z, word z -> Z.testbit (L z) 31 = Z.odd z).
  { intros z Zw. unfold L. rewrite Z.lxor_spec. rewrite Z.shiftr_spec by lia. rewrite (Z.bits_above_log2 z (31 + 1)); [|unfold word in Zw; lia|].
    - destruct (Z.odd z); [vm_compute|rewrite Z.bits_0]; reflexivity.
    - unfold word in Zw. destruct (Z.eq_dec z 0) as [->|]; [cbn; lia|]. apply Z.log2_lt_pow2; cbn; lia. }
  assert (O : Z.odd a = Z.odd b) by (rewrite <- (B31 a A), <- (B31 b B), H; reflexivity). unfold L in H. rewrite O in H.
  assert (S : Z.shiftr a 1 = Z.shiftr b 1).
  { apply (f_equal (fun x => Z.lxor x (if Z.odd b then P else 0))) in H. rewrite !Z.lxor_assoc, Z.lxor_nilpotent, !Z.lxor_0_r in H. exact H. }
  rewrite <- !Z.div2_spec in S. rewrite (Z.div2_odd a), (Z.div2_odd b), S, O. reflexivity.
Qed.

(** table *)
Lemma tab_ok : forall i, 0 <= i < 256 -> znth 0 crc32_tab i = Ln 8 i.
Proof.
  assert (H : forallb (fun k => znth 0 crc32_tab (Z.of_nat k) =? Ln 8 (Z.of_nat k)) (seq 0 256) = true) by (vm_compute; reflexivity).
  intros i I. rewrite forallb_forall in H. specialize (H (Z.to_nat i)). rewrite Z2Nat.id in H by lia. apply Z.eqb_eq, H, in_seq. lia.
Qed.
Lemma split_word x k : 0 <= k -> x = Z.lxor (Z.land x (2 ^ k - 1)) (Z.shiftl (Z.shiftr x k) k).
Proof.
  intros K. apply Z.bits_inj'. intros n N. rewrite Z.lxor_spec.
  replace (2 ^ k - 1) with (Z.ones k) by (rewrite Z.ones_equiv; lia). rewrite Z.land_spec. destruct (Z_lt_dec n k).
  - rewrite Z.ones_spec_low by lia. rewrite Z.shiftl_spec_low by lia. rewrite andb_true_r, xorb_false_r. reflexivity.
  - rewrite Z.ones_spec_high by lia. rewrite Z.shiftl_spec by lia. rewrite Z.shiftr_spec by lia. rewrite andb_false_r. replace (n - k + k) with n by lia. destruct (Z.testbit x n); reflexivity.
Qed.
Lemma byte_ok crc b : word crc -> 0 <= b < 256 -> crc_byte crc b = Ln 8 (Z.lxor crc b).
Proof.
  intros C B. unfold crc_byte. set (x := Z.lxor crc b). assert (X : Z.shiftr crc 8 = Z.shiftr x 8).
  { unfold x. rewrite shr_lxor. replace (Z.shiftr b 8) with 0; [symmetry; apply Z.lxor_0_r|]. rewrite Z.shiftr_div_pow2 by lia. symmetry. apply Z.div_small. lia. }
  rewrite X. assert (Bd : 0 <= Z.land x 255 < 256) by (change 255 with (Z.ones 8); rewrite Z.land_ones by lia; apply Z.mod_pos_bound; lia). rewrite tab_ok by exact Bd.
  rewrite (split_word x 8) at 3 by lia. rewrite Ln_lin. change (2 ^ 8 - 1) with 255. f_equal. symmetry. apply (Ln_shift 8).
Qed.

(** feeding bits *)
Lemma feed_word r b : word r -> word (feed r b).
Proof. intros R. apply L_word. apply lxor_bound; [lia|exact R|destruct b; cbn; lia]. Qed.
Lemma feeds_word m : forall r, word r -> word (fold_left feed m r).
Proof. induction m as [|b m IH]; intros r R; cbn [fold_left]; [exact R|]. apply IH, feed_word, R. Qed.
Lemma number_nonneg l : 0 <= number l.
Proof. induction l as [|b l IH]; cbn [number]; [lia|]. destruct b; cbn [Z.b2z]; lia. Qed.
Lemma number_bound l : number l < 2 ^ Z.of_nat (length l).
Proof. induction l as [|b l IH]; [cbn; lia|]. cbn [number length]. rewrite Nat2Z.inj_succ, Z.pow_succ_r by lia. destruct b; cbn [Z.b2z]; lia. Qed.
Lemma add_even b n : Z.b2z b + 2 * n = Z.lxor (Z.b2z b) (2 * n).
Proof.
  apply Z.bits_inj'. intros k K. rewrite Z.lxor_spec. destruct (Z.eq_dec k 0) as [->|Nz].
  - rewrite !Z.bit0_odd, Z.odd_add, Z.odd_mul. reflexivity.
  - replace k with (Z.succ (k - 1)) by lia. rewrite Z.add_comm, Z.testbit_succ_r by lia. rewrite Z.double_bits_succ. destruct b; cbn [Z.b2z].
    + rewrite (Z.bits_above_log2 1) by (cbn; lia). destruct (Z.testbit n (k - 1)); reflexivity.
    + rewrite Z.bits_0. destruct (Z.testbit n (k - 1)); reflexivity.
Qed.
Lemma feeds_number m : forall r, fold_left feed m r = Ln (length m) (Z.lxor r (number m)).
Proof.
  induction m as [|b m IH]; intros r; cbn [fold_left length Ln number]; [rewrite Z.lxor_0_r; reflexivity|]. rewrite IH. f_equal. rewrite add_even, <- Z.lxor_assoc, (L_lin (Z.lxor r (Z.b2z b))), L_double. reflexivity.
Qed.
Lemma number_bits n : forall z, 0 <= z < 2 ^ Z.of_nat n -> number (bits n z) = z.
Proof.
  induction n as [|n IH]; intros z Zb; cbn [bits number]; [cbn in Zb; lia|]. rewrite Nat2Z.inj_succ, Z.pow_succ_r in Zb by lia. pose proof (Z.div2_odd z) as D. rewrite IH; [lia|]. destruct (Z.odd z); cbn [Z.b2z] in D; lia.
Qed.
Lemma bits_length n : forall z, length (bits n z) = n.
Proof. induction n as [|n IH]; intros z; cbn; [reflexivity|]. rewrite IH. reflexivity. Qed.
Lemma loop_bits buf : bytes buf -> forall r, word r -> fold_left crc_byte buf r = fold_left feed (bits_of buf) r.
Proof.
  intros H. induction H as [|b buf B H IH]; intros r R; [reflexivity|]. unfold bits_of. cbn [fold_left map concat]. rewrite fold_left_app.
  assert (E : crc_byte r b = fold_left feed (bits 8 b) r) by (rewrite feeds_number, bits_length, number_bits by (cbn; lia); apply byte_ok; assumption).
  rewrite E. apply IH, feeds_word, R.
Qed.

(** division *)
Lemma xor_nil l : xor_first [] l = l.
Proof. reflexivity. Qed.
Lemma xor_bits n : forall k p q l, (k <= n)%nat -> 0 <= q < 2 ^ Z.of_nat k -> xor_first (bits n p) (xor_first (bits k q) l) = xor_first (bits n (Z.lxor p q)) l.
Proof.
  induction n as [|n IH]; intros k p q l K Q.
  - assert (k = O) by lia. subst k. reflexivity.
  - destruct k as [|k].
    + cbn in Q. assert (q = 0) by lia. subst q. rewrite Z.lxor_0_r. reflexivity.
    + destruct l as [|y l]; [reflexivity|]. cbn [bits xor_first]. rewrite Nat2Z.inj_succ, Z.pow_succ_r in Q by lia. f_equal.
      * rewrite odd_lxor. destruct (Z.odd p), (Z.odd q), y; reflexivity.
      * rewrite IH; [|lia|rewrite Z.div2_div; split; [apply Z.div_pos; lia|apply Z.div_lt_upper_bound; lia]]. f_equal. f_equal. rewrite !Z.div2_spec, Z.shiftr_lxor. reflexivity.
Qed.
Lemma xor_zero n : forall l, xor_first (bits n 0) l = l.
Proof. induction n as [|n IH]; intros [|y l]; cbn [bits xor_first Z.div2]; try reflexivity. rewrite IH. destruct y; reflexivity. Qed.
Lemma poly_P : poly = bits 32 P.
Proof. vm_compute. reflexivity. Qed.
Lemma xor_zeros n : forall z, xor_first (bits n z) (repeat false n) = bits n z.
Proof. induction n as [|n IH]; intros z; cbn [bits repeat xor_first]; [reflexivity|]. rewrite IH. destruct (Z.odd z); reflexivity. Qed.
Lemma divide_feed m : forall r, word r -> divide (length m) (xor_first (bits 32 r) (m ++ repeat false 32)) = bits 32 (fold_left feed m r).
Proof.
  induction m as [|b m IH]; intros r R.
  - cbn [length divide app fold_left]. apply xor_zeros.
  - assert (Step : forall l, divide (S (length m)) (xor_first (bits 32 r) (b :: l)) = divide (length m) (xor_first (bits 32 (feed r b)) l)).
    { intros l. change (xor_first (bits 32 r) (b :: l)) with (xorb (Z.odd r) b :: xor_first (bits 31 (Z.div2 r)) l). cbn [divide]. f_equal.
      assert (Q : 0 <= Z.div2 r < 2 ^ Z.of_nat 31) by (unfold word in R; rewrite Z.div2_div; change (2 ^ Z.of_nat 31) with (2 ^ 31); split; [apply Z.div_pos; lia|apply Z.div_lt_upper_bound; lia]).
      assert (F : feed r b = Z.lxor (if xorb (Z.odd r) b then P else 0) (Z.div2 r)).
      { unfold feed, L. rewrite odd_lxor, shr_lxor. replace (Z.odd (Z.b2z b)) with b by (destruct b; reflexivity). rewrite Z.lxor_comm. f_equal. rewrite Z.div2_spec. replace (Z.shiftr (Z.b2z b) 1) with 0 by (destruct b; reflexivity). apply Z.lxor_0_r. }
      rewrite F. rewrite <- (xor_bits 32 31) by (try lia; exact Q). destruct (xorb (Z.odd r) b); [rewrite poly_P; reflexivity|]. rewrite xor_zero. reflexivity. }
    cbn [length app fold_left]. rewrite Step. apply IH, feed_word, R.
Qed.
Lemma map_negb n : forall z, map negb (bits n z) = bits n (Z.lxor z (Z.ones (Z.of_nat n))).
Proof.
  induction n as [|n IH]; intros z; cbn [bits map]; [reflexivity|]. assert (O : Z.ones (Z.of_nat (S n)) = 2 * Z.ones (Z.of_nat n) + 1) by (rewrite !Z.ones_equiv, Nat2Z.inj_succ, Z.pow_succ_r by lia; lia). f_equal.
  - rewrite odd_lxor, O, Z.odd_add, Z.odd_mul. cbn. destruct (Z.odd z); reflexivity.
  - rewrite IH. f_equal. rewrite !Z.div2_spec, Z.shiftr_lxor. f_equal. rewrite O, Z.shiftr_div_pow2 by lia. change (2 ^ 1) with 2. rewrite Z.mul_comm, Z.div_add_l by lia. rewrite Z.div_small by lia. lia.
Qed.
Lemma xor_length a : forall l, length (xor_first a l) = length l.
Proof. induction a as [|x a IH]; intros [|y l]; cbn; auto. Qed.
Lemma ones_word : word (2 ^ 32 - 1).
Proof. unfold word. lia. Qed.
Lemma crc_correct buf : bytes buf -> crc32 0 buf = crc_spec buf.
Proof.
  intros H. unfold crc32, crc_spec, remainder. rewrite xor_length, app_length, repeat_length, Nat.add_sub, Z.lxor_0_l.
  replace (repeat true 32) with (bits 32 (2 ^ 32 - 1)) by (vm_compute; reflexivity). rewrite divide_feed by apply ones_word. rewrite (loop_bits buf H) by apply ones_word.
  set (r := fold_left feed (bits_of buf) (2 ^ 32 - 1)). assert (R : word r) by (apply feeds_word, ones_word). rewrite map_negb. symmetry. change (Z.ones (Z.of_nat 32)) with (2 ^ 32 - 1).
  apply (number_bits 32). change (2 ^ Z.of_nat 32) with (2 ^ 32). apply lxor_bound; [lia|exact R|lia].
Qed.
Lemma lxor_cancel x m : Z.lxor (Z.lxor x m) m = x.
Proof. rewrite Z.lxor_assoc, Z.lxor_nilpotent, Z.lxor_0_r. reflexivity. Qed.
Lemma crc_app c a b : crc32 (crc32 c a) b = crc32 c (a ++ b).
Proof. unfold crc32. rewrite lxor_cancel, fold_left_app. reflexivity. Qed.
Lemma crc_range c buf : 0 <= c < 2 ^ 32 -> bytes buf -> 0 <= crc32 c buf < 2 ^ 32.
Proof.
  intros C H. unfold crc32. assert (W : word (Z.lxor c (2 ^ 32 - 1))) by (apply lxor_bound; lia). rewrite (loop_bits buf H _ W). apply lxor_bound; [lia|apply feeds_word, W|lia].
Qed.
Lemma feed_inj b r1 r2 : word r1 -> word r2 -> feed r1 b = feed r2 b -> r1 = r2.
Proof.
  intros R1 R2 H. apply L_inj in H; [|apply lxor_bound; [lia|assumption|destruct b; cbn; lia]..]. rewrite <- (lxor_cancel r1 (Z.b2z b)), H. apply lxor_cancel.
Qed.
Lemma feeds_inj m : forall r1 r2, word r1 -> word r2 -> fold_left feed m r1 = fold_left feed m r2 -> r1 = r2.
Proof. induction m as [|b m IH]; intros r1 r2 R1 R2; cbn [fold_left]; [auto|]. intros H. apply IH in H; [|apply feed_word; assumption..]. apply (feed_inj b); assumption. Qed.
Lemma Ln_inj n : forall a b, word a -> word b -> Ln n a = Ln n b -> a = b.
Proof. induction n as [|n IH]; intros a b A B; cbn [Ln]; [auto|]. intros H. apply IH in H; [|apply L_word; assumption..]. apply L_inj; assumption. Qed.
Lemma number_inj l1 : forall l2, length l1 = length l2 -> number l1 = number l2 -> l1 = l2.
Proof.
  induction l1 as [|b l1 IH]; intros [|c l2] E N; try discriminate; [reflexivity|]. cbn [number] in N. cbn [length] in E. assert (b = c) by (destruct b, c; cbn [Z.b2z] in N; try reflexivity; lia). subst c. f_equal. apply IH; lia.
Qed.
Lemma burst c b1 b2 pre w1 w2 post : 0 <= c < 2 ^ 32 -> bytes b1 -> bytes b2 -> bits_of b1 = pre ++ w1 ++ post -> bits_of b2 = pre ++ w2 ++ post -> length w1 = length w2 -> (length w1 <= 32)%nat ->
  crc32 c b1 = crc32 c b2 -> w1 = w2.
Proof.
  intros C H1 H2 E1 E2 El Le H. unfold crc32 in H. assert (W : word (Z.lxor c (2 ^ 32 - 1))) by (apply lxor_bound; lia). rewrite (loop_bits b1 H1 _ W), (loop_bits b2 H2 _ W), E1, E2, !fold_left_app in H.
  apply (f_equal (fun x => Z.lxor x (2 ^ 32 - 1))) in H. rewrite !lxor_cancel in H. apply feeds_inj in H; [|apply feeds_word, feeds_word, W..].
  set (r := fold_left feed pre (Z.lxor c (2 ^ 32 - 1))) in *. assert (R : word r) by (apply feeds_word, W). clearbody r. rewrite !feeds_number, <- El in H.
  assert (Pw : 2 ^ Z.of_nat (length w1) <= 2 ^ 32) by (apply Z.pow_le_mono_r; lia). pose proof (number_bound w1). pose proof (number_bound w2) as B2. rewrite <- El in B2. pose proof (number_nonneg w1). pose proof (number_nonneg w2).
  apply Ln_inj in H; [|apply lxor_bound; [lia|exact R|lia]..].
  apply number_inj; [exact El|]. rewrite <- (lxor_cancel (number w1) r), (Z.lxor_comm (number w1)), H, (Z.lxor_comm r). apply lxor_cancel.
Qed.
