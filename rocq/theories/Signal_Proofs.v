From Verif Require Import Lib Signal_Model Signal_Spec.


(** ** Masks *)
Lemma shl_bits nb i m : arch nb -> 0 <= i < nb -> (i < 31 \/ nb = 32) -> shl_int i = Some m ->
  wrap nb m = 2 ^ i.
Proof.
  intros A Hi H E. unfold shl_int in E. destruct (i <? 31) eqn:L.
  - apply Z.ltb_lt in L. injection E as <-. unfold wrap. apply Z.mod_small. split; [apply Z.pow_nonneg; lia|].
    apply Z.pow_lt_mono_r; destruct A; lia.
  - apply Z.ltb_ge in L. destruct (i =? 31) eqn:Q; [|discriminate]. apply Z.eqb_eq in Q. subst i. injection E as <-.
    destruct H as [?| ->]; [lia|]. reflexivity.
Qed.
Lemma shl_some i : 0 <= i < 32 -> exists m, shl_int i = Some m.
Proof.
  intros H. unfold shl_int. destruct (i <? 31) eqn:L; [eauto|]. apply Z.ltb_ge in L.
  replace (i =? 31) with true by (symmetry; apply Z.eqb_eq; lia). eauto.
Qed.

Lemma pow_bit i j : 0 <= i -> Z.testbit (2 ^ i) j = (j =? i).
Proof.
  intros H. destruct (j =? i) eqn:E.
  - apply Z.eqb_eq in E. subst j. apply Z.pow2_bits_true, H.
  - apply Z.eqb_neq in E. apply Z.pow2_bits_false. lia.
Qed.

Lemma not_shl_bits i m : 0 <= i -> not_shl_u i = Some m -> forall j, 0 <= j -> Z.testbit m j = (j <? 32) && negb (j =? i).
Proof.
  intros Hi E j Hj. unfold not_shl_u in E. destruct (i <? 32) eqn:L; [|discriminate]. apply Z.ltb_lt in L. injection E as <-.
  replace (2 ^ 32 - 1) with (Z.ones 32) by reflexivity. rewrite Z.sub_nocarry_ldiff.
  - rewrite Z.ldiff_spec, pow_bit by lia. apply (f_equal (fun b => b && _)). destruct (j <? 32) eqn:Lj.
    + apply Z.ltb_lt in Lj. change (Z.testbit (Z.ones 32) j = true). apply Z.ones_spec_low. lia.
    + apply Z.ltb_ge in Lj. change (Z.testbit (Z.ones 32) j = false). apply Z.ones_spec_high. lia.
  - apply Z.bits_inj'. intros n Hn. rewrite Z.ldiff_spec, pow_bit, Z.bits_0 by lia. destruct (n =? i) eqn:Q; [|reflexivity].
    apply Z.eqb_eq in Q. subst n. change (true && negb (Z.testbit (Z.ones 32) i) = false). rewrite Z.ones_spec_low by lia. reflexivity.
Qed.

Lemma arch_words nb : arch nb -> words nb = (if nb =? 32 then 2 else 1) /\ words nb * nb = 64.
Proof. intros [->| ->]; split; reflexivity. Qed.

Lemma slot_ok nb n : arch nb -> 1 <= n <= 64 -> ((n - 1) / nb >=? words nb) = false /\ 0 <= (n - 1) / nb < words nb /\ 0 <= (n - 1) mod nb < nb.
Proof.
  intros A Hn. destruct (arch_words nb A) as [_ W]. assert (0 < nb) by (destruct A; lia).
  assert (0 <= (n - 1) / nb < words nb).
  { split; [apply Z.div_pos; lia|]. apply Z.div_lt_upper_bound; lia. }
  split; [|split]; [rewrite Z.geb_leb; apply Z.leb_gt; lia|lia|apply Z.mod_pos_bound; lia].
Qed.

Lemma same_sig nb n m : 0 < nb -> ((m - 1) / nb = (n - 1) / nb /\ (m - 1) mod nb = (n - 1) mod nb) <-> m = n.
Proof.
  intros H. split; [|intros ->; auto]. intros [E1 E2]. pose proof (Z.div_mod (m - 1) nb ltac:(lia)). pose proof (Z.div_mod (n - 1) nb ltac:(lia)).
  rewrite E1, E2 in *. lia.
Qed.


Lemma easy_index nb n : arch nb -> easy nb n -> 1 <= n <= 64 ->
  0 <= (n - 1) mod nb < 32 /\ ((n - 1) mod nb < 31 \/ nb = 32).
Proof.
  intros A [->|[-> H]] Hn; [split; [apply Z.mod_pos_bound; lia|auto]|]. rewrite Z.mod_small by lia. lia.
Qed.

Lemma add_exact nb s n : arch nb -> easy nb n -> 1 <= n <= 64 ->
  exists s', add_sig nb s n = Some s' /\ forall m, 1 <= m <= 64 -> member nb s' m = (m =? n) || member nb s m.
Proof.
  intros A E Hn. destruct (easy_index nb n A E Hn) as [I1 I2]. destruct (slot_ok nb n A Hn) as (S1 & S2 & S3).
  destruct (shl_some _ I1) as [k Ek]. unfold add_sig. rewrite S1, Ek. eexists. split; [reflexivity|]. intros m Hm.
  rewrite (shl_bits nb _ k A S3 I2 Ek). unfold member. assert (0 < nb) by (destruct A; lia). pose proof (same_sig nb n m H) as Q.
  unfold fupd. destruct ((m - 1) / nb =? (n - 1) / nb) eqn:D.
  - apply Z.eqb_eq in D. rewrite Z.lor_spec, pow_bit by lia. rewrite D. rewrite orb_comm. f_equal.
    destruct (m =? n) eqn:M; [apply Z.eqb_eq in M; subst; apply Z.eqb_refl|]. apply Z.eqb_neq in M. apply Z.eqb_neq. intros X. apply M, Q. auto.
  - apply Z.eqb_neq in D. replace (m =? n) with false; [reflexivity|]. symmetry. apply Z.eqb_neq. intros ->. congruence.
Qed.

Lemma test_exact nb s n : arch nb -> easy nb n -> 1 <= n <= 64 -> is_sig_set nb s n = Some (member nb s n).
Proof.
  intros A E Hn. destruct (easy_index nb n A E Hn) as [I1 I2]. destruct (slot_ok nb n A Hn) as (S1 & S2 & S3).
  destruct (shl_some _ I1) as [k Ek]. unfold is_sig_set. rewrite S1, Ek. rewrite (shl_bits nb _ k A S3 I2 Ek). f_equal. unfold member.
  set (w := s ((n - 1) / nb)). set (i := (n - 1) mod nb) in *.
  destruct (Z.testbit w i) eqn:T.
  - apply negb_true_iff, Z.eqb_neq. intros Q. apply (f_equal (fun x => Z.testbit x i)) in Q.
    rewrite Z.land_spec, pow_bit, T, Z.eqb_refl, Z.bits_0 in Q by lia. discriminate.
  - apply negb_false_iff, Z.eqb_eq. apply Z.bits_inj'. intros j Hj. rewrite Z.land_spec, pow_bit, Z.bits_0 by lia.
    destruct (j =? i) eqn:Q; [apply Z.eqb_eq in Q; subst j; rewrite T; reflexivity|apply andb_false_r].
Qed.

Lemma del_bits nb s n s' : arch nb -> 1 <= n <= 64 -> del_sig nb s n = Some s' ->
  forall m, 1 <= m <= 64 -> member nb s' m = member nb s m &&
    negb (((m - 1) / nb =? (n - 1) / nb) && (((m - 1) mod nb =? (n - 1) mod nb) || (32 <=? (m - 1) mod nb))).
Proof.
  intros A Hn E m Hm. destruct (slot_ok nb n A Hn) as (S1 & S2 & S3). destruct (slot_ok nb m A Hm) as (_ & _ & S4).
  unfold del_sig in E. rewrite S1 in E. destruct (not_shl_u ((n - 1) mod nb)) as [k|] eqn:Ek; [|discriminate].
  injection E as <-. unfold member, fupd. destruct ((m - 1) / nb =? (n - 1) / nb) eqn:D; [|rewrite andb_true_r; reflexivity].
  apply Z.eqb_eq in D. rewrite D, Z.land_spec. f_equal. rewrite (not_shl_bits _ _ (proj1 S3) Ek _ (proj1 S4)).
  cbn [andb]. rewrite negb_orb. rewrite andb_comm. f_equal. destruct ((m - 1) mod nb <? 32) eqn:L; symmetry.
  - apply Z.ltb_lt in L. apply negb_true_iff, Z.leb_gt, L.
  - apply Z.ltb_ge in L. apply negb_false_iff, Z.leb_le, L.
Qed.
Lemma del_some nb s n : arch nb -> 1 <= n <= 64 -> (nb = 32 \/ n <= 32) -> exists s', del_sig nb s n = Some s'.
Proof.
  intros A Hn H. destruct (slot_ok nb n A Hn) as (S1 & S2 & S3). unfold del_sig. rewrite S1. unfold not_shl_u.
  assert (L : (n - 1) mod nb < 32).
  { destruct H as [->|H]; [lia|]. destruct A as [->| ->]; [lia|]. rewrite Z.mod_small by lia. lia. }
  apply Z.ltb_lt in L. rewrite L. eauto.
Qed.

Lemma del_exact s n : 1 <= n <= 64 ->
  exists s', del_sig 32 s n = Some s' /\ forall m, 1 <= m <= 64 -> member 32 s' m = negb (m =? n) && member 32 s m.
Proof.
  intros Hn. assert (A : arch 32) by (left; reflexivity). destruct (del_some 32 s n A Hn ltac:(auto)) as [s' E]. exists s'. split; [exact E|].
  intros m Hm. rewrite (del_bits 32 s n s' A Hn E m Hm). rewrite andb_comm. f_equal. f_equal.
  destruct (slot_ok 32 m A Hm) as (_ & _ & S4). replace (32 <=? (m - 1) mod 32) with false by (symmetry; apply Z.leb_gt; lia). rewrite orb_false_r.
  pose proof (same_sig 32 n m ltac:(lia)) as Q. destruct (m =? n) eqn:M.
  - apply Z.eqb_eq in M. subst m. rewrite !Z.eqb_refl. reflexivity.
  - apply Z.eqb_neq in M. destruct ((m - 1) / 32 =? (n - 1) / 32) eqn:D; [|reflexivity]. apply Z.eqb_eq in D. cbn [andb].
    apply Z.eqb_neq. intros X. apply M, Q. auto.
Qed.
Lemma del_64 s n : 1 <= n <= 32 ->
  exists s', del_sig 64 s n = Some s' /\ forall m, 1 <= m <= 64 -> member 64 s' m = negb (m =? n) && (m <=? 32) && member 64 s m.
Proof.
  intros Hn. assert (A : arch 64) by (right; reflexivity). destruct (del_some 64 s n A ltac:(lia) ltac:(lia)) as [s' E]. exists s'. split; [exact E|].
  intros m Hm. rewrite (del_bits 64 s n s' A ltac:(lia) E m Hm). rewrite andb_comm. f_equal.
  rewrite (Z.div_small (m - 1) 64), (Z.div_small (n - 1) 64), (Z.mod_small (m - 1) 64), (Z.mod_small (n - 1) 64) by lia. cbn [Z.eqb andb].
  rewrite negb_orb. f_equal; [f_equal|]; lia.
Qed.

(** ** SIGKILL and SIGSTOP *)
Lemma del_less nb s n s' m : arch nb -> 1 <= n <= 64 -> 1 <= m <= 64 -> del_sig nb s n = Some s' -> member nb s m = false -> member nb s' m = false.
Proof. intros A Hn Hm E H. rewrite (del_bits nb s n s' A Hn E m Hm), H. reflexivity. Qed.
Lemma del_self nb s n s' : arch nb -> 1 <= n <= 64 -> del_sig nb s n = Some s' -> member nb s' n = false.
Proof. intros A Hn E. rewrite (del_bits nb s n s' A Hn E n Hn), !Z.eqb_refl. apply andb_false_r. Qed.

Definition clear (nb : Z) (m : set) : Prop := member nb m SIGKILL = false /\ member nb m SIGSTOP = false.
Definition safe (nb : Z) (t : task) : Prop := clear nb (mask t) /\ clear nb (omask t) /\ hnd t SIGKILL = SIG_DFL /\ hnd t SIGSTOP = SIG_DFL.

Lemma mask_loop_rc nb us h m m' rc : arch nb -> mask_loop (Z.to_nat (words nb)) 0 us h m = (m', rc) -> rc <> 0 ->
  (nb = 64 \/ us 0 = None \/ forall i, 0 <= i < words nb -> us i <> None) -> m' = m.
Proof.
  intros A E N H. destruct A as [->| ->].
  - change (Z.to_nat (words 32)) with 2%nat in E. cbn [mask_loop] in E. destruct (us 0) as [w|] eqn:U0; [|congruence].
    destruct H as [?|[?|H]]; [lia|congruence|]. destruct (us (0 + 1)) as [w1|] eqn:U1; [|exfalso; eapply (H (0 + 1)); [change (words 32) with 2; lia|exact U1]].
    destruct h; congruence.
  - change (Z.to_nat (words 64)) with 1%nat in E. cbn [mask_loop] in E. destruct (us 0) as [w|]; [|congruence]. destruct h; congruence.
Qed.

Lemma safe_process nb t b f t' r : arch nb -> safe nb t -> process_signals nb t b f = Ok t' r -> safe nb t'.
Proof.
  intros A ((M1 & M2) & O & H1 & H2) E. unfold process_signals in E.
  set (t1 := set_mask t _) in E.
  assert (S1 : safe nb t1).
  { unfold safe, clear, member in *. cbn [mask omask hnd t1 set_mask]. rewrite !Z.ldiff_spec, M1, M2. auto. }
  destruct (is_sig_set nb (pend t1) SIGKILL) as [[|]|]; [inversion E; subst; exact S1| |discriminate].
  destruct ((nested t1 >? 0) && negb b); [inversion E; subst; exact S1|].
  destruct (get_first_pending_sig nb t1) as [sig|]; [|discriminate]. destruct (sig <? 0); [inversion E; subst; exact S1|].
  destruct (hnd t1 sig =? SIG_DFL); [inversion E; subst; exact S1|].
  destruct (del_sig nb (pend t1) sig); [|discriminate]. destruct (del_sig nb (fpend t1) sig); [|discriminate].
  destruct f; inversion E; subst; exact S1.
Qed.

Lemma safe_step nb t o t' r : arch nb -> safe nb t -> (nb = 64 \/ whole_mask nb o) -> step nb t o = Ok t' r -> safe nb t'.
Proof.
  intros A S W E. pose proof S as ((M1 & M2) & (O1 & O2) & H1 & H2). assert (K : 1 <= SIGKILL <= 64) by (unfold SIGKILL; lia).
  assert (T : 1 <= SIGSTOP <= 64) by (unfold SIGSTOP; lia). destruct o; cbn [step] in E.
  - unfold sys_rt_sigaction in E. destruct ((signum <? 1) || (signum >=? NSIG)); [inversion E; subst; exact S|].
    destruct ((signum =? SIGKILL) || (signum =? SIGSTOP)) eqn:Q; [inversion E; subst; exact S|].
    destruct (sigsetsize <? 8); [inversion E; subst; exact S|]. destruct act; try (inversion E; subst; exact S).
    destruct (negb (Z.land flags unsupported =? 0)); inversion E; subst; [exact S|]. unfold safe. cbn. apply orb_false_iff in Q. destruct Q as [Q1 Q2].
    apply Z.eqb_neq in Q1, Q2. rewrite !fupd_other by auto. auto 10.
  - unfold sys_rt_sigprocmask in E. destruct oldfault; [inversion E; subst; exact S|]. destruct us as [us|]; [|inversion E; subst; exact S].
    destruct (mask_loop (Z.to_nat (words nb)) 0 us h (mask t)) as [m rc] eqn:L. destruct (rc =? 0) eqn:R; cbn [negb] in E.
    + destruct (del_sig nb m SIGSTOP) as [m1|] eqn:D1; [|discriminate]. destruct (del_sig nb m1 SIGKILL) as [m2|] eqn:D2; [|discriminate].
      inversion E; subst. unfold safe, clear. cbn. split; [|auto]. split; [eapply del_self; eauto|]. eapply del_less; [exact A|exact K|exact T|exact D2|]. eapply del_self; eauto.
    + apply Z.eqb_neq in R. inversion E; subst. rewrite (mask_loop_rc nb us h (mask t) m rc A L R) by (cbn in W; tauto). exact S.
  - unfold sys_rt_sigsuspend in E. destruct (nested t >? 0); [inversion E; subst; exact S|]. destruct (susp t); [discriminate|].
    destruct (sigsetsize <? 8); [inversion E; subst; exact S|]. destruct us as [m|]; [|inversion E; subst; unfold safe, clear; cbn; auto 10].
    destruct (del_sig nb m SIGKILL) as [m1|] eqn:D1; [|discriminate]. destruct (del_sig nb m1 SIGSTOP) as [m2|] eqn:D2; [|discriminate].
    inversion E; subst. unfold safe, clear. cbn. split; [|auto]. split; [|eapply del_self; eauto]. eapply del_less; [exact A|exact T|exact K|exact D2|]. eapply del_self; eauto.
  - unfold sys_rt_sigreturn in E. destruct (nested t >? 0); [|inversion E; subst; exact S].
    destruct (process_signals nb t true fault) as [| |t1 r1] eqn:P; try discriminate. apply safe_process in P; [|assumption|assumption].
    destruct r1; inversion E; subst; try exact P. destruct (susp t1); [|exact P]. destruct P as (P1 & P2 & P3). unfold safe. cbn. auto.
  - unfold execve in E. inversion E; subst. unfold safe. cbn [mask omask hnd]. rewrite H1, H2. unfold clear. cbn [Z.eqb orb SIG_DFL]. auto 10.
  - unfold do_send_signal, queue_sig in E.
    repeat match type of E with context [match ?x with _ => _ end] => destruct x end; try discriminate; inversion E; subst; exact S.
  - eapply safe_process; eauto.
Qed.

Lemma safe_reach nb (ok : op -> Prop) t : arch nb -> (forall o, ok o -> nb = 64 \/ whole_mask nb o) -> reach nb ok t -> safe nb t.
Proof.
  intros A H. induction 1 as [|t o t' r R IH P K E]; [|eapply safe_step; eauto].
  unfold safe, clear, member, task_init. cbn [mask omask hnd]. rewrite !Z.bits_0. auto.
Qed.

Lemma protected_64 t : reach 64 (fun _ => True) t -> protected 64 t.
Proof. intros R. apply safe_reach in R; [|right; reflexivity|auto]. destruct R as ((? & ?) & _ & ? & ?). unfold protected. auto. Qed.
Lemma protected_32 t : reach 32 (whole_mask 32) t -> protected 32 t.
Proof. intros R. apply safe_reach in R; [|left; reflexivity|auto]. destruct R as ((? & ?) & _ & ? & ?). unfold protected. auto. Qed.

(** ** Words *)
Lemma word_bits nb w : 0 <= nb -> word nb w <-> (0 <= w /\ forall i, nb <= i -> Z.testbit w i = false).
Proof.
  intros Hn. unfold word. split.
  - intros H. split; [lia|]. intros i Hi. destruct (Z.eq_dec w 0) as [->|N]; [apply Z.bits_0|]. apply Z.bits_above_log2; [lia|].
    apply Z.lt_le_trans with nb; [|lia]. apply Z.log2_lt_pow2; lia.
  - intros [H1 H2]. split; [lia|]. destruct (Z.eq_dec w 0) as [->|N]; [apply Z.pow_pos_nonneg; lia|].
    apply Z.log2_lt_pow2; [lia|]. destruct (Z_lt_le_dec (Z.log2 w) nb); [assumption|]. exfalso.
    pose proof (Z.bit_log2 w ltac:(lia)). rewrite H2 in H by lia. discriminate.
Qed.

Definition words_ok (nb : Z) (t : task) : Prop := forall i, word nb (pend t i) /\ word nb (fpend t i) /\ word nb (mask t i) /\ word nb (omask t i).

Lemma word_lor nb a b : 0 <= nb -> word nb a -> word nb b -> word nb (Z.lor a b).
Proof.
  intros H A B. apply word_bits in A, B; try assumption. apply word_bits; [assumption|]. destruct A, B. split; [apply Z.lor_nonneg; auto|].
  intros i Hi. rewrite Z.lor_spec, H1, H3 by assumption. reflexivity.
Qed.
Lemma word_sub nb a b : 0 <= nb -> word nb a -> 0 <= b -> (forall i, Z.testbit b i = true -> Z.testbit a i = true) -> word nb b.
Proof.
  intros H A B I. apply word_bits in A; [|assumption]. apply word_bits; [assumption|]. split; [assumption|]. intros i Hi.
  destruct (Z.testbit b i) eqn:T; [|reflexivity]. apply I in T. destruct A as [_ A]. rewrite A in T by assumption. discriminate.
Qed.
Lemma word_land nb a b : 0 <= nb -> word nb a -> word nb (Z.land a b).
Proof.
  intros H A. apply (word_sub nb a); auto; [apply Z.land_nonneg; left; unfold word in A; lia|].
  intros i. rewrite Z.land_spec. destruct (Z.testbit a i); auto.
Qed.
Lemma word_ldiff nb a b : 0 <= nb -> word nb a -> word nb (Z.ldiff a b).
Proof.
  intros H A. apply (word_sub nb a); auto; [apply Z.ldiff_nonneg; left; unfold word in A; lia|].
  intros i. rewrite Z.ldiff_spec. destruct (Z.testbit a i); auto.
Qed.
Lemma word_add nb s n s' : 0 < nb -> (forall i, word nb (s i)) -> add_sig nb s n = Some s' -> forall i, word nb (s' i).
Proof.
  intros H W E i. unfold add_sig in E. destruct ((n - 1) / nb >=? words nb); [inversion E; subst; auto|]. destruct (shl_int ((n - 1) mod nb)); [|discriminate].
  inversion E; subst. unfold fupd. destruct (i =? (n - 1) / nb); [|auto]. apply word_lor; [lia|auto|]. unfold word, wrap. apply Z.mod_pos_bound, Z.pow_pos_nonneg; lia.
Qed.
Lemma word_del nb s n s' : 0 < nb -> (forall i, word nb (s i)) -> del_sig nb s n = Some s' -> forall i, word nb (s' i).
Proof.
  intros H W E i. unfold del_sig in E. destruct ((n - 1) / nb >=? words nb); [inversion E; subst; auto|]. destruct (not_shl_u ((n - 1) mod nb)); [|discriminate].
  inversion E; subst. unfold fupd. destruct (i =? (n - 1) / nb); [|auto]. apply word_land; [lia|auto].
Qed.

(** ** Selection *)
Lemma first_bit_spec : forall fuel i v, (exists j, i <= j < i + Z.of_nat fuel /\ Z.testbit v j = true) ->
  let r := first_bit fuel i v in i <= r < i + Z.of_nat fuel /\ Z.testbit v r = true /\ forall j, i <= j < r -> Z.testbit v j = false.
Proof.
  induction fuel as [|f IH]; intros i v (j & Hj & T); [lia|]. cbn [first_bit]. destruct (Z.testbit v i) eqn:E.
  - cbv zeta. split; [lia|]. split; [exact E|]. intros. lia.
  - destruct (IH (i + 1) v) as (H1 & H2 & H3).
    + exists j. split; [|exact T]. destruct (Z.eq_dec j i) as [->|N]; [congruence|lia].
    + cbv zeta in *. split; [lia|]. split; [exact H2|]. intros k Hk. destruct (Z.eq_dec k i) as [->|N]; [exact E|]. apply H3. lia.
Qed.
Lemma first_bit_word nb v : 0 < nb -> word nb v -> v <> 0 ->
  let r := first_bit (Z.to_nat nb) 0 v in 0 <= r < nb /\ Z.testbit v r = true /\ forall j, 0 <= j < r -> Z.testbit v j = false.
Proof.
  intros Hn W N. pose proof (first_bit_spec (Z.to_nat nb) 0 v) as Q. rewrite Z2Nat.id, Z.add_0_l in Q by lia. apply Q.
  exists (Z.log2 v). unfold word in W. split; [split; [apply Z.log2_nonneg|apply Z.log2_lt_pow2; lia]|apply Z.bit_log2; lia].
Qed.


Lemma first_pending_spec nb t : arch nb -> (forall i, word nb (pend t i)) -> easy_pending nb t ->
  forall n i, 0 <= i -> i + Z.of_nat n = words nb ->
  exists sig, first_pending nb t n i = Some sig /\
    (sig = -1 \/ i * nb < sig <= 64 /\ member nb (pend t) sig = true /\ member nb (mask t) sig = false) /\
    ((exists m, i * nb < m <= 64 /\ member nb (pend t) m = true) ->
     (forall m, 1 <= m <= 64 -> member nb (pend t) m = true -> member nb (mask t) m = false) ->
     sig <> -1 /\ forall m, i * nb < m <= 64 -> member nb (pend t) m = true -> sig <= m).
Proof.
  intros A W Ez. assert (Hn : 0 < nb) by (destruct A; lia). destruct (arch_words nb A) as [_ W64].
  assert (DM : forall i b, 0 <= b < nb -> (i * nb + b + 1 - 1) / nb = i /\ (i * nb + b + 1 - 1) mod nb = b).
  { intros i b Hb. replace (i * nb + b + 1 - 1) with (b + i * nb) by lia. rewrite Z.div_add, Z.mod_add, Z.div_small, Z.mod_small by lia. lia. }
  induction n as [|n IH]; intros i Hi Hs.
  - exists (-1). split; [reflexivity|]. split; [auto|]. intros (m & Hm & _). assert (i * nb = 64) by (rewrite <- W64; f_equal; lia). lia.
  - cbn [first_pending]. assert (Hw : (i + 1) * nb <= 64) by (rewrite <- W64; apply Z.mul_le_mono_nonneg_r; lia).
    destruct (IH (i + 1) ltac:(lia) ltac:(lia)) as (sig & E & S1 & S2).
    assert (SK : forall m, (i + 1) * nb < m -> i * nb < m) by (intros; lia).
    destruct (pend t i =? 0) eqn:P0.
    + apply Z.eqb_eq in P0. rewrite E. exists sig. split; [reflexivity|].
      assert (NB : forall m, i * nb < m <= 64 -> member nb (pend t) m = true -> (i + 1) * nb < m).
      { intros m Hm Mm. destruct (Z_lt_le_dec ((i + 1) * nb) m); [assumption|]. exfalso. unfold member in Mm.
        destruct (DM i (m - 1 - i * nb) ltac:(lia)) as [D1 D2]. replace (i * nb + (m - 1 - i * nb) + 1 - 1) with (m - 1) in * by lia.
        rewrite D1, P0, Z.bits_0 in Mm. discriminate. }
      split; [destruct S1 as [?|(? & ? & ?)]; [auto|right; split; [lia|auto]]|].
      intros (m & Hm & Mm) NM. destruct S2 as [S3 S4]; [exists m; split; [split; [apply NB; assumption|lia]|exact Mm]|exact NM|].
      split; [exact S3|]. intros m' Hm' Mm'. apply S4; [split; [apply NB; assumption|lia]|exact Mm'].
    + apply Z.eqb_neq in P0. destruct (first_bit_word nb (pend t i) Hn (W i) P0) as (B1 & B2 & B3).
      set (b := first_bit (Z.to_nat nb) 0 (pend t i)) in *. destruct (DM i b B1) as [D1 D2].
      assert (Mb : member nb (pend t) (i * nb + b + 1) = true) by (unfold member; rewrite D1, D2; exact B2).
      assert (Rb : 1 <= i * nb + b + 1 <= 64) by lia.
      rewrite test_exact by (try assumption; apply Ez; assumption).
      assert (LO : forall m, i * nb < m <= 64 -> member nb (pend t) m = true -> i * nb + b + 1 <= m).
      { intros m Hm Mm. destruct (Z_le_gt_dec (i * nb + b + 1) m); [assumption|]. exfalso. unfold member in Mm.
        destruct (DM i (m - 1 - i * nb) ltac:(lia)) as [D3 D4]. replace (i * nb + (m - 1 - i * nb) + 1 - 1) with (m - 1) in * by lia.
        rewrite D3, D4, B3 in Mm by lia. discriminate. }
      destruct (member nb (mask t) (i * nb + b + 1)) eqn:Mk.
      * exists sig. split; [exact E|]. split; [destruct S1 as [?|(? & ? & ?)]; [auto|right; split; [lia|auto]]|].
        intros _ NM. rewrite (NM _ Rb Mb) in Mk. discriminate.
      * exists (i * nb + b + 1). split; [reflexivity|]. split; [right; split; [lia|auto]|]. intros _ _. split; [lia|exact LO].
Qed.

Lemma selects nb t : arch nb -> (forall i, word nb (pend t i)) -> easy_pending nb t ->
  exists sig, get_first_pending_sig nb t = Some sig /\
    (sig = -1 \/ 1 <= sig <= 64 /\ member nb (pend t) sig = true /\ member nb (mask t) sig = false) /\
    ((exists m, 1 <= m <= 64 /\ member nb (pend t) m = true) ->
     (forall m, 1 <= m <= 64 -> member nb (pend t) m = true -> member nb (mask t) m = false) ->
     sig <> -1 /\ forall m, 1 <= m <= 64 -> member nb (pend t) m = true -> sig <= m).
Proof.
  intros A W Ez. destruct (arch_words nb A) as [W1 _].
  destruct (first_pending_spec nb t A W Ez (Z.to_nat (words nb)) 0 ltac:(lia)) as (sig & E & S1 & S2).
  { rewrite Z2Nat.id; [lia|]. rewrite W1. destruct (nb =? 32); lia. }
  exists sig. split; [exact E|]. rewrite Z.mul_0_l in *. split.
  - destruct S1 as [?|(? & ? & ?)]; [auto|right; split; [lia|auto]].
  - intros (m & Hm & Mm) NM. destruct S2 as [S3 S4]; [exists m; split; [lia|exact Mm]|exact NM|]. split; [exact S3|].
    intros m' Hm' Mm'. apply S4; [lia|exact Mm'].
Qed.

Lemma member_ldiff nb (a b : set) n : member nb (fun i => Z.ldiff (a i) (b i)) n = member nb a n && negb (member nb b n).
Proof. unfold member. rewrite Z.ldiff_spec. reflexivity. Qed.


Lemma delivery nb t inret fault : arch nb -> (forall i, word nb (pend t i)) -> easy_pending nb t ->
  exists t' r, process_signals nb t inret fault = Ok t' r /\
    (member nb (pend t) SIGKILL = true -> r = Kill SIGKILL) /\
    (member nb (pend t) SIGKILL = false ->
     match r with
     | NoSig => (0 < nested t /\ inret = false) \/ get_first_pending_sig nb (set_mask t (fun i => Z.ldiff (mask t i) (fpend t i))) = Some (-1)
     | Kill sig => (exists n, 1 <= n <= 64 /\ member nb (pend t) n = true /\ blocked nb t n = false /\
                      if hnd t n =? SIG_DFL then sig = n else fault = true /\ sig = SIGKILL)
     | Handle a sig => 1 <= sig <= 64 /\ member nb (pend t) sig = true /\ blocked nb t sig = false /\
                      a = hnd t sig /\ a <> SIG_DFL /\ member nb (pend t') sig = false /\ (inret = true \/ nested t <= 0)
     | _ => False
     end).
Proof.
  intros A W Ez. unfold process_signals. set (t1 := set_mask t _).
  assert (Ez1 : easy_pending nb t1) by exact Ez. assert (W1 : forall i, word nb (pend t1 i)) by exact W.
  rewrite test_exact; [|exact A|destruct A as [->| ->]; [left; reflexivity|right; unfold SIGKILL; lia]|unfold SIGKILL; lia].
  change (pend t1) with (pend t). change (nested t1) with (nested t). change (hnd t1) with (hnd t). change (fpend t1) with (fpend t).
  destruct (member nb (pend t) SIGKILL) eqn:K; [exists t1, (Kill SIGKILL); split; [reflexivity|]; split; [auto|discriminate]|].
  destruct ((nested t >? 0) && negb inret) eqn:N.
  { exists t1, NoSig. split; [reflexivity|]. split; [discriminate|]. intros _. left. destruct inret; lia. }
  destruct (selects nb t1 A W1 Ez1) as (sig & E & S1 & _). rewrite E.
  destruct S1 as [->|(R & Mp & Mm)].
  { exists t1, NoSig. split; [reflexivity|]. split; [discriminate|]. auto. }
  replace (sig <? 0) with false by lia.
  assert (Bl : blocked nb t sig = false) by (unfold t1 in Mm; cbn [mask set_mask] in Mm; rewrite member_ldiff in Mm; exact Mm).
  assert (Hr : inret = true \/ nested t <= 0) by (destruct inret; lia).
  destruct (hnd t sig =? SIG_DFL) eqn:HD.
  { exists t1, (Kill sig). split; [reflexivity|]. split; [discriminate|]. intros _. exists sig. rewrite HD. auto. }
  assert (Es : easy nb sig) by (apply Ez; assumption).
  assert (Dl : nb = 32 \/ sig <= 32) by (destruct Es as [?|[_ ?]]; [auto|right; lia]).
  destruct (del_some nb (pend t) sig A R Dl) as [p Ep]. destruct (del_some nb (fpend t) sig A R Dl) as [q Eq]. rewrite Ep, Eq.
  destruct fault.
  - eexists. exists (Kill SIGKILL). split; [reflexivity|]. split; [discriminate|]. intros _. exists sig. rewrite HD. auto.
  - eexists. exists (Handle (hnd t sig) sig). split; [reflexivity|]. split; [discriminate|]. intros _. apply Z.eqb_neq in HD.
    repeat (split; [first [assumption|reflexivity|lia]|]). split; [|exact Hr]. cbn. eapply del_self; eauto.
Qed.

Lemma pending_iff nb t : arch nb -> (forall i, word nb (pend t i)) -> nested t <= 0 ->
  (pending_signals nb t = true <-> exists n, 1 <= n <= 64 /\ member nb (pend t) n = true /\ member nb (mask t) n = false).
Proof.
  intros A W N. unfold pending_signals. replace (nested t >? 0) with false by lia. assert (Hn : 0 < nb) by (destruct A; lia).
  assert (DM : forall i b, 0 <= b < nb -> (i * nb + b + 1 - 1) / nb = i /\ (i * nb + b + 1 - 1) mod nb = b).
  { intros i b Hb. replace (i * nb + b + 1 - 1) with (b + i * nb) by lia. rewrite Z.div_add, Z.mod_add, Z.div_small, Z.mod_small by lia. lia. }
  assert (K : forall i, negb (Z.ldiff (pend t i) (mask t i) =? 0) = true <-> exists b, 0 <= b < nb /\ Z.testbit (pend t i) b = true /\ Z.testbit (mask t i) b = false).
  { intros i. rewrite negb_true_iff, Z.eqb_neq. split.
    - intros H. assert (Wl := word_ldiff nb _ (mask t i) ltac:(lia) (W i)). destruct (first_bit_word nb _ Hn Wl H) as (B1 & B2 & _).
      eexists. split; [exact B1|]. rewrite Z.ldiff_spec in B2. apply andb_true_iff in B2. destruct B2 as [B2 B3]. apply negb_true_iff in B3. auto.
    - intros (b & Hb & T1 & T2) E. apply (f_equal (fun x => Z.testbit x b)) in E. rewrite Z.ldiff_spec, T1, T2, Z.bits_0 in E. discriminate. }
  rewrite orb_true_iff, andb_true_iff, !K. destruct (arch_words nb A) as [_ W64]. split.
  - intros [(b & Hb & T1 & T2)|[Q (b & Hb & T1 & T2)]].
    + exists (0 * nb + b + 1). destruct (DM 0 b Hb) as [D1 D2]. unfold member. rewrite D1, D2. split; [destruct A; lia|auto].
    + exists (1 * nb + b + 1). destruct (DM 1 b Hb) as [D1 D2]. unfold member. rewrite D1, D2. apply Z.eqb_eq in Q. split; [destruct A; subst; [lia|discriminate Q]|auto].
  - intros (n & R & T1 & T2). unfold member in *. destruct (slot_ok nb n A R) as (_ & S2 & S3).
    assert ((n - 1) / nb = 0 \/ words nb = 2 /\ (n - 1) / nb = 1).
    { destruct (arch_words nb A) as [W2 _]. rewrite W2 in *. destruct (nb =? 32); lia. }
    destruct H as [H|[H1 H]]; rewrite H in *; [left; eauto|]. right. split; [apply Z.eqb_eq; exact H1|eauto].
Qed.

(** ** Histories keep words *)
Lemma mask_loop_words nb us h : forall n i m, 0 <= nb -> (forall j, word nb (m j)) -> (forall j w, us j = Some w -> word nb w) ->
  forall j, word nb (fst (mask_loop n i us h m) j).
Proof.
  induction n as [|n IH]; intros i m Hn Wm Wu j; [apply Wm|]. cbn [mask_loop]. destruct (us i) as [w|] eqn:U; [|apply Wm].
  destruct h; try (apply Wm); apply IH; auto; intros k; unfold fupd; destruct (k =? i); auto.
  - apply word_lor; eauto.
  - apply word_ldiff; eauto.
  - eauto.
Qed.

Lemma words_process nb t b f t' r : 0 < nb -> words_ok nb t -> process_signals nb t b f = Ok t' r -> words_ok nb t'.
Proof.
  intros H W E. unfold process_signals in E. set (t1 := set_mask t _) in E.
  assert (S1 : words_ok nb t1).
  { intros i. destruct (W i) as (W1 & W2 & W3 & W4). cbn. split; [exact W1|]. split; [exact W2|]. split; [apply word_ldiff; [lia|exact W3]|exact W4]. }
  destruct (is_sig_set nb (pend t1) SIGKILL) as [[|]|]; [inversion E; subst; exact S1| |discriminate].
  destruct ((nested t1 >? 0) && negb b); [inversion E; subst; exact S1|].
  destruct (get_first_pending_sig nb t1) as [sig|]; [|discriminate]. destruct (sig <? 0); [inversion E; subst; exact S1|].
  destruct (hnd t1 sig =? SIG_DFL); [inversion E; subst; exact S1|].
  destruct (del_sig nb (pend t1) sig) as [p|] eqn:E1; [|discriminate]. destruct (del_sig nb (fpend t1) sig) as [q|] eqn:E2; [|discriminate].
  assert (Wp := word_del nb _ _ _ H (fun i => proj1 (S1 i)) E1). assert (Wq := word_del nb _ _ _ H (fun i => proj1 (proj2 (S1 i))) E2).
  destruct f; inversion E; subst; intros i; cbn; destruct (S1 i) as (_ & _ & W3 & W4); auto.
Qed.

Lemma words_reach nb ok t : arch nb -> reach nb ok t -> words_ok nb t.
Proof.
  intros A. assert (Hn : 0 < nb) by (destruct A; lia). induction 1 as [|t o t' r R IH P K E].
  - intros i. assert (word nb 0) by (split; [lia|apply Z.pow_pos_nonneg; lia]). cbn. auto.
  - destruct o; cbn [step] in E.
    + unfold sys_rt_sigaction in E. repeat match type of E with context [match ?x with _ => _ end] => destruct x end; inversion E; subst; exact IH.
    + unfold sys_rt_sigprocmask in E. destruct oldfault; [inversion E; subst; exact IH|]. destruct us as [us|]; [|inversion E; subst; exact IH].
      assert (Wm := mask_loop_words nb us h (Z.to_nat (words nb)) 0 (mask t) ltac:(lia) (fun i => proj1 (proj2 (proj2 (IH i)))) P).
      destruct (mask_loop (Z.to_nat (words nb)) 0 us h (mask t)) as [m rc]. cbn [fst] in Wm.
      assert (G : forall m2, (forall i, word nb (m2 i)) -> words_ok nb (set_mask t m2)).
      { intros m2 W2 i. destruct (IH i) as (W1 & W3 & _ & W4). cbn. auto. }
      destruct (negb (rc =? 0)); [inversion E; subst; apply G, Wm|].
      destruct (del_sig nb m SIGSTOP) as [m1|] eqn:D1; [|discriminate]. destruct (del_sig nb m1 SIGKILL) as [m2|] eqn:D2; [|discriminate].
      inversion E; subst. apply G. eapply word_del; [exact Hn| |exact D2]. eapply word_del; eauto.
    + unfold sys_rt_sigsuspend in E. destruct (nested t >? 0); [inversion E; subst; exact IH|]. destruct (susp t); [discriminate|].
      destruct (sigsetsize <? 8); [inversion E; subst; exact IH|].
      assert (G : forall m2 b, (forall i, word nb (m2 i)) -> words_ok nb (mk_task (pend t) (fpend t) m2 (mask t) (hnd t) (nested t) b)).
      { intros m2 b W2 i. destruct (IH i) as (W1 & W3 & W5 & W4). cbn. auto. }
      destruct us as [m|]; [|inversion E; subst; apply (G (mask t)); intros i; apply (IH i)].
      destruct (del_sig nb m SIGKILL) as [m1|] eqn:D1; [|discriminate]. destruct (del_sig nb m1 SIGSTOP) as [m2|] eqn:D2; [|discriminate].
      inversion E; subst. apply G. eapply word_del; [exact Hn| |exact D2]. eapply word_del; eauto.
    + unfold sys_rt_sigreturn in E. destruct (nested t >? 0); [|inversion E; subst; exact IH].
      destruct (process_signals nb t true fault) as [| |t1 r1] eqn:Q; try discriminate. apply words_process in Q; [|assumption|assumption].
      destruct r1; inversion E; subst; try exact Q. destruct (susp t1); [|exact Q]. intros i. destruct (Q i) as (W1 & W2 & W3 & W4). cbn. auto.
    + unfold execve in E. inversion E; subst. exact IH.
    + unfold do_send_signal, queue_sig in E.
      assert (G : forall p q, add_sig nb (pend t) signum = Some p -> (if fl_fault then add_sig nb (fpend t) signum else Some (fpend t)) = Some q -> words_ok nb (set_pend t p q)).
      { intros p q E1 E2 i. destruct (IH i) as (W1 & W2 & W3 & W4). cbn.
        assert (Wp := word_add nb _ _ _ Hn (fun i => proj1 (IH i)) E1 i).
        assert (Wq : word nb (q i)) by (destruct fl_fault; [exact (word_add nb _ _ _ Hn (fun i => proj1 (proj2 (IH i))) E2 i)|inversion E2; subst; exact W2]). auto. }
      destruct ((signum <? 0) || (signum >=? NSIG)); [discriminate|]. destruct (signum =? 0); [inversion E; subst; exact IH|].
      destruct (nested t <? 0); [inversion E; subst; exact IH|].
      set (hh := if init && (hnd t signum =? SIG_DFL) then SIG_IGN else hnd t signum) in E. cbv zeta in E.
      destruct (hh =? SIG_IGN); [inversion E; subst; exact IH|].
      assert (QS : match add_sig nb (pend t) signum, (if fl_fault then add_sig nb (fpend t) signum else Some (fpend t)) with
        | Some p, Some f => match is_sig_set nb (mask (set_pend t p f)) signum with None => UB | Some b => Ok (set_pend t p f) (Sent (negb b)) end
        | _, _ => UB end = Ok t' r -> words_ok nb t').
      { intros E'. destruct (add_sig nb (pend t) signum) as [p|] eqn:E1; [|discriminate].
        destruct (if fl_fault then add_sig nb (fpend t) signum else Some (fpend t)) as [q|] eqn:E2; [|discriminate].
        destruct (is_sig_set nb (mask (set_pend t p q)) signum); [|discriminate]. inversion E'; subst. eapply G; eauto. }
      destruct (hh =? SIG_DFL); [|auto]. destruct (default_action signum); try (inversion E; subst; exact IH). auto.
    + eapply words_process; eauto.
Qed.

(** ** Counterexamples *)
Lemma run_reach nb (ok : op -> Prop) : forall l t t' rs, reach nb ok t -> Forall (fun o => op_ok nb o /\ ok o) l -> run nb t l = Some (t', rs) -> reach nb ok t'.
Proof.
  induction l as [|o l IH]; intros t t' rs R F E; cbn [run] in E; [inversion E; subst; exact R|].
  apply Forall_cons_iff in F. destruct F as [[F1 F2] F3]. destruct (step nb t o) as [| |t1 r] eqn:S; try discriminate.
  destruct (run nb t1 l) as [[t2 rs']|] eqn:Q; [|discriminate]. inversion E; subst. eapply IH; [|exact F3|exact Q]. eapply reach_step; eauto.
Qed.

Lemma const_ok nb h w b : word nb w -> 0 < nb -> op_ok nb (Sigprocmask h (const w) b).
Proof.
  intros W Hn i v E. destruct (i =? 0); inversion E; subst; auto. split; [lia|]. apply Z.pow_pos_nonneg; lia.
Qed.

(** i386: the second word of the set is in an unmapped page *)
Definition half (w : Z) : option (Z -> option Z) := Some (fun i => if i =? 0 then Some w else None).
Lemma half_mask : exists t, reach 32 (fun _ => True) t /\ member 32 (mask t) SIGKILL = true /\
  exists t', step 32 t (Send false SIGKILL false) = Ok t' (Sent false).
Proof.
  destruct (run 32 task_init [Sigprocmask SigBlock (half 256) false]) as [[t rs]|] eqn:E; [|vm_compute in E; discriminate].
  exists t. split; [|split].
  - eapply run_reach; [apply reach_init| |exact E]. constructor; [|constructor]. split; [|exact Logic.I].
    intros i w H. destruct (i =? 0); inversion H; subst. split; [lia|reflexivity].
  - vm_compute in E. inversion E; subst. reflexivity.
  - vm_compute in E. inversion E; subst. eexists. vm_compute. reflexivity.
Qed.

Ltac hist := repeat (apply Forall_cons; [split; [|exact Logic.I]|]); try apply Forall_nil;
  first [exact Logic.I | apply const_ok; [split; [lia|reflexivity]|lia] | (cbn; unfold NSIG; lia)
       | (intros i; cbn; destruct (i =? 0); split; lia || reflexivity)].

Lemma hidden_signal : exists t rs, reach 32 (fun _ => True) t /\
  run 32 task_init [Sigaction 2 (AOk 4096 0) 8; Sigaction 3 (AOk 4096 0) 8; Sigprocmask SigBlock (const 2) false;
    Send false 2 false; Send false 3 false; Deliver false] = Some (t, rs) /\
  last rs (Ret 0) = NoSig /\ pending_signals 32 t = true /\ member 32 (pend t) 3 = true /\ member 32 (mask t) 3 = false.
Proof.
  destruct (run 32 task_init [Sigaction 2 (AOk 4096 0) 8; Sigaction 3 (AOk 4096 0) 8; Sigprocmask SigBlock (const 2) false;
    Send false 2 false; Send false 3 false; Deliver false]) as [[t rs]|] eqn:E; [|vm_compute in E; discriminate].
  exists t, rs. split; [|split; [reflexivity|]].
  - eapply run_reach; [apply reach_init| |exact E]. hist.
  - vm_compute in E. inversion E; subst. vm_compute. auto.
Qed.

Lemma double_suspend : exists t, reach 32 (fun _ => True) t /\ step 32 t (Sigsuspend (Some (fun _ => 0)) 8) = AssertFail.
Proof.
  pose (l := [Sigaction 2 (AOk 4096 0) 8; Sigaction 3 (AOk 4096 0) 8; Sigprocmask SigBlock (const 2) false; Send false 2 false;
    Sigsuspend (Some (fun i => if i =? 0 then 2 else 0)) 8; Send false 3 false; Deliver false]).
  destruct (run 32 task_init l) as [[t rs]|] eqn:E; [|vm_compute in E; discriminate].
  exists t. split.
  - eapply run_reach; [apply reach_init| |exact E]. hist.
  - vm_compute in E. inversion E; subst. reflexivity.
Qed.

Lemma ignore_called : exists t, reach 32 (fun _ => True) t /\ exists t', step 32 t (Deliver false) = Ok t' (Handle SIG_IGN 2).
Proof.
  pose (l := [Sigaction 2 (AOk 4096 0) 8; Sigprocmask SigBlock (const 2) false; Send false 2 false;
    Sigaction 2 (AOk SIG_IGN 0) 8; Sigprocmask SigUnblock (const 2) false]).
  destruct (run 32 task_init l) as [[t rs]|] eqn:E; [|vm_compute in E; discriminate].
  exists t. split.
  - eapply run_reach; [apply reach_init| |exact E]. hist.
  - vm_compute in E. inversion E; subst. eexists. vm_compute. reflexivity.
Qed.

Lemma add_64 : (exists s', add_sig 64 (fun _ => 0) 32 = Some s' /\ forall m, 32 <= m <= 64 -> member 64 s' m = true) /\
  forall s n, 33 <= n <= 64 -> add_sig 64 s n = None.
Proof.
  split.
  - eexists. split; [reflexivity|]. intros m Hm. unfold member. rewrite Z.div_small, Z.mod_small by lia.
    assert (E : m - 1 = 31 + Z.of_nat (Z.to_nat (m - 32))) by lia. assert (L : (Z.to_nat (m - 32) <= 32)%nat) by lia.
    rewrite E. generalize dependent (Z.to_nat (m - 32)). intros k _ L. do 33 (destruct k as [|k]; [vm_compute; reflexivity|]). lia.
  - intros s n Hn. unfold add_sig, shl_int. rewrite Z.div_small, Z.mod_small by lia. change (0 >=? words 64) with false.
    replace (n - 1 <? 31) with false by lia. replace (n - 1 =? 31) with false by lia. reflexivity.
Qed.

Lemma send_spec nb t init n f : arch nb -> easy nb n -> 1 <= n < 64 -> 0 <= nested t ->
  exists t' w, do_send_signal nb t init n f = Ok t' (Sent w) /\
    mask t' = mask t /\ hnd t' = hnd t /\ nested t' = nested t /\ susp t' = susp t /\
    if queued init (hnd t n) n
    then w = negb (member nb (mask t) n) /\ (forall m, 1 <= m <= 64 -> member nb (pend t') m = (m =? n) || member nb (pend t) m) /\
         (forall m, 1 <= m <= 64 -> member nb (fpend t') m = f && (m =? n) || member nb (fpend t) m)
    else w = false /\ t' = t.
Proof.
  intros A E Hn N. unfold do_send_signal. replace ((n <? 0) || (n >=? NSIG)) with false by (unfold NSIG; lia).
  replace (n =? 0) with false by lia. replace (nested t <? 0) with false by lia. cbv zeta.
  assert (Q : exists t' w, queue_sig nb t n f = Ok t' (Sent w) /\ mask t' = mask t /\ hnd t' = hnd t /\ nested t' = nested t /\ susp t' = susp t /\
    w = negb (member nb (mask t) n) /\ (forall m, 1 <= m <= 64 -> member nb (pend t') m = (m =? n) || member nb (pend t) m) /\
    (forall m, 1 <= m <= 64 -> member nb (fpend t') m = f && (m =? n) || member nb (fpend t) m)).
  { unfold queue_sig. destruct (add_exact nb (pend t) n A E ltac:(lia)) as (p & Ep & Hp). destruct (add_exact nb (fpend t) n A E ltac:(lia)) as (q & Eq & Hq).
    rewrite Ep. destruct f; rewrite ?Eq; cbn [mask set_pend]; rewrite test_exact by (assumption || lia); do 2 eexists; (split; [reflexivity|]); cbn; auto 10. }
  unfold queued. assert (D : default_action n = Terminate <-> existsb (Z.eqb n) [17; 18; 19; 20; 21; 22; 23] = false).
  { unfold default_action. cbn [existsb]. destruct ((n =? 17) || (n =? 23)) eqn:C1; [split; [discriminate|intros; lia]|].
    destruct (n =? 18) eqn:C2; [split; [discriminate|intros; lia]|]. destruct ((19 <=? n) && (n <=? 22)) eqn:C3; [split; [discriminate|intros; lia]|].
    split; [intros _; lia|reflexivity]. }
  destruct (hnd t n =? SIG_IGN) eqn:HI.
  { apply Z.eqb_eq in HI. rewrite HI. change (SIG_IGN =? SIG_DFL) with false. rewrite andb_false_r. change (SIG_IGN =? SIG_IGN) with true. exists t, false. auto 10. }
  destruct (hnd t n =? SIG_DFL) eqn:HD.
  - destruct init; cbn [andb negb]; [change (SIG_IGN =? SIG_IGN) with true; exists t, false; auto 10|].
    rewrite HI, HD. destruct (existsb (Z.eqb n) [17; 18; 19; 20; 21; 22; 23]) eqn:X; cbn [negb].
    + destruct (default_action n) eqn:Y; [exfalso; destruct D as [D _]; specialize (D eq_refl); discriminate| | |]; exists t, false; auto 10.
    + destruct D as [_ D]. rewrite D by reflexivity. destruct Q as (t' & w & Q1 & Q2 & Q3 & Q4 & Q5 & Q6). exists t', w. auto 10.
  - rewrite andb_false_r. rewrite HI, HD. destruct Q as (t' & w & Q1 & Q2 & Q3 & Q4 & Q5 & Q6). exists t', w. auto 10.
Qed.

Lemma kill_fatal nb (ok : op -> Prop) t f1 f2 : arch nb -> (forall o, ok o -> nb = 64 \/ whole_mask nb o) -> reach nb ok t -> 0 <= nested t ->
  exists t' t'', step nb t (Send false SIGKILL f1) = Ok t' (Sent true) /\ step nb t' (Deliver f2) = Ok t'' (Kill SIGKILL).
Proof.
  intros A H R N. pose proof (safe_reach nb ok t A H R) as ((S1 & _) & _ & S3 & _).
  assert (Ek : easy nb SIGKILL) by (destruct A as [->| ->]; [left; reflexivity|right; unfold SIGKILL; lia]).
  destruct (send_spec nb t false SIGKILL f1 A Ek ltac:(unfold SIGKILL; lia) N) as (t' & w & E1 & M & _ & _ & _ & Q). rewrite S3 in Q. cbn in Q.
  destruct Q as (-> & Q & _). rewrite S1 in E1. cbn [step]. exists t'.
  assert (K : member nb (pend t') SIGKILL = true) by (rewrite Q by (unfold SIGKILL; lia); reflexivity).
  unfold process_signals. cbn [pend set_mask]. rewrite test_exact by (assumption || (unfold SIGKILL; lia)). rewrite K. eexists. split; [exact E1|reflexivity].
Qed.
