From Verif Require Import Lib Poll_Model Poll_Spec Poll_Proofs.

Lemma has_bit : forall x k, 0 <= k -> has x (2 ^ k) = Z.testbit x k.
Proof.
  intros x k K. unfold has. destruct (Z.testbit x k) eqn:T.
  - apply negb_true_iff, Z.eqb_neq. intros E. assert (Z.testbit (Z.land x (2 ^ k)) k = true) by (rewrite Z.land_spec, T, Z.pow2_bits_true; auto).
    rewrite E, Z.bits_0 in H. discriminate.
  - apply negb_false_iff, Z.eqb_eq. apply Z.bits_inj'. intros m Hm. rewrite Z.land_spec, Z.bits_0, Z.pow2_bits_eqb by auto.
    destruct (Z.eqb_spec k m) as [->|]; [rewrite T; auto | apply andb_false_r].
Qed.
Lemma has_in : forall x, has x POLLIN = Z.testbit x 0.
Proof. intros. exact (has_bit x 0 ltac:(lia)). Qed.
Lemma has_out : forall x, has x POLLOUT = Z.testbit x 2.
Proof. intros. exact (has_bit x 2 ltac:(lia)). Qed.

Section F.
Variable handle : Z -> option file.

(** one file, with revents cleared *)
Lemma check_spec : forall p p' c, check_fd handle p = (p', c) -> (p_revents p = 0 \/ handle (p_fd p) = None) ->
  kept false p p' /\ honest handle p' /\ (c = 1 <-> reports handle p) /\ (c = 0 \/ c = 1) /\ c = (if nonzero handle p' then 1 else 0) /\ (c = 0 -> handle (p_fd p) <> None -> p' = p).
Proof.
  intros p p' c H R. unfold check_fd in H. unfold kept, honest, reports, reportable, wants_in, wants_out, nonzero. rewrite has_in, has_out in H.
  destruct (handle (p_fd p)) as [f|] eqn:Hd.
  2: { inversion H; subst; clear H. cbn [p_fd p_events p_revents]. rewrite Hd. split; [auto|]. split; [reflexivity|]. split; [split; [lia|]|]; [|auto].
       - intros (f & G & _). discriminate. 
       - repeat split; auto. intros _ G. congruence. }
  destruct R as [R|R]; [|discriminate]. rewrite R in H.
  assert (Inv : forall q : Prop, (exists g, Some f = Some g /\ (Z.testbit (p_events p) 0 = true /\ read_ready g = true \/ Z.testbit (p_events p) 2 = true /\ write_ready g = true \/ except_ready g <> 0)) ->
     ((Z.testbit (p_events p) 0 = true /\ read_ready f = true \/ Z.testbit (p_events p) 2 = true /\ write_ready f = true \/ except_ready f <> 0) -> q) -> q).
  { intros q (g & G & D) K. inversion G; subst. auto. }
  destruct (Z.testbit (p_events p) 0 && read_ready f) eqn:E0.
  { apply andb_true_iff in E0. inversion H; subst; clear H. cbn [p_fd p_events p_revents]. rewrite Hd. change (Z.lor 0 POLLIN) with POLLIN. cbn [negb POLLIN Z.eqb].
    split; [auto|]. split; [tauto|]. split; [split; [|lia]; intros _; exists f; tauto|]. split; [auto|]. split; [reflexivity|lia]. }
  destruct (Z.testbit (p_events p) 2 && write_ready f) eqn:E2.
  { apply andb_true_iff in E2. inversion H; subst; clear H. cbn [p_fd p_events p_revents]. rewrite Hd. change (Z.lor 0 POLLOUT) with POLLOUT.
    split; [auto|]. split; [tauto|]. split; [split; [|lia]; intros _; exists f; tauto|]. split; [auto|]. split; [reflexivity|lia]. }
  apply andb_false_iff in E0, E2.
  destruct (except_ready f =? 0) eqn:X; cbn [negb] in H.
  { inversion H; subst; clear H. rewrite Hd, R. split; [auto|]. split; [auto|].
    split; [split; [lia|]; intros G; exfalso; apply (Inv False G); intros D; assert (except_ready f = 0) by lia; intuition congruence|]. split; [auto|]. split; [reflexivity|auto]. }
  rewrite Z.lor_0_l in H.
  destruct (except_ready f >? 0) eqn:X2; inversion H; subst; clear H; cbn [p_fd p_events p_revents]; rewrite Hd.
  - split; [auto|]. split; [right; right; right; left; split; [lia|auto]|]. split; [split; [|lia]; intros _; exists f; split; auto; right; right; lia|]. split; [auto|]. split; [rewrite X; reflexivity|lia].
  - split; [auto|]. split; [right; right; right; right; split; [lia|auto]|]. split; [split; [|lia]; intros _; exists f; split; auto; right; right; lia|]. split; [auto|]. split; [reflexivity|lia].
Qed.
Lemma count_spec : forall l l' c, count_ready handle l = (l', c) -> Forall (fun p => p_revents p = 0 \/ handle (p_fd p) = None) l ->
  Forall2 (kept false) l l' /\ Forall (honest handle) l' /\ (c > 0 <-> exists p, In p l /\ reports handle p) /\ 0 <= c /\ c = zlen (filter (nonzero handle) l') /\
  (c = 0 -> Forall (fun p => p_revents p = 0 \/ handle (p_fd p) = None) l' /\ Forall2 (fun p p' => p_events p' = p_events p) l l').
Proof.
  induction l as [|p l IH]; intros l' c H F; cbn in H.
  - inversion H; subst. repeat split; auto; cbn; try lia. intros (p & [] & _).
  - inversion F; subst. destruct (check_fd handle p) as [p' c1] eqn:E1. destruct (count_ready handle l) as [r' c2] eqn:E2. inversion H; subst; clear H.
    destruct (check_spec _ _ _ E1 H2) as (K & Ho & C & C01 & N & Un). destruct (IH _ _ eq_refl H3) as (K2 & Ho2 & Cc & C0 & N2 & U2).
    split; [constructor; auto|]. split; [constructor; auto|]. split; [|split; [lia|split]].
    + split.
      * intros G. destruct C01 as [C01|C01]; subst c1; [|exists p; split; [left; auto|tauto]]. destruct (proj1 Cc ltac:(lia)) as (q & ? & ?). exists q. split; [right|]; auto.
      * intros (q & [->|Q] & Hr); [assert (c1 = 1) by tauto; lia|]. assert (c2 > 0) by (apply Cc; eauto). lia.
    + cbn [filter]. destruct (nonzero handle p'); rewrite ?zlen_cons; lia.
    + intros Z0. assert (c1 = 0) by lia. assert (c2 = 0) by lia. destruct (U2 H0) as [U3 U4]. split; constructor; auto; try apply K.
      destruct K as [K1 _]. rewrite K1. destruct (handle (p_fd p)) eqn:Hd; auto. rewrite Un by (auto; congruence). auto.
Qed.
Lemma prep_spec : forall p p' c, prep_fd handle p = (p', c) -> kept true p p' /\ (p_revents p' = 0 \/ handle (p_fd p') = None).
Proof.
  intros p p' c H. unfold prep_fd in H. destruct (handle (p_fd p)) as [f|] eqn:Hd; inversion H; subst; clear H; unfold kept; cbn; rewrite ?Hd; auto.
  split; auto. split; auto. intros b B.
  repeat match goal with |- context [if ?c then _ else _] => destruct c end; rewrite ?Z.lor_spec, B; reflexivity.
Qed.
Lemma conds_spec : forall l l' c, count_conds handle l = (l', c) -> Forall2 (kept true) l l' /\ Forall (fun p => p_revents p = 0 \/ handle (p_fd p) = None) l'.
Proof.
  induction l as [|p l IH]; intros l' c H; cbn in H; [inversion H; auto|].
  destruct (prep_fd handle p) as [p' c1] eqn:E1. destruct (count_conds handle l) as [r' c2] eqn:E2. inversion H; subst.
  destruct (prep_spec _ _ _ E1), (IH _ _ eq_refl). split; constructor; auto.
Qed.
Lemma kept_trans : forall a b c w1 w2, kept w1 a b -> kept w2 b c -> kept true a c.
Proof.
  unfold kept. intros a b c w1 w2 [A1 A2] [B1 B2]. split; [congruence|]. intros k K.
  destruct w1, w2; try rewrite A2 in *; try rewrite B2 in *; auto.
Qed.
Lemma kept_list : forall a b c w1 w2, Forall2 (kept w1) a b -> Forall2 (kept w2) b c -> Forall2 (kept true) a c.
Proof.
  intros a b c w1 w2 H. revert c. induction H; intros c G; inversion G; subst; constructor; eauto using kept_trans.
Qed.
Lemma clear_spec : forall l, let l0 := map (fun p => Pfd (p_fd p) (p_events p) 0) l in
  Forall2 (kept false) l l0 /\ Forall (fun p => p_revents p = 0 \/ handle (p_fd p) = None) l0 /\ ((exists p, In p l0 /\ reports handle p) <-> exists p, In p l /\ reports handle p).
Proof.
  intros l l0. split; [|split].
  - subst l0. induction l; constructor; auto. split; reflexivity.
  - subst l0. induction l; constructor; auto.
  - subst l0. split.
    + intros (p & I & R). apply in_map_iff in I. destruct I as (q & <- & I). exists q. split; auto.
    + intros (p & I & R). exists (Pfd (p_fd p) (p_events p) 0). split; auto. apply in_map_iff. eauto.
Qed.
(** whatever sys_poll returns at once *)
Lemma poll_honest : forall l tmo l' c sl, sys_poll handle l tmo = Returns l' c sl ->
  Forall2 (kept true) l l' /\ Forall (honest handle) l' /\ c = zlen (filter (nonzero handle) l').
Proof.
  intros l tmo l' c sl H. unfold sys_poll in H. destruct (clear_spec l) as (A1 & A2 & _). set (l0 := map _ l) in *.
  destruct (count_ready handle l0) as [l1 c1] eqn:E1. destruct (count_spec _ _ _ E1 A2) as (B1 & B2 & B3 & B4 & B5 & B6).
  destruct (c1 >? 0) eqn:C1.
  { inversion H; subst. split; [eapply kept_list; eauto|]. auto. }
  destruct (B6 ltac:(lia)) as [B7 _].
  destruct (if tmo =? 0 then (l1, 0) else count_conds handle l1) as [l2 conds] eqn:E2.
  assert (Cc : Forall2 (kept true) l l2 /\ Forall (fun p => p_revents p = 0 \/ handle (p_fd p) = None) l2).
  { destruct (tmo =? 0); [inversion E2; subst; split; auto; eapply kept_list; eauto|]. destruct (conds_spec _ _ _ E2). split; auto.
    eapply kept_list; [|eassumption]. eapply kept_list; eauto. }
  destruct Cc as [Ca Cb]. destruct (count_ready handle l2) as [l3 c3] eqn:E3. destruct (count_spec _ _ _ E3 Cb) as (D1 & D2 & D3 & D4 & D5 & _).
  assert (K : Forall2 (kept true) l l3) by (eapply kept_list; eauto).
  destruct (conds >? 0); [destruct (c3 >? 0)|]; inversion H; subst; auto.
Qed.
(** a ready file is reported at once *)
Lemma poll_ready : forall l tmo, (exists p, In p l /\ reports handle p) -> exists l' c, sys_poll handle l tmo = Returns l' c false /\ c > 0.
Proof.
  intros l tmo H. unfold sys_poll. destruct (clear_spec l) as (A1 & A2 & A3). set (l0 := map _ l) in *.
  destruct (count_ready handle l0) as [l1 c1] eqn:E1. destruct (count_spec _ _ _ E1 A2) as (B1 & B2 & B3 & B4 & B5 & B6).
  assert (c1 > 0) by (apply B3, A3, H). exists l1, c1. replace (c1 >? 0) with true by lia. auto.
Qed.
(** it waits only for a non-zero timeout, and with nothing to report *)
Lemma poll_waits : forall l tmo l', sys_poll handle l tmo = Waits l' -> tmo <> 0 /\ ~ (exists p, In p l' /\ reports handle p).
Proof.
  intros l tmo l' H. unfold sys_poll in H. destruct (clear_spec l) as (A1 & A2 & _). set (l0 := map _ l) in *.
  destruct (count_ready handle l0) as [l1 c1] eqn:E1. destruct (c1 >? 0); [discriminate|].
  destruct (tmo =? 0) eqn:T; [cbn in H; destruct (count_ready handle l1); discriminate|].
  destruct (count_conds handle l1) as [l2 conds] eqn:E2. destruct (conds_spec _ _ _ E2) as [_ Cb]. destruct (count_ready handle l2) as [l3 c3] eqn:E3.
  destruct (count_spec _ _ _ E3 Cb) as (D1 & D2 & D3 & D4 & D5 & D6).
  destruct (conds >? 0); [|discriminate]. destruct (c3 >? 0) eqn:C3; [discriminate|]. inversion H; subst. split; [lia|].
  intros (p & I & f & Hf & R). destruct (D6 ltac:(lia)) as [_ D7]. clear - D1 D3 D7 I Hf R C3.
  assert (exists q, In q l2 /\ reports handle q) as Q; [|apply D3 in Q; lia].
  clear D3 C3. induction D1; [destruct I|]. inversion D7; subst. destruct I as [->|I].
  - exists x. split; [left; auto|]. destruct H as [K1 _]. exists f. rewrite <- K1, <- H3. auto.
  - destruct IHD1 as (q & ? & ?); auto. exists q. split; [right|]; auto.
Qed.
End F.

Lemma has_lor : forall x a b, has x (Z.lor a b) = has x a || has x b.
Proof.
  intros. unfold has. rewrite Z.land_lor_distr_r. destruct (Z.eqb_spec (Z.lor (Z.land x a) (Z.land x b)) 0) as [E|E].
  - apply Z.lor_eq_0_iff in E. destruct E as [-> ->]. reflexivity.
  - symmetry. cbn [negb]. destruct (Z.eqb_spec (Z.land x a) 0) as [E1|]; auto. destruct (Z.eqb_spec (Z.land x b) 0) as [E2|]; auto. exfalso. apply E. rewrite E1, E2. reflexivity.
Qed.
Lemma prep_names : forall handle p p' c, prep_fd handle p = (p', c) -> handle (p_fd p) <> None ->
  (wants_in (p_events p') <-> exists b, In b [0; 1; 6; 7] /\ Z.testbit (p_events p) b = true) /\
  (wants_out (p_events p') <-> exists b, In b [2; 8; 9] /\ Z.testbit (p_events p) b = true).
Proof.
  intros handle p p' c H N. unfold prep_fd in H. destruct (handle (p_fd p)) as [f|]; [|congruence]. inversion H; subst p'; clear H. cbn [p_events]. unfold wants_in, wants_out.
  change 195 with (Z.lor POLLIN (Z.lor POLLRDNORM (Z.lor POLLRDBAND POLLPRI))). change 772 with (Z.lor POLLOUT (Z.lor POLLWRNORM POLLWRBAND)).
  rewrite !has_lor. change POLLIN with (2 ^ 0). change POLLPRI with (2 ^ 1). change POLLRDNORM with (2 ^ 6). change POLLRDBAND with (2 ^ 7).
  change POLLOUT with (2 ^ 2). change POLLWRNORM with (2 ^ 8). change POLLWRBAND with (2 ^ 9). rewrite !has_bit by lia.
  set (e := p_events p). set (c1 := Z.testbit e 0 || (Z.testbit e 6 || (Z.testbit e 7 || Z.testbit e 1))).
  assert (B : forall k, k <> 0 -> 0 <= k -> Z.testbit (if c1 then Z.lor e (2 ^ 0) else e) k = Z.testbit e k).
  { intros k K1 K2. destruct c1; auto. rewrite Z.lor_spec, Z.pow2_bits_false, orb_false_r by lia. reflexivity. }
  rewrite !B by lia. set (c2 := Z.testbit e 2 || (Z.testbit e 8 || Z.testbit e 9)). split.
  - assert (E : Z.testbit (if c2 then Z.lor (if c1 then Z.lor e (2 ^ 0) else e) (2 ^ 2) else if c1 then Z.lor e (2 ^ 0) else e) 0 = c1).
    { assert (E1 : Z.testbit (if c1 then Z.lor e (2 ^ 0) else e) 0 = c1).
      { destruct c1 eqn:C; [rewrite Z.lor_spec; change (Z.testbit (2 ^ 0) 0) with true; apply orb_true_r|]. subst c1. destruct (Z.testbit e 0); auto. }
      destruct c2; auto. rewrite Z.lor_spec, E1. change (Z.testbit (2 ^ 2) 0) with false. apply orb_false_r. }
    rewrite E. subst c1. rewrite !orb_true_iff. split.
    + intros [?|[?|[?|?]]]; [exists 0|exists 6|exists 7|exists 1]; cbn [In]; intuition.
    + intros (b & I & T). cbn [In] in I. destruct I as [?|[?|[?|[?|[]]]]]; subst b; auto.
  - assert (E : Z.testbit (if c2 then Z.lor (if c1 then Z.lor e (2 ^ 0) else e) (2 ^ 2) else if c1 then Z.lor e (2 ^ 0) else e) 2 = c2).
    { destruct c2 eqn:C; [rewrite Z.lor_spec; change (Z.testbit (2 ^ 2) 2) with true; apply orb_true_r|]. rewrite B by lia. subst c2. destruct (Z.testbit e 2); auto. }
    rewrite E. subst c2. rewrite !orb_true_iff. split.
    + intros [?|[?|?]]; [exists 2|exists 8|exists 9]; cbn [In]; intuition.
    + intros (b & I & T). cbn [In] in I. destruct I as [?|[?|[?|[]]]]; subst b; auto.
Qed.

(** ** Refuted *)
Definition any (f : file) : Z -> option file := fun fd => if (0 <=? fd) && (fd <? 3) then Some f else None.
Lemma both_ready : exists handle l l' p c, sys_poll handle l 0 = Returns l' c false /\ In p l' /\
  (exists f, handle (p_fd p) = Some f /\ write_ready f = true) /\ wants_out (p_events p) /\ ~ wants_out (p_revents p) /\ p_revents p <> 0.
Proof.
  exists (any (File (Some true) (Some true) None 2 true)), [Pfd 0 (Z.lor POLLIN POLLOUT) 0], [Pfd 0 (Z.lor POLLIN POLLOUT) POLLIN], (Pfd 0 (Z.lor POLLIN POLLOUT) POLLIN), 1.
  split; [reflexivity|]. split; [left; reflexivity|]. split; [eexists; split; reflexivity|]. repeat split; cbv; discriminate.
Qed.
Lemma nval_uncounted : exists handle l l' p, sys_poll handle l 0 = Returns l' 0 false /\ In p l' /\ p_fd p = -1 /\ p_revents p <> 0.
Proof. exists (any (File None None None 0 false)), [Pfd (-1) POLLIN 0], [Pfd (-1) POLLIN POLLNVAL], (Pfd (-1) POLLIN POLLNVAL). repeat split; [left; reflexivity | discriminate]. Qed.
Lemma rdnorm_ignored : exists handle l l' p f, sys_poll handle l 0 = Returns l' 0 false /\ In p l' /\ p_events p = POLLRDNORM /\ handle (p_fd p) = Some f /\ read_ready f = true /\
  (exists l2, sys_poll handle l 1 = Returns l2 1 false).
Proof.
  exists (any (File (Some true) (Some true) None 2 true)), [Pfd 0 POLLRDNORM 0], [Pfd 0 POLLRDNORM 0], (Pfd 0 POLLRDNORM 0), (File (Some true) (Some true) None 2 true).
  repeat split; [left; reflexivity | eexists; reflexivity].
Qed.
Lemma infinite_zero : exists handle l l', sys_poll handle l (-1) = Returns l' 0 false.
Proof. exists (any (File None None None 0 false)), [Pfd 0 POLLIN 0], [Pfd 0 POLLIN 0]. reflexivity. Qed.
Lemma rdonly_unready : forall f, f_read f = None -> f_flags f = 0 -> read_ready f = false.
Proof. intros f R F. unfold read_ready. rewrite R, F. reflexivity. Qed.
Lemma select_sleeps : select_ticks 0 0 = 1 /\ select_blocks (Some (0, 0)) = true.
Proof. split; reflexivity. Qed.
Lemma select_bounds : forall sec usec, 1 <= select_ticks sec usec < 2 ^ 32.
Proof. intros. unfold select_ticks. lia. Qed.

(** a wake-up taken by another waiter *)
Definition okb (n : Z) (s : st) (a : action) : bool :=
  match a with
  | SignalOther i | Become i | Unready i | Signal i => (0 <=? i) && (i <? n) && (match pc s with Arm _ => false | _ => true end)
  | Posix => match pc s with Arm _ => false | _ => true end
  | _ => true
  end.
Lemma okb_ok : forall n s a, okb n s a = true -> allowed_any n s a.
Proof. intros n s a H. destruct a; cbn in *; auto; try (split; [lia|]); intros el E; rewrite E in H; rewrite ?andb_false_r in H; discriminate. Qed.
Fixpoint crun (n : Z) (tmo : option Z) (s : st) (l : list action) : option st :=
  match l with [] => Some s | a :: r => if okb n s a then match step n tmo s a with Some s1 => crun n tmo s1 r | None => None end else None end.
Lemma crun_reach : forall n tmo t0 r0 l s s', reach_any n tmo t0 r0 s -> crun n tmo s l = Some s' -> reach_any n tmo t0 r0 s'.
Proof.
  induction l as [|a l IH]; intros s s' R H; cbn in H; [inversion H; subst; auto|].
  destruct (okb n s a) eqn:O; [|discriminate]. destruct (step n tmo s a) eqn:E; [|discriminate]. eapply IH; [|eassumption]. econstructor; eauto. apply okb_ok; auto.
Qed.
Definition lost_run : list action := [Poll; Poll; Poll; Poll; Poll; Become 0; SignalOther 0].
Lemma lost_wakeup : exists s, reach_any 1 None 0 (fun _ => false) s /\ asleep s /\ ready s 0 = true /\ due s 0 = false /\ timer s = None.
Proof.
  destruct (crun 1 None (init (fun _ => false) 0) lost_run) as [s|] eqn:E; [|vm_compute in E; discriminate].
  exists s. split; [eapply crun_reach; [constructor|exact E]|]. vm_compute in E. inversion E; subst. repeat split.
Qed.
