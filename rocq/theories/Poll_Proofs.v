From Verif Require Import Lib Poll_Model Poll_Spec.

Section P.
Variable n : Z.
Variable tmo : option Z.
Variable t0 : Z.

Definition registered (p : pcs) : option Z := match p with Reg k => Some k | Done _ => None | _ => Some n end.
Definition seen (p : pcs) : option Z := match p with Check k false => Some k | Sect | Arm _ | Asleep => Some n | _ => None end.
Record inv (s : st) : Prop := Inv {
  i_reg : forall k, registered (pc s) = Some k ->
    forall i, if (0 <=? i) && (i <? k) then (linked s i = true <-> ~ In i (signaled s)) else linked s i = false /\ ~ In i (signaled s);
  i_done : forall r, pc s = Done r -> (forall i, linked s i = false) /\ signaled s = [] /\ timer s = None;
  i_pos : forall k, pc s = Reg k -> 0 <= k <= Z.max n 0;
  i_seen : forall k, seen (pc s) = Some k -> forall i, 0 <= i < k -> ready s i = true -> due s i = true \/ In i (signaled s);
  i_pc : state s <> Running -> pc s = Asleep;
  i_sleep : state s = Sleeping -> signaled s = [] /\ wobj s = true /\ (tmo <> None -> timer s <> None);
  i_chk : forall k f, pc s = Check k f -> 0 <= k <= Z.max n 0;
  i_start : start s = t0 /\ t0 <= now s;
  i_arm : forall el, pc s = Arm el -> tmo <> None /\ state s = Running /\ start s + el <= now s /\ signaled s = [];
  i_timer : forall e, timer s = Some e -> exists t, tmo = Some t /\ t0 + t <= e;
  i_wobj : (pc s = Asleep \/ pc s = Woken) -> state s <> Sleeping -> wobj s = true -> exists t, tmo = Some t /\ t0 + t <= now s;
  i_out : pc s = Out Zero -> pending s = true \/ exists t, tmo = Some t /\ t0 + t <= now s;
  i_noint : pc s <> Out Eintr;
  i_zero : pc s = Done Zero -> exists t, tmo = Some t /\ t0 + t <= now s;
  i_int : pc s = Done Eintr -> pending s = true }.

Lemma rearm_in : forall g l i, rearm_all l g i = true <-> In i g \/ l i = true.
Proof.
  induction g as [|a g IH]; intros l i; cbn; [tauto|]. unfold rearm_all in *. cbn. rewrite IH.
  destruct (Z.eq_dec a i) as [->|E]; [rewrite fupd_same | rewrite fupd_other by auto]; intuition.
Qed.
Lemma rearm_reg : forall lk sg k, (forall i, if (0 <=? i) && (i <? k) then (lk i = true <-> ~ In i sg) else lk i = false /\ ~ In i sg) ->
  forall i, if (0 <=? i) && (i <? k) then (rearm_all lk sg i = true <-> ~ In i []) else rearm_all lk sg i = false /\ ~ In i [].
Proof.
  intros lk sg k H i. specialize (H i). pose proof (rearm_in sg lk i) as R. cbn.
  destruct ((0 <=? i) && (i <? k)).
  - split; auto. intros _. apply R. destruct (in_dec Z.eq_dec i sg); tauto.
  - destruct H as [H1 H2]. split; auto. destruct (rearm_all _ _ i) eqn:E; auto. assert (In i sg \/ lk i = true) as [?|?] by (apply R; auto); [tauto|congruence].
Qed.

Lemma inv_init : forall r0, inv (init r0 t0).
Proof.
  intros. constructor; cbn; try discriminate; try tauto; try lia; auto.
  - intros k E i. inversion E; subst. destruct ((0 <=? i) && (i <? 0)) eqn:C; [exfalso; lia|tauto].
  - intros k E. inversion E. lia.
Qed.

Ltac fin := cbn in *; try discriminate; try tauto; try lia; try (intuition congruence); eauto.
Lemma inv_pstep : forall s, inv s -> state s = Running -> inv (pstep n tmo s).
Proof.
  intros s I R. pose proof I as I'. destruct I as [Ireg Idone Ipos Iseen Ipc Isleep Ichk Istart Iarm Itimer Iwobj Iout Inoint Izero Iint].
  destruct s as [rd lk sg stt wo p nw stt0 tm pe du]; cbn in *. subst stt. unfold pstep; cbn.
  destruct p as [k|k f| |el| | | |r|r]; cbn.
  - (* Reg *) destruct (k <? n) eqn:C; constructor; fin.
    + intros k0 E i. inversion E; subst k0. specialize (Ireg k eq_refl i). specialize (Ipos k eq_refl).
      destruct (Z.eq_dec i k) as [->|N].
      * rewrite fupd_same. replace ((0 <=? k) && (k <? k + 1)) with true by lia. replace ((0 <=? k) && (k <? k)) with false in Ireg by lia. tauto.
      * rewrite fupd_other by auto. destruct ((0 <=? i) && (i <? k)) eqn:C1; destruct ((0 <=? i) && (i <? k + 1)) eqn:C2; auto; exfalso; lia.
    + intros k0 E. inversion E; subst. specialize (Ipos k eq_refl). lia.
    + intros k0 E i. inversion E; subst k0. specialize (Ireg k eq_refl i). specialize (Ipos k eq_refl).
      destruct ((0 <=? i) && (i <? k)) eqn:C1; destruct ((0 <=? i) && (i <? n)) eqn:C2; auto; exfalso; lia.
    + intros k0 E i Hi. inversion E; subst. lia.
    + intros k0 f E. inversion E. lia.
  - (* Check *) destruct (k <? n) eqn:C; [|destruct f]; constructor; fin.
    + intros k0 E i Hi Hr. specialize (Ichk k f eq_refl). destruct f; cbn in *; [discriminate|]. destruct (rd k) eqn:RK; cbn in E; inversion E; subst k0.
      destruct (Z.eq_dec i k) as [->|]; [congruence|]. apply (Iseen k eq_refl); auto; lia.
    + intros k0 f0 E. inversion E; subst. specialize (Ichk k f eq_refl). lia.
    + intros k0 E i Hi. inversion E; subst k0. specialize (Ichk k false eq_refl). apply (Iseen k eq_refl). lia.
  - (* Sect *) destruct sg as [|g sg].
    + destruct tmo as [t|] eqn:T; [destruct (nw - stt0 >=? t) eqn:C|]; constructor; cbn; rewrite ?T; fin.
      all: try (intros _; right; exists t; split; auto; lia).
      intros el E. inversion E; subst. split; [discriminate|]. split; auto. split; [lia|auto].
    + constructor; fin.
      * intros k E i. inversion E; subst k. exact (rearm_reg lk (g :: sg) n (Ireg n eq_refl) i).
      * intros k E i Hi. inversion E; subst. lia.
      * intros k f E. inversion E. lia.
  - (* Arm *) destruct tmo as [t|] eqn:T; [|exact I'].
    destruct (Iarm el eq_refl) as (_ & _ & A & S0). constructor; cbn; rewrite ?T; fin.
    intros e E. inversion E. exists t. split; auto. lia.
  - constructor; fin.
  - (* Woken *) destruct pe; [|destruct tmo as [t|] eqn:T; [destruct wo|]]; constructor; cbn; rewrite ?T; fin.
  - (* Rearm *) constructor; fin.
    * intros k E i. inversion E; subst k. exact (rearm_reg lk sg n (Ireg n eq_refl) i).
    * intros k E i Hi. inversion E; subst. lia.
    * intros k f E. inversion E. lia.
  - (* Out *) constructor; fin.
    + destruct pe; [discriminate|]. intros E. inversion E; subst. destruct (Iout eq_refl) as [?|?]; [discriminate|auto].
    + destruct pe; auto. intros E. inversion E; subst. tauto.
  - exact I'.
Qed.
Lemma inv_step : forall s a s', inv s -> allowed n s a -> step n tmo s a = Some s' -> inv s'.
Proof.
  intros s a s' I A H. destruct a as [| |i|i|i|i| | |]; cbn in A, H.
  - destruct (state s) eqn:R; inversion H; subst. apply inv_pstep; auto.
  - destruct (state s) eqn:R; inversion H; subst. destruct I as [Ireg Idone Ipos Iseen Ipc Isleep Ichk Istart Iarm Itimer Iwobj Iout Inoint Izero Iint].
    destruct s as [rd lk sg stt wo p nw stt0 tm pe du]; cbn in *. subst stt. constructor; fin.
  - inversion H; subst. destruct A as [Ai Aa]. destruct I as [Ireg Idone Ipos Iseen Ipc Isleep Ichk Istart Iarm Itimer Iwobj Iout Inoint Izero Iint].
    destruct s as [rd lk sg stt wo p nw stt0 tm pe du]; cbn in *. constructor; fin.
    intros k E j Hj. destruct (Z.eq_dec j i) as [->|]; [rewrite !fupd_same; auto | rewrite !fupd_other by auto; eauto].
  - inversion H; subst. destruct A as [Ai Aa]. destruct I as [Ireg Idone Ipos Iseen Ipc Isleep Ichk Istart Iarm Itimer Iwobj Iout Inoint Izero Iint].
    destruct s as [rd lk sg stt wo p nw stt0 tm pe du]; cbn in *. constructor; fin.
    intros k E j Hj. destruct (Z.eq_dec j i) as [->|]; [rewrite !fupd_same; discriminate | rewrite !fupd_other by auto; eauto].
  - inversion H; subst; clear H. destruct A as [Ai Aa]. destruct I as [Ireg Idone Ipos Iseen Ipc Isleep Ichk Istart Iarm Itimer Iwobj Iout Inoint Izero Iint].
    destruct s as [rd lk sg stt wo p nw stt0 tm pe du]; cbn in *. unfold signal; cbn.
    destruct (lk i) eqn:L.
    + assert (Rg : forall k, registered p = Some k -> forall j, if (0 <=? j) && (j <? k) then (fupd lk i false j = true <-> ~ In j (sg ++ [i])) else fupd lk i false j = false /\ ~ In j (sg ++ [i])).
      { intros k E j. specialize (Ireg k E). clear - Ireg L. pose proof (Ireg j) as Hj. pose proof (Ireg i) as Hi.
        assert (AI : In j (sg ++ [i]) <-> In j sg \/ j = i) by (rewrite in_app_iff; cbn; intuition).
        destruct (Z.eq_dec j i) as [->|N].
        - rewrite fupd_same. destruct ((0 <=? i) && (i <? k)); [intuition congruence | destruct Hi; congruence].
        - rewrite fupd_other by auto. destruct ((0 <=? j) && (j <? k)); intuition congruence. }
      assert (Sn : forall k, seen p = Some k -> forall j, 0 <= j < k -> rd j = true -> fupd du i false j = true \/ In j (sg ++ [i])).
      { intros k E j Hj Hr. rewrite in_app_iff. cbn. destruct (Z.eq_dec j i) as [->|N]; [auto|]. rewrite fupd_other by auto. destruct (Iseen k E j Hj Hr); auto. }
      unfold wake; cbn. destruct stt; constructor; fin.
      all: try (intros r E; destruct (Idone r E) as (D & _); rewrite D in L; discriminate).
      all: try (intros el E; exfalso; apply (Aa el E)).
    + constructor; fin.
      intros k E j Hj Hr. destruct (Z.eq_dec j i) as [->|N]; [|rewrite fupd_other by auto; eauto].
      right. assert (E2 : registered p = Some n) by (destruct p as [?|? []| | | | | | |]; cbn in *; congruence).
      specialize (Ireg n E2 i). replace ((0 <=? i) && (i <? n)) with true in Ireg by lia.
      destruct (in_dec Z.eq_dec i sg); auto. exfalso. assert (lk i = true) by tauto. congruence.
  - tauto.
  - inversion H; subst. destruct I as [Ireg Idone Ipos Iseen Ipc Isleep Ichk Istart Iarm Itimer Iwobj Iout Inoint Izero Iint].
    destruct s as [rd lk sg stt wo p nw stt0 tm pe du]; cbn in *. constructor; fin.
    + intros el E. destruct (Iarm el E) as (? & ? & ? & ?). repeat split; auto. lia.
    + intros E1 E2 E3. destruct (Iwobj E1 E2 E3) as (t & ? & ?). exists t. split; auto. lia.
    + intros E. destruct (Iout E) as [?|(t & ? & ?)]; auto. right. exists t. split; auto. lia.
    + intros E. destruct (Izero E) as (t & ? & ?). exists t. split; auto. lia.
  - destruct (timer s) as [e|] eqn:T; [|discriminate]. destruct (e <=? now s) eqn:C; [|discriminate]. inversion H; subst; clear H.
    destruct I as [Ireg Idone Ipos Iseen Ipc Isleep Ichk Istart Iarm Itimer Iwobj Iout Inoint Izero Iint].
    destruct s as [rd lk sg stt wo p nw stt0 tm pe du]; cbn in *. subst tm. destruct (Itimer e eq_refl) as (t & Ht & He).
    destruct stt; constructor; fin.
    all: try (intros r E; destruct (Idone r E) as (_ & _ & D); discriminate).
    all: try (intros; exists t; split; auto; lia).
    all: try (intros el E; destruct (Iarm el E) as (? & ? & ?); discriminate).
  - inversion H; subst; clear H. destruct I as [Ireg Idone Ipos Iseen Ipc Isleep Ichk Istart Iarm Itimer Iwobj Iout Inoint Izero Iint].
    destruct s as [rd lk sg stt wo p nw stt0 tm pe du]; cbn in *. unfold wake; cbn. destruct stt; constructor; fin.
    all: try (intros el E; exfalso; apply (A el E)).
Qed.
Lemma reach_inv : forall r0 s, reach n tmo t0 r0 s -> inv s.
Proof. induction 1; [apply inv_init | eapply inv_step; eauto]. Qed.

Lemma no_lost : forall r0 s, reach n tmo t0 r0 s -> asleep s -> forall i, 0 <= i < n -> ready s i = true -> due s i = true.
Proof.
  intros r0 s H A i Hi Hr. pose proof (reach_inv _ _ H) as I. destruct (i_sleep _ I A) as (S1 & _).
  assert (E : pc s = Asleep) by (apply (i_pc _ I); red in A; congruence).
  destruct (i_seen _ I n) with (i := i) as [?|Q]; auto; [rewrite E; reflexivity|]. rewrite S1 in Q. destruct Q.
Qed.
Lemma registered_all : forall r0 s, reach n tmo t0 r0 s -> asleep s -> forall i, 0 <= i < n -> linked s i = true.
Proof.
  intros r0 s H A i Hi. pose proof (reach_inv _ _ H) as I. destruct (i_sleep _ I A) as (S1 & _).
  assert (E : pc s = Asleep) by (apply (i_pc _ I); red in A; congruence).
  pose proof (i_reg _ I n) as Q. rewrite E in Q. specialize (Q eq_refl i). rewrite S1 in Q. replace ((0 <=? i) && (i <? n)) with true in Q by lia. apply Q. auto.
Qed.
Lemma check_run : forall m s k f, pc s = Check k f -> state s = Running -> 0 <= k <= n -> Z.of_nat m = n - k ->
  exists f', times m (alone n tmo) s = set_pc s (Check n f') /\ (f' = true <-> f = true \/ exists i, k <= i < n /\ ready s i = true).
Proof.
  induction m as [|m IH]; intros s k f E R K M.
  - exists f. cbn. destruct s; cbn in *. subst pc. assert (k = n) by lia. subst. split; [reflexivity|]. split; auto. intros [?|(i & ? & _)]; auto; lia.
  - cbn [times]. assert (A : alone n tmo s = set_pc s (Check (k + 1) (f || ready s k))).
    { unfold alone, pstep. rewrite R, E. replace (k <? n) with true by lia. reflexivity. }
    rewrite A. destruct (IH (set_pc s (Check (k + 1) (f || ready s k))) (k + 1) (f || ready s k)) as (f' & B & Cc); auto; try lia.
    exists f'. split; [rewrite B; destruct s; reflexivity|]. rewrite Cc. cbn. rewrite orb_true_iff. split.
    + intros [[?|?]|(i & ? & ?)]; auto; right; [exists k; split; auto; lia | exists i; split; auto; lia].
    + intros [?|(i & Hi & Q)]; auto. destruct (Z.eq_dec i k) as [->|]; auto. right. exists i. split; auto. lia.
Qed.
Lemma times_app : forall a b f s, times (a + b) f s = times b f (times a f s).
Proof. induction a; intros; cbn; auto. Qed.
Lemma last_steps : forall s, pc s = Check n true -> state s = Running -> pending s = false -> pc (times 2 (alone n tmo) s) = Done Ready.
Proof.
  intros s E R Pe. cbn [times]. assert (A : alone n tmo s = set_pc s (Out Ready)).
  { unfold alone, pstep. rewrite R, E, Z.ltb_irrefl. reflexivity. }
  rewrite A. destruct s as [rd lk sg stt wo p nw stt0 tm pe du]; cbn in *. subst. reflexivity.
Qed.
Lemma woken_reports : forall s i, pc s = Asleep -> state s = Runnable -> wobj s = false -> pending s = false -> 0 <= i < n -> ready s i = true ->
  exists k, pc (times k (alone n tmo) s) = Done Ready.
Proof.
  intros s i E R W Pe Hi Hr. exists (4 + (Z.to_nat n + 2))%nat. rewrite times_app.
  assert (A : exists s1, times 4 (alone n tmo) s = s1 /\ pc s1 = Check 0 false /\ state s1 = Running /\ ready s1 = ready s /\ pending s1 = false).
  { eexists; split; [reflexivity|]. destruct s as [rd lk sg stt wo p nw stt0 tm pe du]; cbn in *. subst. destruct tmo; vm_compute; auto. }
  destruct A as (s1 & -> & A1 & A2 & A3 & A4). rewrite times_app.
  destruct (check_run (Z.to_nat n) s1 0 false A1 A2 ltac:(lia) ltac:(lia)) as (f' & B & Cc). rewrite B.
  assert (f' = true) as -> by (apply Cc; right; exists i; rewrite A3; split; auto; lia).
  apply last_steps; auto.
Qed.
Lemma signal_reports : forall r0 s i, reach n tmo t0 r0 s -> asleep s -> pending s = false -> 0 <= i < n -> ready s i = true ->
  exists k, pc (times k (alone n tmo) (signal s i)) = Done Ready.
Proof.
  intros r0 s i H A Pe Hi Hr. pose proof (registered_all _ _ H A i Hi) as L. pose proof (i_pc _ (reach_inv _ _ H) ltac:(red in A; congruence)) as E.
  red in A. apply woken_reports with i; auto; unfold signal, wake; cbn; rewrite L; cbn; rewrite A; cbn; auto.
Qed.
Lemma zero_timeout : forall r0 s, reach n tmo t0 r0 s -> pc s = Done Zero -> exists t, tmo = Some t /\ t0 + t <= now s.
Proof. intros r0 s H. apply (i_zero _ (reach_inv _ _ H)). Qed.
Lemma eintr_pending : forall r0 s, reach n tmo t0 r0 s -> pc s = Done Eintr -> pending s = true.
Proof. intros r0 s H. apply (i_int _ (reach_inv _ _ H)). Qed.
Lemma sleeps_armed : forall r0 s t, reach n tmo t0 r0 s -> asleep s -> tmo = Some t -> exists e, timer s = Some e /\ t0 + t <= e.
Proof.
  intros r0 s t H A T. pose proof (reach_inv _ _ H) as I. destruct (i_sleep _ I A) as (_ & _ & Q).
  destruct (timer s) as [e|] eqn:E; [|exfalso; apply Q; congruence]. exists e. split; auto. destruct (i_timer _ I e E) as (t' & ? & ?). congruence.
Qed.
Lemma fire_returns : forall r0 s s', reach n tmo t0 r0 s -> asleep s -> pending s = false -> step n tmo s Fire = Some s' ->
  exists k, pc (times k (alone n tmo) s') = Done Zero.
Proof.
  intros r0 s s' H A Pe F. pose proof (reach_inv _ _ H) as I. pose proof (i_pc _ I ltac:(red in A; congruence)) as E. destruct (i_sleep _ I A) as (_ & W & _).
  cbn in F. destruct (timer s) as [e|] eqn:T; [|discriminate]. destruct (i_timer _ I e T) as (t & Ht & _). destruct (e <=? now s); [|discriminate]. inversion F; subst s'; clear F.
  exists 4%nat. red in A. destruct s as [rd lk sg stt wo p nw stt0 tm pe du]; cbn in *. subst stt p wo pe. rewrite Ht. vm_compute. reflexivity.
Qed.
Lemma posix_returns : forall r0 s s', reach n tmo t0 r0 s -> asleep s -> step n tmo s Posix = Some s' ->
  exists k, pc (times k (alone n tmo) s') = Done Eintr.
Proof.
  intros r0 s s' H A F. pose proof (reach_inv _ _ H) as I. pose proof (i_pc _ I ltac:(red in A; congruence)) as E.
  cbn in F. inversion F; subst s'; clear F. exists 4%nat. red in A. destruct s as [rd lk sg stt wo p nw stt0 tm pe du]; cbn in *. subst stt p. vm_compute. reflexivity.
Qed.
Lemma done_clean : forall r0 s r, reach n tmo t0 r0 s -> pc s = Done r -> (forall i, linked s i = false) /\ signaled s = [] /\ timer s = None.
Proof. intros r0 s r H. apply (i_done _ (reach_inv _ _ H)). Qed.

Definition quiet (s : st) : Prop := (forall i, 0 <= i < n -> ready s i = false) /\ (forall k, pc s <> Check k true) /\ pc s <> Out Ready /\ pc s <> Done Ready /\ (forall k f, pc s = Check k f -> 0 <= k).
Lemma never_quiet : forall r0 s, reach_never n tmo t0 r0 s -> quiet s.
Proof.
  induction 1 as [Q|s a s' _ IH H Q].
  - repeat split; cbn; auto; discriminate.
  - split; [exact Q|]. destruct IH as (Q0 & A & B & C & D).
    destruct s as [rd lk sg stt wo p nw stt0 tm pe du].
    destruct a as [| |i|i|i|i| | |]; cbn in *.
    + destruct stt; [|discriminate|discriminate]. inversion H; subst s'; clear H. unfold pstep; cbn.
      destruct p as [k|k f| |el| | | |r|r]; cbn in *.
      * destruct (k <? n); cbn; repeat split; try discriminate. intros k0 f E. inversion E. lia.
      * destruct f; [exfalso; eapply A; eauto|]. destruct (k <? n) eqn:Ck; cbn; repeat split; try discriminate.
        -- rewrite Q0 by (specialize (D k false eq_refl); lia). intros; discriminate.
        -- intros k0 f E. inversion E. specialize (D k false eq_refl). lia.
      * destruct sg; [destruct tmo as [t|]; [destruct (_ >=? _)|]|]; cbn; repeat split; try discriminate. intros k0 f E. inversion E. lia.
      * destruct tmo; cbn; repeat split; discriminate.
      * repeat split; discriminate.
      * destruct pe; [|destruct tmo; [destruct wo|]]; cbn; repeat split; discriminate.
      * repeat split; try discriminate. intros k0 f E. inversion E. lia.
      * destruct pe; repeat split; try discriminate. destruct r; try discriminate. tauto.
      * tauto.
    + destruct stt; inversion H; subst; cbn; tauto.
    + inversion H; subst; cbn; tauto.
    + inversion H; subst; cbn; tauto.
    + inversion H; subst. unfold signal; cbn. destruct (lk i); cbn; [unfold wake; cbn; destruct stt|]; cbn; tauto.
    + inversion H; subst; cbn; tauto.
    + inversion H; subst; cbn; tauto.
    + destruct tm; [|discriminate]. destruct (_ <=? _); inversion H; subst. destruct stt; cbn; tauto.
    + inversion H; subst. unfold wake; cbn. destruct stt; cbn; tauto.
Qed.
Lemma never_ready : forall r0 s, reach_never n tmo t0 r0 s -> pc s <> Done Ready.
Proof. intros r0 s H. apply (never_quiet _ _ H). Qed.
End P.
