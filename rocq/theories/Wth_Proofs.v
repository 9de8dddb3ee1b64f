From Verif Require Import Lib Wth_Model Wth_Spec.

Section W.
Variable top : bool.
Variable size : Z.

Definition idle_pc (w : wpc) : Prop := match w with WLook | WSched | WTop => True | _ => False end.
Definition blocked_pc (w : wpc) : Prop := match w with WBlocked _ => True | _ => False end.
Definition body_pc (w : wpc) : Prop := match w with WLook | WSched | WNormal => False | _ => True end.
Definition waker (x : ppc) : Prop := match x with PCheck true true | PTick | PClear | PCas => True | _ => False end.
Definition strong_waker (x : ppc) : Prop := match x with PTick | PClear | PCas => True | _ => False end.
Record inv (s : st) : Prop := Inv {
  Iacc : accepted s = ran s ++ queue s;
  Iexp : expired s = fired s ++ deferred s;
  Isz : zlen (queue s) <= Z.max 0 size;
  Isleep : state s = Sleeping -> blocked_pc (pc s) \/ (idle_pc (pc s) /\ (waiting s = true \/ exists p, prod s p = PCas));
  Iwork : state s = Sleeping -> ~ blocked_pc (pc s) -> work_left top s -> exists p, waker (prod s p);
  Iwait : waiting s = true -> idle_pc (pc s);
  Istrong : top = false -> ~ idle_pc (pc s) -> forall p, ~ strong_waker (prod s p);
  Iblock : top = false -> broken s = false /\ (blocked_pc (pc s) -> granted s = false -> state s = Sleeping /\ on_cpu s = false);
  Iblk2 : blocked_pc (pc s) -> waiting s = false;
  Irun : on_cpu s = true -> body_pc (pc s) -> state s = Running;
  Ioff : on_cpu s = false -> state s <> Running;
  Itick : top = false -> deferred s = [] /\ forall p, prod s p <> PTick }.
Lemma inv_init : inv init.
Proof.
  constructor; cbn; try discriminate; auto; try tauto.
  - change (zlen (@nil Z)) with 0. lia.
  - intros _. split; [reflexivity|discriminate].
Qed.
Lemma wake_coming_iff s : wake_coming s <-> exists p, waker (prod s p).
Proof. unfold wake_coming, waker. split; intros (p & H); exists p; exact H. Qed.
Lemma fupd_waker (f : Z -> ppc) p x : (exists q, waker (f q)) -> ~ waker (f p) -> exists q, waker (fupd f p x q).
Proof. intros (q & H) N. exists q. rewrite fupd_other; [exact H|]. intros ->. auto. Qed.
Lemma fupd_new (f : Z -> ppc) p x : waker x -> exists q, waker (fupd f p x q).
Proof. intros H. exists p. rewrite fupd_same. exact H. Qed.
Lemma fupd_cas (f : Z -> ppc) p x : (exists q, f q = PCas) -> f p <> PCas -> exists q, fupd f p x q = PCas.
Proof. intros (q & H) N. exists q. rewrite fupd_other; [exact H|]. intros ->. auto. Qed.
Lemma fupd_weak (f : Z -> ppc) p x : (forall q, ~ strong_waker (f q)) -> ~ strong_waker x -> forall q, ~ strong_waker (fupd f p x q).
Proof. intros H N q. unfold fupd. destruct (q =? p); [exact N|apply H]. Qed.
Lemma fupd_notick (f : Z -> ppc) p x : (forall q, f q <> PTick) -> x <> PTick -> forall q, fupd f p x q <> PTick.
Proof. intros H N q. unfold fupd. destruct (q =? p); [exact N|apply H]. Qed.
Lemma zlen0 (l : list Z) : zlen l =? 0 = true <-> l = [].
Proof. rewrite Z.eqb_eq. split; [intros H; destruct l; [reflexivity|rewrite zlen_cons in H; pose proof (zlen_nonneg l); lia]|intros ->; reflexivity]. Qed.

Lemma enqueue_inv s p e : inv s -> prod s p = PIdle -> inv (enqueue size s p e).
Proof.
  intros [A B C D E F G H I J K L] Q. unfold enqueue. destruct (zlen (queue s) <? size) eqn:X.
  - constructor; cbn; auto.
    + rewrite A. apply app_assoc_reverse.
    + rewrite zlen_snoc. lia.
    + intros Y. destruct (D Y) as [Z0|(Z0 & [Z1|Z1])]; [auto|auto|]. right. split; [exact Z0|]. right. apply fupd_cas; [exact Z1|congruence].
    + intros Y1 Y2 Y3. destruct (zlen (queue s) =? 0) eqn:W; [apply fupd_new; exact Logic.I|]. apply fupd_waker; [|rewrite Q; cbn; tauto]. apply E; auto. left. intros Z0. rewrite Z0 in W. discriminate.
    + intros Y1 Y2. apply fupd_weak; [auto|]. cbn. tauto.
    + intros Y. destruct (L Y) as [Y1 Y2]. split; [exact Y1|]. apply fupd_notick; [exact Y2|discriminate].
  - constructor; cbn; auto.
    + intros Y. destruct (D Y) as [Z0|(Z0 & [Z1|Z1])]; [auto|auto|]. right. split; [exact Z0|]. right. apply fupd_cas; [exact Z1|congruence].
    + intros Y1 Y2 Y3. apply fupd_waker; [apply E; auto|rewrite Q; cbn; tauto].
    + intros Y1 Y2. apply fupd_weak; [auto|]. cbn. tauto.
    + intros Y. destruct (L Y) as [Y1 Y2]. split; [exact Y1|]. apply fupd_notick; [exact Y2|discriminate].
Qed.
Lemma expire_inv s p t : inv s -> top = true -> prod s p = PIdle \/ prod s p = PTick -> inv (expire s p t).
Proof.
  intros [A B C D E F G H I J K L] T Q. constructor; cbn; auto; try congruence.
  - rewrite B. apply app_assoc_reverse.
  - intros Y. destruct (D Y) as [Z0|(Z0 & [Z1|Z1])]; [auto|auto|]. right. split; [exact Z0|]. right. apply fupd_cas; [exact Z1|destruct Q; congruence].
  - intros _ _ _. apply fupd_new. exact Logic.I.
Qed.
Lemma pstep_inv s p : inv s -> inv (pstep s p).
Proof.
  intros V. pose proof V as [A B C D E F G H I J K L]. unfold pstep. destruct (prod s p) as [|ok we| | |] eqn:Q; [exact V| | | |].
  - destruct (ok && we && waiting s) eqn:X.
    + apply andb_true_iff in X. destruct X as [X X3]. apply andb_true_iff in X. destruct X as [-> ->]. constructor; cbn; auto.
      * intros _ _ _. apply fupd_new. exact Logic.I.
      * intros Y. destruct (L Y) as [Y1 Y2]. split; [exact Y1|]. apply fupd_notick; [exact Y2|discriminate].
    + constructor; cbn; auto.
      * intros Y. destruct (D Y) as [Z0|(Z0 & [Z1|Z1])]; [auto|auto|]. right. split; [exact Z0|]. right. apply fupd_cas; [exact Z1|congruence].
      * intros Y1 Y2 Y3. destruct (ok && we) eqn:W.
        -- cbn in X. destruct (D Y1) as [Z0|(_ & [Z1|(q & Z1)])]; [tauto|congruence|]. exists q. rewrite fupd_other; [rewrite Z1; exact Logic.I|]. intros ->. congruence.
        -- apply fupd_waker; [apply E; auto|]. rewrite Q. destruct ok, we; cbn in *; auto; discriminate.
      * intros Y1 Y2. apply fupd_weak; [auto|]. cbn. tauto.
      * intros Y. destruct (L Y) as [Y1 Y2]. split; [exact Y1|]. apply fupd_notick; [exact Y2|discriminate].
  - constructor; cbn; auto.
    + intros Y. destruct (D Y) as [Z0|(Z0 & [Z1|Z1])]; [auto|auto|]. right. split; [exact Z0|]. right. apply fupd_cas; [exact Z1|congruence].
    + intros _ _ _. apply fupd_new. exact Logic.I.
    + intros Y1 Y2. exfalso. apply (G Y1 Y2 p). rewrite Q. exact Logic.I.
    + intros Y. destruct (L Y) as [Y1 Y2]. split; [exact Y1|]. apply fupd_notick; [exact Y2|discriminate].
  - constructor; cbn; auto; try discriminate.
    + intros Y. destruct (D Y) as [Z0|(Z0 & Z1)]; [auto|]. right. split; [exact Z0|]. right. exists p. apply fupd_same.
    + intros _ _ _. apply fupd_new. exact Logic.I.
    + intros Y1 Y2. exfalso. apply (G Y1 Y2 p). rewrite Q. exact Logic.I.
    + intros Y. destruct (L Y) as [Y1 Y2]. split; [exact Y1|]. apply fupd_notick; [exact Y2|discriminate].
  - destruct (state s) eqn:St0.
    + constructor; cbn; auto; try congruence.
      * intros Y1 Y2. apply fupd_weak; [auto|]. cbn. tauto.
      * rewrite St0. exact H.
      * rewrite St0. exact K.
      * intros Y. destruct (L Y) as [Y1 Y2]. split; [exact Y1|]. apply fupd_notick; [exact Y2|discriminate].
    + constructor; cbn; auto; try congruence.
      * intros Y1 Y2. apply fupd_weak; [auto|]. cbn. tauto.
      * rewrite St0. exact H.
      * rewrite St0. exact J.
      * intros Y. destruct (L Y) as [Y1 Y2]. split; [exact Y1|]. apply fupd_notick; [exact Y2|discriminate].
    + constructor; cbn; auto; try discriminate.
      * intros Y1 Y2. exfalso. apply (G Y1 Y2 p). rewrite Q. exact Logic.I.
      * intros Y. destruct (H Y) as [Y1 Y2]. split; [exact Y1|]. intros Y3 Y4. exfalso. apply (G Y) with p; [destruct (pc s); cbn in *; tauto|rewrite Q; exact Logic.I].
      * intros Y1 Y2. specialize (J Y1 Y2). congruence.
      * intros Y. destruct (L Y) as [Y1 Y2]. split; [exact Y1|]. apply fupd_notick; [exact Y2|discriminate].
Qed.
Lemma quiet_no s : quiet s -> forall p, ~ waker (prod s p).
Proof. intros Q p. rewrite Q. cbn. tauto. Qed.
Lemma quiet_sleep s : inv s -> quiet s -> state s = Sleeping -> ~ blocked_pc (pc s) -> ~ work_left top s /\ waiting s = true.
Proof.
  intros V Q S N. split; [intros W; destruct (Iwork s V S N W) as (p & P); apply (quiet_no s Q p P)|].
  destruct (Isleep s V S) as [X|(_ & [X|(p & X)])]; [tauto|exact X|]. rewrite Q in X. discriminate.
Qed.
Lemma wstep_inv s : inv s -> quiet s -> on_cpu s = true -> inv (wstep top s).
Proof.
  intros V Q O. pose proof V as [A B C D E F G H I J K L]. pose proof (quiet_sleep s V Q) as QS. specialize (J O). unfold wstep. destruct (pc s) eqn:P; cbn in *.
  - (* WTop *) specialize (J Logic.I). constructor; cbn; auto; try congruence; try tauto; try (intros; rewrite Q; cbn; tauto).
  - specialize (J Logic.I). destruct top eqn:T.
    + destruct (deferred s) as [|t r] eqn:De.
      * constructor; cbn; auto; try congruence; try tauto; try (intros; rewrite Q; cbn; tauto); rewrite ?De; auto.
      * constructor; cbn; rewrite ?P; cbn; auto; try congruence; try tauto; try (intros; rewrite Q; cbn; tauto). rewrite B. rewrite <- app_assoc. reflexivity.
    + constructor; cbn; auto; try congruence; try tauto; try (intros; rewrite Q; cbn; tauto).
  - specialize (J Logic.I). destruct (queue s) as [|e r] eqn:Qu.
    + constructor; cbn; rewrite ?Qu; auto; try congruence; try tauto; try (intros; rewrite Q; cbn; tauto).
    + constructor; cbn; auto; try congruence; try tauto; try (intros; rewrite Q; cbn; tauto). 
      * rewrite A, <- app_assoc. reflexivity.
      * rewrite zlen_cons in C. lia.
  - specialize (J Logic.I). constructor; cbn; auto; try congruence; try tauto; try (intros; rewrite Q; cbn; tauto).
  - specialize (J Logic.I). destruct (granted s) eqn:Gr; constructor; cbn; auto; try congruence; try tauto; try (intros; rewrite Q; cbn; tauto).
  - specialize (J Logic.I). destruct ((zlen (queue s) =? 0) && (negb top || (zlen (deferred s) =? 0))) eqn:X.
    + apply andb_true_iff in X. destruct X as [X1 X2]. apply zlen0 in X1. constructor; cbn; auto; try congruence; try tauto; try (intros; rewrite Q; cbn; tauto).
      intros _ _ [Y|(Y1 & Y2)]; [cbn in Y; congruence|]. rewrite Y1 in X2. cbn in X2. apply zlen0 in X2. cbn in Y2. congruence.
    + constructor; cbn; auto; try congruence; try tauto; try (intros; rewrite Q; cbn; tauto).
  - destruct (waiting s) eqn:Wa.
    + constructor; cbn; auto; try congruence; try tauto; try (intros; rewrite Q; cbn; tauto).
    + destruct (state s) eqn:S0; constructor; cbn; rewrite ?S0; auto; try congruence; try tauto; try (intros; rewrite Q; cbn; tauto).
      all: exfalso; destruct (QS eq_refl ltac:(tauto)); congruence.
  - destruct (state s) eqn:S0; constructor; cbn; auto; try congruence; try tauto; try (intros; rewrite Q; cbn; tauto).
  - constructor; cbn; auto; try congruence; try tauto; try (intros; rewrite Q; cbn; tauto).
Qed.
Lemma step_inv s a s' : inv s -> allowed s a -> step top size s a = Some s' -> inv s'.
Proof.
  intros V AL E. destruct a; cbn in AL, E.
  - destruct (prod s p) eqn:Q; try discriminate. injection E as <-. apply enqueue_inv; assumption.
  - destruct top eqn:T; [|destruct (prod s p); discriminate]. destruct (prod s p) eqn:Q; try discriminate; injection E as <-; apply expire_inv; auto.
  - destruct (prod s p) eqn:Q; try discriminate; injection E as <-; apply pstep_inv; exact V.
  - destruct (on_cpu s) eqn:O; [|discriminate]. injection E as <-. apply wstep_inv; assumption.
  - destruct (on_cpu s) eqn:O; [|discriminate]. destruct (pc s) eqn:P; try discriminate. injection E as <-. destruct V as [A B C D E F G H I J K L]. rewrite P in *. cbn in *.
    constructor; cbn; auto; try congruence; try tauto; try (intros; rewrite AL; cbn; tauto).
    intros _. destruct (waiting s); [|reflexivity]. exfalso. auto.
  - destruct (pc s) eqn:P; try discriminate. destruct (granted s) eqn:Gr; [discriminate|]. destruct (on_cpu s) eqn:O; [discriminate|]. injection E as <-. destruct V as [A B C D E F G H I J K L]. rewrite P in *. cbn in *.
    constructor; cbn; rewrite ?P; cbn; auto; try congruence; try tauto; try (intros; rewrite AL; cbn; tauto).
    intros Y. destruct (H Y). split; [assumption|discriminate].
  - destruct (on_cpu s) eqn:O; [|discriminate]. injection E as <-. pose proof (quiet_sleep s V AL) as QS. destruct V as [A B C D E F G H I J K L].
    destruct (state s) eqn:S0; constructor; cbn; auto; try congruence; try tauto; try (intros; rewrite AL; cbn; tauto).
    all: intros Y; destruct (H Y) as [Y1 Y2]; split; [exact Y1|]; intros Y3 Y4; destruct (Y2 Y3 Y4); congruence.
  - destruct (on_cpu s) eqn:O; [discriminate|]. destruct (state s) eqn:S0; try discriminate. injection E as <-. destruct V as [A B C D E F G H I J K L].
    constructor; cbn; auto; try congruence; try tauto; try (intros; rewrite AL; cbn; tauto).
    all: intros Y; destruct (H Y) as [Y1 Y2]; split; [exact Y1|]; intros Y3 Y4; destruct (Y2 Y3 Y4); congruence.
Qed.

Lemma reach_inv s : reach top size s -> inv s.
Proof. induction 1 as [|s a s' R IH A E]; [apply inv_init|apply (step_inv s a s' IH A E)]. Qed.
Lemma jobs_fifo s : reach top size s -> accepted s = ran s ++ queue s /\ expired s = fired s ++ deferred s /\ zlen (queue s) <= Z.max 0 size.
Proof. intros R. apply reach_inv in R. destruct R. auto. Qed.
Lemma not_stranded s : reach top size s -> state s = Sleeping -> work_left top s -> in_job_wait s \/ wake_coming s.
Proof.
  intros R S W. apply reach_inv in R. destruct (Isleep s R S) as [B|(B & _)].
  - left. unfold in_job_wait. destruct (pc s); cbn in B; try tauto. eauto.
  - right. apply wake_coming_iff. apply (Iwork s R S); [|exact W]. destruct (pc s); cbn in *; tauto.
Qed.
Lemma job_undisturbed s : reach top size s -> top = false -> broken s = false /\ (in_job_wait s -> granted s = false -> state s = Sleeping).
Proof.
  intros R T. apply reach_inv in R. destruct (Iblock s R T) as [X Y]. split; [exact X|]. intros (e & P) G. apply Y; [rewrite P; exact Logic.I|exact G].
Qed.
Lemma running s : reach top size s -> on_cpu s = true -> match pc s with WLook | WSched | WNormal => True | _ => state s = Running end.
Proof. intros R O. apply reach_inv in R. pose proof (Irun s R O) as X. destruct (pc s); cbn in X; auto. Qed.

(** ** The worker alone *)
Lemma times_add n m f s : times (n + m) f s = times m f (times n f s).
Proof. revert s. induction n as [|n IH]; intros s; [reflexivity|]. cbn. apply IH. Qed.
Definition done_of (s s' : st) : Prop :=
  exists n, s' = times n (alone top) s.
Lemma done_refl s : done_of s s.
Proof. exists O. reflexivity. Qed.
Lemma done_step s s' : done_of (alone top s) s' -> done_of s s'.
Proof. intros (n & ->). exists (S n). reflexivity. Qed.
Lemma drain : forall n s, (length (queue s) + length (deferred s) <= n)%nat -> on_cpu s = true -> pc s = WTimers -> (top = false -> deferred s = []) ->
  exists s', done_of s s' /\ state s' = Sleeping /\ queue s' = [] /\ deferred s' = [] /\ ran s' = ran s ++ queue s /\ fired s' = fired s ++ deferred s /\ accepted s' = accepted s /\ waiting s' = true.
Proof.
  induction n as [|n IH]; intros s L O P T.
  - destruct (queue s) as [|e r] eqn:Q; [|cbn in L; lia]. destruct (deferred s) as [|e r] eqn:D; [|cbn in L; lia].
    assert (exists s', done_of (set_pc s WRead) s' /\ state s' = Sleeping /\ queue s' = [] /\ deferred s' = [] /\ ran s' = ran s ++ [] /\ fired s' = fired s ++ [] /\ accepted s' = accepted s /\ waiting s' = true) as (s' & X & Y).
    { eexists. split; [|shelve]. apply done_step. unfold alone at 1. cbn [on_cpu set_pc set_w]. rewrite O. cbn [wstep pc set_pc set_w queue]. unfold wstep. cbn [pc set_pc set_w queue]. rewrite Q.
      apply done_step. unfold alone. cbn [on_cpu set_pc set_w]. rewrite O. unfold wstep. cbn [pc set_pc set_w queue deferred]. rewrite Q, D. cbn [zlen length Z.of_nat Z.eqb andb orb]. rewrite orb_true_r. apply done_refl.
      Unshelve. change (zlen (@nil Z) =? 0) with true. cbn. rewrite !app_nil_r. rewrite Q, D. auto 8. }
    exists s'. split; [|exact Y]. apply done_step. unfold alone. rewrite O. unfold wstep. rewrite P, D. destruct top; exact X.
  - destruct (deferred s) as [|t r] eqn:D.
    + destruct (queue s) as [|e r] eqn:Q; [specialize (IH s); rewrite Q, D in IH; apply IH; auto; cbn; lia|].
      destruct (IH (set_pc (St (state s) (on_cpu s) (WJob e) (waiting s) r (deferred s) (prod s) (granted s) (accepted s) (ran s ++ [e]) (fired s) (expired s) (broken s)) WTimers)) as (s' & X & Y1 & Y2 & Y3 & Y4 & Y5 & Y6).
      * cbn. rewrite D. cbn in *. lia.
      * exact O.
      * reflexivity.
      * exact (fun _ => D).
      * exists s'. split; [|cbn in *; rewrite D in Y5; rewrite Y4, <- app_assoc; auto 8].
        apply done_step. unfold alone. rewrite O. unfold wstep. rewrite P, D.
        replace (if top then set_pc s WRead else set_pc s WRead) with (set_pc s WRead) by (destruct top; reflexivity).
        apply done_step. unfold alone. cbn [on_cpu set_pc set_w]. rewrite O. unfold wstep. cbn [pc set_pc set_w queue]. rewrite Q. cbn [state on_cpu waiting deferred prod granted accepted ran fired expired broken].
        apply done_step. unfold alone. cbn [on_cpu set_pc set_w]. rewrite O. unfold wstep. cbn [pc]. rewrite O in X. exact X.
    + destruct top eqn:Tp; [|specialize (T eq_refl); discriminate].
      destruct (IH (St (state s) (on_cpu s) (pc s) (waiting s) (queue s) r (prod s) (granted s) (accepted s) (ran s) (fired s ++ [t]) (expired s) (broken s))) as (s' & X & Y1 & Y2 & Y3 & Y4 & Y5 & Y6).
      * cbn in *. lia.
      * exact O.
      * exact P.
      * discriminate.
      * exists s'. split; [|cbn in *; rewrite Y5, <- app_assoc; auto 8].
        apply done_step. unfold alone. rewrite O. unfold wstep. rewrite P, D, Tp. rewrite P in X. exact X.
Qed.
Definition finished (s s' : st) : Prop :=
  done_of s s' /\ state s' = Sleeping /\ queue s' = [] /\ deferred s' = [] /\ ran s' = ran s ++ queue s /\ fired s' = fired s ++ deferred s /\ accepted s' = accepted s /\ waiting s' = true.
Lemma finished_step s : queue (alone top s) = queue s -> deferred (alone top s) = deferred s -> ran (alone top s) = ran s -> fired (alone top s) = fired s -> accepted (alone top s) = accepted s ->
  (exists s', finished (alone top s) s') -> exists s', finished s s'.
Proof. intros A B C D E (s' & X & Y1 & Y2 & Y3 & Y4 & Y5 & Y6 & Y7). exists s'. unfold finished. rewrite A, B, C, D, E in *. split; [apply done_step; exact X|auto 8]. Qed.
Ltac go := apply finished_step; unfold alone; repeat match goal with H : on_cpu _ = _ |- _ => rewrite H end; unfold wstep; repeat match goal with H : pc _ = _ |- _ => rewrite H end; try reflexivity.
Definition ready (s : st) : Prop := on_cpu s = true /\ (top = false -> deferred s = []).
Lemma from_timers s : ready s -> pc s = WTimers -> exists s', finished s s'.
Proof. intros [O T] P. destruct (drain _ s (le_n _) O P T) as (s' & X). exists s'. exact X. Qed.
Lemma from_top s : ready s -> pc s = WTop -> exists s', finished s s'.
Proof. intros [O T] P. go. apply from_timers; [split; cbn; assumption|reflexivity]. Qed.
Lemma from_normal s : ready s -> pc s = WNormal -> exists s', finished s s'.
Proof. intros [O T] P. go. apply from_top; [split; cbn; assumption|reflexivity]. Qed.
Lemma from_sched s : ready s -> pc s = WSched -> state s <> Sleeping -> exists s', finished s s'.
Proof.
  intros [O T] P N. assert (E : alone top s = set_w s Running true WTop) by (unfold alone, wstep; rewrite O, P; destruct (state s); tauto).
  apply finished_step; rewrite E; try reflexivity. apply from_top; [split; cbn; auto|reflexivity].
Qed.
Lemma from_look s : ready s -> pc s = WLook -> state s <> Sleeping -> exists s', finished s s'.
Proof.
  intros [O T] P N. assert (E : alone top s = if waiting s then set_pc s WSched else match state s with Runnable => set_pc s WNormal | _ => set_pc s WTop end) by (unfold alone, wstep; rewrite O, P; reflexivity).
  apply finished_step; rewrite E; destruct (waiting s); try (destruct (state s); reflexivity); try reflexivity.
  - apply from_sched; [split; cbn; auto|reflexivity|exact N].
  - destruct (state s); [|apply from_normal; [split; cbn; auto|reflexivity]|tauto]. apply from_top; [split; cbn; auto|reflexivity].
Qed.
Lemma from_decide s : ready s -> pc s = WDecide -> state s = Running -> exists s', finished s s'.
Proof.
  intros [O T] P N. assert (E : alone top s = if (zlen (queue s) =? 0) && (negb top || (zlen (deferred s) =? 0)) then set_waiting (set_w s Sleeping (on_cpu s) WLook) true else set_pc s WLook) by (unfold alone, wstep; rewrite O, P; reflexivity).
  destruct ((zlen (queue s) =? 0) && (negb top || (zlen (deferred s) =? 0))) eqn:X.
  - apply andb_true_iff in X. destruct X as [X1 X2]. apply zlen0 in X1. assert (X3 : deferred s = []) by (destruct top; [apply zlen0; exact X2|auto]).
    exists (alone top s). unfold finished. split; [exists 1%nat; reflexivity|]. rewrite E. cbn. rewrite X1, X3, !app_nil_r. auto 8.
  - apply finished_step; rewrite E; try reflexivity. apply from_look; [split; cbn; auto|reflexivity|cbn; congruence].
Qed.
Lemma from_job s e : ready s -> pc s = WJob e -> exists s', finished s s'.
Proof. intros [O T] P. go. apply from_timers; [split; cbn; assumption|reflexivity]. Qed.
Lemma from_read s : ready s -> pc s = WRead -> state s = Running -> exists s', finished s s'.
Proof.
  intros [O T] P N. assert (E : alone top s = wstep top s) by (unfold alone; rewrite O; reflexivity). unfold wstep in E. rewrite P in E. destruct (queue s) as [|e r] eqn:Q.
  - apply finished_step; rewrite E; try reflexivity. apply from_decide; [split; cbn; auto|reflexivity|exact N].
  - destruct (from_job (alone top s) e) as (s' & X & Y1 & Y2 & Y3 & Y4 & Y5 & Y6).
    + rewrite E. split; cbn; assumption.
    + rewrite E. reflexivity.
    + exists s'. split; [apply done_step; exact X|]. rewrite E in *. cbn in *. rewrite <- app_assoc in Y4. rewrite Q. auto 8.
Qed.
Lemma progress s : reach top size s -> quiet s -> ~ in_job_wait s ->
  exists n, let s' := times n (alone top) s in
  state s' = Sleeping /\ queue s' = [] /\ deferred s' = [] /\ ran s' = accepted s /\ fired s' = expired s /\ accepted s' = accepted s.
Proof.
  intros R Q B. apply reach_inv in R. assert (NB : ~ blocked_pc (pc s)) by (intros X; apply B; unfold in_job_wait; destruct (pc s); cbn in X; try tauto; eauto).
  assert (G : exists s', finished s s').
  { destruct (state s) eqn:S0.
    1, 2: assert (ON : forall s1, ready s1 -> state s1 <> Sleeping -> pc s1 = pc s -> (body_pc (pc s1) -> state s1 = Running) -> exists s', finished s1 s').
    1, 3: intros s1 Rd NS E1 BR; rewrite <- E1 in NB; destruct (pc s1) eqn:P; cbn in BR, NB;
          [apply from_top; auto|apply from_timers; auto|apply from_read; auto|eapply from_job; eauto|tauto|apply from_decide; auto|apply from_look; auto|apply from_sched; auto|apply from_normal; auto].
    - assert (O : on_cpu s = true) by (destruct (on_cpu s) eqn:O; [reflexivity|]; destruct (Ioff s R O); exact S0). apply ON; [split; [exact O|intros T; apply (Itick s R T)]|congruence|reflexivity|auto].
    - destruct (on_cpu s) eqn:O.
      + apply ON; [split; [exact O|intros T; apply (Itick s R T)]|congruence|reflexivity|]. intros X. pose proof (Irun s R O X). congruence.
      + assert (E : alone top s = set_w s Running true (pc s)) by (unfold alone; rewrite O, S0; reflexivity). apply finished_step; rewrite E; try reflexivity.
        apply ON; [split; [reflexivity|intros T; apply (Itick s R T)]|discriminate|reflexivity|reflexivity].
    - destruct (quiet_sleep s R Q S0 NB) as [W1 W2]. exists s. unfold finished. split; [apply done_refl|]. assert (X1 : queue s = []) by (destruct (queue s) eqn:X; [reflexivity|exfalso; apply W1; left; congruence]).
      assert (X2 : deferred s = []) by (destruct top eqn:T; [destruct (deferred s) eqn:X; [reflexivity|exfalso; apply W1; right; split; congruence]|apply (Itick s R T)]). rewrite X1, X2, !app_nil_r. auto 8. }
  destruct G as (s' & (n & E) & Y1 & Y2 & Y3 & Y4 & Y5 & Y6 & Y7). exists n. cbn. rewrite <- E. rewrite (Iacc s R), (Iexp s R). rewrite Y6, (Iacc s R). auto 8.
Qed.
End W.

(** ** Worker 0: a deferred timer wakes a job out of its wait *)
Definition okb (s : st) (a : action) : bool :=
  match a with Enqueue p _ | Expire p _ | Prod p => p =? 1 | _ => match prod s 1 with PIdle => true | _ => false end end.
Fixpoint crun (acts : list action) (s : st) : option st :=
  match acts with [] => Some s | a :: l => if okb s a then match step true 4 s a with Some s' => crun l s' | None => None end else None end.
Lemma crun_reach : forall acts s s', reach true 4 s -> (forall p, p <> 1 -> prod s p = PIdle) -> crun acts s = Some s' -> reach true 4 s'.
Proof.
  induction acts as [|a l IH]; intros s s' R Q E; cbn in E; [injection E as <-; exact R|].
  destruct (okb s a) eqn:B; [|discriminate]. destruct (step true 4 s a) as [s1|] eqn:S1; [|discriminate]. apply (IH s1 s'); [|  |exact E].
  - refine (RS _ _ s a s1 R _ S1). destruct a; cbn in *; auto; intros p; destruct (Z.eq_dec p 1) as [->|X]; auto; destruct (prod s 1); auto; discriminate.
  - intros q Hq. destruct a; cbn in B, S1; try (apply Z.eqb_eq in B; subst p).
    + destruct (prod s 1); try discriminate. injection S1 as <-. unfold enqueue. destruct (zlen (queue s) <? 4); cbn; rewrite fupd_other; auto.
    + destruct (prod s 1); try discriminate; injection S1 as <-; cbn; rewrite fupd_other; auto.
    + destruct (prod s 1) eqn:P1; try discriminate; injection S1 as <-; unfold pstep; rewrite P1; cbn; try (rewrite fupd_other; auto). destruct (state s); cbn; auto.
    + destruct (on_cpu s); [|discriminate]. injection S1 as <-. unfold wstep. destruct (pc s); cbn; auto; repeat match goal with |- context [match ?x with _ => _ end] => destruct x end; cbn; auto.
    + destruct (on_cpu s); [|discriminate]. destruct (pc s); try discriminate. injection S1 as <-. cbn. auto.
    + destruct (pc s); try discriminate. destruct (granted s); try discriminate. destruct (on_cpu s); try discriminate. injection S1 as <-. cbn. auto.
    + destruct (on_cpu s); [|discriminate]. injection S1 as <-. cbn. auto.
    + destruct (on_cpu s); [discriminate|]. destruct (state s); try discriminate. injection S1 as <-. cbn. auto.
Qed.
Definition bad_acts : list action := [Enqueue 1 5; Prod 1; Resume; Work; Work; Work; Block; Expire 1 9; Prod 1; Prod 1; Prod 1; Resume; Work].
Lemma top_job_broken : exists s, reach true 4 s /\ broken s = true.
Proof.
  destruct (crun bad_acts init) as [s|] eqn:E; [|vm_compute in E; discriminate]. exists s. split; [apply (crun_reach bad_acts init s); [constructor|reflexivity|exact E]|]. vm_compute in E. injection E as <-. reflexivity.
Qed.

(** ** The table of workers *)
Lemma pick_ok : forall l sel, match pick sel l with
  | Some t => (sel = Some t /\ (forall x, In x l -> runnable x = true -> prio t <= prio x)) \/
              (exists a b, l = a ++ t :: b /\ runnable t = true /\ (forall x, In x a -> runnable x = true -> prio t < prio x) /\ (forall x, In x b -> runnable x = true -> prio t <= prio x) /\ (forall y, sel = Some y -> prio t < prio y))
  | None => sel = None /\ forall x, In x l -> runnable x = false
  end.
Proof.
  induction l as [|t l IH]; intros sel; cbn.
  - destruct sel; [left; split; [reflexivity|intros x []]|split; [reflexivity|intros x []]].
  - set (sel' := if runnable t then _ else _). specialize (IH sel'). destruct (pick sel' l) as [u|].
    + destruct IH as [(E & M)|(a & b & -> & Ru & Ma & Mb & My)].
      * unfold sel' in E. destruct (runnable t) eqn:Rt.
        -- destruct sel as [y|].
           ++ destruct (prio t <? prio y) eqn:X; injection E as <-.
              ** right. exists [], l. repeat split; auto; [intros x []|]. intros y0 Y. injection Y as <-. lia.
              ** left. split; [reflexivity|]. intros x [->|I]; [intros; lia|auto].
           ++ injection E as <-. right. exists [], l. repeat split; auto; [intros x []|discriminate].
        -- left. split; [exact E|]. intros x [->|I]; [congruence|auto].
      * right. exists (t :: a), b. split; [reflexivity|]. split; [exact Ru|]. unfold sel' in My. split; [|split; [exact Mb|]].
        -- intros x [->|I] Rx; [|auto]. rewrite Rx in My. destruct sel as [y|]; [destruct (prio x <? prio y) eqn:X; [apply My; reflexivity|specialize (My y eq_refl); lia]|apply My; reflexivity].
        -- intros y ->. destruct (runnable t); [|apply My; reflexivity]. destruct (prio t <? prio y) eqn:X; [specialize (My t eq_refl); lia|apply My; reflexivity].
    + destruct IH as [E M]. unfold sel' in E. destruct (runnable t) eqn:Rt; [destruct sel as [y|]; [destruct (prio t <? prio y)|]; discriminate|]. split; [exact E|]. intros x [->|I]; auto.
Qed.
Lemma runnable_pick l : match get_runnable_thread l with
  | Some t => exists a b, l = a ++ t :: b /\ runnable t = true /\ (forall x, In x a -> runnable x = true -> prio t < prio x) /\ (forall x, In x b -> runnable x = true -> prio t <= prio x)
  | None => forall x, In x l -> runnable x = false
  end.
Proof.
  unfold get_runnable_thread. pose proof (pick_ok l None) as H. destruct (pick None l) as [t|]; [|apply H]. destruct H as [(E & _)|(a & b & X)]; [discriminate|]. exists a, b. tauto.
Qed.
Lemma scan_ok ws lowest space : forall i, (i <= length ws)%nat -> match scan ws lowest space i with
  | Some k => (k < i)%nat /\ eligible lowest (nth k ws (Wk true 0 false)) /\ space k = true /\ forall j, (k < j < i)%nat -> eligible lowest (nth j ws (Wk true 0 false)) -> space j = false
  | None => forall j, (j < i)%nat -> eligible lowest (nth j ws (Wk true 0 false)) -> space j = false
  end.
Proof.
  induction i as [|i IH]; intros Hi; cbn; [intros j Hj; lia|]. specialize (IH ltac:(lia)).
  assert (SK : (eligible lowest (nth i ws (Wk true 0 false)) -> space i = false) -> match scan ws lowest space i with
    | Some k => (k < S i)%nat /\ eligible lowest (nth k ws (Wk true 0 false)) /\ space k = true /\ forall j, (k < j < S i)%nat -> eligible lowest (nth j ws (Wk true 0 false)) -> space j = false
    | None => forall j, (j < S i)%nat -> eligible lowest (nth j ws (Wk true 0 false)) -> space j = false
    end).
  { intros N. destruct (scan ws lowest space i) as [k|].
    - destruct IH as (A & B & C & D). repeat split; try apply B; auto. intros j Hj El. destruct (Nat.eq_dec j i) as [->|X]; [auto|apply D; [lia|exact El]].
    - intros j Hj El. destruct (Nat.eq_dec j i) as [->|X]; [auto|apply IH; [lia|exact El]]. }
  destruct (named (nth i ws (Wk true 0 false))) eqn:Na; [apply SK; intros [X _]; congruence|].
  destruct (prio (nth i ws (Wk true 0 false)) >? lowest) eqn:Pr; [apply SK; intros [_ X]; lia|].
  destruct (space i) eqn:Sp; [|apply SK; auto]. split; [lia|]. split; [split; [exact Na|lia]|]. split; [exact Sp|]. intros j Hj. lia.
Qed.
Lemma anywhere_ok ws lowest space : ws <> [] -> named (nth 0 ws (Wk true 0 false)) = false -> prio (nth 0 ws (Wk true 0 false)) = 0 ->
  (forall j, (0 < j < length ws)%nat -> 0 < prio (nth j ws (Wk true 0 false))) -> 0 <= lowest ->
  match enqueue_anywhere ws lowest space with
  | Some k => (k < length ws)%nat /\ eligible lowest (nth k ws (Wk true 0 false)) /\ space k = true /\ forall j, (k < j < length ws)%nat -> eligible lowest (nth j ws (Wk true 0 false)) -> space j = false
  | None => forall j, (j < length ws)%nat -> eligible lowest (nth j ws (Wk true 0 false)) -> space j = false
  end.
Proof.
  intros N Na Pr Ot Lo. unfold enqueue_anywhere. assert (0 < length ws)%nat by (destruct ws; cbn; [tauto|lia]). destruct (lowest =? 0) eqn:X; [|apply scan_ok; lia].
  destruct (space O) eqn:Sp.
  - split; [lia|]. split; [split; [exact Na|lia]|]. split; [exact Sp|]. intros j Hj [_ P]. specialize (Ot j ltac:(lia)). lia.
  - intros j Hj [_ P]. destruct j as [|j]; [exact Sp|]. specialize (Ot (S j) ltac:(lia)). lia.
Qed.
Lemma find_ok ws lowest : ws <> [] -> named (nth 0 ws (Wk true 0 false)) = false -> prio (nth 0 ws (Wk true 0 false)) = 0 -> 0 <= lowest ->
  (find_worker ws lowest < length ws)%nat /\ eligible lowest (nth (find_worker ws lowest) ws (Wk true 0 false)).
Proof.
  intros N Na Pr Lo. unfold find_worker. assert (0 < length ws)%nat by (destruct ws; cbn; [tauto|lia]). destruct (lowest =? 0) eqn:X; [split; [lia|split; [exact Na|lia]]|].
  pose proof (scan_ok ws lowest (fun _ => true) (length ws) (le_n _)) as H0. destruct (scan ws lowest (fun _ => true) (length ws)) as [k|]; [tauto|]. specialize (H0 O ltac:(lia)). discriminate H0. split; [exact Na|lia].
Qed.
