From Verif Require Import Lib Card RwWp_Model RwWp_Spec.

Definition isRU (p : pc) : bool := match p with Want RU => true | _ => false end.
Definition isWU (p : pc) : bool := match p with Want WU => true | _ => false end.
Definition isRW (p : pc) : bool := match p with RWait => true | _ => false end.
Definition isWW (p : pc) : bool := match p with WWait => true | _ => false end.
Definition isReg (p : pc) : bool := match p with WWait | Want WL2 => true | _ => false end.
Definition rd (s : wp) (tr : list event) (t : Z) : bool := reading tr t || isRU (wpc s t).
Definition rg (s : wp) (t : Z) : bool := isReg (wpc s t) || is_owner s t.

(** What a task's place in the code says about its history *)
Definition cons_ok (b : bool) (p : pc) (r : bool) (d : Z) (q : bool) : Prop :=
  0 <= d <= 65535 /\ (b = false -> d <= 1) /\
  match p with
  | Out => (r = true -> d = 0) /\ q = false
  | Want RL | RWait | Want RU => r = false /\ d = 0 /\ q = false
  | Want WL => r = false /\ q = false /\ (if b then d < 65535 else d = 0)
  | Want WL2 | WWait => r = false /\ d = 0 /\ q = true
  | Want WU => r = false /\ q = false /\ d < 65535 /\ (b = false -> d = 0)
  end.

Record inv0 (b : bool) (s : wp) (tr : list event) : Prop := {
  i_rec : rec s = b;
  i_task : forall t, cons_ok b (wpc s t) (reading tr t) (depth tr t) (queued tr t);
  i_own : forall t, exo s = Some t <-> (0 < depth tr t \/ wpc s t = Want WU);
  i_rc : b = true -> rc s = match exo s with None => 0 | Some t => depth tr t + b2z (isWU (wpc s t)) end;
  i_nr : card (rd s tr) (nr s);
  i_wq : card (rg s) (wq s);
  i_ex : exo s <> None -> nr s = 0;
  i_rcv : queue (fun t => isRW (wpc s t)) (rcv s);
  i_wcv : queue (fun t => isWW (wpc s t)) (wcv s)
}.

Record inv (b : bool) (s : wp) (tr : list event) : Prop := {
  i_0 :> inv0 b s tr;
  i_r0 : wq s = 0 -> rcv s = [];
  i_free : exo s = None -> nr s = 0 -> 0 < wq s -> exists t, wpc s t = Want WL2
}.

Lemma reading_app a c t : reading (a ++ c) t = fold_left (reading1 t) c (reading a t).
Proof. apply fold_left_app. Qed.
Lemma depth_app a c t : depth (a ++ c) t = fold_left (depth1 t) c (depth a t).
Proof. apply fold_left_app. Qed.
Lemma queued_app a c t : queued (a ++ c) t = fold_left (queued1 t) c (queued a t).
Proof. apply fold_left_app. Qed.

Definition ev_task (e : event) : Z :=
  match e with ERead t | EReadEnd t | EReg t | EWrite t | EWriteEnd t => t end.

Lemma hist_other evs tr t u : Forall (fun e => ev_task e = t) evs -> u <> t ->
  reading (tr ++ evs) u = reading tr u /\ depth (tr ++ evs) u = depth tr u /\ queued (tr ++ evs) u = queued tr u.
Proof.
  intros F N. rewrite reading_app, depth_app, queued_app.
  generalize (reading tr u) (depth tr u) (queued tr u).
  induction evs as [|e evs IH]; cbn; intros r d q; [auto|].
  apply Forall_cons_iff in F. destruct F as [F1 F2].
  assert (E : t =? u = false) by lia.
  destruct e; cbn in F1; subst; cbn; rewrite ?E; apply IH; exact F2.
Qed.

(** One task moves to [q]; everything is determined by what happens to it *)
Lemma upd b s tr t q s' evs :
  inv0 b s tr -> Forall (fun e => ev_task e = t) evs -> let tr' := tr ++ evs in
  wpc s' = fupd (wpc s) t q -> rec s' = rec s ->
  cons_ok b q (reading tr' t) (depth tr' t) (queued tr' t) ->
  (forall u, u <> t -> (exo s' = Some u <-> exo s = Some u)) ->
  (exo s' = Some t <-> (0 < depth tr' t \/ q = Want WU)) ->
  (b = true -> exo s' = Some t -> rc s' = depth tr' t + b2z (isWU q)) ->
  (b = true -> exo s' <> Some t -> rc s' = match exo s' with None => 0 | Some _ => rc s end) ->
  nr s' = nr s + b2z (reading tr' t || isRU q) - b2z (rd s tr t) ->
  wq s' = wq s + b2z (isReg q || is_owner s' t) - b2z (rg s t) ->
  (exo s' <> None -> nr s' = 0) ->
  (if isRW q then rcv s' = rcv s ++ [t] /\ isRW (wpc s t) = false
   else if isRW (wpc s t) then rcv s' = unlink t (rcv s) else rcv s' = rcv s) ->
  (if isWW q then wcv s' = wcv s ++ [t] /\ isWW (wpc s t) = false
   else if isWW (wpc s t) then wcv s' = unlink t (wcv s) else wcv s' = wcv s) ->
  inv0 b s' tr'.
Proof.
  intros I F tr' Hpc Hrec Hc Ho1 Ho2 Hr1 Hr2 Hn Hw He HR HW.
  assert (HO := fun u => hist_other evs tr t u F). fold tr' in HO.
  assert (P : forall u, u <> t -> wpc s' u = wpc s u) by (intros u N; rewrite Hpc, fupd_other by assumption; reflexivity).
  assert (Q : wpc s' t = q) by (rewrite Hpc; apply fupd_same).
  destruct I. constructor.
  - congruence.
  - intros u. destruct (Z.eq_dec u t) as [->|N]; [rewrite Q; exact Hc|].
    destruct (HO u N) as (-> & -> & ->). rewrite P by assumption. auto.
  - intros u. destruct (Z.eq_dec u t) as [->|N]; [rewrite Q; exact Ho2|].
    destruct (HO u N) as (_ & -> & _). rewrite P by assumption. rewrite Ho1 by assumption. auto.
  - intros B. destruct (exo s') as [u|] eqn:E.
    + destruct (Z.eq_dec u t) as [->|N]; [rewrite Q; auto|].
      destruct (HO u N) as (_ & -> & _). rewrite P by assumption.
      rewrite Hr2 by congruence. rewrite i_rc0 by assumption.
      assert (Es : exo s = Some u) by (apply Ho1; auto). rewrite Es. reflexivity.
    + rewrite Hr2 by congruence. reflexivity.
  - eapply card_upd with (t := t); [| |exact i_nr0].
    + intros u N. unfold rd. destruct (HO u N) as (-> & _ & _). rewrite P by assumption. reflexivity.
    + unfold rd at 1. rewrite Q. exact Hn.
  - eapply card_upd with (t := t); [| |exact i_wq0].
    + intros u N. unfold rg, is_owner. rewrite P by assumption. f_equal.
      specialize (Ho1 u N). destruct (exo s') as [x|], (exo s) as [y|]; try reflexivity.
      * destruct (x =? u) eqn:E1, (y =? u) eqn:E2; try reflexivity.
        -- assert (x = u) by lia. subst. destruct Ho1 as [K _]. specialize (K eq_refl). injection K. lia.
        -- assert (y = u) by lia. subst. destruct Ho1 as [_ K]. specialize (K eq_refl). injection K. lia.
      * destruct (x =? u) eqn:E1; [|reflexivity]. assert (x = u) by lia. subst. destruct Ho1 as [K _]. discriminate (K eq_refl).
      * destruct (y =? u) eqn:E1; [|reflexivity]. assert (y = u) by lia. subst. destruct Ho1 as [_ K]. discriminate (K eq_refl).
    + unfold rg at 1. rewrite Q. exact Hw.
  - exact He.
  - assert (E : forall u, u <> t -> isRW (wpc s' u) = isRW (wpc s u)) by (intros; rewrite P; auto).
    destruct (isRW q) eqn:Eq; [|destruct (isRW (wpc s t)) eqn:Et].
    + destruct HR as [-> HR]. eapply queue_snoc; [| |exact E|exact i_rcv0]; cbn; congruence.
    + rewrite HR. eapply queue_drop; [|exact E|exact i_rcv0]. cbn. congruence.
    + rewrite HR. eapply queue_ext; [|exact i_rcv0]. intros u. cbn. destruct (Z.eq_dec u t) as [->|N]; [congruence|auto].
  - assert (E : forall u, u <> t -> isWW (wpc s' u) = isWW (wpc s u)) by (intros; rewrite P; auto).
    destruct (isWW q) eqn:Eq; [|destruct (isWW (wpc s t)) eqn:Et].
    + destruct HW as [-> HW]. eapply queue_snoc; [| |exact E|exact i_wcv0]; cbn; congruence.
    + rewrite HW. eapply queue_drop; [|exact E|exact i_wcv0]. cbn. congruence.
    + rewrite HW. eapply queue_ext; [|exact i_wcv0]. intros u. cbn. destruct (Z.eq_dec u t) as [->|N]; [congruence|auto].
Qed.

Ltac sp := cbn [rec exo nr wq rc rcv wcv wpc set_pc] in *.

(** Waking a writer keeps the invariant and leaves a writer runnable *)
Lemma inv0_signal_writer b s tr : inv0 b s tr -> inv0 b (signal_writer s) tr.
Proof.
  intros I. unfold signal_writer. destruct (wcv s) as [|t l] eqn:E; [exact I|].
  assert (Et : wpc s t = WWait).
  { destruct (i_wcv _ _ _ I) as [_ B]. rewrite E in B. specialize (B t). destruct B as [B _].
    specialize (B (or_introl eq_refl)). destruct (wpc s t); try discriminate. reflexivity. }
  pose proof (i_task _ _ _ I t) as Ht. rewrite Et in Ht. destruct Ht as (H1 & H2 & H3 & H4 & H5).
  rewrite <- (app_nil_r tr).
  apply (upd b s tr t (Want WL2)); sp; rewrite ?app_nil_r; auto.
  - unfold cons_ok; tauto.
  - reflexivity.
  - rewrite (i_own _ _ _ I t), Et, H4. intuition (try lia; try discriminate).
  - intros B Eo. rewrite (i_rc _ _ _ I B), Eo, Et. reflexivity.
  - intros B Eo. rewrite (i_rc _ _ _ I B) at 1. destruct (exo s) eqn:Ex; [|reflexivity]. rewrite (i_rc _ _ _ I B), Ex. reflexivity.
  - unfold rd. rewrite Et, H3. cbn. lia.
  - unfold rg, is_owner. sp. rewrite Et. cbn. lia.
  - apply I.
  - rewrite Et. reflexivity.
  - rewrite Et. cbn. rewrite E. cbn [unlink filter]. rewrite Z.eqb_refl. cbn [negb].
    destruct (i_wcv _ _ _ I) as [A _]. rewrite E in A. apply NoDup_cons_iff in A.
    symmetry. apply filter_neq_notin. apply A.
Qed.

Lemma signal_writer_runs b s tr : inv0 b s tr -> exo s = None -> 0 < wq s ->
  exists t, wpc (signal_writer s) t = Want WL2.
Proof.
  intros I E W. unfold signal_writer. destruct (wcv s) as [|t l] eqn:El.
  - destruct (card_ex _ _ (i_wq _ _ _ I) W) as [t Ht]. exists t. unfold rg, is_owner in Ht. rewrite E, orb_false_r in Ht.
    pose proof (i_wcv _ _ _ I) as Q. rewrite El in Q. pose proof (queue_nil_inv _ t Q) as N. cbn in N.
    destruct (wpc s t) as [|o| |] eqn:Ep; try discriminate. destruct o; try discriminate. reflexivity.
  - exists t. sp. apply fupd_same.
Qed.

Lemma signal_writer_fields s : let s' := signal_writer s in
  exo s' = exo s /\ nr s' = nr s /\ wq s' = wq s /\ rcv s' = rcv s /\ rc s' = rc s /\ rec s' = rec s.
Proof. cbn. unfold signal_writer. destruct (wcv s); cbn; auto 6. Qed.

Lemma wake_all l : forall f t, fold_left (fun f t => fupd f t (Want RL)) l f t = if existsb (Z.eqb t) l then Want RL else f t.
Proof.
  induction l as [|x l IH]; intros f t; cbn; [reflexivity|]. rewrite IH. unfold fupd.
  destruct (existsb (Z.eqb t) l); [rewrite orb_true_r; reflexivity|]. rewrite orb_false_r. reflexivity.
Qed.

Lemma inv0_signal_readers b s tr : inv0 b s tr -> inv0 b (signal_readers s) tr.
Proof.
  intros I. unfold signal_readers.
  assert (K : forall t, existsb (Z.eqb t) (rcv s) = isRW (wpc s t)).
  { intros t. destruct (i_rcv _ _ _ I) as [_ B]. specialize (B t). cbn in B.
    destruct (existsb (Z.eqb t) (rcv s)) eqn:E.
    - apply existsb_exists in E. destruct E as (x & E1 & E2). assert (t = x) by lia. subst x. symmetry. apply B, E1.
    - destruct (isRW (wpc s t)) eqn:E2; [|reflexivity]. apply proj2 in B. specialize (B eq_refl).
      assert (existsb (Z.eqb t) (rcv s) = true); [|congruence]. apply existsb_exists. exists t. split; [exact B|lia]. }
  assert (P : forall t, fold_left (fun f t => fupd f t (Want RL)) (rcv s) (wpc s) t = if isRW (wpc s t) then Want RL else wpc s t).
  { intros t. rewrite wake_all, K. reflexivity. }
  destruct I. constructor; sp; auto.
  - intros t. rewrite P. specialize (i_task0 t). destruct (wpc s t); cbn; auto.
  - intros t. rewrite P, i_own0. destruct (wpc s t); cbn; intuition discriminate.
  - intros B. rewrite (i_rc0 B). destruct (exo s); [|reflexivity]. rewrite P. destruct (wpc s z); reflexivity.
  - eapply card_ext; [|exact i_nr0]. intros t. unfold rd. cbn. rewrite P. destruct (wpc s t); reflexivity.
  - eapply card_ext; [|exact i_wq0]. intros t. unfold rg, is_owner. cbn. rewrite P. destruct (wpc s t); reflexivity.
  - apply queue_nil. intros t. rewrite P. destruct (wpc s t) as [|[]| |]; reflexivity.
  - eapply queue_ext; [|exact i_wcv0]. intros t. cbn. rewrite P. destruct (wpc s t); reflexivity.
Qed.

Lemma inv_init b : inv b (wp_init b) [].
Proof.
  constructor; [|auto|cbn; lia].
  constructor; cbn; auto.
  - intros t. unfold cons_ok. repeat split; auto; try discriminate; lia.
  - intros t. split; [discriminate|]. intros [H|H]; [unfold depth in H; cbn in H; lia|discriminate].
  - apply card_none. reflexivity.
  - apply card_none. reflexivity.
  - apply queue_nil. reflexivity.
  - apply queue_nil. reflexivity.
Qed.

Lemma rc_keep b s tr t (I : inv0 b s tr) : b = true -> exo s <> Some t ->
  rc s = match exo s with None => 0 | Some _ => rc s end.
Proof.
  intros B _. destruct (exo s) eqn:E; [reflexivity|]. rewrite (i_rc _ _ _ I B), E. reflexivity.
Qed.

Lemma free_keep (f : Z -> pc) t q : f t <> Want WL2 ->
  (exists u, f u = Want WL2) -> exists u, fupd f t q u = Want WL2.
Proof. intros N [u H]. exists u. rewrite fupd_other; [exact H|]. intros ->. contradiction. Qed.

Ltac hist := rewrite ?app_nil_r, ?reading_app, ?depth_app, ?queued_app; cbn [fold_left reading1 depth1 queued1]; rewrite ?Z.eqb_refl.

Lemma is_owner_iff s t : is_owner s t = true <-> exo s = Some t.
Proof. unfold is_owner. destruct (exo s); [|intuition discriminate]. split; [intros H; f_equal; lia|intros [= ->]; lia]. Qed.
Lemma not_owner s t : exo s <> Some t -> is_owner s t = false.
Proof. intros H. destruct (is_owner s t) eqn:E; [|reflexivity]. apply is_owner_iff in E. contradiction. Qed.

(** A call that only moves [t] from Out to the mutex *)
Lemma call_step b s tr t o evs : inv b s tr -> wpc s t = Out ->
  match o with
  | RL => evs = [] /\ reading tr t = false /\ depth tr t = 0
  | RU => evs = [EReadEnd t] /\ reading tr t = true
  | WL => evs = [] /\ reading tr t = false /\ (if b then depth tr t < 65535 else depth tr t = 0)
  | WL2 => False
  | WU => evs = [EWriteEnd t] /\ 0 < depth tr t
  end -> inv b (set_pc s t (Want o)) (tr ++ evs).
Proof.
  intros [I R0 FR] Ep H.
  pose proof (i_task _ _ _ I t) as Ht. rewrite Ep in Ht. destruct Ht as (H1 & H2 & H3 & H4).
  pose proof (i_own _ _ _ I t) as Ow. rewrite Ep in Ow.
  constructor; sp.
  2: exact R0.
  2:{ intros A1 A2 A3. apply free_keep; [congruence|]. auto. }
  destruct o; try contradiction.
  - destruct H as (-> & Hr & Hd). apply (upd b s tr t (Want RL)); sp; auto; hist; rewrite ?Ep; cbn; auto.
    + unfold cons_ok. rewrite Hr, Hd, H4. repeat split; auto; try lia.
    + reflexivity.
    + rewrite Ow. intuition discriminate.
    + intros B Eo. apply Ow in Eo. destruct Eo; [lia|discriminate].
    + apply (rc_keep b s tr t I).
    + unfold rd. rewrite Ep, Hr. cbn. lia.
    + unfold rg, is_owner. rewrite Ep. sp. cbn. lia.
    + apply I.
  - destruct H as (-> & Hr). assert (Hd : depth tr t = 0) by auto.
    apply (upd b s tr t (Want RU)); sp; auto; hist; rewrite ?Ep; cbn; auto.
    + unfold cons_ok. rewrite Hd, H4. repeat split; auto; try lia.
    + reflexivity.
    + rewrite Ow. intuition discriminate.
    + intros B Eo. apply Ow in Eo. destruct Eo; [lia|discriminate].
    + apply (rc_keep b s tr t I).
    + unfold rd. rewrite Ep, Hr. cbn. lia.
    + unfold rg, is_owner. rewrite Ep. sp. cbn. lia.
    + apply I.
  - destruct H as (-> & Hr & Hd).
    apply (upd b s tr t (Want WL)); sp; auto; hist; rewrite ?Ep; cbn; auto.
    + unfold cons_ok. rewrite Hr, H4. repeat split; auto; try lia.
    + reflexivity.
    + rewrite Ow. intuition discriminate.
    + intros B Eo. rewrite (i_rc _ _ _ I B), Eo, Ep. reflexivity.
    + apply (rc_keep b s tr t I).
    + unfold rd. rewrite Ep, Hr. cbn. lia.
    + unfold rg, is_owner. rewrite Ep. sp. cbn. lia.
    + apply I.
  - destruct H as (-> & Hd).
    assert (Hr : reading tr t = false) by (destruct (reading tr t); auto; rewrite H3 in Hd by auto; lia).
    assert (Eo : exo s = Some t) by (apply Ow; auto).
    apply (upd b s tr t (Want WU)); sp; auto; hist; rewrite ?Ep; cbn; auto.
    + unfold cons_ok. rewrite Hr, H4. repeat split; auto; try lia.
    + reflexivity.
    + intuition.
    + intros B _. rewrite (i_rc _ _ _ I B), Eo, Ep. cbn. lia.
    + apply (rc_keep b s tr t I).
    + unfold rd. rewrite Ep, Hr. cbn. lia.
    + unfold rg, is_owner. rewrite Ep. sp. rewrite Eo. cbn. lia.
    + apply I.
Qed.

Lemma inv_shlock b s tr t : inv b s tr -> wpc s t = Want RL -> nr s < 2147483647 ->
  match shlock s t with Disabled | AssertFail => False | Ok s' evs => inv b s' (tr ++ evs) end.
Proof.
  intros [I R0 FR] Ep HB.
  pose proof (i_task _ _ _ I t) as Ht. rewrite Ep in Ht. destruct Ht as (H1 & H2 & H3 & H4 & H5).
  pose proof (i_own _ _ _ I t) as Ow. rewrite Ep in Ow.
  assert (NO : exo s <> Some t) by (intros E; apply Ow in E; destruct E; [lia|discriminate]).
  pose proof (card_nonneg _ _ (i_nr _ _ _ I)) as Pn. pose proof (card_nonneg _ _ (i_wq _ _ _ I)) as Pw.
  unfold shlock. destruct (wq s >? 0) eqn:EW.
  - constructor; sp.
    2: lia.
    2:{ intros A1 A2 A3. apply free_keep; [congruence|]. auto. }
    apply (upd b s tr t RWait); sp; auto; hist; rewrite ?Ep; cbn; auto.
    + unfold cons_ok. rewrite H3, H4, H5. repeat split; auto; try lia.
    + reflexivity.
    + rewrite Ow. intuition discriminate.
    + intros B Eo. contradiction.
    + apply (rc_keep b s tr t I).
    + unfold rd. rewrite Ep, H3. cbn. lia.
    + unfold rg, is_owner. rewrite Ep. sp. cbn. lia.
    + apply I.
  - assert (W0 : wq s = 0) by lia.
    assert (EN : exo s = None).
    { destruct (exo s) as [u|] eqn:E; [|reflexivity]. pose proof (i_wq _ _ _ I) as C. rewrite W0 in C.
      apply (card_zero _ u) in C. unfold rg, is_owner in C. rewrite E, Z.eqb_refl, orb_true_r in C. discriminate. }
    rewrite s32_small by lia.
    constructor; sp.
    2: auto.
    2: lia.
    apply (upd b s tr t Out); sp; auto; hist; rewrite ?Ep; cbn; auto.
    + unfold cons_ok. rewrite H4, H5. repeat split; auto; try lia.
    + reflexivity.
    + rewrite Ow. intuition discriminate.
    + intros B Eo. contradiction.
    + apply (rc_keep b s tr t I).
    + unfold rd. rewrite Ep, H3. cbn. lia.
    + unfold rg, is_owner. rewrite Ep. sp. cbn. lia.
    + congruence.
Qed.

Lemma inv_shunlock b s tr t : inv b s tr -> wpc s t = Want RU ->
  nr s < 2147483647 ->
  match shunlock s t with Disabled | AssertFail => False | Ok s' evs => inv b s' (tr ++ evs) end.
Proof.
  intros [I R0 FR] Ep HB.
  pose proof (i_task _ _ _ I t) as Ht. rewrite Ep in Ht. destruct Ht as (H1 & H2 & H3 & H4 & H5).
  pose proof (i_own _ _ _ I t) as Ow. rewrite Ep in Ow.
  assert (NO : exo s <> Some t) by (intros E; apply Ow in E; destruct E; [lia|discriminate]).
  assert (RT : rd s tr t = true) by (unfold rd; rewrite Ep; apply orb_true_r).
  pose proof (card_pos _ _ _ (i_nr _ _ _ I) RT) as Pn.
  pose proof (card_nonneg _ _ (i_wq _ _ _ I)) as Pw.
  assert (EN : exo s = None).
  { destruct (exo s) as [u|] eqn:E; [|reflexivity]. assert (nr s = 0) by (apply I; congruence). lia. }
  unfold shunlock. rewrite s32_small by lia.
  set (s1 := mk_wp _ _ _ _ _ _ _ _).
  assert (I1 : inv0 b s1 (tr ++ [])).
  { apply (upd b s tr t Out); unfold s1; sp; auto; hist; rewrite ?Ep; cbn; auto.
    + unfold cons_ok. rewrite H3, H4, H5. repeat split; auto; try lia.
    + reflexivity.
    + rewrite Ow. intuition discriminate.
    + intros B Eo. contradiction.
    + apply (rc_keep b s tr t I).
    + rewrite RT, H3. cbn. lia.
    + unfold rg, is_owner. rewrite Ep. sp. cbn. lia.
    + congruence. }
  destruct ((nr s - 1 =? 0) && (wq s >? 0)) eqn:E.
  - constructor; [apply inv0_signal_writer, I1| |].
    + destruct (signal_writer_fields s1) as (_ & _ & -> & -> & _). exact R0.
    + intros _ _ _. apply (signal_writer_runs b s1 (tr ++ []) I1); unfold s1; sp; [exact EN|lia].
  - constructor; [exact I1|exact R0|]. intros A1 A2 A3. unfold s1 in *. sp. lia.
Qed.

Lemma inv_exlock2 b s tr t : inv b s tr -> wpc s t = Want WL2 ->
  match exlock_wait s t [] with Disabled | AssertFail => False | Ok s' evs => inv b s' (tr ++ evs) end.
Proof.
  intros [I R0 FR] Ep.
  pose proof (i_task _ _ _ I t) as Ht. rewrite Ep in Ht. destruct Ht as (H1 & H2 & H3 & H4 & H5).
  pose proof (i_own _ _ _ I t) as Ow. rewrite Ep in Ow.
  assert (NO : exo s <> Some t) by (intros E; apply Ow in E; destruct E; [lia|discriminate]).
  assert (GT : rg s t = true) by (unfold rg; rewrite Ep; reflexivity).
  pose proof (card_nonneg _ _ (i_nr _ _ _ I)) as Pn. pose proof (card_pos _ _ _ (i_wq _ _ _ I) GT) as Pw.
  unfold exlock_wait. destruct (match exo s with Some _ => true | None => nr s >? 0 end) eqn:EB.
  - constructor; sp.
    2: exact R0.
    2:{ intros A1 A2 A3. rewrite A1 in EB. lia. }
    apply (upd b s tr t WWait); sp; auto; hist; rewrite ?Ep; cbn; auto.
    + unfold cons_ok. tauto.
    + reflexivity.
    + rewrite Ow. intuition discriminate.
    + intros B Eo. contradiction.
    + apply (rc_keep b s tr t I).
    + unfold rd. rewrite Ep, H3. cbn. lia.
    + unfold rg, is_owner. rewrite Ep. sp. cbn. lia.
    + apply I.
  - destruct (exo s) eqn:EO; [discriminate|]. assert (N0 : nr s = 0) by lia.
    pose proof (i_rec _ _ _ I) as Er.
    assert (X : forall c, (b = true -> c = 1) -> inv b (mk_wp (rec s) (Some t) (nr s) (wq s) c (rcv s) (wcv s) (fupd (wpc s) t Out)) (tr ++ [EWrite t])).
    { intros c Hc. constructor; sp.
      2: exact R0.
      2: discriminate.
      apply (upd b s tr t Out); sp; auto; hist; rewrite ?Ep; cbn; auto.
      + unfold cons_ok. rewrite H3, H4. repeat split; auto; try lia; discriminate.
      + rewrite EO. intros u N. split; [intros [= E]; lia|discriminate].
      + split; [intros _; left; lia|reflexivity].
      + intros B _. rewrite Hc, H4 by assumption. reflexivity.
      + intros _ N. contradiction.
      + unfold rd. rewrite Ep, H3. cbn. lia.
      + rewrite GT. unfold is_owner. sp. rewrite Z.eqb_refl. cbn. lia. }
    rewrite Er. destruct b.
    + rewrite (i_rc _ _ _ I eq_refl), EO. cbn [Z.eqb app]. rewrite Er in X. apply X. auto.
    + cbn [app]. rewrite Er in X. apply X. discriminate.
Qed.

Lemma inv_exlock b s tr t : inv b s tr -> wpc s t = Want WL -> wq s < 2147483647 ->
  match exlock s t with Disabled | AssertFail => False | Ok s' evs => inv b s' (tr ++ evs) end.
Proof.
  intros [I R0 FR] Ep HB.
  pose proof (i_task _ _ _ I t) as Ht. rewrite Ep in Ht. destruct Ht as (H1 & H2 & H3 & H4 & H5).
  pose proof (i_own _ _ _ I t) as Ow. rewrite Ep in Ow.
  pose proof (card_nonneg _ _ (i_nr _ _ _ I)) as Pn. pose proof (card_nonneg _ _ (i_wq _ _ _ I)) as Pw.
  pose proof (i_rec _ _ _ I) as Er.
  unfold exlock. destruct (rec s && is_owner s t) eqn:ER.
  - (* recursive *)
    apply andb_true_iff in ER. destruct ER as [ER EO']. rewrite ER in Er. subst b.
    assert (EO : exo s = Some t) by (apply is_owner_iff; exact EO').
    assert (Hd : 0 < depth tr t) by (apply Ow in EO; destruct EO; [assumption|discriminate]).
    assert (GT : rg s t = true) by (unfold rg; rewrite EO'; apply orb_true_r).
    pose proof (card_pos _ _ _ (i_wq _ _ _ I) GT) as Pw1.
    pose proof (i_rc _ _ _ I eq_refl) as Rc. rewrite EO, Ep in Rc. cbn in Rc.
    replace ((wq s <? 1) || (rc s <? 1)) with false by lia.
    assert (U : u16 (rc s + 1) = rc s + 1) by (unfold u16; apply Z.mod_small; lia). rewrite U.
    constructor; sp.
    2: exact R0.
    2:{ intros A1. congruence. }
    apply (upd true s tr t Out); sp; auto; hist; rewrite ?Ep; cbn; auto.
    + unfold cons_ok. rewrite H3. repeat split; auto; try lia; discriminate.
    + reflexivity.
    + split; [intros _; left; lia|auto].
    + intros _ _. lia.
    + intros _ N. contradiction.
    + unfold rd. rewrite Ep, H3. cbn. lia.
    + rewrite GT. unfold is_owner. sp. rewrite EO, Z.eqb_refl. cbn. lia.
    + apply I.
  - (* new writer *)
    assert (NO : exo s <> Some t).
    { intros E. assert (E' := E). apply is_owner_iff in E'. rewrite E', Er, andb_true_r in ER. subst b.
      rewrite ER in H5. apply Ow in E. destruct E; [lia|discriminate]. }
    assert (D0 : depth tr t = 0).
    { destruct (Z.eq_dec (depth tr t) 0) as [E|E]; [exact E|]. exfalso. apply NO, Ow. left. lia. }
    assert (GT : rg s t = false) by (unfold rg; rewrite Ep, (not_owner s t NO); reflexivity).
    rewrite s32_small by lia. unfold exlock_wait. sp.
    destruct (match exo s with Some _ => true | None => nr s >? 0 end) eqn:EB.
    + constructor; sp.
      2: lia.
      2:{ intros A1 A2 A3. rewrite A1 in EB. lia. }
      apply (upd b s tr t WWait); sp; auto; hist; rewrite ?Ep; cbn; auto.
      * unfold cons_ok. rewrite H3, D0. repeat split; auto; lia.
      * reflexivity.
      * rewrite Ow. intuition discriminate.
      * intros B Eo. contradiction.
      * apply (rc_keep b s tr t I).
      * unfold rd. rewrite Ep, H3. cbn. lia.
      * rewrite GT. cbn. lia.
      * apply I.
    + destruct (exo s) eqn:EO; [discriminate|]. assert (N0 : nr s = 0) by lia.
      assert (X : forall c, (b = true -> c = 1) -> inv b (mk_wp (rec s) (Some t) (nr s) (wq s + 1) c (rcv s) (wcv s) (fupd (wpc s) t Out)) (tr ++ [EReg t; EWrite t])).
      { intros c Hc. constructor; sp.
        2: lia.
        2: discriminate.
        apply (upd b s tr t Out); sp; auto; hist; rewrite ?Ep; cbn; auto.
        + unfold cons_ok. rewrite H3, D0. repeat split; auto; try lia; discriminate.
        + rewrite EO. intros u N. split; [intros [= E]; lia|discriminate].
        + split; [intros _; left; lia|reflexivity].
        + intros B _. rewrite Hc, D0 by assumption. reflexivity.
        + intros _ N. contradiction.
        + unfold rd. rewrite Ep, H3. cbn. lia.
        + rewrite GT. unfold is_owner. sp. rewrite Z.eqb_refl. cbn. lia. }
      rewrite Er. destruct b.
      * rewrite (i_rc _ _ _ I eq_refl), EO. cbn [Z.eqb app]. rewrite Er in X. apply X. auto.
      * cbn [app]. rewrite Er in X. apply X. discriminate.
Qed.

Lemma inv_release b s tr t : inv b s tr -> wpc s t = Want WU -> depth tr t = 0 -> wq s < 2147483647 ->
  match release (mk_wp (rec s) (exo s) (nr s) (wq s) (if b then 0 else rc s) (rcv s) (wcv s) (wpc s)) t with
  | Disabled | AssertFail => False | Ok s' evs => inv b s' (tr ++ evs) end.
Proof.
  intros [I R0 FR] Ep D0 HB.
  pose proof (i_task _ _ _ I t) as Ht. rewrite Ep in Ht. destruct Ht as (H1 & H2 & H3 & H4 & H5 & H6).
  pose proof (i_own _ _ _ I t) as Ow. rewrite Ep in Ow.
  assert (EO : exo s = Some t) by (apply Ow; auto).
  assert (GT : rg s t = true) by (unfold rg, is_owner; rewrite EO, Z.eqb_refl; apply orb_true_r).
  pose proof (card_pos _ _ _ (i_wq _ _ _ I) GT) as Pw.
  pose proof (card_nonneg _ _ (i_nr _ _ _ I)) as Pn.
  assert (N0 : nr s = 0) by (apply I; congruence).
  unfold release. sp. rewrite s32_small by lia. set (s1 := mk_wp _ _ _ _ _ _ _ _).
  assert (I1 : inv0 b s1 (tr ++ [])).
  { apply (upd b s tr t Out); unfold s1; sp; auto; hist; rewrite ?Ep; cbn; auto.
    + unfold cons_ok. rewrite H3, H4, D0. repeat split; auto; lia.
    + rewrite EO. intros u N. split; [discriminate|intros [= E]; lia].
    + split; [discriminate|]. intros [K|K]; [lia|discriminate].
    + intros B K. discriminate.
    + intros B _. subst b. reflexivity.
    + unfold rd. rewrite Ep, H3. cbn. lia.
    + rewrite GT. cbn. lia. }
  destruct (wq s - 1 >? 0) eqn:E.
  - constructor; [apply inv0_signal_writer, I1| |].
    + destruct (signal_writer_fields s1) as (_ & _ & -> & -> & _). unfold s1. sp. lia.
    + intros _ _ _. apply (signal_writer_runs b s1 (tr ++ []) I1); unfold s1; sp; [reflexivity|lia].
  - constructor; [apply inv0_signal_readers, I1| |]; unfold s1; sp; cbn; [auto|lia].
Qed.

Lemma inv_exunlock b s tr t : inv b s tr -> wpc s t = Want WU -> wq s < 2147483647 ->
  match exunlock s t with Disabled | AssertFail => False | Ok s' evs => inv b s' (tr ++ evs) end.
Proof.
  intros IA Ep HB. pose proof IA as [I R0 FR].
  pose proof (i_task _ _ _ I t) as Ht. rewrite Ep in Ht. destruct Ht as (H1 & H2 & H3 & H4 & H5 & H6).
  pose proof (i_own _ _ _ I t) as Ow. rewrite Ep in Ow.
  assert (EO : exo s = Some t) by (apply Ow; auto).
  assert (EO' : is_owner s t = true) by (apply is_owner_iff; exact EO).
  assert (GT : rg s t = true) by (unfold rg; rewrite EO'; apply orb_true_r).
  pose proof (card_pos _ _ _ (i_wq _ _ _ I) GT) as Pw.
  pose proof (i_rec _ _ _ I) as Er.
  unfold exunlock. rewrite EO'. replace (wq s <? 1) with false by lia. cbn [negb orb].
  rewrite Er. destruct b.
  - pose proof (i_rc _ _ _ I eq_refl) as Rc. rewrite EO, Ep in Rc. cbn in Rc.
    replace (rc s <=? 0) with false by lia.
    assert (U : u16 (rc s - 1) = depth tr t) by (unfold u16; rewrite Rc; rewrite Z.mod_small; lia). rewrite U.
    destruct (depth tr t >? 0) eqn:ED.
    + constructor; sp.
      2: exact R0.
      2:{ intros A1. congruence. }
      apply (upd true s tr t Out); sp; auto; hist; rewrite ?Ep; cbn; auto.
      * unfold cons_ok. rewrite H3, H4. repeat split; auto; try lia; discriminate.
      * reflexivity.
      * split; [intros _; left; lia|auto].
      * intros _ _. lia.
      * intros _ N. contradiction.
      * unfold rd. rewrite Ep, H3. cbn. lia.
      * rewrite GT. unfold is_owner. sp. rewrite EO, Z.eqb_refl. cbn. lia.
      * apply I.
    + assert (D0 : depth tr t = 0) by lia. rewrite D0.
      pose proof (inv_release true s tr t IA Ep D0 HB) as K. rewrite Er in K. exact K.
  - assert (D0 : depth tr t = 0) by auto.
    pose proof (inv_release false s tr t IA Ep D0 HB) as K. destruct s. exact K.
Qed.

Lemma inv_interrupt b s tr t : inv b s tr ->
  match step s (Interrupt t) with Disabled => True | AssertFail => False | Ok s' evs => inv b s' (tr ++ evs) end.
Proof.
  intros [I R0 FR]. cbn [step].
  pose proof (i_task _ _ _ I t) as Ht. pose proof (i_own _ _ _ I t) as Ow.
  destruct (wpc s t) as [|o| |] eqn:Ep; try exact Logic.I; destruct Ht as (H1 & H2 & H3 & H4 & H5);
    assert (NO : exo s <> Some t) by (intros E; apply Ow in E; destruct E; [lia|discriminate]).
  - constructor; sp.
    2:{ intros W. rewrite (R0 W). reflexivity. }
    2:{ intros A1 A2 A3. apply free_keep; [congruence|]. auto. }
    apply (upd b s tr t (Want RL)); sp; auto; hist; rewrite ?Ep; cbn; auto.
    + unfold cons_ok. tauto.
    + reflexivity.
    + rewrite Ow. intuition discriminate.
    + intros B Eo. contradiction.
    + apply (rc_keep b s tr t I).
    + unfold rd. rewrite Ep, H3. cbn. lia.
    + unfold rg, is_owner. rewrite Ep. sp. cbn. lia.
    + apply I.
  - constructor; sp.
    2: exact R0.
    2:{ intros A1 A2 A3. exists t. apply fupd_same. }
    apply (upd b s tr t (Want WL2)); sp; auto; hist; rewrite ?Ep; cbn; auto.
    + unfold cons_ok. tauto.
    + reflexivity.
    + rewrite Ow. intuition discriminate.
    + intros B Eo. contradiction.
    + apply (rc_keep b s tr t I).
    + unfold rd. rewrite Ep, H3. cbn. lia.
    + unfold rg, is_owner. rewrite Ep. sp. cbn. lia.
    + apply I.
Qed.

Lemma inv_step b s tr a : inv b s tr -> allowed b s tr a ->
  match step s a with Disabled => True | AssertFail => False | Ok s' evs => inv b s' (tr ++ evs) end.
Proof.
  intros I (B1 & B2 & HA). destruct a as [t o|t|t]; [| |apply inv_interrupt, I].
  - cbn [step]. destruct (wpc s t) eqn:Ep; try exact Logic.I. destruct o; try exact Logic.I;
      apply call_step; auto.
  - cbn [step]. destruct (wpc s t) as [|[]| |] eqn:Ep; try exact Logic.I.
    + pose proof (inv_shlock b s tr t I Ep B1) as K. destruct (shlock s t); tauto.
    + pose proof (inv_shunlock b s tr t I Ep B1) as K. destruct (shunlock s t); tauto.
    + pose proof (inv_exlock b s tr t I Ep B2) as K. destruct (exlock s t); tauto.
    + pose proof (inv_exlock2 b s tr t I Ep) as K. destruct (exlock_wait s t []); tauto.
    + pose proof (inv_exunlock b s tr t I Ep B2) as K. destruct (exunlock s t); tauto.
Qed.

Lemma reach_inv b s tr : reach b s tr -> inv b s tr.
Proof.
  intros H. induction H as [|s tr a s' evs H IH HA HS]; [apply inv_init|].
  pose proof (inv_step b s tr a IH HA) as K. rewrite HS in K. exact K.
Qed.

Lemma exclusion b s tr t u : reach b s tr -> 0 < depth tr t ->
  reading tr u = false /\ (0 < depth tr u -> u = t).
Proof.
  intros H D. destruct (reach_inv _ _ _ H) as [I _ _].
  assert (EO : exo s = Some t) by (apply (i_own _ _ _ I); auto). split.
  - assert (N : nr s = 0) by (apply I; congruence). pose proof (i_nr _ _ _ I) as C. rewrite N in C.
    apply (card_zero _ u) in C. unfold rd in C. apply orb_false_iff in C. apply C.
  - intros Du. assert (exo s = Some u) by (apply (i_own _ _ _ I); auto). congruence.
Qed.

Lemma writer_first b s tr a s' evs t : reach b s tr -> step s a = Ok s' evs -> In (ERead t) evs ->
  forall u, queued tr u = false /\ depth tr u <= 0.
Proof.
  intros H E HI u. destruct (reach_inv _ _ _ H) as [I _ _].
  assert (W : wq s = 0).
  { destruct a as [x o|x|x]; cbn [step] in E; destruct (wpc s x) as [|[]| |]; try discriminate.
    - destruct o; try discriminate; injection E as <- <-; cbn in HI; intuition discriminate.
    - unfold shlock in E. destruct (wq s >? 0) eqn:EW; injection E as <- <-; [destruct HI|].
      pose proof (card_nonneg _ _ (i_wq _ _ _ I)). lia.
    - unfold shunlock in E. destruct ((s32 (nr s - 1) =? 0) && (wq s >? 0)); injection E as <- <-; destruct HI.
    - unfold exlock, exlock_wait in E. destruct (rec s && is_owner s x).
      + destruct ((wq s <? 1) || (rc s <? 1)); [discriminate|]. injection E as <- <-. cbn in HI; intuition discriminate.
      + cbn in E. destruct (match exo s with Some _ => true | None => nr s >? 0 end).
        * injection E as <- <-. cbn in HI; intuition discriminate.
        * destruct (rec s); [destruct (rc s =? 0); [|discriminate]|]; injection E as <- <-; cbn in HI; intuition discriminate.
    - unfold exlock_wait in E. destruct (match exo s with Some _ => true | None => nr s >? 0 end).
      + injection E as <- <-. destruct HI.
      + destruct (rec s); [destruct (rc s =? 0); [|discriminate]|]; injection E as <- <-; cbn in HI; intuition discriminate.
    - unfold exunlock, release in E. destruct (negb (is_owner s x) || (wq s <? 1)); [discriminate|].
      destruct (rec s); [destruct (rc s <=? 0); [discriminate|]; destruct (u16 (rc s - 1) >? 0)|];
        injection E as <- <-; destruct HI.
    - injection E as <- <-. destruct HI.
    - injection E as <- <-. destruct HI. }
  pose proof (i_wq _ _ _ I) as C. rewrite W in C. apply (card_zero _ u) in C.
  unfold rg in C. apply orb_false_iff in C. destruct C as [C1 C2].
  pose proof (i_task _ _ _ I u) as Ht. split.
  - destruct Ht as (_ & _ & Ht). destruct (wpc s u) as [|[]| |]; cbn in C1; try discriminate; tauto.
  - destruct (Z_le_gt_dec (depth tr u) 0) as [L|G]; [exact L|]. exfalso.
    assert (exo s = Some u) by (apply (i_own _ _ _ I); left; lia). apply is_owner_iff in H0. congruence.
Qed.

Lemma no_lost_wakeup b s tr t : reach b s tr ->
  (forall u, reading tr u = false /\ depth tr u = 0 /\ wpc s u <> Want RU /\ wpc s u <> Want WU) ->
  wpc s t = RWait \/ wpc s t = WWait -> exists u, wpc s u = Want WL2.
Proof.
  intros H HF HS. destruct (reach_inv _ _ _ H) as [I R0 FR].
  apply FR.
  - destruct (exo s) as [u|] eqn:E; [|reflexivity]. apply (i_own _ _ _ I) in E. destruct (HF u) as (_ & D & _ & W).
    destruct E as [E|E]; [lia|contradiction].
  - destruct (Z.eq_dec (nr s) 0) as [E|E]; [exact E|]. pose proof (card_nonneg _ _ (i_nr _ _ _ I)).
    destruct (card_ex _ _ (i_nr _ _ _ I) ltac:(lia)) as [u Hu]. unfold rd in Hu. destruct (HF u) as (R & _ & W & _).
    rewrite R in Hu. cbn in Hu. destruct (wpc s u) as [|[]| |]; try discriminate. congruence.
  - pose proof (card_nonneg _ _ (i_wq _ _ _ I)) as P. destruct (Z.eq_dec (wq s) 0) as [E|E]; [|lia]. exfalso.
    destruct HS as [HS|HS].
    + pose proof (i_rcv _ _ _ I) as Q. rewrite (R0 E) in Q. apply (queue_nil_inv _ t) in Q. cbn in Q. rewrite HS in Q. discriminate.
    + pose proof (i_wq _ _ _ I) as C. rewrite E in C. apply (card_zero _ t) in C. unfold rg in C. rewrite HS in C. discriminate.
Qed.

(** The exclusive owner changes only when the outermost unlock runs *)
Lemma outermost_releases b s tr t : reach b s tr -> wpc s t = Want WU -> wq s < 2147483647 -> nr s < 2147483647 ->
  exists s' evs, step s (Go t) = Ok s' evs /\ exo s = Some t /\
    exo s' = if 0 <? depth tr t then Some t else None.
Proof.
  intros H Ep B2 B1.
  assert (HA : allowed b s tr (Go t)) by (split; [exact B1|split; [exact B2|exact Logic.I]]).
  pose proof (reach_inv _ _ _ H) as IA. pose proof (inv_step b s tr (Go t) IA HA) as K.
  destruct IA as [I _ _].
  assert (E1 : exo s = Some t) by (apply (i_own _ _ _ I); auto).
  destruct (step s (Go t)) as [| |s' evs] eqn:ES; [|contradiction|].
  { cbn [step] in ES. rewrite Ep in ES. unfold exunlock, release in ES.
    destruct (negb (is_owner s t) || (wq s <? 1)); [discriminate|].
    destruct (rec s); [|discriminate]. destruct (rc s <=? 0); [discriminate|]. destruct (u16 (rc s - 1) >? 0); discriminate. }
  exists s', evs. split; [reflexivity|]. split; [exact E1|].
  destruct K as [K _ _].
  assert (EV : evs = [] /\ wpc s' t <> Want WU).
  { cbn [step] in ES. rewrite Ep in ES. unfold exunlock, release in ES.
    assert (X1 : forall s1, wpc s1 t = Out -> wpc (signal_writer s1) t <> Want WU).
    { intros s1 E. unfold signal_writer. destruct (wcv s1); [congruence|]. cbn. unfold fupd. destruct (t =? z); congruence. }
    assert (X2 : forall s1, wpc s1 t = Out -> wpc (signal_readers s1) t <> Want WU).
    { intros s1 E. unfold signal_readers. cbn. rewrite wake_all. destruct (existsb (Z.eqb t) (rcv s1)); congruence. }
    destruct (negb (is_owner s t) || (wq s <? 1)); [discriminate|].
    destruct (rec s).
    - destruct (rc s <=? 0); [discriminate|]. destruct (u16 (rc s - 1) >? 0); cbn in ES.
      + injection ES as <- <-. split; [reflexivity|]. cbn. rewrite fupd_same. discriminate.
      + injection ES as <- <-. split; [reflexivity|].
        destruct (s32 (wq s - 1) >? 0); [apply X1|apply X2]; cbn; apply fupd_same.
    - injection ES as <- <-. split; [reflexivity|].
      destruct (s32 (wq s - 1) >? 0); [apply X1|apply X2]; cbn; apply fupd_same. }
  destruct EV as [-> NW]. rewrite app_nil_r in K. pose proof (i_own _ _ _ K) as Ow.
  destruct (0 <? depth tr t) eqn:ED.
  - apply Ow. left. lia.
  - destruct (exo s') as [u|] eqn:E'; [|reflexivity]. exfalso.
    assert (Eu : 0 < depth tr u \/ wpc s' u = Want WU) by (apply Ow; reflexivity).
    destruct (Z.eq_dec u t) as [->|N]; [destruct Eu; [lia|contradiction]|].
    assert (Eu2 : 0 < depth tr u \/ wpc s u = Want WU).
    { destruct Eu as [Eu|Eu]; [left; exact Eu|].
      (* u <> t kept its pc, or was woken to WL2 / RL *)
      right. cbn [step] in ES. rewrite Ep in ES. unfold exunlock, release in ES.
      assert (X1 : forall s1, wpc s1 u = wpc s u -> wpc (signal_writer s1) u = Want WU -> wpc s u = Want WU).
      { intros s1 E. unfold signal_writer. destruct (wcv s1); [congruence|]. cbn. unfold fupd. destruct (u =? z); congruence. }
      assert (X2 : forall s1, wpc s1 u = wpc s u -> wpc (signal_readers s1) u = Want WU -> wpc s u = Want WU).
      { intros s1 E. unfold signal_readers. cbn. rewrite wake_all. destruct (existsb (Z.eqb u) (rcv s1)); congruence. }
      destruct (negb (is_owner s t) || (wq s <? 1)); [discriminate|].
      destruct (rec s).
      - destruct (rc s <=? 0); [discriminate|]. destruct (u16 (rc s - 1) >? 0); cbn in ES; injection ES as <-.
        + cbn in Eu. rewrite fupd_other in Eu by assumption. exact Eu.
        + revert Eu. destruct (s32 (wq s - 1) >? 0); [apply X1|apply X2]; cbn; apply fupd_other; assumption.
      - injection ES as <-. revert Eu. destruct (s32 (wq s - 1) >? 0); [apply X1|apply X2]; cbn; apply fupd_other; assumption. }
    apply (i_own _ _ _ I) in Eu2. congruence.
Qed.

Lemma no_assert_fail b s tr a : reach b s tr -> allowed b s tr a -> step s a <> AssertFail.
Proof. intros H HA E. pose proof (inv_step b s tr a (reach_inv _ _ _ H) HA) as K. rewrite E in K. exact K. Qed.

(** Checked runs *)
Definition allowedb (b : bool) (s : wp) (tr : list event) (a : action) : bool :=
  (nr s <? 2147483647) && (wq s <? 2147483647) &&
  match a with
  | Call t RL => negb (reading tr t) && (depth tr t =? 0)
  | Call t RU => reading tr t
  | Call t WL => negb (reading tr t) && (if b then depth tr t <? 65535 else depth tr t =? 0)
  | Call t WL2 => false
  | Call t WU => 0 <? depth tr t
  | Go _ | Interrupt _ => true
  end.
Lemma allowedb_ok b s tr a : allowedb b s tr a = true -> allowed b s tr a.
Proof.
  unfold allowedb, allowed. intros H. apply andb_true_iff in H. destruct H as [H1 H2].
  split; [lia|]. split; [lia|]. destruct a as [t []|t|t]; try exact Logic.I; try discriminate.
  - apply andb_true_iff in H2. split; [|lia]. destruct (reading tr t); [destruct H2; discriminate|reflexivity].
  - exact H2.
  - apply andb_true_iff in H2. split; [destruct (reading tr t); [destruct H2; discriminate|reflexivity]|].
    destruct b; lia.
  - lia.
Qed.
Fixpoint runc (b : bool) (s : wp) (tr : list event) (l : list action) : option (wp * list event) :=
  match l with
  | [] => Some (s, tr)
  | a :: l' => if allowedb b s tr a then match step s a with Ok s' evs => runc b s' (tr ++ evs) l' | _ => None end else None
  end.
Lemma runc_reach b l : forall s tr s' tr', reach b s tr -> runc b s tr l = Some (s', tr') -> reach b s' tr'.
Proof.
  induction l as [|a l IH]; cbn [runc]; intros s tr s' tr' H E; [injection E as <- <-; exact H|].
  destruct (allowedb b s tr a) eqn:EA; [|discriminate]. destruct (step s a) eqn:ES; try discriminate.
  eapply IH; [|exact E]. eapply reach_step; [exact H|apply allowedb_ok, EA|exact ES].
Qed.

(** Task 2 registered and was woken, task 3 arrives and takes the lock first *)
Definition overtake : list action :=
  [Call 1 WL; Go 1; Call 2 WL; Go 2; Call 1 WU; Go 1; Call 3 WL; Go 3].
Lemma writers_not_fifo : exists s, 
  reach false s [EReg 1; EWrite 1; EReg 2; EWriteEnd 1; EReg 3; EWrite 3] /\
  queued [EReg 1; EWrite 1; EReg 2; EWriteEnd 1; EReg 3; EWrite 3] 2 = true.
Proof.
  destruct (runc false (wp_init false) [] overtake) as [[s tr]|] eqn:E; [|vm_compute in E; discriminate].
  exists s. pose proof (runc_reach _ _ _ _ _ _ (reach_init false) E) as R.
  assert (T : tr = [EReg 1; EWrite 1; EReg 2; EWriteEnd 1; EReg 3; EWrite 3]) by (vm_compute in E; injection E as _ <-; reflexivity).
  rewrite T in R. split; [exact R|reflexivity].
Qed.
