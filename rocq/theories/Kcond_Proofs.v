From Verif Require Import Lib Kcond_Model Kcond_Spec.
From Verif Require Kmutex_Model Kmutex_Spec Kmutex_Proofs.

Definition inb (t : Z) (l : list Z) : bool := existsb (Z.eqb t) l.
Lemma inb_in t l : inb t l = true <-> In t l.
Proof.
  unfold inb. rewrite existsb_exists. split.
  - intros (x & H & E). assert (t = x) by lia. subst x. exact H.
  - intros H. exists t. split; [exact H|lia].
Qed.
Lemma inb_notin t l : inb t l = false <-> ~ In t l.
Proof. rewrite <- inb_in. destruct (inb t l); split; intros; congruence. Qed.

Lemma mu_app a b : mu (a ++ b) = mu a ++ mu b.
Proof. apply flat_map_app. Qed.
Lemma waiting_app a b : waiting (a ++ b) = fold_left waiting1 b (waiting a).
Proof. apply fold_left_app. Qed.
Lemma why_app a b t : why (a ++ b) t = fold_left (reason1 t) b (why a t).
Proof. apply fold_left_app. Qed.

Definition is_asleep (p : cpc) : bool := match p with CAsleep _ => true | _ => false end.

Lemma drop_in k l x : In x (drop k l) <-> In x l /\ ~ In x k.
Proof.
  unfold drop. rewrite filter_In. change (existsb (Z.eqb x) k) with (inb x k).
  destruct (inb x k) eqn:E; cbn [negb].
  - apply inb_in in E. intuition discriminate.
  - apply inb_notin in E. intuition.
Qed.
Lemma unlink_drop t l : unlink t l = drop [t] l.
Proof. apply filter_ext. intros x. cbn. rewrite orb_false_r. reflexivity. Qed.
Lemma drop_drop a b l : drop b (drop a l) = drop (a ++ b) l.
Proof.
  unfold drop. induction l as [|x l IH]; cbn [filter]; [reflexivity|].
  rewrite existsb_app. destruct (existsb (Z.eqb x) a); cbn [negb orb filter]; [exact IH|].
  rewrite IH. reflexivity.
Qed.
Lemma drop_nil l : drop [] l = l.
Proof. unfold drop. induction l as [|x l IH]; cbn in *; congruence. Qed.
Lemma filter_drop f k l : filter f (drop k l) = drop k (filter f l).
Proof.
  unfold drop. induction l as [|x l IH]; cbn [filter]; [reflexivity|].
  destruct (existsb (Z.eqb x) k) eqn:E; cbn [negb]; destruct (f x) eqn:F; cbn [filter]; rewrite ?F, ?E, IH; reflexivity.
Qed.
Lemma filter_weaker f g k (l : list Z) : (forall x, In x l -> g x = f x && negb (inb x k)) ->
  filter g l = drop k (filter f l).
Proof.
  intros H. unfold drop. induction l as [|x l IH]; cbn [filter]; [reflexivity|].
  rewrite H by (left; reflexivity). specialize (IH (fun y Hy => H y (or_intror Hy))).
  destruct (f x); cbn [andb filter]; [|exact IH]. unfold inb.
  destruct (existsb (Z.eqb x) k); cbn [negb]; rewrite IH; reflexivity.
Qed.

(** *** Mutex events belong to the acting task *)
Definition ev_task (e : Kmutex_Model.event) : Z :=
  match e with Kmutex_Model.EBlock t | Kmutex_Model.EAcq t | Kmutex_Model.EFail t | Kmutex_Model.ERel t => t end.

Lemma mstep_task m a m' e : Kmutex_Model.step m a = Kmutex_Model.Ok m' e -> ev_task e = task_of a.
Proof.
  destruct a as [t|t|t|t]; cbn [Kmutex_Model.step task_of]; destruct (Kmutex_Model.m_pc m t); try discriminate;
  unfold Kmutex_Model.lock, Kmutex_Model.trylock, Kmutex_Model.unlock, Kmutex_Model.lock_resume;
  repeat match goal with
  | |- context [if ?b then _ else _] => destruct b
  | |- context [match Kmutex_Model.m_owner m with _ => _ end] => destruct (Kmutex_Model.m_owner m)
  | |- context [match Kmutex_Model.m_wait m with _ => _ end] => destruct (Kmutex_Model.m_wait m)
  | |- context [match Kmutex_Model.m_pc m ?x with _ => _ end] => destruct (Kmutex_Model.m_pc m x)
  end; intros [= _ <-]; reflexivity.
Qed.

Lemma held_other tr e t : ev_task e <> t -> Kmutex_Spec.held (tr ++ [e]) t = Kmutex_Spec.held tr t.
Proof.
  intros H. rewrite Kmutex_Proofs.held_snoc. destruct e; cbn in *; try reflexivity;
  destruct (t0 =? t) eqn:E; try reflexivity; lia.
Qed.

(** *** A set of sleeping tasks is woken *)
Definition ready (p : cpc) : cpc := match p with CAsleep u => CReady u | p => p end.
Record woke (s : cst) (k : list Z) (s' : cst) : Prop := {
  w_m : c_m s' = c_m s;
  w_wait : c_wait s' = drop k (c_wait s);
  w_pc : forall t, c_pc s' t = if inb t k then ready (c_pc s t) else c_pc s t;
  w_arm : forall t, c_armed s' t = if inb t k then false else c_armed s t
}.

Lemma signal_int_woke s t : let '(s', k) := signal_int s t in
  k = (if is_asleep (c_pc s t) then [t] else []) /\ woke s k s'.
Proof.
  unfold signal_int. destruct (c_pc s t) as [|u|u|b] eqn:E; cbn [is_asleep]; (split; [reflexivity|]);
    constructor; cbn [c_m c_wait c_pc c_armed inb existsb]; intros; try reflexivity; try (symmetry; apply drop_nil).
  - apply unlink_drop.
  - unfold fupd. rewrite orb_false_r. destruct (t0 =? t) eqn:Et; [|reflexivity].
    assert (t0 = t) by lia. subst t0. rewrite E. reflexivity.
  - unfold fupd. rewrite orb_false_r. reflexivity.
Qed.

Lemma signal_each_woke l : forall s, NoDup l -> let '(s', k) := signal_each s l in
  k = filter (fun t => is_asleep (c_pc s t)) l /\ woke s k s'.
Proof.
  induction l as [|t r IH]; intros s ND; cbn [signal_each filter].
  - split; [reflexivity|]. constructor; cbn; intros; auto. symmetry; apply drop_nil.
  - apply NoDup_cons_iff in ND. destruct ND as [N1 N2].
    pose proof (signal_int_woke s t) as W1. destruct (signal_int s t) as [s1 k1]. destruct W1 as [E1 [A1 A2 A3 A4]].
    specialize (IH s1 N2). destruct (signal_each s1 r) as [s2 k2]. destruct IH as [E2 [B1 B2 B3 B4]].
    assert (Ek : k1 ++ k2 = if is_asleep (c_pc s t) then t :: filter (fun t => is_asleep (c_pc s t)) r
                            else filter (fun t => is_asleep (c_pc s t)) r).
    { assert (E2' : k2 = filter (fun t => is_asleep (c_pc s t)) r).
      { rewrite E2. apply filter_ext_in. intros x Hx. rewrite A3. destruct (inb x k1) eqn:Ex; [|reflexivity].
        apply inb_in in Ex. rewrite E1 in Ex. destruct (is_asleep (c_pc s t)); [|destruct Ex].
        destruct Ex as [->|[]]. contradiction. }
      rewrite E1, E2'. destruct (is_asleep (c_pc s t)); reflexivity. }
    split; [exact Ek|]. constructor.
    + congruence.
    + rewrite B2, A2. apply drop_drop.
    + intros x. rewrite B3, A3. unfold inb. rewrite existsb_app.
      destruct (existsb (Z.eqb x) k1); cbn [orb]; [|reflexivity].
      destruct (existsb (Z.eqb x) k2); [|reflexivity]. destruct (c_pc s x); reflexivity.
    + intros x. rewrite B4, A4. unfold inb. rewrite existsb_app.
      destruct (existsb (Z.eqb x) k1); cbn [orb]; [|reflexivity].
      destruct (existsb (Z.eqb x) k2); reflexivity.
Qed.

(** *** The invariant *)
Record inv (r : bool) (s : cst) (tr : list event) : Prop := {
  j_m : Kmutex_Spec.reach r (c_m s) (mu tr);
  j_nodup : NoDup (c_wait s);
  j_asleep : forall t u, c_pc s t = CAsleep u -> In t (c_wait s);
  j_linked : forall t, In t (c_wait s) -> is_asleep (c_pc s t) = true \/ (exists u, c_pc s t = CReady u);
  j_wait : waiting tr = filter (fun t => is_asleep (c_pc s t)) (c_wait s);
  j_arm : forall t, c_armed s t = true -> is_asleep (c_pc s t) = true;
  j_ready : forall t u, c_pc s t = CReady u ->
     if inb t (c_wait s) then why tr t = ByTimer else why tr t = BySignal \/ why tr t = ByInterrupt;
  j_relock : forall t ret, c_pc s t = CRelock ret ->
     if ret then why tr t = BySignal \/ why tr t = ByInterrupt else why tr t = ByTimer;
  j_held : forall t, (c_pc s t = CAsleep true \/ c_pc s t = CReady true \/ exists ret, c_pc s t = CRelock ret) ->
     Kmutex_Spec.held (mu tr) t = 0
}.

Lemma inv_init r : inv r (kcond_init r) [].
Proof.
  constructor; cbn; intros; try discriminate; try contradiction; auto; try constructor.
Qed.

Lemma why_mutex tr e t : why (tr ++ [EMu e]) t = why tr t.
Proof. rewrite why_app. reflexivity. Qed.
Lemma waiting_mutex tr e : waiting (tr ++ [EMu e]) = waiting tr.
Proof. rewrite waiting_app. reflexivity. Qed.

Lemma mreach_step r m tr a m' e : Kmutex_Spec.reach r m tr -> Kmutex_Spec.allowed r tr a ->
  Kmutex_Model.step m a = Kmutex_Model.Ok m' e -> Kmutex_Spec.reach r m' (tr ++ [e]).
Proof. intros. econstructor; eassumption. Qed.

(** A mutex step of [t] that keeps the condition's state *)
Lemma inv_mutex r s tr a m' e : inv r s tr -> Kmutex_Spec.allowed r (mu tr) a ->
  Kmutex_Model.step (c_m s) a = Kmutex_Model.Ok m' e ->
  (forall b, e <> Kmutex_Model.EAcq b) \/ c_pc s (task_of a) = COut ->
  (forall b, e <> Kmutex_Model.ERel b) \/ c_pc s (task_of a) = COut ->
  inv r (mk_c m' (c_wait s) (c_pc s) (c_armed s)) (tr ++ [EMu e]).
Proof.
  intros [] HA HS H1 H2. constructor; cbn [c_m c_wait c_pc c_armed]; auto.
  - rewrite mu_app. cbn [mu flat_map app]. eapply mreach_step; eassumption.
  - rewrite waiting_mutex. assumption.
  - intros t u. rewrite why_mutex. apply j_ready0.
  - intros t ret. rewrite why_mutex. apply j_relock0.
  - intros t Ht. rewrite mu_app. cbn [mu flat_map app].
    pose proof (mstep_task _ _ _ _ HS) as ET.
    destruct (Z.eq_dec (task_of a) t) as [Et|Et].
    + subst t. assert (NO : c_pc s (task_of a) <> COut).
      { destruct Ht as [H|[H|[x H]]]; rewrite H; discriminate. }
      destruct H1 as [H1|H1]; [|contradiction]. destruct H2 as [H2|H2]; [|contradiction].
      rewrite Kmutex_Proofs.held_snoc. destruct e; cbn [Kmutex_Spec.held1]; auto;
        [destruct (H1 t eq_refl)|destruct (H2 t eq_refl)].
    + rewrite held_other by congruence. auto.
Qed.

(** Waking up a set of sleeping tasks, by a signal, timer or interruption *)
Lemma inv_woke r s tr k s' ev w : inv r s tr ->
  (forall t, In t k -> is_asleep (c_pc s t) = true) -> woke s k s' ->
  (forall l, waiting1 l ev = drop k l) ->
  (forall t q, reason1 t q ev = if inb t k then w else q) ->
  (w = BySignal \/ w = ByInterrupt) -> mu [ev] = [] ->
  inv r s' (tr ++ [ev]).
Proof.
  intros [] HK [W1 W2 W3 W4] E1 E2 Hw Hm. constructor.
  - rewrite mu_app, Hm, app_nil_r, W1. assumption.
  - rewrite W2. apply NoDup_filter. assumption.
  - intros t u Ht. rewrite W3 in Ht. rewrite W2. apply drop_in.
    destruct (inb t k) eqn:E; [destruct (c_pc s t); discriminate|]. apply inb_notin in E. eauto.
  - intros t Ht. rewrite W2 in Ht. apply drop_in in Ht. destruct Ht as [Ht Hn]. rewrite W3.
    apply inb_notin in Hn. rewrite Hn. auto.
  - rewrite waiting_app. cbn [fold_left]. rewrite E1, W2, j_wait0, <- filter_drop.
    apply filter_ext_in. intros x Hx. apply drop_in in Hx. destruct Hx as [_ Hx].
    apply inb_notin in Hx. rewrite W3, Hx. reflexivity.
  - intros t. rewrite W4, W3. destruct (inb t k); [discriminate|auto].
  - intros t u Ht. rewrite why_app. cbn [fold_left]. rewrite E2, W2. rewrite W3 in Ht.
    destruct (inb t k) eqn:E.
    + replace (inb t (drop k (c_wait s))) with false; [exact Hw|].
      symmetry. apply inb_notin. rewrite drop_in. apply inb_in in E. tauto.
    + specialize (j_ready0 _ _ Ht). replace (inb t (drop k (c_wait s))) with (inb t (c_wait s)); [exact j_ready0|].
      apply inb_notin in E. destruct (inb t (c_wait s)) eqn:E'; symmetry.
      * apply inb_in in E'. apply inb_in. apply drop_in. auto.
      * apply inb_notin in E'. apply inb_notin. rewrite drop_in. tauto.
  - intros t ret Ht. rewrite why_app. cbn [fold_left]. rewrite E2. rewrite W3 in Ht.
    destruct (inb t k) eqn:E; [|apply (j_relock0 _ _ Ht)].
    apply inb_in in E. apply HK in E. destruct (c_pc s t); discriminate.
  - intros t Ht. rewrite mu_app, Hm, app_nil_r. apply j_held0. rewrite W3 in Ht.
    destruct (inb t k) eqn:E; [|exact Ht].
    apply inb_in in E. apply HK in E. destruct (c_pc s t) as [| u | |]; try discriminate. cbn [ready] in Ht.
    destruct Ht as [H|[H|[x H]]]; try discriminate. injection H as ->. auto.
Qed.

(** A task that is not asleep leaves the list *)
Lemma inv_leave r s tr t p evs : inv r s tr -> is_asleep (c_pc s t) = false ->
  p = COut \/ (exists ret, p = CRelock ret /\ Kmutex_Spec.held (mu tr) t = 0 /\
     (if ret then why tr t = BySignal \/ why tr t = ByInterrupt else why tr t = ByTimer)) ->
  evs = [] \/ (exists b, evs = [ERet t b]) ->
  inv r (mk_c (c_m s) (unlink t (c_wait s)) (fupd (c_pc s) t p) (c_armed s)) (tr ++ evs).
Proof.
  intros I Ep HP HE.
  assert (Em : mu (tr ++ evs) = mu tr).
  { destruct HE as [->|[b ->]]; rewrite mu_app; cbn; apply app_nil_r. }
  assert (Ew : waiting (tr ++ evs) = waiting tr).
  { destruct HE as [->|[b ->]]; rewrite waiting_app; reflexivity. }
  assert (Ey : forall x, why (tr ++ evs) x = why tr x).
  { intros x. destruct HE as [->|[b ->]]; rewrite why_app; reflexivity. }
  assert (NA : is_asleep p = false) by (destruct HP as [->|(ret & -> & _)]; reflexivity).
  destruct I. constructor; cbn [c_m c_wait c_pc c_armed]; rewrite ?Em, ?Ew.
  - assumption.
  - apply NoDup_filter. assumption.
  - intros x u. rewrite unlink_drop, drop_in. unfold fupd. destruct (x =? t) eqn:E.
    + intros ->. discriminate.
    + intros H. split; [eauto|]. cbn. lia.
  - intros x. rewrite unlink_drop, drop_in. cbn [In]. intros [H1 H2]. rewrite fupd_other by lia. auto.
  - rewrite j_wait0. rewrite unlink_drop.
    assert (F : forall l, filter (fun t0 => is_asleep (c_pc s t0)) l =
                 filter (fun t0 => is_asleep (fupd (c_pc s) t p t0)) (drop [t] l)).
    { clear -Ep NA. induction l as [|x l IH]; [reflexivity|]. unfold drop in *. cbn [filter existsb].
      rewrite orb_false_r. destruct (x =? t) eqn:E; cbn [negb].
      - assert (x = t) by lia. subst x. rewrite Ep. exact IH.
      - cbn [filter]. rewrite fupd_other by lia. rewrite IH. reflexivity. }
    apply F.
  - intros x Hx. apply j_arm0 in Hx. unfold fupd. destruct (x =? t) eqn:E; [|exact Hx].
    assert (x = t) by lia. subst x. congruence.
  - intros x u. unfold fupd. destruct (x =? t) eqn:E.
    + intros ->. destruct HP as [HP|(ret & HP & _)]; discriminate.
    + intros Hx. rewrite Ey. specialize (j_ready0 _ _ Hx).
      replace (inb x (unlink t (c_wait s))) with (inb x (c_wait s)); [exact j_ready0|].
      rewrite unlink_drop. destruct (inb x (c_wait s)) eqn:E'; symmetry.
      * apply inb_in in E'. apply inb_in. apply drop_in. cbn. split; [assumption|]. lia.
      * apply inb_notin in E'. apply inb_notin. rewrite drop_in. tauto.
  - intros x ret. unfold fupd. rewrite Ey. destruct (x =? t) eqn:E; [|apply j_relock0].
    assert (x = t) by lia. subst x. intros ->. destruct HP as [HP|(ret' & HP & _ & H)]; [discriminate|].
    injection HP as <-. exact H.
  - intros x. unfold fupd. destruct (x =? t) eqn:E; [|auto].
    assert (x = t) by lia. subst x. destruct HP as [->|(ret & -> & H & _)]; [|auto].
    intros [H|[H|[b H]]]; discriminate.
Qed.

Lemma unlink_notin t l : ~ In t l -> unlink t l = l.
Proof.
  intros H. rewrite unlink_drop. unfold drop. induction l as [|x l IH]; [reflexivity|]. cbn [filter existsb].
  destruct (x =? t) eqn:E; cbn [orb negb]; [exfalso; apply H; left; lia|].
  f_equal. apply IH. intros K. apply H. right. exact K.
Qed.

Lemma inv_step r s tr a : inv r s tr -> allowed r s tr a -> quiet s a ->
  match step s a with
  | Disabled => True
  | AssertFail => False
  | Ok s' evs => inv r s' (tr ++ evs)
  end.
Proof.
  intros I HA HQ. destruct a as [ma|t timed usem|t|t| | |t|t]; cbn [step allowed quiet] in *.
  - (* mutex *)
    destruct (c_pc s (task_of ma)) eqn:Ep; try exact Logic.I.
    pose proof (Kmutex_Proofs.no_assert_fail _ _ _ ma (j_m _ _ _ I) HA) as NF.
    destruct (Kmutex_Model.step (c_m s) ma) as [| |m' e] eqn:ES; [exact Logic.I|congruence|].
    eapply inv_mutex; eauto.
  - (* wait *)
    destruct (c_pc s t) eqn:Ep; try exact Logic.I.
    destruct (Kmutex_Model.m_pc (c_m s) t) eqn:Emp; try exact Logic.I.
    unfold wait. unfold linked. change (existsb (Z.eqb t) (c_wait s)) with (inb t (c_wait s)).
    assert (NL : ~ In t (c_wait s)).
    { intros H. destruct (j_linked _ _ _ I _ H) as [K|[u K]]; rewrite Ep in K; discriminate. }
    replace (inb t (c_wait s)) with false by (symmetry; apply inb_notin, NL).
    assert (GEN : forall m' tr', Kmutex_Spec.reach r m' (mu tr') ->
        (forall x, x <> t -> Kmutex_Spec.held (mu tr') x = Kmutex_Spec.held (mu tr) x) ->
        (usem = true -> Kmutex_Spec.held (mu tr') t = 0) ->
        waiting tr' = waiting tr -> (forall x, why tr' x = why tr x) ->
        inv r (mk_c m' (c_wait s ++ [t]) (fupd (c_pc s) t (CAsleep usem))
                 (if timed then fupd (c_armed s) t true else c_armed s)) (tr' ++ [EWait t timed usem])).
    { intros m' tr' HM HO HT HW HY. destruct I. constructor; cbn [c_m c_wait c_pc c_armed].
      - rewrite mu_app. cbn. rewrite app_nil_r. exact HM.
      - apply (NoDup_Add (a := t) (l := c_wait s)); [|split; assumption].
        rewrite <- (app_nil_r (c_wait s)) at 1. apply Add_app.
      - intros x u. unfold fupd. rewrite in_app_iff. destruct (x =? t) eqn:E.
        + intros _. right. left. lia.
        + intros H. left. eauto.
      - intros x. rewrite in_app_iff. unfold fupd. destruct (x =? t) eqn:E; [left; reflexivity|].
        intros [H|[H|[]]]; [auto|lia].
      - rewrite waiting_app. cbn [fold_left waiting1]. rewrite HW, j_wait0, filter_app. cbn [filter].
        rewrite fupd_same. cbn [is_asleep]. f_equal. apply filter_ext_in. intros x Hx.
        rewrite fupd_other; [reflexivity|]. congruence.
      - intros x. unfold fupd. destruct (x =? t) eqn:E; [reflexivity|].
        destruct timed; [unfold fupd; rewrite E|]; auto.
      - intros x u. unfold fupd. destruct (x =? t) eqn:E; [discriminate|]. intros Hx.
        rewrite why_app. cbn [fold_left reason1]. replace (t =? x) with false by lia. rewrite HY.
        specialize (j_ready0 _ _ Hx). replace (inb x (c_wait s ++ [t])) with (inb x (c_wait s)); [exact j_ready0|].
        unfold inb. rewrite existsb_app. cbn. rewrite E. rewrite !orb_false_r. reflexivity.
      - intros x ret. unfold fupd. destruct (x =? t) eqn:E; [discriminate|]. intros Hx.
        rewrite why_app. cbn [fold_left reason1]. replace (t =? x) with false by lia. rewrite HY. apply (j_relock0 _ _ Hx).
      - intros x. unfold fupd. rewrite mu_app. cbn. rewrite app_nil_r. destruct (x =? t) eqn:E.
        + assert (x = t) by lia. subst x. intros [H|[H|[ret H]]]; try discriminate.
          apply HT. congruence.
        + intros H. rewrite HO by lia. auto. }
    destruct usem.
    + pose proof (Kmutex_Proofs.reach_inv _ _ _ (j_m _ _ _ I)) as MI.
      assert (OW : Kmutex_Model.m_owner (c_m s) = Some t).
      { destruct (Kmutex_Model.owner_is (c_m s) t) eqn:E.
        - apply Kmutex_Proofs.owner_is_true, E.
        - apply Kmutex_Proofs.owner_is_false in E.
          pose proof (Kmutex_Proofs.i_held0 _ _ _ MI t (or_introl E)). lia. }
      assert (OT : Kmutex_Model.owner_is (c_m s) t = true) by (apply Kmutex_Proofs.owner_is_true, OW).
      rewrite OT. destruct (Kmutex_Proofs.i_held _ _ _ MI t OW) as (_ & K & _).
      destruct (K Emp) as [_ K2]. rewrite (Kmutex_Proofs.i_rec _ _ _ MI).
      replace (r && negb (Kmutex_Model.m_count (c_m s) =? 1)) with false.
      2:{ destruct r; [|reflexivity]. rewrite K2, HA. reflexivity. }
      assert (HAU : Kmutex_Spec.allowed r (mu tr) (Kmutex_Model.Unlock t)) by (cbn; lia).
      pose proof (Kmutex_Proofs.no_assert_fail _ _ _ _ (j_m _ _ _ I) HAU) as NF.
      assert (EU : Kmutex_Model.step (c_m s) (Kmutex_Model.Unlock t) = Kmutex_Model.unlock (c_m s) t).
      { cbn [Kmutex_Model.step]. rewrite Emp. reflexivity. }
      destruct (Kmutex_Model.unlock (c_m s) t) as [| |m' e] eqn:ES.
      * unfold Kmutex_Model.unlock in ES. rewrite OT in ES.
        repeat match type of ES with
        | (if ?b then _ else _) = _ => destruct b; try discriminate
        | (match ?x with [] => _ | _ :: _ => _ end) = _ => destruct x; try discriminate
        | (match ?x with Kmutex_Model.Out => _ | _ => _ end) = _ => destruct x; try discriminate
        end.
      * congruence.
      * assert (Ee : e = Kmutex_Model.ERel t).
        { clear -ES. unfold Kmutex_Model.unlock in ES.
          repeat match type of ES with
          | (if ?b then _ else _) = _ => destruct b; try discriminate
          | (match ?x with [] => _ | _ :: _ => _ end) = _ => destruct x; try discriminate
          | (match ?x with Kmutex_Model.Out => _ | _ => _ end) = _ => destruct x; try discriminate
          end; congruence. }
        subst e. change [EMu (Kmutex_Model.ERel t); EWait t timed true] with
                 ([EMu (Kmutex_Model.ERel t)] ++ [EWait t timed true]). rewrite app_assoc.
        apply GEN.
        -- rewrite mu_app. cbn [mu flat_map app]. eapply mreach_step; [apply I|exact HAU|exact EU].
        -- intros x Hx. rewrite mu_app. cbn [mu flat_map app]. apply held_other. cbn. congruence.
        -- intros _. rewrite mu_app. cbn [mu flat_map app]. rewrite Kmutex_Proofs.held_snoc. cbn.
           rewrite Z.eqb_refl. lia.
        -- apply waiting_mutex.
        -- intros x. apply why_mutex.
    + apply GEN; auto; [apply I|discriminate].
  - (* resume *)
    destruct (c_pc s t) as [| |usem|] eqn:Ep; try exact Logic.I. unfold resume.
    unfold linked. change (existsb (Z.eqb t) (c_wait s)) with (inb t (c_wait s)).
    pose proof (j_ready _ _ _ I t usem Ep) as HR.
    destruct usem; cbn [negb].
    + apply inv_leave; auto; [rewrite Ep; reflexivity|]. right. eexists. split; [reflexivity|].
      split; [apply (j_held _ _ _ I); auto|]. destruct (inb t (c_wait s)); exact HR.
    + apply inv_leave; eauto. rewrite Ep. reflexivity.
  - (* relock *)
    destruct (c_pc s t) as [| | |ret] eqn:Ep; try exact Logic.I. unfold relock.
    assert (H0 : Kmutex_Spec.held (mu tr) t = 0) by (apply (j_held _ _ _ I); eauto).
    assert (NI : ~ In t (c_wait s)).
    { intros H. destruct (j_linked _ _ _ I _ H) as [K|[u K]]; rewrite Ep in K; discriminate. }
    assert (FIN : forall a, task_of a = t -> Kmutex_Spec.allowed r (mu tr) a ->
       (a = Kmutex_Model.Lock t \/ a = Kmutex_Model.Resume t) ->
       match match Kmutex_Model.step (c_m s) a with
             | Kmutex_Model.Ok m' e => match e with
               | Kmutex_Model.EAcq _ => Ok (mk_c m' (c_wait s) (fupd (c_pc s) t COut) (c_armed s)) [EMu e; ERet t ret]
               | _ => Ok (mk_c m' (c_wait s) (c_pc s) (c_armed s)) [EMu e]
               end
             | Kmutex_Model.AssertFail => AssertFail | Kmutex_Model.Disabled => Disabled end with
       | Disabled => True | AssertFail => False | Ok s' evs => inv r s' (tr ++ evs) end).
    { intros a Ea Ha Hs. pose proof (Kmutex_Proofs.no_assert_fail _ _ _ a (j_m _ _ _ I) Ha) as NF.
      destruct (Kmutex_Model.step (c_m s) a) as [| |m' e] eqn:ES; [exact Logic.I|congruence|].
      assert (ND : forall b, e <> Kmutex_Model.ERel b).
      { intros b ->. destruct Hs as [->| ->]; cbn [Kmutex_Model.step] in ES;
        destruct (Kmutex_Model.m_pc (c_m s) t); try discriminate;
        unfold Kmutex_Model.lock, Kmutex_Model.lock_resume in ES;
        repeat match type of ES with
        | (if ?b then _ else _) = _ => destruct b; try discriminate
        | (match ?x with Some _ => _ | None => _ end) = _ => destruct x; try discriminate
        end. }
      assert (NB : (forall b, e <> Kmutex_Model.EAcq b) -> inv r (mk_c m' (c_wait s) (c_pc s) (c_armed s)) (tr ++ [EMu e])).
      { intros NA. eapply inv_mutex; eauto. }
      destruct e as [b|b|b|b]; try (apply NB; congruence).
      change [EMu (Kmutex_Model.EAcq b); ERet t ret] with ([EMu (Kmutex_Model.EAcq b)] ++ [ERet t ret]).
      rewrite app_assoc.
      assert (L : inv r (mk_c (c_m s) (c_wait s) (fupd (c_pc s) t COut) (c_armed s)) tr).
      { rewrite <- (app_nil_r tr). rewrite <- (unlink_notin t (c_wait s) NI).
        apply inv_leave; auto. rewrite Ep. reflexivity. }
      assert (L2 : inv r (mk_c m' (c_wait s) (fupd (c_pc s) t COut) (c_armed s)) (tr ++ [EMu (Kmutex_Model.EAcq b)])).
      { apply (inv_mutex r _ tr a m' (Kmutex_Model.EAcq b) L Ha ES); right; cbn [c_pc]; rewrite Ea; apply fupd_same. }
      assert (L3 := inv_leave r _ _ t COut [ERet t ret] L2). cbn [c_m c_wait c_pc c_armed] in L3.
      rewrite (unlink_notin t (c_wait s) NI), fupd_same in L3.
      assert (EX : forall x, fupd (fupd (c_pc s) t COut) t COut x = fupd (c_pc s) t COut x).
      { intros x. unfold fupd. destruct (x =? t); reflexivity. }
      specialize (L3 eq_refl (or_introl eq_refl) ltac:(eauto)).
      clear -L3 EX. destruct L3. cbn [c_m c_wait c_pc c_armed] in *.
      constructor; cbn [c_m c_wait c_pc c_armed]; auto.
      - intros x u. rewrite <- EX. apply j_asleep0.
      - intros x. rewrite <- EX. apply j_linked0.
      - rewrite j_wait0. apply filter_ext. intros x. rewrite EX. reflexivity.
      - intros x. rewrite <- EX. apply j_arm0.
      - intros x u. rewrite <- EX. apply j_ready0.
      - intros x b'. rewrite <- EX. apply j_relock0.
      - intros x. rewrite <- EX. apply j_held0. }
    destruct (Kmutex_Model.m_pc (c_m s) t); [|exact Logic.I|].
    + apply FIN; auto. cbn. rewrite H0. destruct r; lia.
    + apply FIN; auto.
  - (* signal one *)
    destruct (c_wait s) as [|t w] eqn:EW.
    { apply (inv_woke r s tr [] s (ESignal true []) BySignal I); auto.
      constructor; intros; auto. rewrite drop_nil. reflexivity. }
    pose proof (signal_int_woke s t) as W. destruct (signal_int s t) as [s' k]. destruct W as [Ek W].
    apply (inv_woke r s tr k s' (ESignal true k) BySignal I); auto.
    rewrite Ek. intros x Hx. destruct (is_asleep (c_pc s t)) eqn:E; [|destruct Hx].
    destruct Hx as [<-|[]]. exact E.
  - (* signal all *)
    pose proof (signal_each_woke (c_wait s) s (j_nodup _ _ _ I)) as W.
    destruct (signal_each s (c_wait s)) as [s' k]. destruct W as [Ek W].
    apply (inv_woke r s tr k s' (ESignal false k) BySignal I); auto.
    rewrite Ek. intros x Hx. apply filter_In in Hx. apply Hx.
  - (* timer *)
    destruct (c_armed s t) eqn:EA; [|exact Logic.I].
    pose proof (j_arm _ _ _ I t EA) as As.
    destruct (c_pc s t) as [|usem| |] eqn:Ep; try discriminate.
    assert (IN : In t (c_wait s)) by (eapply j_asleep; eassumption).
    destruct I. constructor; cbn [c_m c_wait c_pc c_armed].
    + rewrite mu_app. cbn. rewrite app_nil_r. assumption.
    + assumption.
    + intros x u. unfold fupd. destruct (x =? t); [discriminate|]. eauto.
    + intros x Hx. unfold fupd. destruct (x =? t); [right; eauto|auto].
    + rewrite waiting_app. cbn [fold_left waiting1]. rewrite j_wait0. symmetry. apply filter_weaker.
      intros x Hx. unfold fupd. cbn [inb existsb]. rewrite orb_false_r. destruct (x =? t) eqn:E; cbn [is_asleep negb].
      * rewrite andb_false_r. reflexivity.
      * rewrite andb_true_r. reflexivity.
    + intros x. unfold fupd. destruct (x =? t); [discriminate|auto].
    + intros x u. unfold fupd. rewrite why_app. cbn [fold_left reason1]. rewrite (Z.eqb_sym t x).
      destruct (x =? t) eqn:E.
      * intros _. assert (x = t) by lia. subst x. apply inb_in in IN. rewrite IN. reflexivity.
      * apply j_ready0.
    + intros x ret. unfold fupd. rewrite why_app. cbn [fold_left reason1]. rewrite (Z.eqb_sym t x).
      destruct (x =? t); [discriminate|]. apply j_relock0.
    + intros x. unfold fupd. rewrite mu_app. cbn. rewrite app_nil_r. destruct (x =? t) eqn:E; [|apply j_held0].
      assert (x = t) by lia. subst x. intros [H|[H|[b H]]]; try discriminate. injection H as ->. auto.
  - (* interrupt *)
    destruct (c_pc s t) as [|usem| |] eqn:Ep; try exact Logic.I.
    apply (inv_woke r s tr [t] _ (EIntr t) ByInterrupt I).
    + intros x [<-|[]]. rewrite Ep. reflexivity.
    + constructor; cbn [c_m c_wait c_pc c_armed inb existsb]; intros; try reflexivity.
      * apply unlink_drop.
      * unfold fupd. rewrite orb_false_r. destruct (t0 =? t) eqn:Et; [|reflexivity].
        assert (t0 = t) by lia. subst t0. rewrite Ep. reflexivity.
      * rewrite orb_false_r. destruct (t0 =? t) eqn:Et; [|reflexivity].
        assert (t0 = t) by lia. subst t0. exact HQ.
    + reflexivity.
    + intros x q. cbn. rewrite orb_false_r, (Z.eqb_sym x t). reflexivity.
    + auto.
    + reflexivity.
Qed.

Lemma reach_inv r s tr : reach r s tr -> inv r s tr.
Proof.
  intros H. induction H as [|s tr a s' evs H IH HA HQ HS]; [apply inv_init|].
  pose proof (inv_step r s tr a IH HA HQ) as K. rewrite HS in K. exact K.
Qed.

Lemma no_assert_fail r s tr a : reach r s tr -> allowed r s tr a -> quiet s a -> step s a <> AssertFail.
Proof.
  intros H HA HQ E. pose proof (inv_step r s tr a (reach_inv _ _ _ H) HA HQ) as K. rewrite E in K. exact K.
Qed.

(** Waiting tasks are asleep and registered *)
Lemma waiting_iff r s tr t : reach r s tr -> (In t (waiting tr) <-> exists u, c_pc s t = CAsleep u).
Proof.
  intros H. pose proof (reach_inv _ _ _ H) as I. rewrite (j_wait _ _ _ I), filter_In. split.
  - intros [_ E]. destruct (c_pc s t) as [|u| |]; try discriminate. eauto.
  - intros [u E]. split; [eapply j_asleep; eassumption|rewrite E; reflexivity].
Qed.

Lemma wait_registers r s tr t timed usem s' evs : reach r s tr -> allowed r s tr (CWait t timed usem) ->
  step s (CWait t timed usem) = Ok s' evs ->
  waiting (tr ++ evs) = waiting tr ++ [t] /\ (usem = true -> ~ holds (tr ++ evs) t).
Proof.
  intros H HA HS. assert (R' : reach r s' (tr ++ evs)) by (econstructor; eauto; exact Logic.I).
  pose proof (reach_inv _ _ _ H) as I. pose proof (reach_inv _ _ _ R') as I'.
  cbn [step] in HS. destruct (c_pc s t) eqn:Ep; try discriminate.
  destruct (Kmutex_Model.m_pc (c_m s) t); try discriminate.
  unfold wait in HS. destruct (linked s t); [discriminate|]. destruct usem.
  - destruct (Kmutex_Model.owner_is (c_m s) t); [|discriminate].
    destruct (Kmutex_Model.m_rec (c_m s) && _); [discriminate|].
    destruct (Kmutex_Model.unlock (c_m s) t) as [| |m' e]; try discriminate. injection HS as <- <-.
    split; [rewrite waiting_app; reflexivity|]. intros _. unfold holds.
    rewrite (j_held _ _ _ I' t); [lia|]. left. cbn [c_pc]. apply fupd_same.
  - injection HS as <- <-. split; [rewrite waiting_app; reflexivity|discriminate].
Qed.

Lemma signal_all_wakes r s tr s' evs : reach r s tr -> step s SignalAll = Ok s' evs ->
  evs = [ESignal false (waiting tr)] /\ waiting (tr ++ evs) = [].
Proof.
  intros H HS. pose proof (reach_inv _ _ _ H) as I. cbn [step] in HS.
  pose proof (signal_each_woke (c_wait s) s (j_nodup _ _ _ I)) as W.
  destruct (signal_each s (c_wait s)) as [s1 k]. destruct W as [Ek W]. injection HS as _ <-.
  rewrite <- (j_wait _ _ _ I) in Ek. subst k. split; [reflexivity|].
  rewrite waiting_app. cbn [fold_left waiting1].
  assert (G : forall a l, incl l a -> drop a l = []).
  { intros a. induction l as [|x l IH]; intros HI; [reflexivity|]. unfold drop in *. cbn [filter].
    replace (existsb (Z.eqb x) a) with true; [cbn; apply IH; intros y Hy; apply HI; right; exact Hy|].
    symmetry. apply (proj2 (inb_in x a)). apply HI. left. reflexivity. }
  apply G. intros x Hx. exact Hx.
Qed.

(** No task whose timer expired is still registered *)
Definition none_expired (s : cst) (tr : list event) : Prop :=
  forall t u, c_pc s t = CReady u -> why tr t <> ByTimer.

Lemma signal_one_oldest r s tr s' evs : reach r s tr -> none_expired s tr ->
  step s SignalOne = Ok s' evs ->
  evs = [ESignal true (firstn 1 (waiting tr))] /\ waiting (tr ++ evs) = skipn 1 (waiting tr).
Proof.
  intros H HN HS. pose proof (reach_inv _ _ _ H) as I.
  assert (EW : waiting tr = c_wait s).
  { rewrite (j_wait _ _ _ I).
    assert (G : forall l, incl l (c_wait s) -> filter (fun t => is_asleep (c_pc s t)) l = l).
    { induction l as [|x l IH]; intros HI; [reflexivity|]. cbn [filter].
      rewrite IH by (intros y Hy; apply HI; right; exact Hy).
      assert (Hx : In x (c_wait s)) by (apply HI; left; reflexivity).
      destruct (j_linked _ _ _ I x Hx) as [->|[u K]]; [reflexivity|].
      exfalso. apply (HN x u K). pose proof (j_ready _ _ _ I x u K) as Q.
      apply inb_in in Hx. rewrite Hx in Q. exact Q. }
    apply G. intros x Hx. exact Hx. }
  rewrite EW. cbn [step] in HS. destruct (c_wait s) as [|t w] eqn:Ew.
  - injection HS as _ <-. split; [reflexivity|]. rewrite waiting_app, EW. reflexivity.
  - pose proof (signal_int_woke s t) as W. destruct (signal_int s t) as [s1 k]. destruct W as [Ek W].
    injection HS as _ <-.
    assert (AS : is_asleep (c_pc s t) = true).
    { assert (Hx : In t (waiting tr)) by (rewrite EW; left; reflexivity).
      apply (waiting_iff r s tr t H) in Hx. destruct Hx as [u ->]. reflexivity. }
    rewrite AS in Ek. subst k. split; [reflexivity|]. rewrite waiting_app. cbn [fold_left waiting1]. rewrite EW.
    cbn [skipn]. pose proof (j_nodup _ _ _ I) as ND. rewrite Ew in ND. apply NoDup_cons_iff in ND.
    rewrite <- unlink_drop. unfold unlink. cbn [filter]. rewrite Z.eqb_refl. cbn [negb]. apply unlink_notin, ND.
Qed.

(** Why and how a wait returns *)
Lemma return_reason r s tr a s' evs t b : reach r s tr -> allowed r s tr a -> quiet s a ->
  step s a = Ok s' evs -> In (ERet t b) evs ->
  (if b then why tr t = BySignal \/ why tr t = ByInterrupt else why tr t = ByTimer) /\
  ((a = CLock t /\ holds (tr ++ evs) t) \/ (a = CResume t /\ c_pc s t = CReady false)).
Proof.
  intros H HA HQ HS HI. pose proof (reach_inv _ _ _ H) as I.
  destruct a as [ma|x timed usem|x|x| | |x|x]; cbn [step] in HS.
  - destruct (c_pc s (task_of ma)); try discriminate.
    destruct (Kmutex_Model.step (c_m s) ma); try discriminate. injection HS as _ <-.
    destruct HI as [HI|[]]. discriminate.
  - destruct (c_pc s x); try discriminate. destruct (Kmutex_Model.m_pc (c_m s) x); try discriminate.
    unfold wait in HS. destruct (linked s x); [discriminate|]. destruct usem.
    + destruct (Kmutex_Model.owner_is (c_m s) x); [|discriminate].
      destruct (Kmutex_Model.m_rec (c_m s) && _); [discriminate|].
      destruct (Kmutex_Model.unlock (c_m s) x); try discriminate. injection HS as _ <-.
      destruct HI as [HI|[HI|[]]]; discriminate.
    + injection HS as _ <-. destruct HI as [HI|[]]. discriminate.
  - destruct (c_pc s x) as [| |usem|] eqn:Ep; try discriminate. unfold resume in HS. destruct usem.
    + injection HS as _ <-. destruct HI.
    + injection HS as _ <-. destruct HI as [[= <- <-]|[]]. split; [|right; auto].
      pose proof (j_ready _ _ _ I x false Ep) as Q. unfold linked.
      change (existsb (Z.eqb x) (c_wait s)) with (inb x (c_wait s)). destruct (inb x (c_wait s)); exact Q.
  - destruct (c_pc s x) as [| | |ret] eqn:Ep; try discriminate. unfold relock in HS.
    assert (FIN : forall ma, task_of ma = x -> Kmutex_Spec.allowed r (mu tr) ma ->
       match Kmutex_Model.step (c_m s) ma with
             | Kmutex_Model.Ok m' e => match e with
               | Kmutex_Model.EAcq _ => Ok (mk_c m' (c_wait s) (fupd (c_pc s) x COut) (c_armed s)) [EMu e; ERet x ret]
               | _ => Ok (mk_c m' (c_wait s) (c_pc s) (c_armed s)) [EMu e]
               end
             | Kmutex_Model.AssertFail => AssertFail | Kmutex_Model.Disabled => Disabled end = Ok s' evs ->
        x = t /\ ret = b /\ holds (tr ++ evs) t).
    { intros ma Et Hal K. destruct (Kmutex_Model.step (c_m s) ma) as [| |m' e] eqn:ES; try discriminate.
      pose proof (mstep_task _ _ _ _ ES) as ET.
      destruct e as [y|y|y|y]; injection K as _ <-; destruct HI as [HI|HI]; try discriminate;
        try (destruct HI; fail).
      destruct HI as [[= <- <-]|[]]. split; [reflexivity|]. split; [reflexivity|].
      unfold holds. rewrite mu_app. cbn [mu flat_map app].
      pose proof (Kmutex_Proofs.held_nonneg _ _ _ (j_m _ _ _ I) x).
      rewrite Kmutex_Proofs.held_snoc. cbn [Kmutex_Spec.held1]. cbn [ev_task] in ET.
      replace (y =? x) with true by lia. lia. }
    assert (H0 : Kmutex_Spec.held (mu tr) x = 0) by (apply (j_held _ _ _ I); eauto).
    assert (D : x = t /\ ret = b /\ holds (tr ++ evs) t).
    { destruct (Kmutex_Model.m_pc (c_m s) x); [|discriminate|].
      - eapply FIN; [| |exact HS]; [reflexivity|]. cbn. rewrite H0. destruct r; lia.
      - eapply FIN; [| |exact HS]; [reflexivity|]. exact Logic.I. }
    destruct D as (-> & -> & D). split; [apply (j_relock _ _ _ I t b Ep)|left; auto].
  - destruct (c_wait s); [|destruct (signal_int s z)]; injection HS as _ <-; destruct HI as [HI|[]]; discriminate.
  - destruct (signal_each s (c_wait s)). injection HS as _ <-. destruct HI as [HI|[]]; discriminate.
  - destruct (c_armed s x); [|discriminate]. destruct (c_pc s x); [destruct (Kmutex_Model.m_pc (c_m s) x)| |destruct (Kmutex_Model.m_pc (c_m s) x)|destruct (Kmutex_Model.m_pc (c_m s) x)];
    try discriminate; injection HS as _ <-; destruct HI as [HI|[]]; discriminate.
  - destruct (c_pc s x); try discriminate. injection HS as _ <-; destruct HI as [HI|[]]; discriminate.
Qed.

(** *** Counterexamples *)
Fixpoint run (s : cst) (l : list action) : option (cst * list event) :=
  match l with
  | [] => Some (s, [])
  | a :: r => match step s a with
              | Ok s' ev => match run s' r with Some (s2, tr) => Some (s2, ev ++ tr) | None => None end
              | _ => None
              end
  end.

Fixpoint run_ok (r : bool) (s : cst) (tr : list event) (l : list action) : Prop :=
  match l with
  | [] => True
  | a :: l' => allowed r s tr a /\ quiet s a /\
      match step s a with Ok s' ev => run_ok r s' (tr ++ ev) l' | _ => False end
  end.

Lemma run_reach r l : forall s tr s' tr', reach r s tr -> run_ok r s tr l ->
  run s l = Some (s', tr') -> reach r s' (tr ++ tr').
Proof.
  induction l as [|a l IH]; cbn [run run_ok]; intros s tr s' tr' HR HK E.
  - injection E as <- <-. rewrite app_nil_r. exact HR.
  - destruct HK as (HA & HQ & HK). destruct (step s a) as [| |s1 ev] eqn:ES; try contradiction.
    destruct (run s1 l) as [[s2 tr2]|] eqn:ER; [|discriminate]. injection E as <- <-.
    rewrite app_assoc. eapply IH; try eassumption. econstructor; eassumption.
Qed.

(** Task 1 waits with a timeout, task 2 without; task 1's timer fires; then a
    single signal reaches nobody although task 2 waits *)
Definition swallowed : list action := [CWait 1 true false; CWait 2 false false; TimerFire 1].

Lemma signal_swallowed : exists s tr s', reach false s tr /\ waiting tr = [2] /\
  step s SignalOne = Ok s' [ESignal true []] /\ waiting (tr ++ [ESignal true []]) = [2].
Proof.
  destruct (run (kcond_init false) swallowed) as [[s tr]|] eqn:E; [|vm_compute in E; discriminate].
  destruct (step s SignalOne) as [| |s' ev] eqn:ES.
  1,2: exfalso; vm_compute in E; injection E as <- <-; vm_compute in ES; discriminate.
  exists s, tr, s'. split.
  { rewrite <- (app_nil_l tr). eapply run_reach; [constructor| |exact E].
    unfold swallowed. vm_compute. tauto. }
  vm_compute in E. injection E as <- <-. vm_compute in ES. injection ES as <- <-.
  split; [reflexivity|]. split; reflexivity.
Qed.

(** A wait without timeout that nobody signalled returns true *)
Definition spurious : list action := [CWait 1 false false; Interrupt 1; CResume 1].
Lemma spurious_return : exists s tr, reach false s tr /\ In (ERet 1 true) tr /\
  (forall b k, In (ESignal b k) tr -> False).
Proof.
  destruct (run (kcond_init false) spurious) as [[s tr]|] eqn:E; [|vm_compute in E; discriminate].
  exists s, tr. split.
  { rewrite <- (app_nil_l tr). eapply run_reach; [constructor| |exact E]. unfold spurious. vm_compute. tauto. }
  vm_compute in E. injection E as <- <-. split; [right; right; left; reflexivity|].
  intros b k [H|[H|[H|[]]]]; discriminate.
Qed.

(** A POSIX signal interrupts a timed wait and leaves the timer armed; the task
    then waits for a mutex held by task 2; the stale timer fires and
    kmutex_lock goes on although task 2 holds the mutex *)
Definition stale : list action :=
  [CWait 1 true false; Interrupt 1; CResume 1;
   Mutex (Kmutex_Model.Lock 2); Mutex (Kmutex_Model.Lock 1); TimerFire 1].

Fixpoint run_any (r : bool) (s : cst) (tr : list event) (l : list action) : Prop :=
  match l with
  | [] => True
  | a :: l' => allowed r s tr a /\
      match step s a with Ok s' ev => run_any r s' (tr ++ ev) l' | _ => False end
  end.
Lemma run_reach_any r l : forall s tr s' tr', reach_any r s tr -> run_any r s tr l ->
  run s l = Some (s', tr') -> reach_any r s' (tr ++ tr').
Proof.
  induction l as [|a l IH]; cbn [run run_any]; intros s tr s' tr' HR HK E.
  - injection E as <- <-. rewrite app_nil_r. exact HR.
  - destruct HK as (HA & HK). destruct (step s a) as [| |s1 ev] eqn:ES; try contradiction.
    destruct (run s1 l) as [[s2 tr2]|] eqn:ER; [|discriminate]. injection E as <- <-.
    rewrite app_assoc. eapply IH; try eassumption. econstructor; eassumption.
Qed.

Lemma stale_timer : exists s tr, reach_any false s tr /\ holds tr 2 /\
  Kmutex_Model.m_owner (c_m s) = Some 2 /\
  step s (Mutex (Kmutex_Model.Resume 1)) = AssertFail.
Proof.
  destruct (run (kcond_init false) stale) as [[s tr]|] eqn:E; [|vm_compute in E; discriminate].
  exists s, tr. split.
  { rewrite <- (app_nil_l tr). eapply run_reach_any; [constructor| |exact E]. unfold stale. vm_compute. tauto. }
  vm_compute in E. injection E as <- <-. split; [reflexivity|]. split; reflexivity.
Qed.
