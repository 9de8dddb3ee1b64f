From Verif Require Import Lib Kmutex_Model Kmutex_Spec.

Lemma held_snoc tr e t : held (tr ++ [e]) t = held1 t (held tr t) e.
Proof. unfold held. rewrite fold_left_app. reflexivity. Qed.

Lemma waiters_snoc tr e : waiters (tr ++ [e]) = waiters1 (waiters tr) e.
Proof. unfold waiters. rewrite fold_left_app. reflexivity. Qed.

Lemma remove_notin l t : ~ In t l -> remove Z.eq_dec t l = l.
Proof. apply notin_remove. Qed.

(** The task that owns the mutex without having returned from lock yet *)
Record inv (r : bool) (m : kmutex) (tr : list event) : Prop := {
  i_rec : m_rec m = r;
  i_nodup : NoDup (m_wait m);
  i_asleep : forall t, m_pc m t = Asleep <-> In t (m_wait m);
  i_woken : forall t, m_pc m t = Woken -> m_owner m = Some t;
  i_none : m_owner m = None -> m_wait m = [] /\ m_count m = 0;
  i_held0 : forall t, m_owner m <> Some t \/ m_pc m t = Woken -> held tr t = 0;
  i_held : forall t, m_owner m = Some t -> m_pc m t <> Asleep /\
     (m_pc m t = Out -> 0 < held tr t <= 4294967295 /\ (if r then m_count m = held tr t
                                          else held tr t = 1 /\ m_count m = 0)) /\
     (m_pc m t = Woken -> m_count m = if r then 1 else 0);
  i_waiters : waiters tr = (match m_owner m with
     | Some t => match m_pc m t with Woken => [t] | _ => [] end | None => [] end) ++ m_wait m
}.

Lemma owner_is_true m t : owner_is m t = true <-> m_owner m = Some t.
Proof.
  unfold owner_is. destruct (m_owner m) as [o|]; [|split; discriminate].
  rewrite Z.eqb_eq. split; [intros ->; reflexivity|intros [=]; assumption].
Qed.

Lemma owner_is_false m t : owner_is m t = false <-> m_owner m <> Some t.
Proof.
  rewrite <- owner_is_true. destruct (owner_is m t); split; intros; congruence.
Qed.

Lemma inv_init r : inv r (kmutex_init r) [].
Proof.
  constructor; cbn; intros; try congruence; auto; try constructor; try discriminate.
  intros [].
Qed.

Lemma u32_id x : 0 <= x < 4294967296 -> u32 x = x.
Proof. apply u32_small. Qed.

Lemma waiters_acq_self ws t l : ~ In t l -> ws = [t] ++ l -> remove Z.eq_dec t ws = l.
Proof.
  intros H ->. cbn [app remove]. destruct (Z.eq_dec t t); [|congruence]. apply remove_notin, H.
Qed.

Ltac mdest m := destruct m as [mr mo mc mw mp]; cbn [m_rec m_owner m_count m_wait m_pc] in *.

Lemma inv_step r m tr a : inv r m tr -> allowed r tr a ->
  match step m a with
  | Disabled => True
  | AssertFail => False
  | Ok m' ev => inv r m' (tr ++ [ev])
  end.
Proof.
  intros I HA. destruct a as [t|t|t|t]; cbn [step allowed] in *.
  - (* lock *)
    destruct (m_pc m t) eqn:Epc; [|exact Logic.I|exact Logic.I].
    unfold lock. destruct (m_owner m) as [o|] eqn:Eo.
    + destruct (i_held _ _ _ I o Eo) as (Ho1 & Ho2 & Ho3).
      assert (SLEEP : o <> t -> inv r
        (mk_m (m_rec m) (Some o) (m_count m) (m_wait m ++ [t]) (fupd (m_pc m) t Asleep)) (tr ++ [EBlock t])).
      { intros Hne. assert (Hni : ~ In t (m_wait m)).
        { intros H. apply (i_asleep _ _ _ I) in H. congruence. }
        constructor; cbn [m_rec m_owner m_count m_wait m_pc].
        - apply I.
        - apply NoDup_rev in Hni || idtac.
          apply (NoDup_Add (a := t) (l := m_wait m)); [|split; [apply I|exact Hni]].
          rewrite <- (app_nil_r (m_wait m)) at 1. apply Add_app.
        - intros u. unfold fupd. rewrite in_app_iff. destruct (u =? t) eqn:E.
          + split; [right; left; lia|reflexivity].
          + rewrite (i_asleep _ _ _ I u). cbn. intuition lia.
        - intros u. unfold fupd. destruct (u =? t); [discriminate|]. rewrite <- Eo. apply I.
        - discriminate.
        - intros u Hu. rewrite held_snoc. cbn [held1]. apply (i_held0 _ _ _ I). rewrite Eo.
          unfold fupd in Hu. destruct (u =? t) eqn:E; [|exact Hu].
          left. assert (u = t) by lia. subst u. congruence.
        - intros u [= <-]. rewrite held_snoc. cbn [held1]. rewrite fupd_other by assumption.
          destruct (i_held _ _ _ I o Eo) as (H1 & H2 & H3). split; [exact H1|]. split; [exact H2|exact H3].
        - rewrite waiters_snoc. cbn [waiters1]. rewrite (i_waiters _ _ _ I), Eo.
          rewrite fupd_other by congruence. rewrite app_assoc. reflexivity. }
      pose proof (i_rec _ _ _ I) as Er. rewrite Er in SLEEP |- *. destruct r.
      * assert (Hc : 0 < m_count m).
        { destruct (m_pc m o) eqn:E; [destruct (Ho2 eq_refl); lia|congruence|rewrite (Ho3 eq_refl); lia]. }
        destruct (0 <? m_count m) eqn:Ec; [|lia].
        destruct (owner_is m t) eqn:Eio.
        -- apply owner_is_true in Eio. rewrite Eo in Eio. injection Eio as ->.
           destruct (Ho2 Epc) as (Hh & Hc2).
           constructor; cbn [m_rec m_owner m_count m_wait m_pc].
           ++ reflexivity.
           ++ apply I.
           ++ apply I.
           ++ rewrite <- Eo. apply I.
           ++ discriminate.
           ++ intros u Hu. rewrite held_snoc. cbn [held1]. destruct (t =? u) eqn:E.
              ** assert (t = u) by lia. subst u. intuition congruence.
              ** apply (i_held0 _ _ _ I). rewrite Eo. exact Hu.
           ++ intros u [= <-]. rewrite held_snoc. cbn [held1]. rewrite Z.eqb_refl.
              rewrite u32_id by lia. split; [congruence|]. split; [intros _; lia|congruence].
           ++ rewrite waiters_snoc. cbn [waiters1]. rewrite (i_waiters _ _ _ I), Eo, Epc.
              apply remove_notin. cbn [app]. intros H. apply (i_asleep _ _ _ I) in H. congruence.
        -- apply owner_is_false in Eio. apply SLEEP. congruence.
      * destruct (owner_is m t) eqn:Eio.
        -- apply owner_is_true in Eio. rewrite Eo in Eio. injection Eio as ->.
           destruct (Ho2 Epc) as (Hh & Hc2). lia.
        -- apply owner_is_false in Eio. apply SLEEP. congruence.
    + destruct (i_none _ _ _ I Eo) as [Hw Hc].
      assert (H0 : forall u, held tr u = 0).
      { intros u. apply (i_held0 _ _ _ I). left. congruence. }
      assert (HWAIT : waiters tr = []).
      { rewrite (i_waiters _ _ _ I), Eo, Hw. reflexivity. }
      assert (ACQ : inv r (mk_m (m_rec m) (Some t) (if r then 1 else 0) (m_wait m) (m_pc m)) (tr ++ [EAcq t])).
      { constructor; cbn [m_rec m_owner m_count m_wait m_pc].
        - apply I.
        - apply I.
        - apply I.
        - intros u Hu. apply (i_woken _ _ _ I) in Hu. congruence.
        - discriminate.
        - intros u Hu. rewrite held_snoc. cbn [held1]. destruct (t =? u) eqn:E.
          + assert (t = u) by lia. subst u. intuition congruence.
          + apply H0.
        - intros u [= <-]. rewrite held_snoc. cbn [held1]. rewrite Z.eqb_refl, H0.
          split; [congruence|]. split; [intros _; destruct r; lia|congruence].
        - rewrite waiters_snoc. cbn [waiters1]. rewrite HWAIT, Epc, Hw. reflexivity. }
      rewrite (i_rec _ _ _ I) in ACQ |- *. destruct r.
      * rewrite Hc in *. cbn [Z.eqb]. exact ACQ.
      * rewrite Hc. exact ACQ.
  - (* trylock *)
    destruct (m_pc m t) eqn:Epc; [|exact Logic.I|exact Logic.I].
    unfold trylock. destruct (m_owner m) as [o|] eqn:Eo.
    + destruct (i_held _ _ _ I o Eo) as (Ho1 & Ho2 & Ho3).
      assert (FAIL : inv r m (tr ++ [EFail t])).
      { constructor; try apply I.
        - intros u Hu. rewrite held_snoc. cbn [held1]. apply (i_held0 _ _ _ I). exact Hu.
        - intros u Hu. rewrite held_snoc. cbn [held1]. apply (i_held _ _ _ I). exact Hu.
        - rewrite waiters_snoc. cbn [waiters1]. apply I. }
      pose proof (i_rec _ _ _ I) as Er. rewrite Er. destruct r.
      * destruct (owner_is m t) eqn:Eio; [|exact FAIL].
        apply owner_is_true in Eio. rewrite Eo in Eio. injection Eio as ->.
        destruct (Ho2 Epc) as (Hh & Hc2).
        constructor; cbn [m_rec m_owner m_count m_wait m_pc].
        ++ reflexivity.
        ++ apply I.
        ++ apply I.
        ++ rewrite <- Eo. apply I.
        ++ discriminate.
        ++ intros u Hu. rewrite held_snoc. cbn [held1]. destruct (t =? u) eqn:E.
           ** assert (t = u) by lia. subst u. intuition congruence.
           ** apply (i_held0 _ _ _ I). rewrite Eo. exact Hu.
        ++ intros u [= <-]. rewrite held_snoc. cbn [held1]. rewrite Z.eqb_refl.
           rewrite u32_id by lia. split; [congruence|]. split; [intros _; lia|congruence].
        ++ rewrite waiters_snoc. cbn [waiters1]. rewrite (i_waiters _ _ _ I), Eo, Epc.
           apply remove_notin. cbn [app]. intros H. apply (i_asleep _ _ _ I) in H. congruence.
      * destruct (owner_is m t) eqn:Eio; [|exact FAIL].
        apply owner_is_true in Eio. rewrite Eo in Eio. injection Eio as ->.
        destruct (Ho2 Epc) as (Hh & Hc2). lia.
    + destruct (i_none _ _ _ I Eo) as [Hw Hc].
      assert (H0 : forall u, held tr u = 0).
      { intros u. apply (i_held0 _ _ _ I). left. congruence. }
      assert (HWAIT : waiters tr = []).
      { rewrite (i_waiters _ _ _ I), Eo, Hw. reflexivity. }
      rewrite Hc. rewrite (i_rec _ _ _ I). rewrite u32_id by lia.
      constructor; cbn [m_rec m_owner m_count m_wait m_pc].
      * reflexivity.
      * apply I.
      * apply I.
      * intros u Hu. apply (i_woken _ _ _ I) in Hu. congruence.
      * discriminate.
      * intros u Hu. rewrite held_snoc. cbn [held1]. destruct (t =? u) eqn:E.
        -- assert (t = u) by lia. subst u. intuition congruence.
        -- apply H0.
      * intros u [= <-]. rewrite held_snoc. cbn [held1]. rewrite Z.eqb_refl, H0.
        split; [congruence|]. split; [intros _; destruct r; lia|congruence].
      * rewrite waiters_snoc. cbn [waiters1]. rewrite HWAIT, Epc, Hw. reflexivity.
  - (* unlock *)
    destruct (m_pc m t) eqn:Epc; [|exact Logic.I|exact Logic.I].
    unfold unlock. destruct (owner_is m t) eqn:Eio.
    2:{ apply owner_is_false in Eio. rewrite (i_held0 _ _ _ I t) in HA by (left; exact Eio). lia. }
    apply owner_is_true in Eio. destruct (i_held _ _ _ I t Eio) as (Ho1 & Ho2 & Ho3).
    destruct (Ho2 Epc) as (Hh & Hc).
    pose proof (i_rec _ _ _ I) as Er. rewrite Er.
    assert (Ec : r && negb (0 <? m_count m) = false) by (destruct r; cbn [andb]; lia).
    rewrite Ec. set (count := if r then u32 (m_count m - 1) else m_count m).
    assert (Ecount : count = if r then held tr t - 1 else 0).
    { unfold count. destruct r; [rewrite u32_id by lia; lia|lia]. }
    assert (HELD0 : forall u, u <> t -> held tr u = 0).
    { intros u Hu. apply (i_held0 _ _ _ I). left. congruence. }
    destruct (r && (0 <? count)) eqn:E1.
    + (* inner unlock of a recursive mutex *)
      destruct r; [|discriminate]. cbn [andb] in E1.
      constructor; cbn [m_rec m_owner m_count m_wait m_pc]; try reflexivity; try apply I.
      * congruence.
      * intros u Hu. rewrite held_snoc. cbn [held1]. destruct (t =? u) eqn:E.
        -- assert (t = u) by lia. subst u. intuition congruence.
        -- apply (i_held0 _ _ _ I). exact Hu.
      * intros u Hu. rewrite Eio in Hu. injection Hu as <-. rewrite held_snoc. cbn [held1].
        rewrite Z.eqb_refl. split; [congruence|]. split; [intros _; lia|congruence].
      * rewrite waiters_snoc. cbn [waiters1]. apply I.
    + assert (HREL : held tr t = 1).
      { destruct r; [cbn [andb] in E1; lia|lia]. }
      assert (EC0 : count = 0) by (rewrite Ecount; destruct r; lia).
      assert (H0' : forall u, held (tr ++ [ERel t]) u = 0).
      { intros u. rewrite held_snoc. cbn [held1]. destruct (t =? u) eqn:E.
        - assert (t = u) by lia. subst u. lia.
        - apply HELD0. lia. }
      assert (HNW : forall u, m_pc m u = Woken -> False).
      { intros u Hu. pose proof (i_woken _ _ _ I u Hu). assert (u = t) by congruence. subst u. congruence. }
      destruct (m_wait m) as [|w ws] eqn:Ew.
      * constructor; cbn [m_rec m_owner m_count m_wait m_pc].
        -- reflexivity.
        -- constructor.
        -- rewrite <- Ew. apply I.
        -- intros u Hu. destruct (HNW u Hu).
        -- auto.
        -- intros; apply H0'.
        -- discriminate.
        -- rewrite waiters_snoc. cbn [waiters1]. rewrite (i_waiters _ _ _ I), Eio, Epc, Ew. reflexivity.
      * assert (Hpw : m_pc m w = Asleep) by (apply (i_asleep _ _ _ I); rewrite Ew; left; reflexivity).
        rewrite Hpw. pose proof (i_nodup _ _ _ I) as ND. rewrite Ew in ND. apply NoDup_cons_iff in ND. destruct ND as [Hnin ND'].
        assert (w <> t) by congruence.
        constructor; cbn [m_rec m_owner m_count m_wait m_pc].
        -- reflexivity.
        -- exact ND'.
        -- intros u. unfold fupd. destruct (u =? w) eqn:E.
           ++ assert (u = w) by lia. subst u. split; [discriminate|intros; contradiction].
           ++ rewrite (i_asleep _ _ _ I u), Ew. cbn [In]. intuition lia.
        -- intros u. unfold fupd. destruct (u =? w) eqn:E; [intros _; f_equal; lia|].
           intros Hu. destruct (HNW u Hu).
        -- discriminate.
        -- intros; apply H0'.
        -- intros u [= <-]. rewrite fupd_same. split; [discriminate|]. split; [discriminate|].
           intros _. rewrite EC0. destruct r; reflexivity.
        -- rewrite waiters_snoc. cbn [waiters1]. rewrite (i_waiters _ _ _ I), Eio, Epc, Ew, fupd_same. reflexivity.
  - (* resume *)
    destruct (m_pc m t) eqn:Epc; [exact Logic.I|exact Logic.I|].
    pose proof (i_woken _ _ _ I t Epc) as Eo.
    destruct (i_held _ _ _ I t Eo) as (Ho1 & Ho2 & Ho3). specialize (Ho3 Epc).
    unfold lock_resume. pose proof Eo as Eio. apply owner_is_true in Eio. rewrite Eio.
    pose proof (i_rec _ _ _ I) as Er. rewrite Er.
    assert (Ec : r && negb (m_count m =? 1) = false) by (destruct r; cbn [andb]; lia).
    rewrite Ec.
    assert (Hni : ~ In t (m_wait m)).
    { intros H. apply (i_asleep _ _ _ I) in H. congruence. }
    constructor; cbn [m_rec m_owner m_count m_wait m_pc]; try reflexivity; try apply I.
    + intros u. unfold fupd. destruct (u =? t) eqn:E.
      * assert (u = t) by lia. subst u. split; [discriminate|intros; contradiction].
      * apply I.
    + intros u. unfold fupd. destruct (u =? t) eqn:E; [discriminate|]. apply I.
    + intros u Hu. rewrite held_snoc. cbn [held1]. destruct (t =? u) eqn:E.
      * assert (t = u) by lia. subst u. rewrite fupd_same in Hu. intuition congruence.
      * apply (i_held0 _ _ _ I). rewrite fupd_other in Hu by lia. exact Hu.
    + intros u Hu. rewrite Eo in Hu. injection Hu as <-. rewrite held_snoc. cbn [held1].
      rewrite Z.eqb_refl, fupd_same. rewrite (i_held0 _ _ _ I t) by (right; exact Epc).
      split; [discriminate|]. split; [intros _; destruct r; lia|discriminate].
    + rewrite waiters_snoc. cbn [waiters1]. rewrite Eo, fupd_same.
      rewrite (i_waiters _ _ _ I), Eo, Epc. apply waiters_acq_self with (l := m_wait m); auto.
Qed.

Lemma reach_inv r m tr : reach r m tr -> inv r m tr.
Proof.
  induction 1 as [|m tr a m' ev HR IH HA HS]; [apply inv_init|].
  pose proof (inv_step r m tr a IH HA) as H. rewrite HS in H. exact H.
Qed.

Theorem no_assert_fail r m tr a : reach r m tr -> allowed r tr a -> step m a <> AssertFail.
Proof.
  intros HR HA E. pose proof (inv_step r m tr a (reach_inv _ _ _ HR) HA) as H.
  rewrite E in H. exact H.
Qed.

Theorem mutual_exclusion r m tr : reach r m tr ->
  forall t u, 0 < held tr t -> 0 < held tr u -> t = u.
Proof.
  intros HR t u Ht Hu. pose proof (reach_inv _ _ _ HR) as I.
  destruct (m_owner m) as [o|] eqn:Eo.
  - assert (HO : forall x, 0 < held tr x -> x = o).
    { intros x Hx. destruct (Z.eq_dec x o); [assumption|].
      rewrite (i_held0 _ _ _ I x) in Hx by (left; congruence). lia. }
    rewrite (HO t Ht), (HO u Hu). reflexivity.
  - rewrite (i_held0 _ _ _ I t) in Ht by (left; congruence). lia.
Qed.

Theorem held_nonneg r m tr : reach r m tr -> forall t, 0 <= held tr t.
Proof.
  intros HR t. pose proof (reach_inv _ _ _ HR) as I.
  destruct (m_owner m) as [o|] eqn:Eo; [destruct (Z.eq_dec t o) as [->|]|].
  - destruct (i_held _ _ _ I o Eo) as (H1 & H2 & H3). destruct (m_pc m o) eqn:E.
    + destruct (H2 eq_refl). lia.
    + congruence.
    + rewrite (i_held0 _ _ _ I o) by (right; assumption). lia.
  - rewrite (i_held0 _ _ _ I t) by (left; congruence). lia.
  - rewrite (i_held0 _ _ _ I t) by (left; congruence). lia.
Qed.

(** Try-lock succeeds exactly when the mutex is free, or re-entered *)
Theorem trylock_exact r m tr t m' ev : reach r m tr -> allowed r tr (TryLock t) ->
  step m (TryLock t) = Ok m' ev ->
  (ev = EAcq t /\ ((forall u, held tr u = 0) /\ waiters tr = [] \/ r = true /\ 0 < held tr t)) \/
  (ev = EFail t /\ ((exists u, u <> t /\ 0 < held tr u) \/ waiters tr <> [])).
Proof.
  intros HR HA HS. pose proof (reach_inv _ _ _ HR) as I. cbn [step] in HS.
  destruct (m_pc m t) eqn:Epc; try discriminate. unfold trylock in HS.
  destruct (m_owner m) as [o|] eqn:Eo.
  - destruct (i_held _ _ _ I o Eo) as (H1 & H2 & H3).
    rewrite (i_rec _ _ _ I) in HS.
    assert (FAIL : owner_is m t = false ->
       ((exists u, u <> t /\ 0 < held tr u) \/ waiters tr <> [])).
    { intros Eio. apply owner_is_false in Eio. rewrite (i_waiters _ _ _ I), Eo.
      destruct (m_pc m o) eqn:E; [|congruence|right; discriminate].
      left. exists o. split; [congruence|]. destruct (H2 eq_refl). lia. }
    destruct r.
    + destruct (owner_is m t) eqn:Eio; injection HS as <- <-.
      * left. split; [reflexivity|]. right. split; [reflexivity|].
        apply owner_is_true in Eio. assert (o = t) by congruence. subst.
        destruct (H2 Epc). lia.
      * right. auto.
    + destruct (owner_is m t) eqn:Eio; [discriminate|]. injection HS as <- <-. right. auto.
  - injection HS as <- <-. left. split; [reflexivity|]. left.
    destruct (i_none _ _ _ I Eo) as [Hw Hc]. split.
    + intros u. apply (i_held0 _ _ _ I). left. congruence.
    + rewrite (i_waiters _ _ _ I), Eo, Hw. reflexivity.
Qed.

(** FIFO: a first acquisition is by the oldest waiter, or nobody is waiting *)
Theorem fifo r m tr a m' t : reach r m tr -> allowed r tr a -> step m a = Ok m' (EAcq t) ->
  held tr t = 0 -> match waiters tr with [] => True | w :: _ => t = w end.
Proof.
  intros HR HA HS Hh. pose proof (reach_inv _ _ _ HR) as I.
  assert (HFREE : m_owner m = None -> waiters tr = []).
  { intros Eo. destruct (i_none _ _ _ I Eo) as [Hw _]. rewrite (i_waiters _ _ _ I), Eo, Hw. reflexivity. }
  assert (HOWN : forall u, m_pc m u = Out -> owner_is m u = true -> held tr u <> 0).
  { intros u Hp Ho. apply owner_is_true in Ho. destruct (i_held _ _ _ I u Ho) as (H1 & H2 & H3).
    destruct (H2 Hp). lia. }
  destruct a as [u|u|u|u]; cbn [step] in HS; destruct (m_pc m u) eqn:Epc; try discriminate.
  - unfold lock in HS. destruct (m_owner m) as [o|] eqn:Eo; [|rewrite HFREE; auto].
    destruct (m_rec m).
    + destruct (0 <? m_count m); [|discriminate].
      destruct (owner_is m u) eqn:Eio; [|discriminate]. injection HS as _ <-.
      destruct (HOWN _ Epc Eio Hh).
    + destruct (owner_is m u); discriminate.
  - unfold trylock in HS. destruct (m_owner m) as [o|] eqn:Eo; [|rewrite HFREE; auto].
    destruct (m_rec m).
    + destruct (owner_is m u) eqn:Eio; [|discriminate]. injection HS as _ <-.
      destruct (HOWN _ Epc Eio Hh).
    + destruct (owner_is m u); discriminate.
  - unfold unlock in HS. repeat match type of HS with
      | (if ?b then _ else _) = _ => destruct b; try discriminate
      | (match ?x with [] => _ | _ :: _ => _ end) = _ => destruct x; try discriminate
      | (match ?x with Out => _ | Asleep => _ | Woken => _ end) = _ => destruct x; try discriminate
      end.
  - unfold lock_resume in HS. destruct (owner_is m u) eqn:Eio; [|discriminate].
    destruct (m_rec m && negb (m_count m =? 1)); [discriminate|]. injection HS as _ <-.
    apply owner_is_true in Eio. rewrite (i_waiters _ _ _ I), Eio, Epc. reflexivity.
Qed.

(** No lost wake-up: with waiters, somebody holds the mutex or the oldest
    waiter has been woken *)
Theorem waiters_served r m tr w ws : reach r m tr -> waiters tr = w :: ws ->
  (exists t, 0 < held tr t) \/ ~ sleeping m w.
Proof.
  intros HR HW. pose proof (reach_inv _ _ _ HR) as I. unfold sleeping.
  rewrite (i_waiters _ _ _ I) in HW.
  destruct (m_owner m) as [o|] eqn:Eo.
  - destruct (i_held _ _ _ I o Eo) as (H1 & H2 & H3). destruct (m_pc m o) eqn:E.
    + left. exists o. destruct (H2 eq_refl). lia.
    + congruence.
    + right. injection HW as -> _. congruence.
  - destruct (i_none _ _ _ I Eo) as [Hw _]. rewrite Hw in HW. discriminate.
Qed.

(** The final unlock wakes the oldest waiter and nobody else *)
Theorem unlock_wakes_oldest r m tr t m' ev w ws : reach r m tr ->
  held tr t = 1 -> waiters tr = w :: ws -> step m (Unlock t) = Ok m' ev ->
  ~ sleeping m' w /\ (forall u, u <> w -> sleeping m u -> sleeping m' u) /\
  exists m'', step m' (Resume w) = Ok m'' (EAcq w).
Proof.
  intros HR Hh HW HS. pose proof (reach_inv _ _ _ HR) as I.
  assert (HA : allowed r tr (Unlock t)) by (cbn; lia).
  pose proof (inv_step r m tr (Unlock t) I HA) as I'. rewrite HS in I'.
  cbn [step] in HS. destruct (m_pc m t) eqn:Epc; try discriminate.
  unfold unlock in HS. destruct (owner_is m t) eqn:Eio; [|discriminate].
  apply owner_is_true in Eio. destruct (i_held _ _ _ I t Eio) as (Ho1 & Ho2 & Ho3).
  destruct (Ho2 Epc) as (_ & Hc).
  rewrite (i_rec _ _ _ I) in HS.
  assert (Ec : r && negb (0 <? m_count m) = false) by (destruct r; cbn [andb]; lia).
  rewrite Ec in HS.
  assert (Ecount : (if r then u32 (m_count m - 1) else m_count m) = 0).
  { destruct r; [rewrite u32_id by lia; lia|lia]. }
  rewrite Ecount in HS. rewrite andb_false_r in HS.
  rewrite (i_waiters _ _ _ I), Eio, Epc in HW. cbn [app] in HW. rewrite HW in HS.
  destruct (m_pc m w) eqn:Epw; try discriminate. injection HS as <- <-.
  unfold sleeping. cbn [m_pc]. rewrite fupd_same. split; [discriminate|].
  split.
  - intros u Hu Hs. rewrite fupd_other by assumption. exact Hs.
  - cbn [step m_pc]. rewrite fupd_same. unfold lock_resume, owner_is.
    cbn [m_owner m_rec m_count]. rewrite Z.eqb_refl. destruct r; eexists; reflexivity.
Qed.
