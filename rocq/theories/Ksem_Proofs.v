From Verif Require Import Lib Ksem_Model Ksem_Spec.

Lemma granted_snoc tr e : granted (tr ++ [e]) = granted1 (granted tr) e.
Proof. unfold granted. rewrite fold_left_app. reflexivity. Qed.
Lemma signalled_snoc tr e : signalled (tr ++ [e]) = signalled1 (signalled tr) e.
Proof. unfold signalled. rewrite fold_left_app. reflexivity. Qed.

Lemma unlink_in t l x : In x (unlink t l) <-> In x l /\ fst x <> t.
Proof.
  unfold unlink. rewrite filter_In. destruct (fst x =? t) eqn:E; cbn; intuition (try lia; try discriminate).
Qed.

Lemma filter_map_nodup (f : Z * Z -> bool) l : NoDup (map fst l) -> NoDup (map fst (filter f l)).
Proof.
  induction l as [|x l IH]; cbn; intros H; [exact H|]. apply NoDup_cons_iff in H. destruct H as [H1 H2].
  destruct (f x); [|auto]. cbn. apply NoDup_cons_iff. split; [|auto].
  intros H. apply H1. apply in_map_iff in H. destruct H as (y & E & Hy). apply filter_In in Hy.
  apply in_map_iff. exists y. intuition.
Qed.

Lemma linked_true s t : linked s t = true <-> exists u, In (t, u) (s_wait s).
Proof.
  unfold linked. rewrite existsb_exists. split.
  - intros ([t' u] & H & E). cbn in E. assert (t' = t) by lia. subst t'. eauto.
  - intros (u & H). exists (t, u). split; [exact H|]. cbn. lia.
Qed.

(** *** The loop of ksem_signal wakes a set of linked tasks *)
Definition inb (t : Z) (l : list Z) : bool := existsb (Z.eqb t) l.
Lemma inb_in t l : inb t l = true <-> In t l.
Proof.
  unfold inb. rewrite existsb_exists. split.
  - intros (x & H & E). assert (t = x) by lia. subst x. exact H.
  - intros H. exists t. split; [exact H|lia].
Qed.

Lemma signal_loop_spec l : forall rem pcs, NoDup (map fst l) ->
  (forall t u, In (t, u) l -> 0 < u) ->
  let '(w, pcs') := signal_loop rem l pcs in
  exists K, NoDup K /\ (forall t, In t K -> In t (map fst l)) /\
    (forall t, pcs' t = if inb t K then wake_pc (pcs t) else pcs t) /\
    w = filter (fun x => negb (inb (fst x) K)) l /\
    (forall u, 0 < u -> 0 <= rem -> (forall t v, In (t, v) l -> v = u) ->
       w = [] \/ rem < u * (zlen K + 1)).
Proof.
  induction l as [|[t wu] r IH]; intros rem pcs ND POS; cbn [signal_loop].
  - exists []. cbn. repeat split; auto.
  - cbn [map] in ND. apply NoDup_cons_iff in ND. destruct ND as [ND1 ND2]. cbn [fst] in ND1.
    assert (POSr : forall t0 u, In (t0, u) r -> 0 < u) by (intros; eapply POS; right; eassumption).
    assert (NIL : forall l0 : list (Z * Z), filter (fun x => negb (inb (fst x) [])) l0 = l0).
    { clear. induction l0 as [|x l0 IH]; cbn; [reflexivity|]. cbn in IH. rewrite IH. reflexivity. }
    destruct (rem <=? 0) eqn:E0.
    + exists []. cbn [inb existsb]. split; [constructor|]. split; [intros x []|]. split; [reflexivity|].
      split; [symmetry; apply NIL|]. intros u Hu _ _. right. unfold zlen. cbn. lia.
    + destruct (wu <=? rem) eqn:E1.
      * specialize (IH (rem - wu) (fupd pcs t (wake_pc (pcs t))) ND2 POSr).
        destruct (signal_loop _ r _) as [w pcs']. destruct IH as (K & NK & SUB & PC & W & U).
        exists (t :: K). assert (tK : ~ In t K) by (intros H; apply ND1, SUB, H).
        split; [constructor; assumption|].
        split. { intros x [->|H]; [left; reflexivity|right; apply SUB, H]. }
        split.
        { intros x. rewrite PC. cbn [inb existsb]. unfold fupd. destruct (x =? t) eqn:Ex; cbn [orb].
          - assert (x = t) by lia. subst x. destruct (inb t K) eqn:EK; [|reflexivity].
            apply inb_in in EK. contradiction.
          - reflexivity. }
        split.
        { rewrite W. cbn [filter fst inb existsb]. rewrite Z.eqb_refl. cbn [orb negb].
          apply filter_ext_in. intros [x v] Hx. cbn [fst]. destruct (x =? t) eqn:Ex; [|reflexivity].
          assert (x = t) by lia. subst x. exfalso. apply ND1. apply in_map_iff. exists (t, v). auto. }
        intros u Hu Hr Hall. assert (wu = u) by (eapply Hall; left; reflexivity). subst wu.
        destruct (U u Hu ltac:(lia) ltac:(intros; eapply Hall; right; eassumption)) as [H|H]; [left; exact H|].
        right. unfold zlen in *. cbn [length]. lia.
      * specialize (IH rem pcs ND2 POSr).
        destruct (signal_loop rem r pcs) as [w pcs']. destruct IH as (K & NK & SUB & PC & W & U).
        assert (tK : ~ In t K) by (intros H; apply ND1, SUB, H).
        exists K. split; [exact NK|]. split; [intros x H; right; apply SUB, H|].
        split; [exact PC|]. split.
        { cbn [filter fst]. destruct (inb t K) eqn:EK; [apply inb_in in EK; contradiction|].
          cbn [negb]. rewrite W. reflexivity. }
        intros u Hu Hr Hall. assert (wu = u) by (eapply Hall; left; reflexivity). subst wu.
        right. assert (0 <= zlen K) by (unfold zlen; lia). nia.
Qed.

Definition bound (max : option Z) : Z := match max with Some m => m | None => 2147483647 end.

Record inv (val : Z) (max : option Z) (s : ksem) (tr : list event) : Prop := {
  i_max : s_max s = max;
  i_cnt : s_cnt s = available val tr;
  i_range : 0 <= s_cnt s <= bound max;
  i_nodup : NoDup (map fst (s_wait s));
  i_asleep : forall t u b, s_pc s t = Asleep u b -> In (t, u) (s_wait s);
  i_linked : forall t u, In (t, u) (s_wait s) ->
     (exists b, s_pc s t = Asleep u b) \/ s_pc s t = Woken u true true;
  i_pos : forall t u, In (t, u) (s_wait s) -> 0 < u <= 2147483647;
  i_posw : forall t u b f, s_pc s t = Woken u b f -> 0 < u <= 2147483647
}.

(** In-flight tasks are finitely many, and with a single request size there are
    as many as could be served *)
Record invf (u : Z) (s : ksem) : Prop := {
  f_units : forall t v, In (t, v) (s_wait s) -> v = u;
  f_unitsw : forall t v b f, s_pc s t = Woken v b f -> v = u;
  f_fl : exists F, NoDup F /\ (forall t, In t F <-> in_flight s t) /\
     ((exists t v, asleep s t v) -> s_cnt s < u * (zlen F + 1))
}.

Lemma inv_init val max : good_init val max -> inv val max (ksem_init val max) [].
Proof.
  intros [H1 H2]. constructor; cbn; intros; try contradiction; try discriminate; auto; try constructor.
  - unfold available, granted, signalled. cbn. lia.
  - lia.
  - unfold bound. destruct max; lia.
Qed.

Ltac av := unfold available in *; rewrite granted_snoc, signalled_snoc; cbn [granted1 signalled1].

Lemma inv_finish val max s tr t u : inv val max s tr -> 0 < u <= 2147483647 ->
  (max <> None -> bound max <= 2147483647) ->
  match finish s t u with
  | Ok s' ev => inv val max s' (tr ++ [ev])
  | _ => False
  end.
Proof.
  intros I Hu Hb. unfold finish.
  assert (Hr : s_cnt s <= 2147483647).
  { pose proof (i_range _ _ _ _ I). destruct max; [specialize (Hb ltac:(discriminate))|unfold bound in *]; lia. }
  assert (COMMON : forall c ev, c = available val (tr ++ [ev]) -> 0 <= c <= bound max ->
     inv val max (mk_s (s_max s) c (unlink t (s_wait s)) (fupd (s_pc s) t Out)) (tr ++ [ev])).
  { intros c ev Hc Hc2. constructor; cbn [s_max s_cnt s_wait s_pc].
    - apply I.
    - exact Hc.
    - exact Hc2.
    - apply filter_map_nodup, I.
    - intros x v b. unfold fupd. destruct (x =? t) eqn:E; [discriminate|]. intros H.
      apply unlink_in. split; [eapply i_asleep; eassumption|cbn; lia].
    - intros x v H. apply unlink_in in H. destruct H as [H E]. cbn in E.
      rewrite fupd_other by lia. apply (i_linked _ _ _ _ I _ _ H).
    - intros x v H. apply unlink_in in H. destruct H as [H _]. eapply i_pos; eassumption.
    - intros x v b f. unfold fupd. destruct (x =? t) eqn:E; [discriminate|]. apply (i_posw _ _ _ _ I). }
  pose proof (i_cnt _ _ _ _ I) as Ec. pose proof (i_range _ _ _ _ I) as Er.
  destruct (u <=? s_cnt s) eqn:E.
  - rewrite s32_small by lia. apply COMMON; [av; lia|lia].
  - apply COMMON; [av; lia|lia].
Qed.

Lemma inv_wait_loop val max s tr t u timed expired : inv val max s tr -> 0 < u <= 2147483647 ->
  (max <> None -> bound max <= 2147483647) ->
  s_pc s t = Out \/ (exists f, s_pc s t = Woken u timed f /\ (f = true -> expired = true)) ->
  match wait_loop s t u timed expired with
  | Ok s' ev => inv val max s' (tr ++ [ev])
  | _ => False
  end.
Proof.
  intros I Hu Hb Hpc. unfold wait_loop.
  destruct (s_cnt s <? u) eqn:E; [|apply inv_finish; assumption].
  destruct (timed && expired) eqn:ET; [apply inv_finish; assumption|].
  assert (NL : linked s t = false).
  { destruct (linked s t) eqn:EL; [|reflexivity]. exfalso. apply linked_true in EL. destruct EL as [v Hv].
    destruct (i_linked _ _ _ _ I _ _ Hv) as [[b H]|H]; destruct Hpc as [P|(f & P & Q)]; try congruence.
    rewrite P in H. injection H as -> -> ->. rewrite (Q eq_refl) in ET. discriminate. }
  assert (NI : forall v, ~ In (t, v) (s_wait s)).
  { intros v Hv. assert (linked s t = true) by (apply linked_true; eauto). congruence. }
  rewrite NL. constructor; cbn [s_max s_cnt s_wait s_pc].
  - apply I.
  - pose proof (i_cnt _ _ _ _ I). av. lia.
  - apply I.
  - rewrite map_app. cbn [map fst]. apply (NoDup_Add (a := t) (l := map fst (s_wait s))).
    { rewrite <- (app_nil_r (map fst (s_wait s))) at 1. apply Add_app. }
    split; [apply I|]. intros H. apply in_map_iff in H. destruct H as ([x v] & Ex & H). cbn in Ex. subst x.
    apply (NI v H).
  - intros x v b. unfold fupd. rewrite in_app_iff. destruct (x =? t) eqn:Ex.
    + intros [= -> ->]. right. left. f_equal. lia.
    + intros H. left. eapply i_asleep; eassumption.
  - intros x v. rewrite in_app_iff. cbn [In]. intros [H|[[= <- <-]|[]]].
    + rewrite fupd_other; [apply (i_linked _ _ _ _ I _ _ H)|]. intros ->. apply (NI v H).
    + left. exists timed. apply fupd_same.
  - intros x v. rewrite in_app_iff. cbn [In]. intros [H|[[= <- <-]|[]]]; [|assumption].
    eapply i_pos; eassumption.
  - intros x v b f. unfold fupd. destruct (x =? t) eqn:Ex; [discriminate|]. apply (i_posw _ _ _ _ I).
Qed.

Lemma inv_same val max s tr ev : inv val max s tr -> granted1 0 ev = 0 -> signalled1 0 ev = 0 ->
  inv val max s (tr ++ [ev]).
Proof.
  intros I H1 H2. destruct I. constructor; auto.
  av. destruct ev; cbn in *; lia.
Qed.

Lemma inv_step val max s tr a : inv val max s tr -> allowed a ->
  (max <> None -> bound max <= 2147483647) ->
  match step s a with
  | Disabled => True
  | AssertFail => False
  | Ok s' ev => (max = None -> available val (tr ++ [ev]) <= 2147483647) -> inv val max s' (tr ++ [ev])
  end.
Proof.
  intros I HA Hb. destruct a as [t u tmo expired|t expired|u|t]; cbn [step allowed] in *.
  - destruct (s_pc s t) eqn:Epc; [|exact Logic.I|exact Logic.I].
    unfold wait. replace (0 <? u) with true by (symmetry; apply Z.ltb_lt; lia).
    destruct (match s_max s with Some mx => mx <? u | None => false end).
    { intros _. apply inv_same; auto. }
    assert (WL : forall timed, match wait_loop s t u timed expired with
      | Disabled => True | AssertFail => False
      | Ok s' ev => (max = None -> available val (tr ++ [ev]) <= 2147483647) -> inv val max s' (tr ++ [ev]) end).
    { intros timed. pose proof (inv_wait_loop val max s tr t u timed expired I HA Hb (or_introl Epc)) as K.
      destruct (wait_loop _ _ _ _ _); auto. }
    destruct tmo; [apply WL| |apply WL].
    pose proof (i_cnt _ _ _ _ I) as Ec. pose proof (i_range _ _ _ _ I) as Er.
    destruct (u <=? s_cnt s) eqn:E; intros _; [|apply inv_same; auto].
    assert (s_cnt s <= 2147483647).
    { destruct max; [specialize (Hb ltac:(discriminate))|unfold bound in *]; lia. }
    rewrite s32_small by lia.
    constructor; cbn [s_max s_cnt s_wait s_pc]; try apply I; [av; lia|lia].
  - destruct (s_pc s t) as [|u timed|u timed fired] eqn:Epc; [exact Logic.I|exact Logic.I|].
    assert (Hu : 0 < u <= 2147483647) by (eapply i_posw; eassumption).
    assert (K := inv_wait_loop val max s tr t u timed (expired || fired) I Hu Hb).
    specialize (K ltac:(right; exists fired; split; [exact Epc|intros ->; apply orb_true_r])).
    destruct (wait_loop _ _ _ _ _); auto.
  - unfold signal. replace (0 <? u) with true by (symmetry; apply Z.ltb_lt; lia).
    pose proof (i_max _ _ _ _ I) as Em. rewrite Em.
    destruct (match max with Some mx => mx <? u | None => false end) eqn:E1.
    { intros _. apply inv_same; auto. }
    pose proof (i_cnt _ _ _ _ I) as Ec. pose proof (i_range _ _ _ _ I) as Er.
    destruct (match max with Some mx => s32 (mx - u) <? s_cnt s | None => false end) eqn:E2.
    { intros _. apply inv_same; auto. }
    pose proof (signal_loop_spec (s_wait s) (s32 (s_cnt s + u)) (s_pc s) (i_nodup _ _ _ _ I)
                  ltac:(intros; eapply i_pos; eassumption)) as SL.
    destruct (signal_loop (s32 (s_cnt s + u)) (s_wait s) (s_pc s)) as [w pcs'] eqn:ESL.
    destruct SL as (K & NK & SUB & PC & W & _). intros Hav.
    assert (Hs : 0 <= s_cnt s + u <= bound max /\ s_cnt s + u <= 2147483647).
    { destruct max as [mx|].
      - specialize (Hb ltac:(discriminate)). cbn [bound] in *. rewrite s32_small in E2 by lia. lia.
      - specialize (Hav eq_refl). unfold available in Hav, Ec. rewrite granted_snoc, signalled_snoc in Hav.
        cbn [granted1 signalled1] in Hav. cbn [bound]. lia. }
    rewrite s32_small by lia.
    constructor; cbn [s_max s_cnt s_wait s_pc].
    + reflexivity.
    + av. lia.
    + lia.
    + rewrite W. apply filter_map_nodup, I.
    + intros t v b Ht. rewrite PC in Ht. rewrite W. apply filter_In. cbn [fst].
      destruct (inb t K) eqn:EK.
      * exfalso. destruct (s_pc s t); discriminate.
      * split; [eapply i_asleep; eassumption|reflexivity].
    + intros t v Ht. rewrite W in Ht. apply filter_In in Ht. cbn [fst] in Ht. destruct Ht as [Ht EK].
      rewrite PC. destruct (inb t K); [discriminate|]. apply (i_linked _ _ _ _ I _ _ Ht).
    + intros t v Ht. rewrite W in Ht. apply filter_In in Ht. destruct Ht as [Ht _]. eapply i_pos; eassumption.
    + intros t v b f. rewrite PC. destruct (inb t K) eqn:EK; [|apply (i_posw _ _ _ _ I)].
      destruct (s_pc s t) as [|v' b'|v' b' f'] eqn:Ep; cbn [wake_pc]; intros [=]; subst.
      * eapply (i_pos _ _ _ _ I), (i_asleep _ _ _ _ I). exact Ep.
      * eapply i_posw; eassumption.
  - destruct (s_pc s t) as [|u timed|u timed fired] eqn:Epc; [exact Logic.I| |].
    + destruct timed; [|exact Logic.I]. intros _.
      assert (Hin : In (t, u) (s_wait s)) by (eapply i_asleep; eassumption).
      constructor; cbn [s_max s_cnt s_wait s_pc]; try apply I.
      * pose proof (i_cnt _ _ _ _ I). av. lia.
      * intros x v b. unfold fupd. destruct (x =? t); [discriminate|]. apply I.
      * intros x v Hx. unfold fupd. destruct (x =? t) eqn:E; [|apply (i_linked _ _ _ _ I _ _ Hx)].
        right. assert (x = t) by lia. subst x. destruct (i_linked _ _ _ _ I _ _ Hx) as [[b H]|H]; congruence.
      * intros x v b f. unfold fupd. destruct (x =? t) eqn:E; [|apply (i_posw _ _ _ _ I)].
        intros [= <- _ _]. eapply i_pos; eassumption.
    + destruct timed; [|exact Logic.I]. intros _.
      constructor; cbn [s_max s_cnt s_wait s_pc]; try apply I.
      * pose proof (i_cnt _ _ _ _ I). av. lia.
      * intros x v b. unfold fupd. destruct (x =? t); [discriminate|]. apply I.
      * intros x v Hx. unfold fupd. destruct (x =? t) eqn:E; [|apply (i_linked _ _ _ _ I _ _ Hx)].
        right. assert (x = t) by lia. subst x. destruct (i_linked _ _ _ _ I _ _ Hx) as [[b H]|H]; congruence.
      * intros x v b f. unfold fupd. destruct (x =? t) eqn:E; [|apply (i_posw _ _ _ _ I)].
        intros [= <- _ _]. eapply i_posw; eassumption.
Qed.

Lemma good_bound val max : good_init val max -> max <> None -> bound max <= 2147483647.
Proof. intros [_ H] Hm. destruct max; [cbn; lia|congruence]. Qed.

Lemma reach_inv val max s tr : good_init val max -> reach val max s tr -> inv val max s tr.
Proof.
  intros HG H. induction H as [|s tr a s' ev H IH HA HS HO]; [apply inv_init, HG|].
  pose proof (inv_step val max s tr a IH HA (good_bound _ _ HG)) as K. rewrite HS in K. apply K, HO.
Qed.

Lemma conservation val max s tr : good_init val max -> reach val max s tr ->
  s_cnt s = available val tr /\ 0 <= available val tr /\
  match max with Some mx => available val tr <= mx | None => True end.
Proof.
  intros HG H. pose proof (reach_inv _ _ _ _ HG H) as I.
  pose proof (i_cnt _ _ _ _ I). pose proof (i_range _ _ _ _ I). split; [assumption|].
  split; [lia|]. destruct max; cbn [bound] in *; [lia|exact Logic.I].
Qed.

Lemma no_assert_fail val max s tr a : good_init val max -> reach val max s tr -> allowed a ->
  step s a <> AssertFail.
Proof.
  intros HG H HA E. pose proof (inv_step val max s tr a (reach_inv _ _ _ _ HG H) HA (good_bound _ _ HG)) as K.
  rewrite E in K. exact K.
Qed.

Lemma signal_exact val max s tr u s' ev : good_init val max -> reach val max s tr ->
  allowed (Signal u) -> step s (Signal u) = Ok s' ev ->
  match max with
  | Some mx => if mx <? u then ev = EInvalid
               else if mx <? available val tr + u then ev = EQuota u else ev = ESignalled u
  | None => ev = ESignalled u
  end.
Proof.
  intros HG H HA E. pose proof (reach_inv _ _ _ _ HG H) as I. cbn [step allowed] in *.
  unfold signal in E. replace (0 <? u) with true in E by (symmetry; apply Z.ltb_lt; lia).
  pose proof (i_max _ _ _ _ I) as Em. rewrite Em in E.
  pose proof (i_cnt _ _ _ _ I) as Ec. pose proof (i_range _ _ _ _ I) as Er.
  destruct max as [mx|].
  - pose proof (good_bound _ _ HG ltac:(discriminate)) as Hb. cbn [bound] in *.
    destruct (mx <? u) eqn:E1; [injection E as _ <-; reflexivity|].
    rewrite s32_small in E by lia. rewrite Ec in E.
    destruct (mx - u <? available val tr) eqn:E2.
    + injection E as _ <-. replace (mx <? available val tr + u) with true by (symmetry; apply Z.ltb_lt; lia).
      reflexivity.
    + replace (mx <? available val tr + u) with false by (symmetry; apply Z.ltb_ge; lia).
      destruct (signal_loop _ _ _). injection E as _ <-. reflexivity.
  - destruct (signal_loop _ _ _). injection E as _ <-. reflexivity.
Qed.

(** A wait fails only when its request is not covered *)
Lemma finish_ev s t u s' ev : finish s t u = Ok s' ev ->
  (ev = EGrant t u /\ u <= s_cnt s) \/ (ev = ENotGranted t u /\ s_cnt s < u).
Proof.
  unfold finish. destruct (u <=? s_cnt s) eqn:E; intros [= _ <-]; [left|right]; split; auto; lia.
Qed.

Lemma failure_justified val max s tr a s' t u : good_init val max -> reach val max s tr ->
  step s a = Ok s' (ENotGranted t u) -> available val tr < u /\
  match a with Wait _ _ Forever _ => False
             | Resume _ _ => exists f, s_pc s t = Woken u true f | _ => True end.
Proof.
  intros HG H E. rewrite <- (i_cnt _ _ _ _ (reach_inv _ _ _ _ HG H)).
  assert (WL : forall timed x v ex, wait_loop s x v timed ex = Ok s' (ENotGranted t u) ->
     s_cnt s < u /\ timed = true /\ x = t /\ v = u).
  { intros timed x v ex. unfold wait_loop. destruct (s_cnt s <? v) eqn:E1.
    - destruct (timed && ex) eqn:E2.
      + intros F. destruct timed; [|discriminate].
        destruct (finish_ev _ _ _ _ _ F) as [[K _]|[K L]]; [discriminate|injection K as -> ->; auto].
      + destruct (linked s x); discriminate.
    - intros F. destruct (finish_ev _ _ _ _ _ F) as [[K _]|[K L]]; [discriminate|lia]. }
  destruct a as [x v tmo ex|x ex|v|x]; cbn [step] in E.
  - destruct (s_pc s x); try discriminate. unfold wait in E.
    destruct (0 <? v); [|discriminate]. destruct (match s_max s with Some mx => mx <? v | None => false end); [discriminate|].
    destruct tmo.
    + apply WL in E. intuition discriminate.
    + destruct (v <=? s_cnt s) eqn:E1; [discriminate|]. injection E as _ <- <-. split; [lia|exact Logic.I].
    + apply WL in E. intuition.
  - destruct (s_pc s x) as [|v timed|v timed f] eqn:Ep; try discriminate. apply WL in E.
    destruct E as (E1 & -> & -> & ->). split; [exact E1|]. exists f. exact Ep.
  - unfold signal in E. destruct (0 <? v); [|discriminate].
    destruct (match s_max s with Some mx => mx <? v | None => false end); [discriminate|].
    destruct (match s_max s with Some mx => s32 (mx - v) <? s_cnt s | None => false end); [discriminate|].
    destruct (signal_loop _ _ _). discriminate.
  - destruct (s_pc s x) as [|v [|]|v [|] f]; discriminate.
Qed.

(** *** Requests of a single size *)
Definition drop1 (t : Z) (F : list Z) : list Z := filter (fun x => negb (x =? t)) F.
Lemma drop1_in t F x : In x (drop1 t F) <-> In x F /\ x <> t.
Proof. unfold drop1. rewrite filter_In. destruct (x =? t) eqn:E; cbn; intuition (try lia; try discriminate). Qed.
Lemma drop1_len t F : NoDup F -> zlen F <= zlen (drop1 t F) + 1.
Proof.
  intros H. unfold zlen. assert (length F <= length (t :: drop1 t F))%nat; [|cbn [length] in *; lia].
  apply NoDup_incl_length; [exact H|]. intros x Hx. destruct (Z.eq_dec x t) as [->|]; [left; reflexivity|].
  right. apply drop1_in. auto.
Qed.
Lemma drop1_nodup t F : NoDup F -> NoDup (drop1 t F).
Proof. apply NoDup_filter. Qed.

Lemma invf_init u val max : invf u (ksem_init val max).
Proof.
  constructor; cbn; intros; try contradiction; try discriminate.
  exists []. split; [constructor|]. split.
  - intros t. split; [intros []|]. intros (a & b & c & H). discriminate.
  - intros (t & v & b & H). discriminate.
Qed.

Lemma fl_out s t p c w : (forall u b, s_pc s t <> Asleep u b) ->
  (p = Out \/ exists u b, p = Asleep u b) ->
  forall F, NoDup F -> (forall x, In x F <-> in_flight s x) ->
  forall x, In x (drop1 t F) <-> in_flight (mk_s (s_max s) c w (fupd (s_pc s) t p)) x.
Proof.
  intros _ Hp F _ HF x. rewrite drop1_in, HF. unfold in_flight. cbn [s_pc]. unfold fupd.
  destruct (x =? t) eqn:E.
  - assert (x = t) by lia. subst x. split; [intros [_ H]; congruence|].
    intros (a & b & f & H). destruct Hp as [->|(u' & b' & ->)]; discriminate.
  - split; [intros [H _]; exact H|intros H; split; [exact H|lia]].
Qed.

Lemma invf_finish u s t s' ev : 0 < u -> 0 <= s_cnt s <= 2147483647 -> u <= 2147483647 ->
  (forall v b, s_pc s t <> Asleep v b) ->
  invf u s -> finish s t u = Ok s' ev -> invf u s'.
Proof.
  intros Hu Hc Hu2 NA [I1 I2 (F & NF & HF & HL)] E. unfold finish in E.
  assert (K : exists c : Z, s' = mk_s (s_max s) c (unlink t (s_wait s)) (fupd (s_pc s) t Out) /\ (c < u \/ c = s_cnt s - u)).
  { destruct (u <=? s_cnt s) eqn:E1; injection E as <- _; eexists; split; try reflexivity.
    - right. apply s32_small. lia.
    - left. lia. }
  destruct K as (c & Es & Hcc). subst s'. constructor; cbn [s_wait s_pc s_cnt].
  - intros x v H. apply unlink_in in H. eapply I1, H.
  - intros x v b f. unfold fupd. destruct (x =? t); [discriminate|]. apply I2.
  - exists (drop1 t F). split; [apply drop1_nodup, NF|]. split.
    + apply fl_out; auto.
    + intros (x & v & b & H). cbn [s_pc] in H. unfold fupd in H. destruct (x =? t); [discriminate|].
      assert (0 <= zlen (drop1 t F)) by (unfold zlen; lia).
      destruct Hcc as [Hcc|Hcc]; [nia|].
      specialize (HL (ex_intro _ x (ex_intro _ v (ex_intro _ b H)))).
      pose proof (drop1_len t F NF). nia.
Qed.

Lemma invf_wait_loop u s t timed expired s' ev : 0 < u -> 0 <= s_cnt s <= 2147483647 -> u <= 2147483647 ->
  (forall v b, s_pc s t <> Asleep v b) ->
  invf u s -> wait_loop s t u timed expired = Ok s' ev -> invf u s'.
Proof.
  intros Hu Hc Hu2 NA I E. unfold wait_loop in E.
  destruct (s_cnt s <? u) eqn:E1; [|eapply invf_finish; eassumption].
  destruct (timed && expired); [eapply invf_finish; eassumption|].
  destruct (linked s t); [discriminate|]. injection E as <- _.
  destruct I as [I1 I2 (F & NF & HF & HL)]. constructor; cbn [s_wait s_pc s_cnt].
  - intros x v. rewrite in_app_iff. intros [H|[[= _ <-]|[]]]; [eapply I1, H|reflexivity].
  - intros x v b f. unfold fupd. destruct (x =? t); [discriminate|]. apply I2.
  - exists (drop1 t F). split; [apply drop1_nodup, NF|]. split.
    + apply fl_out; eauto.
    + intros _. assert (0 <= zlen (drop1 t F)) by (unfold zlen; lia). nia.
Qed.

Definition ev_units (u : Z) (e : event) : Prop :=
  match e with EBlock _ v | EGrant _ v | ENotGranted _ v => v = u | _ => True end.

Lemma finish_units s t v s' ev u : finish s t v = Ok s' ev -> ev_units u ev -> v = u.
Proof. unfold finish. destruct (v <=? s_cnt s); intros [= _ <-] H; exact H. Qed.
Lemma wait_loop_units s t v timed ex s' ev u : wait_loop s t v timed ex = Ok s' ev -> ev_units u ev -> v = u.
Proof.
  unfold wait_loop. destruct (s_cnt s <? v); [destruct (timed && ex)|]; try apply finish_units.
  destruct (linked s t); [discriminate|]. intros [= _ <-] H. exact H.
Qed.

Lemma invf_step val max s tr a s' ev u : good_init val max -> reach val max s tr -> allowed a ->
  0 < u <= 2147483647 -> step s a = Ok s' ev -> (max = None -> available val (tr ++ [ev]) <= 2147483647) ->
  ev_units u ev -> invf u s -> invf u s'.
Proof.
  intros HG HR HA Hu E HO HEV IF. pose proof (reach_inv _ _ _ _ HG HR) as I.
  pose proof (i_range _ _ _ _ I) as Er. pose proof (good_bound _ _ HG) as Hb.
  assert (Hc : 0 <= s_cnt s <= 2147483647).
  { destruct max; [specialize (Hb ltac:(discriminate))|]; cbn [bound] in *; lia. }
  destruct a as [t v tmo ex|t ex|v|t]; cbn [step allowed] in *.
  - destruct (s_pc s t) eqn:Ep; try discriminate. unfold wait in E.
    destruct (0 <? v); [|discriminate].
    destruct (match s_max s with Some mx => mx <? v | None => false end); [injection E as <- _; exact IF|].
    assert (NA : forall v b, s_pc s t <> Asleep v b) by congruence.
    destruct tmo.
    + assert (v = u) by (eapply wait_loop_units; eassumption). subst v.
      eapply invf_wait_loop; try eassumption; lia.
    + destruct (v <=? s_cnt s) eqn:E1; [|injection E as <- _; exact IF].
      injection E as <- <-. cbn [ev_units] in HEV. subst v. destruct IF as [I1 I2 (F & NF & HF & HL)].
      constructor; cbn [s_wait s_pc s_cnt]; [exact I1|exact I2|].
      exists F. split; [exact NF|]. split; [exact HF|]. intros H. specialize (HL H).
      rewrite s32_small by lia. lia.
    + assert (v = u) by (eapply wait_loop_units; eassumption). subst v.
      eapply invf_wait_loop; try eassumption; lia.
  - destruct (s_pc s t) as [|v timed|v timed f] eqn:Ep; try discriminate.
    assert (v = u) by (eapply (f_unitsw _ _ IF); eassumption). subst v.
    eapply invf_wait_loop; try eassumption; try lia. congruence.
  - unfold signal in E. destruct (0 <? v); [|discriminate]. rewrite (i_max _ _ _ _ I) in E.
    destruct (match max with Some mx => mx <? v | None => false end) eqn:E1; [injection E as <- _; exact IF|].
    destruct (match max with Some mx => s32 (mx - v) <? s_cnt s | None => false end) eqn:E2; [injection E as <- _; exact IF|].
    pose proof (signal_loop_spec (s_wait s) (s32 (s_cnt s + v)) (s_pc s) (i_nodup _ _ _ _ I)
                  ltac:(intros; eapply i_pos; eassumption)) as SL.
    destruct (signal_loop (s32 (s_cnt s + v)) (s_wait s) (s_pc s)) as [w pcs'].
    destruct SL as (K & NK & SUB & PC & W & U). injection E as <- <-.
    assert (Hs : 0 <= s_cnt s + v <= 2147483647).
    { destruct max as [mx|].
      - specialize (Hb ltac:(discriminate)). cbn [bound] in *. rewrite s32_small in E2 by lia. lia.
      - specialize (HO eq_refl). pose proof (i_cnt _ _ _ _ I) as Ec. unfold available in HO, Ec.
        rewrite granted_snoc, signalled_snoc in HO. cbn [granted1 signalled1] in HO. lia. }
    rewrite s32_small in * by lia.
    destruct IF as [I1 I2 (F & NF & HF & HL)].
    specialize (U u ltac:(lia) ltac:(lia) I1).
    constructor; cbn [s_wait s_pc s_cnt].
    + intros t x H. rewrite W in H. apply filter_In in H. eapply I1, H.
    + intros t x b f. rewrite PC. destruct (inb t K) eqn:EK; [|apply I2].
      destruct (s_pc s t) as [|x' b'|x' b' f'] eqn:Ep; cbn [wake_pc]; intros [= <- <- <-].
      * eapply I1. eapply (i_asleep _ _ _ _ I); exact Ep.
      * eapply I2, Ep.
    + exists (filter (fun x => negb (inb x F)) K ++ F).
      assert (ND : NoDup (filter (fun x => negb (inb x F)) K ++ F)).
      { assert (G : forall l, NoDup l -> NoDup (filter (fun x => negb (inb x F)) l ++ F)).
        { induction l as [|x l IH]; cbn [filter app]; intros Hl; [exact NF|].
          apply NoDup_cons_iff in Hl. destruct Hl as [Hl1 Hl2].
          destruct (inb x F) eqn:Ex; cbn [negb]; [apply IH, Hl2|].
          cbn [app]. apply NoDup_cons_iff. split; [|apply IH, Hl2].
          rewrite in_app_iff, filter_In. intros [[H _]|H]; [contradiction|].
          apply inb_in in H. congruence. }
        apply G, NK. }
      split; [exact ND|]. split.
      * intros t. rewrite in_app_iff, filter_In. unfold in_flight. cbn [s_pc]. rewrite PC. split.
        -- intros [[H _]|H].
           ++ assert (EK : inb t K = true) by (apply inb_in; exact H). rewrite EK.
              apply SUB in H. apply in_map_iff in H. destruct H as ([x y] & Ex & H). cbn in Ex. subst x.
              destruct (i_linked _ _ _ _ I _ _ H) as [[b Hp]|Hp]; rewrite Hp; cbn [wake_pc]; eauto.
           ++ apply HF in H. destruct H as (a & b & f & H). rewrite H. cbn [wake_pc].
              destruct (inb t K); eauto.
        -- intros (a & b & f & H). destruct (inb t F) eqn:EF; [right; apply inb_in, EF|].
           destruct (inb t K) eqn:EK; [left; split; [apply inb_in, EK|reflexivity]|].
           right. apply HF. exists a, b, f. exact H.
      * intros (t & x & b & H). cbn [s_pc] in H. destruct U as [U|U].
        -- exfalso. rewrite PC in H. destruct (inb t K) eqn:EK.
           ++ destruct (s_pc s t); discriminate.
           ++ assert (In (t, x) w).
              { rewrite W. apply filter_In. cbn [fst]. rewrite EK. split; [eapply (i_asleep _ _ _ _ I), H|reflexivity]. }
              rewrite U in H0. exact H0.
        -- assert (zlen K <= zlen (filter (fun x => negb (inb x F)) K ++ F)).
           { unfold zlen. apply inj_le. apply NoDup_incl_length; [exact NK|]. intros y Hy.
             apply in_or_app. destruct (inb y F) eqn:EF; [right; apply inb_in, EF|].
             left. apply filter_In. rewrite EF. auto. }
           nia.
  - assert (HF' : forall v f0, (s_pc s t = Asleep v true \/ s_pc s t = Woken v true f0) ->
       invf u (mk_s (s_max s) (s_cnt s) (s_wait s) (fupd (s_pc s) t (Woken v true true)))).
    { intros v f0 Hv. destruct IF as [I1 I2 (F & NF & HF & HL)].
      constructor; cbn [s_wait s_pc s_cnt]; [exact I1| |].
      - intros x y b f. unfold fupd. destruct (x =? t); [|apply I2].
        intros [= <- _ _]. destruct Hv as [Hv|Hv]; [eapply I1, (i_asleep _ _ _ _ I), Hv|eapply I2, Hv].
      - exists (t :: drop1 t F). split.
        { apply NoDup_cons_iff. split; [rewrite drop1_in; tauto|apply drop1_nodup, NF]. }
        split.
        + intros x. cbn [In]. rewrite drop1_in, HF. unfold in_flight. cbn [s_pc]. unfold fupd.
          destruct (x =? t) eqn:Ex.
          * assert (x = t) by lia. split; [eauto|intuition].
          * split; [intros [H|[H _]]; [lia|exact H]|intros H; right; split; [exact H|lia]].
        + intros (x & y & b & H). cbn [s_pc] in H. unfold fupd in H. destruct (x =? t); [discriminate|].
          specialize (HL (ex_intro _ x (ex_intro _ y (ex_intro _ b H)))).
          pose proof (drop1_len t F NF). unfold zlen in *. cbn [length]. nia. }
    destruct (s_pc s t) as [|v [|]|v [|] f] eqn:Ep; try discriminate; injection E as <- _;
      eapply HF'; rewrite <- ?Ep; auto.
    Unshelve. exact true.
Qed.

Lemma uniform_no_lost_wakeup val max s tr u t : good_init val max -> reach val max s tr ->
  0 < u <= 2147483647 -> requests_are u tr ->
  (forall x, ~ in_flight s x) -> forall v, asleep s t v -> v = u /\ available val tr < v.
Proof.
  intros HG HR Hu HQ HN v HA.
  assert (IF : invf u s).
  { clear HN HA. induction HR as [|s tr a s' ev HR IH HA HS HO]; [apply invf_init|].
    unfold requests_are in HQ. apply Forall_app in HQ. destruct HQ as [Q1 Q2]. inversion Q2 as [|x y Q3 _]; subst.
    eapply invf_step; try eassumption. apply IH, Q1. }
  pose proof (reach_inv _ _ _ _ HG HR) as I. destruct IF as [I1 I2 (F & NF & HF & HL)].
  assert (v = u). { destruct HA as [b H]. eapply I1, (i_asleep _ _ _ _ I), H. }
  split; [assumption|]. subst v. specialize (HL (ex_intro _ t (ex_intro _ u HA))).
  assert (F = []). { destruct F as [|x F]; [reflexivity|]. exfalso. apply (HN x). apply HF. left. reflexivity. }
  subst F. rewrite <- (i_cnt _ _ _ _ I). unfold zlen in HL. cbn in HL. lia.
Qed.

(** *** Mixed sizes: a waiter is forgotten *)
Fixpoint run (s : ksem) (l : list action) : option (ksem * list event) :=
  match l with
  | [] => Some (s, [])
  | a :: r => match step s a with
              | Ok s' ev => match run s' r with Some (s2, tr) => Some (s2, ev :: tr) | None => None end
              | _ => None
              end
  end.

Lemma run_reach val max l : forall s tr s' tr', reach val (Some max) s tr -> Forall allowed l ->
  run s l = Some (s', tr') -> reach val (Some max) s' (tr ++ tr').
Proof.
  induction l as [|a l IH]; cbn [run]; intros s tr s' tr' HR HA E.
  - injection E as <- <-. rewrite app_nil_r. exact HR.
  - inversion HA; subst. destruct (step s a) as [| |s1 ev] eqn:ES; try discriminate.
    destruct (run s1 l) as [[s2 tr2]|] eqn:ER; [|discriminate]. injection E as <- <-.
    replace (tr ++ ev :: tr2) with ((tr ++ [ev]) ++ tr2) by (rewrite <- app_assoc; reflexivity).
    eapply IH; try eassumption. econstructor; try eassumption. discriminate.
Qed.

(** Task 1 waits for 3 units, task 2 for 1; 3 units arrive and wake task 1 only;
    task 3 takes one unit before task 1 runs; task 1 sleeps again.  Two units
    are free and task 2, which needs one, sleeps. *)
Definition forgotten : list action :=
  [Wait 1 3 Forever false; Wait 2 1 Forever false; Signal 3; Wait 3 1 NoWait false; Resume 1 false].

Lemma mixed_lost_wakeup : exists s tr, reach 0 (Some 10) s tr /\ (forall x, ~ in_flight s x) /\ asleep s 2 1 /\ available 0 tr = 2.
Proof.
  destruct (run (ksem_init 0 (Some 10)) forgotten) as [[s tr]|] eqn:E; [|vm_compute in E; discriminate].
  exists s, tr. split.
  { rewrite <- (app_nil_l tr). eapply run_reach; [constructor| |exact E].
    unfold forgotten. repeat constructor; cbn; lia. }
  vm_compute in E. injection E as <- <-. split; [|split; [exists false; reflexivity|reflexivity]].
  intros x (u & b & f & H). cbn [s_pc] in H.
  repeat match type of H with context [if ?c then _ else _] => destruct c end; discriminate.
Qed.

Lemma overflow_negative : exists s ev, step (ksem_init 2147483647 None) (Signal 1) = Ok s ev /\ s_cnt s < 0.
Proof. eexists. eexists. split; [reflexivity|]. reflexivity. Qed.
