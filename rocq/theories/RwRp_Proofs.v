From Verif Require Import Lib RwRp_Model RwRp_Spec.

Definition counted (s : rw) (tr : list event) (t : Z) : bool :=
  match rpc s t with
  | RSem | RelSh | WantM ShUnlock | Dec => true
  | Out => reading tr t
  | _ => false
  end.
Definition locks (p : pc) : bool :=
  match p with Inc | RSem | RelSh | Dec | RPost | RelShu => true | _ => false end.
Definition wtok (s : rw) (tr : list event) (t : Z) : bool :=
  match rpc s t with WSet | WPost => true | Out => writing tr t | _ => false end.
Definition rtok (s : rw) (tr : list event) (t : Z) : bool :=
  match rpc s t with
  | RelSh | WantM ShUnlock | Dec | RPost => true
  | Out => reading tr t
  | _ => false
  end.

Record inv (s : rw) (tr : list event) : Prop := {
  i_lock : forall t, readers_lock s = Some t <-> locks (rpc s t) = true;
  i_cnt : exists L, NoDup L /\ (forall t, In t L <-> counted s tr t = true) /\ rcount s = zlen L;
  i_sem : sem s = 0 \/ (sem s = 1 /\ (forall t, wtok s tr t = false) /\ (forall t, rtok s tr t = false));
  i_hold : sem s = 0 -> exists t, wtok s tr t = true \/ rtok s tr t = true;
  i_uniq : forall t u, wtok s tr t = true -> wtok s tr u = true -> t = u;
  i_excl : forall t u, wtok s tr t = true -> rtok s tr u = false;
  i_first : forall t, rpc s t = RSem -> rcount s = 1 /\ (forall u, rtok s tr u = false);
  i_last : forall t, rpc s t = RPost -> rcount s = 0;
  i_own : forall t, ex_owner s = Some t <-> (rpc s t = Out /\ writing tr t = true);
  i_wout : forall t, writing tr t = true -> rpc s t = Out;
  i_rout : forall t, reading tr t = true -> rpc s t = Out /\ writing tr t = false
}.

Lemma reading_app a b t : reading (a ++ b) t = fold_left (reading1 t) b (reading a t).
Proof. apply fold_left_app. Qed.
Lemma writing_app a b t : writing (a ++ b) t = fold_left (writing1 t) b (writing a t).
Proof. apply fold_left_app. Qed.

Lemma inv_init : inv rw_init [].
Proof.
  constructor; cbn; intros; try discriminate; auto.
  - split; discriminate.
  - exists []. split; [constructor|]. split; [|reflexivity]. intros t. split; [intros []|discriminate].
  - split; [discriminate|]. intros [_ H]. discriminate.
Qed.

(** Adding or removing one element of a counted set *)
Definition addl (t : Z) (L : list Z) := t :: L.
Definition dropl (t : Z) (L : list Z) := filter (fun x => negb (x =? t)) L.
Lemma dropl_in t L x : In x (dropl t L) <-> In x L /\ x <> t.
Proof. unfold dropl. rewrite filter_In. destruct (x =? t) eqn:E; cbn; intuition (try lia; try discriminate). Qed.
Lemma dropl_len t L : NoDup L -> In t L -> zlen (dropl t L) = zlen L - 1.
Proof.
  unfold dropl, zlen. induction L as [|x L IH]; intros ND HI; [destruct HI|].
  apply NoDup_cons_iff in ND. destruct ND as [N1 N2]. cbn [filter]. destruct (x =? t) eqn:E; cbn [negb length].
  - assert (x = t) by lia. subst x.
    replace (filter (fun x => negb (x =? t)) L) with L; [lia|].
    clear -N1. induction L as [|y L IH]; [reflexivity|]. cbn [filter].
    destruct (y =? t) eqn:E; cbn [negb]; [exfalso; apply N1; left; lia|].
    f_equal. apply IH. intros H. apply N1. right. exact H.
  - destruct HI as [HI|HI]; [lia|]. specialize (IH N2 HI). lia.
Qed.

Ltac sp := cbn [readers_lock sem rcount ex_owner rpc set_pc] in *.
Ltac fu t0 t := unfold fupd; destruct (t0 =? t) eqn:?; [assert (t0 = t) by lia; subst t0|].

(** In a state where only the pc of [t] changes, from [p] to [q] *)
Lemma cnt_same s tr s' tr' n :
  (forall x, counted s' tr' x = counted s tr x) -> n = rcount s ->
  (exists L, NoDup L /\ (forall t, In t L <-> counted s tr t = true) /\ rcount s = zlen L) ->
  exists L, NoDup L /\ (forall t, In t L <-> counted s' tr' t = true) /\ n = zlen L.
Proof.
  intros H1 H2 (L & A & B & C). exists L. split; [exact A|]. split; [|congruence].
  intros t. rewrite H1. apply B.
Qed.

Lemma inv_step s tr a : inv s tr -> allowed s tr a ->
  match step s a with
  | Disabled => True
  | AssertFail => False
  | Ok s' evs => inv s' (tr ++ evs)
  end.
Proof.
  intros I HA.
  destruct a as [t|t|t|t|t]; cbn [step allowed] in *.
  - (* call shlock *)
    destruct (rpc s t) eqn:Ep; try exact Logic.I. rewrite app_nil_r. destruct HA as [HR HW].
    assert (C : forall x, counted (set_pc s t (WantM ShLock)) tr x = counted s tr x).
    { intros x. unfold counted. sp. fu x t; [rewrite Ep|]; auto. }
    assert (W : forall x, wtok (set_pc s t (WantM ShLock)) tr x = wtok s tr x).
    { intros x. unfold wtok. sp. fu x t; [rewrite Ep|]; auto. }
    assert (R : forall x, rtok (set_pc s t (WantM ShLock)) tr x = rtok s tr x).
    { intros x. unfold rtok. sp. fu x t; [rewrite Ep|]; auto. }
    destruct I. constructor; sp.
    + intros x. rewrite i_lock0. fu x t; [rewrite Ep|]; reflexivity.
    + eapply (cnt_same s tr); eauto.
    + destruct i_sem0 as [?|(?&?&?)]; [left|right]; auto. split; [assumption|]. split; intros x; rewrite ?W, ?R; auto.
    + intros Hs0. destruct (i_hold0 Hs0) as [y Hy]. exists y. rewrite W, R. exact Hy.
    + intros x y. rewrite !W. auto.
    + intros x y. rewrite W, R. eauto.
    + intros x. fu x t; [discriminate|]. intros H. destruct (i_first0 _ H). split; [assumption|]. intros u. rewrite R. auto.
    + intros x. fu x t; [discriminate|]. eauto.
    + intros x. rewrite i_own0. fu x t; [|reflexivity]. rewrite HW. intuition discriminate.
    + intros x. fu x t; [congruence|]. auto.
    + intros x. fu x t; [congruence|]. auto.
  - (* call shunlock *)
    destruct (rpc s t) eqn:Ep; try exact Logic.I.
    pose proof (i_rout _ _ I t HA) as [_ HW].
    assert (Rd : forall x, reading (tr ++ [EReadEnd t]) x = if x =? t then false else reading tr x).
    { intros x. rewrite reading_app. cbn. rewrite (Z.eqb_sym t x). reflexivity. }
    assert (Wr : forall x, writing (tr ++ [EReadEnd t]) x = writing tr x).
    { intros x. rewrite writing_app. reflexivity. }
    assert (C : forall x, counted (set_pc s t (WantM ShUnlock)) (tr ++ [EReadEnd t]) x = counted s tr x).
    { intros x. unfold counted. sp. rewrite Rd. fu x t; [rewrite Ep|]; auto. }
    assert (W : forall x, wtok (set_pc s t (WantM ShUnlock)) (tr ++ [EReadEnd t]) x = wtok s tr x).
    { intros x. unfold wtok. sp. rewrite Wr. fu x t; [rewrite Ep|]; auto. }
    assert (R : forall x, rtok (set_pc s t (WantM ShUnlock)) (tr ++ [EReadEnd t]) x = rtok s tr x).
    { intros x. unfold rtok. sp. rewrite Rd. fu x t; [rewrite Ep|]; auto. }
    destruct I. constructor; sp.
    + intros x. rewrite i_lock0. fu x t; [rewrite Ep|]; reflexivity.
    + eapply (cnt_same s tr); eauto.
    + destruct i_sem0 as [?|(?&?&?)]; [left|right]; auto. split; [assumption|]. split; intros x; rewrite ?W, ?R; auto.
    + intros Hs0. destruct (i_hold0 Hs0) as [y Hy]. exists y. rewrite W, R. exact Hy.
    + intros x y. rewrite !W. auto.
    + intros x y. rewrite W, R. eauto.
    + intros x. fu x t; [discriminate|]. intros H. destruct (i_first0 _ H). split; [assumption|]. intros u. rewrite R. auto.
    + intros x. fu x t; [discriminate|]. eauto.
    + intros x. rewrite i_own0, Wr. fu x t; [|reflexivity]. rewrite HW. intuition discriminate.
    + intros x. rewrite Wr. fu x t; [congruence|]. auto.
    + intros x. rewrite Wr, Rd. fu x t; [congruence|]. auto.
  - (* call exlock *)
    destruct (rpc s t) eqn:Ep; try exact Logic.I. rewrite app_nil_r. destruct HA as [HR HW].
    assert (C : forall x, counted (set_pc s t WSem) tr x = counted s tr x).
    { intros x. unfold counted. sp. fu x t; [rewrite Ep|]; auto. }
    assert (W : forall x, wtok (set_pc s t WSem) tr x = wtok s tr x).
    { intros x. unfold wtok. sp. fu x t; [rewrite Ep|]; auto. }
    assert (R : forall x, rtok (set_pc s t WSem) tr x = rtok s tr x).
    { intros x. unfold rtok. sp. fu x t; [rewrite Ep|]; auto. }
    destruct I. constructor; sp.
    + intros x. rewrite i_lock0. fu x t; [rewrite Ep|]; reflexivity.
    + eapply (cnt_same s tr); eauto.
    + destruct i_sem0 as [?|(?&?&?)]; [left|right]; auto. split; [assumption|]. split; intros x; rewrite ?W, ?R; auto.
    + intros Hs0. destruct (i_hold0 Hs0) as [y Hy]. exists y. rewrite W, R. exact Hy.
    + intros x y. rewrite !W. auto.
    + intros x y. rewrite W, R. eauto.
    + intros x. fu x t; [discriminate|]. intros H. destruct (i_first0 _ H). split; [assumption|]. intros u. rewrite R. auto.
    + intros x. fu x t; [discriminate|]. eauto.
    + intros x. rewrite i_own0. fu x t; [|reflexivity]. rewrite HW. intuition discriminate.
    + intros x. fu x t; [congruence|]. auto.
    + intros x. fu x t; [congruence|]. auto.
  - (* call exunlock *)
    destruct (rpc s t) eqn:Ep; try exact Logic.I.
    assert (EO : ex_owner s = Some t) by (apply (i_own _ _ I); auto). rewrite EO, Z.eqb_refl.
    assert (Rt : reading tr t = false).
    { destruct (reading tr t) eqn:E; [|reflexivity]. apply (i_rout _ _ I) in E. destruct E. congruence. }
    assert (Rd : forall x, reading (tr ++ [EWriteEnd t]) x = reading tr x).
    { intros x. rewrite reading_app. reflexivity. }
    assert (Wr : forall x, writing (tr ++ [EWriteEnd t]) x = if x =? t then false else writing tr x).
    { intros x. rewrite writing_app. cbn. rewrite (Z.eqb_sym t x). reflexivity. }
    set (s' := mk_rw _ _ _ _ _).
    assert (C : forall x, counted s' (tr ++ [EWriteEnd t]) x = counted s tr x).
    { intros x. unfold counted, s'. sp. rewrite Rd. fu x t; [rewrite Ep|]; auto. }
    assert (W : forall x, wtok s' (tr ++ [EWriteEnd t]) x = wtok s tr x).
    { intros x. unfold wtok, s'. sp. rewrite Wr. fu x t; [rewrite Ep|]; auto. }
    assert (R : forall x, rtok s' (tr ++ [EWriteEnd t]) x = rtok s tr x).
    { intros x. unfold rtok, s'. sp. rewrite Rd. fu x t; [rewrite Ep|]; auto. }
    destruct I. constructor; unfold s' at 1; sp.
    + intros x. rewrite i_lock0. subst s'. sp. fu x t; [rewrite Ep|]; reflexivity.
    + eapply (cnt_same s tr); eauto.
    + destruct i_sem0 as [?|(?&?&?)]; [left|right]; auto. split; [assumption|]. split; intros x; rewrite ?W, ?R; auto.
    + intros Hs0. destruct (i_hold0 Hs0) as [y Hy]. exists y. rewrite W, R. exact Hy.
    + intros x y. rewrite !W. auto.
    + intros x y. rewrite W, R. eauto.
    + intros x. fu x t; [discriminate|]. intros H. destruct (i_first0 _ H). split; [assumption|]. intros u. rewrite R. auto.
    + intros x. fu x t; [discriminate|]. eauto.
    + intros x. subst s'. sp. rewrite Wr. split; [discriminate|]. intros [H1 H2]. revert H1 H2. fu x t; [discriminate|].
      intros H1 H2. assert (ex_owner s = Some x) by (apply i_own0; auto). rewrite EO in H. injection H as ->. lia.
    + intros x. rewrite Wr. fu x t; [congruence|]. auto.
    + intros x. rewrite Wr, Rd. fu x t; [congruence|]. auto.
  - destruct (rpc s t) as [|o| | | | | | | | |] eqn:Ep; try exact Logic.I.
    + (* WantM *)
      destruct (readers_lock s) as [o'|] eqn:EL; [exact Logic.I|]. rewrite app_nil_r.
      assert (NL : forall x, locks (rpc s x) = false).
      { intros x. destruct (locks (rpc s x)) eqn:E; [|reflexivity]. apply (i_lock _ _ I) in E. congruence. }
      set (q := match o with ShLock => Inc | ShUnlock => Dec end).
      assert (Hq : q = Inc \/ q = Dec) by (destruct o; auto).
      assert (HWt : writing tr t = false).
      { destruct (writing tr t) eqn:E; [|reflexivity]. apply (i_wout _ _ I) in E. congruence. }
      assert (HRt : reading tr t = false).
      { destruct (reading tr t) eqn:E; [|reflexivity]. apply (i_rout _ _ I) in E. destruct E. congruence. }
      set (s' := mk_rw _ _ _ _ _).
      assert (C : forall x, counted s' tr x = counted s tr x).
      { intros x. unfold counted, s'. sp. fu x t; [rewrite Ep; unfold q; destruct o|]; auto. }
      assert (W : forall x, wtok s' tr x = wtok s tr x).
      { intros x. unfold wtok, s'. sp. fu x t; [rewrite Ep; unfold q; destruct o|]; auto. }
      assert (R : forall x, rtok s' tr x = rtok s tr x).
      { intros x. unfold rtok, s'. sp. fu x t; [rewrite Ep; unfold q; destruct o|]; auto. }
      destruct I. constructor; unfold s' at 1; sp.
      * intros x. subst s'. sp. fu x t.
        -- split; [|reflexivity]. intros _. destruct Hq as [-> | ->]; reflexivity.
        -- rewrite NL. split; [intros [= <-]; lia|discriminate].
      * eapply (cnt_same s tr); eauto.
      * destruct i_sem0 as [?|(?&?&?)]; [left|right]; auto. split; [assumption|]. split; intros x; rewrite ?W, ?R; auto.
      * intros Hs0. destruct (i_hold0 Hs0) as [y Hy]. exists y. rewrite W, R. exact Hy.
      * intros x y. rewrite !W. auto.
      * intros x y. rewrite W, R. eauto.
      * intros x. fu x t; [intros E; destruct Hq; congruence|]. intros H. specialize (NL x). rewrite H in NL. discriminate.
      * intros x. fu x t; [intros E; destruct Hq; congruence|]. intros H. specialize (NL x). rewrite H in NL. discriminate.
      * intros x. subst s'. sp. rewrite i_own0. fu x t; [|reflexivity]. rewrite HWt. intuition congruence.
      * intros x. subst s'. sp. fu x t; [congruence|]. auto.
      * intros x. subst s'. sp. fu x t; [congruence|]. auto.
    + (* Inc *)
      rewrite app_nil_r.
      assert (ELk : readers_lock s = Some t) by (apply (i_lock _ _ I); rewrite Ep; reflexivity).
      assert (UL : forall x, locks (rpc s x) = true -> x = t).
      { intros x Hx. apply (i_lock _ _ I) in Hx. congruence. }
      destruct (i_cnt _ _ I) as (L & ND & HL & HC).
      assert (Hn : 0 <= zlen L) by (unfold zlen; lia).
      rewrite s32_small by lia.
      assert (NI : ~ In t L) by (intros H; apply HL in H; unfold counted in H; rewrite Ep in H; discriminate).
      set (q := if rcount s + 1 =? 1 then RSem else RelSh).
      assert (Hq : q = RSem \/ q = RelSh) by (unfold q; destruct (rcount s + 1 =? 1); auto).
      assert (HWt : writing tr t = false).
      { destruct (writing tr t) eqn:E; [|reflexivity]. apply (i_wout _ _ I) in E. congruence. }
      assert (HRt : reading tr t = false).
      { destruct (reading tr t) eqn:E; [|reflexivity]. apply (i_rout _ _ I) in E. destruct E. congruence. }
      set (s' := mk_rw _ _ _ _ _).
      assert (C : forall x, counted s' tr x = (x =? t) || counted s tr x).
      { intros x. unfold counted, s'. sp. fu x t; [destruct Hq as [-> | ->]; reflexivity|]. reflexivity. }
      assert (W : forall x, wtok s' tr x = wtok s tr x).
      { intros x. unfold wtok, s'. sp. fu x t; [rewrite Ep; destruct Hq as [-> | ->]|]; auto. }
      assert (R : forall x, rtok s' tr x = ((x =? t) && negb (rcount s =? 0)) || rtok s tr x).
      { intros x. unfold rtok, s'. sp. fu x t.
        - rewrite Ep. unfold q. destruct (rcount s + 1 =? 1) eqn:E1; destruct (rcount s =? 0) eqn:E2; try reflexivity; lia.
        - reflexivity. }
      (* someone counted already holds the token *)
      assert (TOK : rcount s <> 0 -> exists u, rtok s tr u = true).
      { intros Hne. destruct L as [|u L]; [unfold zlen in HC; cbn in HC; lia|]. exists u.
        assert (Hu : counted s tr u = true) by (apply HL; left; reflexivity).
        unfold counted in Hu. unfold rtok. destruct (rpc s u) eqn:Eu; try discriminate; auto.
        assert (u = t) by (apply UL; rewrite Eu; reflexivity). subst u. congruence. }
      constructor; unfold s' at 1; sp.
      * intros x. subst s'. sp. rewrite (i_lock _ _ I). fu x t; [|reflexivity]. rewrite Ep. destruct Hq as [-> | ->]; reflexivity.
      * exists (t :: L). split; [constructor; assumption|]. split; [|subst s'; sp; unfold zlen in *; cbn [length]; lia].
        intros x. rewrite C. cbn [In]. rewrite HL. destruct (x =? t) eqn:E; cbn; intuition (try lia).
      * destruct (i_sem _ _ I) as [Hs|(Hs & H1 & H2)]; [left; exact Hs|].
        destruct (rcount s =? 0) eqn:E0.
        -- right. split; [exact Hs|]. split; intros x; rewrite ?W, ?R; auto. rewrite H2.
           cbn [negb]. rewrite andb_false_r. reflexivity.
        -- destruct (TOK ltac:(lia)) as [u Hu]. rewrite H2 in Hu. discriminate.
      * intros Hs0. destruct (i_hold _ _ I Hs0) as [y Hy]. exists y. rewrite W, R. destruct Hy as [Hy|Hy]; [left; exact Hy|].
        right. rewrite Hy. apply orb_true_r.
      * intros x y. rewrite !W. apply I.
      * intros x y. rewrite W, R. intros Hx. rewrite (i_excl _ _ I x y Hx), orb_false_r.
        destruct (rcount s =? 0) eqn:E0; cbn [negb]; [apply andb_false_r|].
        destruct (TOK ltac:(lia)) as [u Hu]. rewrite (i_excl _ _ I x u Hx) in Hu. discriminate.
      * intros x Hx. assert (x = t).
        { revert Hx. fu x t; [reflexivity|]. intros Hx. apply UL. rewrite Hx. reflexivity. }
        subst x. rewrite fupd_same in Hx. unfold q in Hx. destruct (rcount s + 1 =? 1) eqn:E1; [|discriminate].
        split; [unfold s'; sp; lia|]. intros u. rewrite R. replace (rcount s =? 0) with true by lia. cbn [negb]. rewrite andb_false_r.
        cbn [orb]. destruct (rtok s tr u) eqn:Eu; [|reflexivity]. exfalso.
        assert (L = []) by (destruct L; [reflexivity|unfold zlen in HC; cbn in HC; lia]). subst L.
        unfold rtok in Eu. assert (Hc : counted s tr u = false).
        { destruct (counted s tr u) eqn:E; [|reflexivity]. apply HL in E. destruct E. }
        unfold counted in Hc. destruct (rpc s u) as [|[|]| | | | | | | | |] eqn:Ew; try discriminate; try congruence.
        assert (u = t) by (apply UL; rewrite Ew; reflexivity). subst u. congruence.
      * intros x Hx. revert Hx. fu x t; [intros E; destruct Hq; congruence|]. intros Hx.
        assert (x = t) by (apply UL; rewrite Hx; reflexivity). lia.
      * intros x. subst s'. sp. rewrite (i_own _ _ I). fu x t; [|reflexivity]. rewrite HWt. intuition congruence.
      * intros x. subst s'. sp. fu x t; [congruence|]. apply I.
      * intros x. subst s'. sp. fu x t; [congruence|]. apply I.
    + (* RSem *)
      destruct (1 <=? sem s) eqn:Es; [|exact Logic.I]. rewrite app_nil_r.
      assert (ELk : readers_lock s = Some t) by (apply (i_lock _ _ I); rewrite Ep; reflexivity).
      assert (UL : forall x, locks (rpc s x) = true -> x = t).
      { intros x Hx. apply (i_lock _ _ I) in Hx. congruence. }
      destruct (i_sem _ _ I) as [Hs|(Hs & H1 & H2)]; [lia|].
      assert (HWt : writing tr t = false).
      { destruct (writing tr t) eqn:E; [|reflexivity]. apply (i_wout _ _ I) in E. congruence. }
      set (s' := mk_rw _ _ _ _ _).
      assert (C : forall x, counted s' tr x = counted s tr x).
      { intros x. unfold counted, s'. sp. fu x t; [rewrite Ep|]; auto. }
      assert (W : forall x, wtok s' tr x = wtok s tr x).
      { intros x. unfold wtok, s'. sp. fu x t; [rewrite Ep|]; auto. }
      destruct I. constructor; unfold s' at 1; sp.
      * intros x. subst s'. sp. rewrite i_lock0. fu x t; [rewrite Ep|]; reflexivity.
      * eapply (cnt_same s tr); eauto.
      * left. lia.
      * intros _. exists t. right. unfold rtok, s'. sp. rewrite fupd_same. reflexivity.
      * intros x y. rewrite W, H1. discriminate.
      * intros x y. rewrite W, H1. discriminate.
      * intros x. fu x t; [discriminate|]. intros H. assert (x = t) by (apply UL; rewrite H; reflexivity). lia.
      * intros x. fu x t; [discriminate|]. intros H. assert (x = t) by (apply UL; rewrite H; reflexivity). lia.
      * intros x. subst s'. sp. rewrite i_own0. fu x t; [|reflexivity]. rewrite HWt. intuition congruence.
      * intros x Hx. specialize (i_wout0 _ Hx). subst s'. sp. fu x t; congruence.
      * intros x Hx. destruct (i_rout0 _ Hx). subst s'. sp. fu x t; [congruence|auto].
    + (* RelSh *)
      assert (ELk : readers_lock s = Some t) by (apply (i_lock _ _ I); rewrite Ep; reflexivity).
      assert (UL : forall x, locks (rpc s x) = true -> x = t).
      { intros x Hx. apply (i_lock _ _ I) in Hx. congruence. }
      assert (Rd : forall x, reading (tr ++ [ERead t]) x = if x =? t then true else reading tr x).
      { intros x. rewrite reading_app. cbn. rewrite (Z.eqb_sym t x). reflexivity. }
      assert (Wr : forall x, writing (tr ++ [ERead t]) x = writing tr x).
      { intros x. rewrite writing_app. reflexivity. }
      assert (HWt : writing tr t = false).
      { destruct (writing tr t) eqn:E; [|reflexivity]. apply (i_wout _ _ I) in E. congruence. }
      set (s' := mk_rw _ _ _ _ _).
      assert (C : forall x, counted s' (tr ++ [ERead t]) x = counted s tr x).
      { intros x. unfold counted, s'. sp. rewrite Rd. fu x t; [rewrite Ep|]; auto. }
      assert (W : forall x, wtok s' (tr ++ [ERead t]) x = wtok s tr x).
      { intros x. unfold wtok, s'. sp. rewrite Wr. fu x t; [rewrite Ep|]; auto. }
      assert (R : forall x, rtok s' (tr ++ [ERead t]) x = rtok s tr x).
      { intros x. unfold rtok, s'. sp. rewrite Rd. fu x t; [rewrite Ep|]; auto. }
      destruct I. constructor; unfold s' at 1; sp.
      * intros x. subst s'. sp. split; [discriminate|]. fu x t; [discriminate|]. intros Hx. apply UL in Hx. lia.
      * eapply (cnt_same s tr); eauto.
      * destruct i_sem0 as [?|(?&?&?)]; [left|right]; auto. split; [assumption|]. split; intros x; rewrite ?W, ?R; auto.
      * intros Hs0. destruct (i_hold0 Hs0) as [y Hy]. exists y. rewrite W, R. exact Hy.
      * intros x y. rewrite !W. auto.
      * intros x y. rewrite W, R. eauto.
      * intros x. fu x t; [discriminate|]. intros H. assert (x = t) by (apply UL; rewrite H; reflexivity). lia.
      * intros x. fu x t; [discriminate|]. intros H. assert (x = t) by (apply UL; rewrite H; reflexivity). lia.
      * intros x. subst s'. sp. rewrite i_own0, Wr. fu x t; [|reflexivity]. rewrite HWt. intuition discriminate.
      * intros x. rewrite Wr. subst s'. sp. fu x t; auto.
      * intros x. rewrite Wr, Rd. subst s'. sp. fu x t; auto.
    + (* Dec *)
      rewrite app_nil_r.
      assert (ELk : readers_lock s = Some t) by (apply (i_lock _ _ I); rewrite Ep; reflexivity).
      assert (UL : forall x, locks (rpc s x) = true -> x = t).
      { intros x Hx. apply (i_lock _ _ I) in Hx. congruence. }
      destruct (i_cnt _ _ I) as (L & ND & HL & HC).
      assert (HI : In t L) by (apply HL; unfold counted; rewrite Ep; reflexivity).
      assert (Hn : 0 <= zlen L) by (unfold zlen; lia).
      assert (Hn1 : 1 <= zlen L) by (destruct L; [destruct HI|unfold zlen; cbn; lia]).
      rewrite s32_small by lia.
      set (q := if rcount s - 1 =? 0 then RPost else RelShu).
      assert (Hq : q = RPost \/ q = RelShu) by (unfold q; destruct (rcount s - 1 =? 0); auto).
      assert (HWt : writing tr t = false).
      { destruct (writing tr t) eqn:E; [|reflexivity]. apply (i_wout _ _ I) in E. congruence. }
      assert (HRt : reading tr t = false).
      { destruct (reading tr t) eqn:E; [|reflexivity]. apply (i_rout _ _ I) in E. destruct E. congruence. }
      set (s' := mk_rw _ _ _ _ _).
      assert (C : forall x, counted s' tr x = negb (x =? t) && counted s tr x).
      { intros x. unfold counted, s'. sp. fu x t; [destruct Hq as [-> | ->]; reflexivity|]. reflexivity. }
      assert (W : forall x, wtok s' tr x = wtok s tr x).
      { intros x. unfold wtok, s'. sp. fu x t; [rewrite Ep; destruct Hq as [-> | ->]|]; auto. }
      assert (R : forall x, rtok s' tr x = true -> rtok s tr x = true).
      { intros x. unfold rtok, s'. sp. fu x t; [rewrite Ep; reflexivity|]. auto. }
      destruct I. constructor; unfold s' at 1; sp.
      * intros x. subst s'. sp. rewrite i_lock0. fu x t; [|reflexivity]. rewrite Ep. destruct Hq as [-> | ->]; reflexivity.
      * exists (dropl t L). split; [apply NoDup_filter, ND|]. split.
        -- intros x. rewrite C, dropl_in, HL. destruct (x =? t) eqn:E; cbn; intuition (try lia; try discriminate).
        -- subst s'. sp. rewrite dropl_len by assumption. lia.
      * destruct i_sem0 as [Hs|(Hs & H1 & H2)]; [left; exact Hs|].
        specialize (H2 t). unfold rtok in H2. rewrite Ep in H2. discriminate.
      * intros _. unfold q in *. destruct (rcount s - 1 =? 0) eqn:E0.
        -- exists t. right. unfold rtok, s'. sp. rewrite fupd_same. reflexivity.
        -- assert (Hx : exists x, In x L /\ x <> t).
           { destruct L as [|x [|y L]].
             - unfold zlen in *. cbn in *. lia.
             - unfold zlen in *. cbn in *. lia.
             - apply NoDup_cons_iff in ND. destruct ND as [N1 _].
               destruct (Z.eq_dec x t) as [->|]; [|exists x; cbn; auto].
               exists y. split; [cbn; auto|]. intros ->. apply N1. left. reflexivity. }
           destruct Hx as (x & Hx & Hne). exists x. right. apply HL in Hx. unfold counted in Hx.
           unfold rtok, s'. sp. rewrite fupd_other by assumption. destruct (rpc s x) eqn:Ex; auto.
           assert (x = t) by (apply UL; rewrite Ex; reflexivity). lia.
      * intros x y. rewrite !W. apply i_uniq0.
      * intros x y. rewrite W. intros Hx. specialize (i_excl0 x t Hx). unfold rtok in i_excl0. rewrite Ep in i_excl0. discriminate.
      * intros x. fu x t; [intros E; destruct Hq; congruence|]. intros H. assert (x = t) by (apply UL; rewrite H; reflexivity). lia.
      * intros x Hx. assert (x = t).
        { revert Hx. fu x t; [reflexivity|]. intros Hx. apply UL. rewrite Hx. reflexivity. }
        subst x. rewrite fupd_same in Hx. unfold q in Hx. destruct (rcount s - 1 =? 0) eqn:E1; [|discriminate]. unfold s'; sp; lia.
      * intros x. subst s'. sp. rewrite i_own0. fu x t; [|reflexivity]. rewrite HWt. intuition congruence.
      * intros x Hx. specialize (i_wout0 _ Hx). subst s'. sp. fu x t; congruence.
      * intros x Hx. destruct (i_rout0 _ Hx). subst s'. sp. fu x t; [congruence|auto].
    + (* RPost *)
      rewrite app_nil_r.
      assert (ELk : readers_lock s = Some t) by (apply (i_lock _ _ I); rewrite Ep; reflexivity).
      assert (UL : forall x, locks (rpc s x) = true -> x = t).
      { intros x Hx. apply (i_lock _ _ I) in Hx. congruence. }
      assert (TK : rtok s tr t = true) by (unfold rtok; rewrite Ep; reflexivity).
      assert (Hs : sem s = 0).
      { destruct (i_sem _ _ I) as [Hs|(Hs & H1 & H2)]; [exact Hs|]. rewrite H2 in TK. discriminate. }
      assert (NW : forall x, wtok s tr x = false).
      { intros x. destruct (wtok s tr x) eqn:E; [|reflexivity]. rewrite (i_excl _ _ I x t E) in TK. discriminate. }
      assert (HWt : writing tr t = false).
      { destruct (writing tr t) eqn:E; [|reflexivity]. apply (i_wout _ _ I) in E. congruence. }
      set (s' := mk_rw _ _ _ _ _).
      assert (C : forall x, counted s' tr x = counted s tr x).
      { intros x. unfold counted, s'. sp. fu x t; [rewrite Ep|]; auto. }
      assert (W : forall x, wtok s' tr x = wtok s tr x).
      { intros x. unfold wtok, s'. sp. fu x t; [rewrite Ep|]; auto. }
      assert (NC : forall x, counted s tr x = false).
      { intros x. destruct (i_cnt _ _ I) as (L & ND & HL & HC). rewrite (i_last _ _ I t Ep) in HC.
        destruct L; [|unfold zlen in HC; cbn in HC; lia].
        destruct (counted s tr x) eqn:E; [|reflexivity]. apply HL in E. destruct E. }
      assert (NR : forall x, rtok s' tr x = false).
      { intros x. specialize (NC x). unfold counted in NC. unfold rtok, s'. sp. fu x t; [reflexivity|].
        destruct (rpc s x) as [|[|]| | | | | | | | |] eqn:E; auto.
        assert (x = t) by (apply UL; rewrite E; reflexivity). lia. }
      destruct I. constructor; unfold s' at 1; sp.
      * intros x. subst s'. sp. rewrite i_lock0. fu x t; [rewrite Ep|]; reflexivity.
      * eapply (cnt_same s tr); eauto.
      * right. change (sem s') with (post s). unfold post. rewrite Hs. cbn. split; [reflexivity|]. split; [intros x; rewrite W; apply NW|exact NR].
      * change (sem s') with (post s). unfold post. rewrite Hs. cbn. discriminate.
      * intros x y. rewrite W, NW. discriminate.
      * intros x y. rewrite W, NW. discriminate.
      * intros x. fu x t; [discriminate|]. intros H. assert (x = t) by (apply UL; rewrite H; reflexivity). lia.
      * intros x. fu x t; [discriminate|]. intros H. assert (x = t) by (apply UL; rewrite H; reflexivity). lia.
      * intros x. subst s'. sp. rewrite i_own0. fu x t; [|reflexivity]. rewrite HWt. intuition congruence.
      * intros x Hx. specialize (i_wout0 _ Hx). subst s'. sp. fu x t; congruence.
      * intros x Hx. destruct (i_rout0 _ Hx). subst s'. sp. fu x t; [congruence|auto].
    + (* RelShu *)
      rewrite app_nil_r.
      assert (ELk : readers_lock s = Some t) by (apply (i_lock _ _ I); rewrite Ep; reflexivity).
      assert (UL : forall x, locks (rpc s x) = true -> x = t).
      { intros x Hx. apply (i_lock _ _ I) in Hx. congruence. }
      assert (HWt : writing tr t = false).
      { destruct (writing tr t) eqn:E; [|reflexivity]. apply (i_wout _ _ I) in E. congruence. }
      assert (HRt : reading tr t = false).
      { destruct (reading tr t) eqn:E; [|reflexivity]. apply (i_rout _ _ I) in E. destruct E. congruence. }
      set (s' := mk_rw _ _ _ _ _).
      assert (C : forall x, counted s' tr x = counted s tr x).
      { intros x. unfold counted, s'. sp. fu x t; [rewrite Ep|]; auto. }
      assert (W : forall x, wtok s' tr x = wtok s tr x).
      { intros x. unfold wtok, s'. sp. fu x t; [rewrite Ep|]; auto. }
      assert (R : forall x, rtok s' tr x = rtok s tr x).
      { intros x. unfold rtok, s'. sp. fu x t; [rewrite Ep|]; auto. }
      destruct I. constructor; unfold s' at 1; sp.
      * intros x. subst s'. sp. split; [discriminate|]. fu x t; [discriminate|]. intros Hx. apply UL in Hx. lia.
      * eapply (cnt_same s tr); eauto.
      * destruct i_sem0 as [?|(?&?&?)]; [left|right]; auto. split; [assumption|]. split; intros x; rewrite ?W, ?R; auto.
      * intros Hs0. destruct (i_hold0 Hs0) as [y Hy]. exists y. rewrite W, R. exact Hy.
      * intros x y. rewrite !W. auto.
      * intros x y. rewrite W, R. eauto.
      * intros x. fu x t; [discriminate|]. intros H. assert (x = t) by (apply UL; rewrite H; reflexivity). lia.
      * intros x. fu x t; [discriminate|]. intros H. assert (x = t) by (apply UL; rewrite H; reflexivity). lia.
      * intros x. subst s'. sp. rewrite i_own0. fu x t; [|reflexivity]. rewrite HWt. intuition congruence.
      * intros x. subst s'. sp. fu x t; auto.
      * intros x. subst s'. sp. fu x t; auto.
    + (* WSem *)
      destruct (1 <=? sem s) eqn:Es; [|exact Logic.I]. rewrite app_nil_r.
      destruct (i_sem _ _ I) as [Hs|(Hs & H1 & H2)]; [lia|].
      assert (HWt : writing tr t = false).
      { destruct (writing tr t) eqn:E; [|reflexivity]. apply (i_wout _ _ I) in E. congruence. }
      set (s' := mk_rw _ _ _ _ _).
      assert (C : forall x, counted s' tr x = counted s tr x).
      { intros x. unfold counted, s'. sp. fu x t; [rewrite Ep|]; auto. }
      assert (W : forall x, wtok s' tr x = true -> x = t).
      { intros x. specialize (H1 x). unfold wtok, s' in *. sp. fu x t; [reflexivity|]. congruence. }
      assert (R : forall x, rtok s' tr x = false).
      { intros x. specialize (H2 x). unfold rtok, s' in *. sp. fu x t; [reflexivity|]. congruence. }
      destruct I. constructor; unfold s' at 1; sp.
      * intros x. subst s'. sp. rewrite i_lock0. fu x t; [rewrite Ep|]; reflexivity.
      * eapply (cnt_same s tr); eauto.
      * left. lia.
      * intros _. exists t. left. unfold wtok, s'. sp. rewrite fupd_same. reflexivity.
      * intros x y Hx Hy. rewrite (W x Hx), (W y Hy). reflexivity.
      * intros x y _. apply R.
      * intros x. fu x t; [discriminate|]. intros H. destruct (i_first0 _ H). split; [assumption|]. intros u. apply R.
      * intros x. fu x t; [discriminate|]. apply i_last0.
      * intros x. subst s'. sp. rewrite i_own0. fu x t; [|reflexivity]. rewrite HWt. intuition congruence.
      * intros x Hx. specialize (i_wout0 _ Hx). subst s'. sp. fu x t; congruence.
      * intros x Hx. destruct (i_rout0 _ Hx). subst s'. sp. fu x t; [congruence|auto].
    + (* WSet *)
      assert (TK : wtok s tr t = true) by (unfold wtok; rewrite Ep; reflexivity).
      assert (EO : ex_owner s = None).
      { destruct (ex_owner s) as [o|] eqn:E; [|reflexivity]. exfalso. apply (i_own _ _ I) in E. destruct E as [E1 E2].
        assert (wtok s tr o = true) by (unfold wtok; rewrite E1; exact E2).
        assert (o = t) by (eapply i_uniq; eassumption). subst o. congruence. }
      rewrite EO.
      assert (Rd : forall x, reading (tr ++ [EWrite t]) x = reading tr x).
      { intros x. rewrite reading_app. reflexivity. }
      assert (Wr : forall x, writing (tr ++ [EWrite t]) x = if x =? t then true else writing tr x).
      { intros x. rewrite writing_app. cbn. rewrite (Z.eqb_sym t x). reflexivity. }
      assert (HRt : reading tr t = false).
      { destruct (reading tr t) eqn:E; [|reflexivity]. apply (i_rout _ _ I) in E. destruct E. congruence. }
      set (s' := mk_rw _ _ _ _ _).
      assert (C : forall x, counted s' (tr ++ [EWrite t]) x = counted s tr x).
      { intros x. unfold counted, s'. sp. rewrite Rd. fu x t; [rewrite Ep|]; auto. }
      assert (W : forall x, wtok s' (tr ++ [EWrite t]) x = wtok s tr x).
      { intros x. unfold wtok, s'. sp. rewrite Wr. fu x t; [rewrite Ep|]; auto. }
      assert (R : forall x, rtok s' (tr ++ [EWrite t]) x = rtok s tr x).
      { intros x. unfold rtok, s'. sp. rewrite Rd. fu x t; [rewrite Ep|]; auto. }
      pose proof (i_own _ _ I) as OW.
      destruct I. constructor; unfold s' at 1; sp.
      * intros x. subst s'. sp. rewrite i_lock0. fu x t; [rewrite Ep|]; reflexivity.
      * eapply (cnt_same s tr); eauto.
      * destruct i_sem0 as [?|(?&?&?)]; [left|right]; auto. split; [assumption|]. split; intros x; rewrite ?W, ?R; auto.
      * intros Hs0. destruct (i_hold0 Hs0) as [y Hy]. exists y. rewrite W, R. exact Hy.
      * intros x y. rewrite !W. auto.
      * intros x y. rewrite W, R. eauto.
      * intros x. fu x t; [discriminate|]. intros H. destruct (i_first0 _ H). split; [assumption|]. intros u. rewrite R. auto.
      * intros x. fu x t; [discriminate|]. eauto.
      * intros x. subst s'. sp. rewrite Wr. fu x t; [intuition|].
        split; [intros [= ->]; lia|]. intros H. apply OW in H. congruence.
      * intros x. rewrite Wr. subst s'. sp. fu x t; auto.
      * intros x. rewrite Wr, Rd. subst s'. sp. fu x t; auto. congruence.
    + (* WPost *)
      rewrite app_nil_r.
      assert (TK : wtok s tr t = true) by (unfold wtok; rewrite Ep; reflexivity).
      assert (Hs : sem s = 0).
      { destruct (i_sem _ _ I) as [Hs|(Hs & H1 & H2)]; [exact Hs|]. rewrite H1 in TK. discriminate. }
      assert (HWt : writing tr t = false).
      { destruct (writing tr t) eqn:E; [|reflexivity]. apply (i_wout _ _ I) in E. congruence. }
      assert (HRt : reading tr t = false).
      { destruct (reading tr t) eqn:E; [|reflexivity]. apply (i_rout _ _ I) in E. destruct E. congruence. }
      assert (NR : forall x, rtok s tr x = false) by (intros x; eapply i_excl; eassumption).
      assert (NW : forall x, x <> t -> wtok s tr x = false).
      { intros x Hx. destruct (wtok s tr x) eqn:E; [|reflexivity]. destruct Hx. eapply i_uniq; eassumption. }
      set (s' := mk_rw _ _ _ _ _).
      assert (C : forall x, counted s' tr x = counted s tr x).
      { intros x. unfold counted, s'. sp. fu x t; [rewrite Ep|]; auto. }
      assert (W : forall x, wtok s' tr x = false).
      { intros x. destruct (Z.eq_dec x t) as [->|Hx]; [unfold wtok, s'; sp; rewrite fupd_same; exact HWt|].
        specialize (NW x Hx). unfold wtok, s' in *. sp. rewrite fupd_other by assumption. exact NW. }
      assert (R : forall x, rtok s' tr x = false).
      { intros x. specialize (NR x). unfold rtok, s' in *. sp. fu x t; [exact HRt|exact NR]. }
      destruct I. constructor; unfold s' at 1; sp.
      * intros x. subst s'. sp. rewrite i_lock0. fu x t; [rewrite Ep|]; reflexivity.
      * eapply (cnt_same s tr); eauto.
      * right. change (sem s') with (post s). unfold post. rewrite Hs. cbn. auto.
      * change (sem s') with (post s). unfold post. rewrite Hs. cbn. discriminate.
      * intros x y. rewrite W. discriminate.
      * intros x y. rewrite W. discriminate.
      * intros x. fu x t; [discriminate|]. intros H. destruct (i_first0 _ H). split; [assumption|]. intros u. apply R.
      * intros x. fu x t; [discriminate|]. apply i_last0.
      * intros x. subst s'. sp. rewrite i_own0. fu x t; [|reflexivity]. rewrite HWt. intuition congruence.
      * intros x. subst s'. sp. fu x t; auto.
      * intros x. subst s'. sp. fu x t; auto.
Qed.

Lemma reach_inv s tr : reach s tr -> inv s tr.
Proof.
  intros H. induction H as [|s tr a s' evs H IH HA HS]; [apply inv_init|].
  pose proof (inv_step s tr a IH HA) as K. rewrite HS in K. exact K.
Qed.

Lemma exclusion s tr t u : reach s tr -> writing tr t = true ->
  reading tr u = false /\ (writing tr u = true -> u = t).
Proof.
  intros H Hw. pose proof (reach_inv _ _ H) as I.
  assert (T : wtok s tr t = true) by (unfold wtok; rewrite (i_wout _ _ I t Hw); exact Hw).
  split.
  - pose proof (i_excl _ _ I t u T) as E. destruct (reading tr u) eqn:R; [|reflexivity].
    destruct (i_rout _ _ I u R) as [P _]. unfold rtok in E. rewrite P in E. congruence.
  - intros Hu. apply (i_uniq _ _ I); [|exact T]. unfold wtok. rewrite (i_wout _ _ I u Hu). exact Hu.
Qed.

Lemma no_assert_fail s tr a : reach s tr -> allowed s tr a -> step s a <> AssertFail.
Proof. intros H HA E. pose proof (inv_step s tr a (reach_inv _ _ H) HA) as K. rewrite E in K. exact K. Qed.

(** While somebody reads, the owner of readers_lock is never blocked *)
Lemma readers_dont_wait s tr r o : reach s tr -> reading tr r = true -> readers_lock s = Some o ->
  exists s' evs, step s (Go o) = Ok s' evs.
Proof.
  intros H HR HL. pose proof (reach_inv _ _ H) as I. apply (i_lock _ _ I) in HL.
  cbn [step]. destruct (rpc s o) eqn:E; try discriminate; eauto.
  exfalso. destruct (i_first _ _ I o E) as [_ K]. specialize (K r). unfold rtok in K.
  destruct (i_rout _ _ I r HR) as [P _]. rewrite P in K. congruence.
Qed.

(** When no task reads or writes, the lock's code cannot be stuck: if some task
    is inside it, some task can go on *)
Lemma no_deadlock s tr t : reach s tr -> (forall u, reading tr u = false /\ writing tr u = false) ->
  rpc s t <> Out -> exists u s' evs, step s (Go u) = Ok s' evs.
Proof.
  intros H HN HO. pose proof (reach_inv _ _ H) as I.
  assert (AF : forall u, step s (Go u) <> AssertFail).
  { intros u E. cbn [step] in E. destruct (rpc s u) eqn:Eu; try discriminate.
    - destruct (readers_lock s); discriminate.
    - destruct (1 <=? sem s); discriminate.
    - destruct (1 <=? sem s); discriminate.
    - destruct (ex_owner s) as [o|] eqn:EO; [|discriminate].
      apply (i_own _ _ I) in EO. destruct EO as [_ EO]. rewrite (proj2 (HN o)) in EO. discriminate. }
  assert (K : exists u, step s (Go u) <> Disabled).
  { destruct (readers_lock s) as [o|] eqn:EL.
    - assert (HL : locks (rpc s o) = true) by (apply (i_lock _ _ I); exact EL).
      destruct (rpc s o) eqn:Eo; try discriminate; try (exists o; cbn [step]; rewrite Eo; discriminate).
      destruct (i_sem _ _ I) as [Hs|(Hs & _ & _)].
      + destruct (i_hold _ _ I Hs) as [y [Hy|Hy]].
        * exists y. unfold wtok in Hy. cbn [step]. destruct (rpc s y) eqn:Ey; try discriminate.
          -- rewrite (proj2 (HN y)) in Hy. discriminate.
          -- destruct (ex_owner s); discriminate.
        * destruct (i_first _ _ I o Eo) as [_ K]. rewrite K in Hy. discriminate.
      + exists o. cbn [step]. rewrite Eo, Hs. discriminate.
    - destruct (rpc s t) eqn:Et; try contradiction; try (exists t; cbn [step]; rewrite Et, ?EL; discriminate).
      + destruct (i_sem _ _ I) as [Hs|(Hs & _ & _)]; [|exists t; cbn [step]; rewrite Et, Hs; discriminate].
        assert (readers_lock s = Some t) by (apply (i_lock _ _ I); rewrite Et; reflexivity). congruence.
      + destruct (i_sem _ _ I) as [Hs|(Hs & _ & _)]; [|exists t; cbn [step]; rewrite Et, Hs; discriminate].
        destruct (i_hold _ _ I Hs) as [y [Hy|Hy]].
        * exists y. unfold wtok in Hy. cbn [step]. destruct (rpc s y) eqn:Ey; try discriminate.
          -- rewrite (proj2 (HN y)) in Hy. discriminate.
          -- destruct (ex_owner s); discriminate.
        * exists y. unfold rtok in Hy. cbn [step]. destruct (rpc s y) eqn:Ey; try discriminate.
          -- rewrite (proj1 (HN y)) in Hy. discriminate.
          -- rewrite EL. discriminate.
      + exists t. cbn [step]. rewrite Et. destruct (ex_owner s); discriminate. }
  destruct K as [u Hu]. exists u. specialize (AF u). destruct (step s (Go u)); try contradiction. eauto.
Qed.
