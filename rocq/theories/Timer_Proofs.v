From Verif Require Import Lib Avl_Model Avl_Spec Avl_Proofs TreeSet Timer_Model Timer_Spec.
From Coq Require Import Permutation.

Lemma remove_eq w r t : tree_remove w r t = match remove (fkey w) lex r (fkey w t) with Some (r', _) => Some r' | None => None end.
Proof. reflexivity. Qed.
Lemma insert_eq w r t : tree_insert w r t = match insert (fkey w) lex r t with Some (r', _) => Some r' | None => None end.
Proof. reflexivity. Qed.

Section P.
  Variables (pool : list Z) (deferred : Z -> bool).
  Hypothesis F : fits pool.

  Record inv (s : st) (tr : list event) : Prop := {
    i_now : now s = clock tr;
    i_rng : 0 <= now s < 2 ^ 64;
    i_tick : ticking s = in_tick tr;
    i_tree : tset (wake s) (root s);
    i_first : early s = get_first (root s);
    i_pool : forall t, In t (inorder (root s)) -> In t pool;
    i_in : forall t, In t (inorder (root s)) <-> 0 < wake s t;
    i_armed : forall t d, state_of tr t = Armed d <-> 0 < wake s t /\ wake s t = d;
    i_nonneg : forall t, 0 <= wake s t;
    i_queued : forall t, state_of tr t = Queued <-> In t (dl s);
    i_dl : dl s = expired tr;
    i_dldef : forall t, In t (dl s) -> deferred t = true;
    i_nodup : NoDup (dl s);
    i_late : forall t d, state_of tr t = Armed d -> (if in_tick tr then now s <= d else now s < d)
  }.

  Lemma size_ok v r : tset v r -> (forall t, In t (inorder r) -> In t pool) -> zlen (inorder r) <= 5702885.
  Proof.
    intros W I. destruct F as [N L]. apply tset_nodup in W. pose proof (NoDup_incl_length W I). unfold zlen in *. lia.
  Qed.

  Lemma in_dl_iff s t : in_dl s t = true <-> In t (dl s).
  Proof.
    unfold in_dl. rewrite existsb_exists. split.
    - intros (x & H & E). apply Z.eqb_eq in E. subst. exact H.
    - intros H. exists t. split; [exact H|apply Z.eqb_refl].
  Qed.

  Lemma take s tr t : inv s tr -> 0 < wake s t ->
    exists r, tree_remove (wake s) (root s) t = Some r /\ tset (wake s) r /\
      (forall y, In y (inorder (root s)) <-> y = t \/ In y (inorder r)) /\ ~ In t (inorder r).
  Proof.
    intros I W. pose proof (size_ok _ _ (i_tree s tr I) (i_pool s tr I)) as L.
    destruct (tset_remove (wake s) (root s) t (i_tree s tr I) ltac:(apply (i_in s tr I); exact W) L) as (r & E & T & P).
    exists r. rewrite remove_eq, E. split; [reflexivity|]. split; [exact T|]. split; [apply perm_in_iff, P|].
    pose proof (Permutation_NoDup P (tset_nodup _ _ (i_tree s tr I))) as N. apply NoDup_cons_iff in N. apply N.
  Qed.

  Lemma put s tr r t n e (cl : forall tr', state_of (e :: tr') t = Armed (clock tr' + n)) :
    (forall tr' x, x <> t -> state_of (e :: tr') x = state_of tr' x) ->
    (clock (e :: tr) = clock tr) -> in_tick (e :: tr) = in_tick tr -> expired (e :: tr) = expired tr ->
    inv s tr -> In t pool -> 0 < n -> clock tr + n < 2 ^ 64 -> state_of tr t <> Queued ->
    tset (wake s) r -> (forall y, In y (inorder r) -> In y (inorder (root s))) ->
    (forall y, y <> t -> In y (inorder (root s)) -> In y (inorder r)) -> ~ In t (inorder r) ->
    exists s', rearm s r t n e = Ok s' e /\ inv s' (e :: tr).
  Proof.
    intros Co Ck Ct Ce I Hp Hn Hb Nq T S1 S2 N. pose proof (i_now s tr I) as Hnow. pose proof (i_rng s tr I).
    unfold rearm. set (w := fupd (wake s) t (u64 (now s + n))).
    assert (Wt : w t = now s + n) by (unfold w; rewrite fupd_same; apply u64_small; lia).
    assert (Wo : forall x, x <> t -> w x = wake s x) by (intros x Hx; unfold w; apply fupd_other; auto).
    assert (T' : tset w r).
    { apply (tset_ext (wake s)); [|exact T]. intros x Hx. symmetry. apply Wo. intros ->. contradiction. }
    assert (L : zlen (inorder r) <= 5702885) by (apply (size_ok w r T'); intros y Hy; apply (i_pool s tr I), S1, Hy).
    destruct (tset_insert w r t T' N L) as (r' & E & T2 & P). rewrite insert_eq, E. eexists. split; [reflexivity|].
    pose proof (perm_in_iff _ _ _ P) as PI.
    constructor; cbn [now root early wake dl ticking]; rewrite ?Ck, ?Ct, ?Ce.
    - exact Hnow.
    - assumption.
    - apply (i_tick s tr I).
    - exact T2.
    - reflexivity.
    - intros x Hx. apply PI in Hx. destruct Hx as [->|Hx]; [exact Hp|]. apply (i_pool s tr I), S1, Hx.
    - intros x. rewrite PI. destruct (Z.eq_dec x t) as [->|Nx]; [rewrite Wt; split; [intros _; lia|auto]|]. rewrite Wo by assumption.
      rewrite <- (i_in s tr I x). split; [intros [?|Hx]; [contradiction|apply S1, Hx]|intros Hx; right; apply S2; assumption].
    - intros x d. destruct (Z.eq_dec x t) as [->|Nx].
      + rewrite cl, Wt, <- Hnow. split; [intros Q; inversion Q; lia|intros [_ <-]; reflexivity].
      + rewrite Co, Wo by assumption. apply (i_armed s tr I).
    - intros x. destruct (Z.eq_dec x t) as [->|Nx]; [rewrite Wt; lia|rewrite Wo by assumption; apply (i_nonneg s tr I)].
    - intros x. destruct (Z.eq_dec x t) as [->|Nx].
      + rewrite cl. split; [discriminate|]. intros Q. apply (i_queued s tr I) in Q. contradiction.
      + rewrite Co by assumption. apply (i_queued s tr I).
    - apply (i_dl s tr I).
    - apply (i_dldef s tr I).
    - apply (i_nodup s tr I).
    - intros x d. destruct (Z.eq_dec x t) as [->|Nx].
      + rewrite cl. intros Q. inversion Q. destruct (in_tick tr); lia.
      + rewrite Co by assumption. apply (i_late s tr I).
  Qed.

  Lemma filter_neq_in (t : Z) l x : In x (filter (fun y => negb (y =? t)) l) <-> In x l /\ x <> t.
  Proof. rewrite filter_In, negb_true_iff, Z.eqb_neq. tauto. Qed.
  Lemma nodup_filter_neq (t : Z) l : NoDup l -> NoDup (filter (fun y => negb (y =? t)) l).
  Proof. apply NoDup_filter. Qed.
  Lemma filter_neq_out (t : Z) l : ~ In t l -> filter (fun y => negb (y =? t)) l = l.
  Proof.
    induction l as [|x l IH]; intros H; [reflexivity|]. cbn. destruct (x =? t) eqn:E; [apply Z.eqb_eq in E; subst; exfalso; apply H; left; reflexivity|].
    cbn. rewrite IH; [reflexivity|]. intros X. apply H. right. exact X.
  Qed.

  Lemma armed_not_queued s tr t : inv s tr -> 0 < wake s t -> ~ In t (dl s).
  Proof.
    intros I W Q. apply (i_queued s tr I) in Q. assert (A : state_of tr t = Armed (wake s t)) by (apply (i_armed s tr I); auto). congruence.
  Qed.

  (** Removal of an armed timer, in all its forms *)
  Lemma gone s tr t r e st' tk dl' : inv s tr -> 0 < wake s t ->
    tset (wake s) r -> (forall y, In y (inorder (root s)) <-> y = t \/ In y (inorder r)) -> ~ In t (inorder r) ->
    (forall tr', state_of (e :: tr') t = st') -> (st' = Idle /\ dl' = dl s \/ st' = Queued /\ dl' = dl s ++ [t] /\ deferred t = true) ->
    (forall tr' x, x <> t -> state_of (e :: tr') x = state_of tr' x) ->
    clock (e :: tr) = clock tr -> in_tick (e :: tr) = in_tick tr -> tk = in_tick tr -> expired (e :: tr) = dl' ->
    inv (mk (now s) r (get_first r) (fupd (wake s) t 0) dl' tk) (e :: tr).
  Proof.
    intros I W T PI N St D So Ck Ct -> Ce. assert (Wo : forall x, x <> t -> fupd (wake s) t 0 x = wake s x) by (intros; apply fupd_other; auto).
    assert (NQ := armed_not_queued s tr t I W). assert (SA : forall d, st' <> Armed d) by (destruct D as [[-> _]|(-> & _)]; discriminate).
    constructor; cbn [now root early wake dl ticking]; rewrite ?Ck, ?Ct, ?Ce.
    - apply (i_now s tr I).
    - apply (i_rng s tr I).
    - reflexivity.
    - apply (tset_ext (wake s)); [|exact T]. intros x Hx. symmetry. apply Wo. intros ->. contradiction.
    - reflexivity.
    - intros x Hx. apply (i_pool s tr I), PI. auto.
    - intros x. destruct (Z.eq_dec x t) as [->|Nx]; [rewrite fupd_same; split; [intros; contradiction|lia]|]. rewrite Wo by assumption.
      rewrite <- (i_in s tr I x), PI. tauto.
    - intros x d. destruct (Z.eq_dec x t) as [->|Nx]; [rewrite St, fupd_same; split; [intros Q; exfalso; apply (SA d Q)|lia]|].
      rewrite So, Wo by assumption. apply (i_armed s tr I).
    - intros x. destruct (Z.eq_dec x t) as [->|Nx]; [rewrite fupd_same; lia|]. rewrite Wo by assumption. apply (i_nonneg s tr I).
    - intros x. destruct (Z.eq_dec x t) as [->|Nx].
      + rewrite St. destruct D as [[-> ->]|(-> & -> & _)]; [split; [discriminate|contradiction]|]. split; [intros _; apply in_app_iff; right; left; reflexivity|reflexivity].
      + rewrite So by assumption. rewrite (i_queued s tr I x). destruct D as [[_ ->]|(_ & -> & _)]; [reflexivity|].
        rewrite in_app_iff. cbn. split; [auto|]. intros [?|[?|[]]]; [assumption|congruence].
    - reflexivity.
    - destruct D as [[_ ->]|(_ & -> & Df)]; [apply (i_dldef s tr I)|]. intros x Hx. apply in_app_iff in Hx. destruct Hx as [Hx|[<-|[]]]; [apply (i_dldef s tr I), Hx|exact Df].
    - destruct D as [[_ ->]|(_ & -> & Df)]; [apply (i_nodup s tr I)|].
      apply (Permutation_NoDup (l := t :: dl s)); [apply Permutation_cons_append|]. constructor; [exact NQ|apply (i_nodup s tr I)].
    - intros x d. destruct (Z.eq_dec x t) as [->|Nx]; [rewrite St; intros Q; exfalso; apply (SA d Q)|]. rewrite So by assumption. apply (i_late s tr I).
  Qed.

  (** A queued timer leaves the list *)
  Lemma unqueue s tr t e : inv s tr -> In t (dl s) ->
    (forall tr', state_of (e :: tr') t = Idle) -> (forall tr' x, x <> t -> state_of (e :: tr') x = state_of tr' x) ->
    clock (e :: tr) = clock tr -> in_tick (e :: tr) = in_tick tr -> expired (e :: tr) = filter (fun x => negb (x =? t)) (expired tr) ->
    inv (mk (now s) (root s) (early s) (wake s) (filter (fun x => negb (x =? t)) (dl s)) (ticking s)) (e :: tr).
  Proof.
    intros I Q St So Ck Ct Ce. assert (W0 : wake s t = 0).
    { pose proof (i_nonneg s tr I t). destruct (Z.eq_dec (wake s t) 0); [assumption|]. exfalso. eapply armed_not_queued; [exact I| |exact Q]. lia. }
    constructor; cbn [now root early wake dl ticking]; rewrite ?Ck, ?Ct, ?Ce; try apply I.
    - intros x d. destruct (Z.eq_dec x t) as [->|Nx]; [rewrite St; split; [discriminate|lia]|]. rewrite So by assumption. apply (i_armed s tr I).
    - intros x. rewrite filter_neq_in. destruct (Z.eq_dec x t) as [->|Nx]; [rewrite St; split; [discriminate|tauto]|]. rewrite So by assumption.
      rewrite (i_queued s tr I x). tauto.
    - rewrite (i_dl s tr I). reflexivity.
    - intros x Hx. apply filter_neq_in in Hx. apply (i_dldef s tr I), Hx.
    - apply nodup_filter_neq, (i_nodup s tr I).
    - intros x d. destruct (Z.eq_dec x t) as [->|Nx]; [rewrite St; discriminate|]. rewrite So by assumption. apply (i_late s tr I).
  Qed.

  (** Events that change nothing *)
  Lemma quiet s tr e : inv s tr -> (forall t, state_of (e :: tr) t = state_of tr t) -> clock (e :: tr) = clock tr ->
    in_tick (e :: tr) = in_tick tr -> expired (e :: tr) = expired tr -> inv s (e :: tr).
  Proof.
    intros I So Ck Ct Ce. constructor; rewrite ?Ck, ?Ct, ?Ce; try apply I; intros t; rewrite ?So; [apply (i_armed s tr I)|apply (i_queued s tr I)|].
    intros d. apply (i_late s tr I).
  Qed.

  Ltac ev := intros; cbn [state_of clock in_tick expired]; rewrite ?Z.eqb_refl;
    repeat match goal with |- context [?a =? ?b] => replace (a =? b) with false by (symmetry; apply Z.eqb_neq; congruence) end; reflexivity.

  Lemma first_armed s tr t : inv s tr -> early s = Some t -> 0 < wake s t /\ forall y, 0 < wake s y -> wake s t < wake s y \/ wake s t = wake s y /\ t <= y.
  Proof.
    intros I E. pose proof (tset_first _ _ (i_tree s tr I)) as Q. rewrite <- (i_first s tr I), E in Q. destruct Q as [Q1 Q2].
    split; [apply (i_in s tr I), Q1|]. intros y Hy. apply Q2, (i_in s tr I), Hy.
  Qed.
  Lemma first_none s tr : inv s tr -> early s = None -> forall y, wake s y <= 0.
  Proof.
    intros I E y. pose proof (tset_first _ _ (i_tree s tr I)) as Q. rewrite <- (i_first s tr I), E in Q.
    pose proof (i_in s tr I y) as J. rewrite Q in J. destruct (Z_le_gt_dec (wake s y) 0); [assumption|]. exfalso. apply J. lia.
  Qed.

  Lemma step_inv s tr a : inv s tr -> allowed pool deferred tr a -> exists s' e, step deferred s a = Ok s' e /\ inv s' (e :: tr).
  Proof.
    intros I Al. destruct a; cbn [step allowed] in *.
    - destruct Al as (Hp & Hn & Hb & Nq). unfold ktimer_arm. replace (ticks <=? 0) with false by lia. destruct (wake s t >? 0) eqn:W.
      + destruct (take s tr t I ltac:(lia)) as (r & E & T & PI & N). rewrite E.
        destruct (put s tr r t ticks (EArm t ticks)) as (s' & E' & I'); try assumption; try ev; [intros y Hy; apply PI; auto| |eauto].
        intros y Ny Hy. apply PI in Hy. destruct Hy; [contradiction|assumption].
      + destruct (put s tr (root s) t ticks (EArm t ticks)) as (s' & E' & I'); try assumption; try ev; [apply (i_tree s tr I)|auto|auto| |eauto].
        intros X. apply (i_in s tr I) in X. lia.
    - destruct Al as (Hp & Hn & Hb). unfold ktimer_arm_if_armed. replace (ticks <=? 0) with false by lia. destruct (wake s t >? 0) eqn:W.
      + assert (Wt : 0 < wake s t) by lia.
        assert (Nq : state_of tr t <> Queued) by (intros Q; apply (i_queued s tr I) in Q; eapply armed_not_queued; eauto).
        destruct (take s tr t I Wt) as (r & E & T & PI & N). rewrite E.
        destruct (put s tr r t ticks (EArmIf t ticks true)) as (s' & E' & I'); try assumption; try ev; [intros y Hy; apply PI; auto| |eauto].
        intros y Ny Hy. apply PI in Hy. destruct Hy; [contradiction|assumption].
      + do 2 eexists. split; [reflexivity|]. apply quiet; [exact I|ev..].
    - unfold ktimer_cancel. destruct (wake s t >? 0) eqn:W.
      + assert (Wt : 0 < wake s t) by lia. destruct (take s tr t I Wt) as (r & E & T & PI & N). rewrite E. do 2 eexists. split; [reflexivity|].
        assert (Er : match early s with Some x => if x =? t then get_first r else early s | None => None end = get_first r).
        { destruct (early s) as [x|] eqn:Ex; [|exfalso; pose proof (first_none s tr I Ex t); lia].
          destruct (x =? t) eqn:Q; [reflexivity|]. apply Z.eqb_neq in Q. destruct (first_armed s tr x I Ex) as [X1 X2].
          assert (Ix : In x (inorder r)). { assert (J : In x (inorder (root s))) by (apply (i_in s tr I); exact X1). apply PI in J. destruct J; [contradiction|assumption]. }
          pose proof (tset_first _ _ T) as Fi. destruct (get_first r) as [m|]; [|rewrite Fi in Ix; destruct Ix].
          destruct Fi as [F1 F2]. specialize (F2 x Ix). specialize (X2 m ltac:(apply (i_in s tr I), PI; auto)). f_equal. lia. }
        rewrite Er. apply (gone s tr t r (ECancel t true) Idle); try assumption; try ev; [left; auto|apply (i_tick s tr I)|].
        cbn. rewrite <- (i_dl s tr I). apply filter_neq_out. apply (armed_not_queued s tr t I Wt).
      + destruct (deferred t && in_dl s t) eqn:D.
        * apply andb_true_iff in D. destruct D as [_ D]. apply in_dl_iff in D. do 2 eexists. split; [reflexivity|].
          apply unqueue; [exact I|exact D|ev..].
        * do 2 eexists. split; [reflexivity|]. apply quiet; [exact I|ev..].
    - do 2 eexists. split; [reflexivity|]. apply quiet; [exact I|ev..].
    - destruct Al as [Al Hb]. pose proof (i_now s tr I). pose proof (i_rng s tr I). do 2 eexists. split; [reflexivity|].
      assert (Un : u64 (now s + 1) = now s + 1) by (apply u64_small; lia).
      constructor; cbn [now root early wake dl ticking clock in_tick expired state_of]; rewrite ?Un; try apply I; try lia; try reflexivity.
      intros t d Q. pose proof (i_late s tr I t d Q) as J. rewrite Al in J. lia.
    - unfold tick_loop. destruct (early s) as [t|] eqn:Ee.
      + destruct (first_armed s tr t I Ee) as [W Mn]. destruct (wake s t >? now s) eqn:L.
        * do 2 eexists. split; [reflexivity|]. constructor; cbn [now root early wake dl ticking clock in_tick expired state_of]; try apply I; try reflexivity; [rewrite <- Ee; apply I|].
          intros x d Q. apply (i_armed s tr I) in Q. destruct Q as [Q1 Q2]. specialize (Mn x Q1). lia.
        * destruct (take s tr t I W) as (r & E & T & PI & N). rewrite E. pose proof (armed_not_queued s tr t I W) as NQ.
          destruct (deferred t) eqn:Df.
          -- replace (in_dl s t) with false by (symmetry; apply not_true_iff_false; rewrite in_dl_iff; exact NQ).
             do 2 eexists. split; [reflexivity|]. apply (gone s tr t r (EDefer t) Queued); try assumption; try ev; [right; auto|auto|].
             cbn. rewrite (i_dl s tr I). reflexivity.
          -- do 2 eexists. split; [reflexivity|]. apply (gone s tr t r (EFire t) Idle); try assumption; try ev; [left; auto|auto|].
             cbn. rewrite <- (i_dl s tr I). apply filter_neq_out, NQ.
      + do 2 eexists. split; [reflexivity|]. constructor; cbn [now root early wake dl ticking clock in_tick expired state_of]; try apply I; try reflexivity; [rewrite <- Ee; apply I|].
        intros x d Q. apply (i_armed s tr I) in Q. pose proof (first_none s tr I Ee x). lia.
    - unfold run_pending. destruct (dl s) as [|t l] eqn:D.
      + do 2 eexists. split; [reflexivity|]. apply quiet; [exact I|ev..].
      + do 2 eexists. split; [reflexivity|]. assert (Fl : filter (fun x => negb (x =? t)) (dl s) = l).
        { pose proof (i_nodup s tr I) as ND. rewrite D in *. apply NoDup_cons_iff in ND. cbn. rewrite Z.eqb_refl. cbn. apply filter_neq_out, ND. }
        rewrite <- Fl. apply (unqueue s tr t (EFire t)); [exact I|rewrite D; left; reflexivity|ev..].
  Qed.

  Lemma inv_init : inv st_init [].
  Proof.
    constructor; cbn; intros; try reflexivity; try lia; try tauto.
    - apply tset_empty.
    - split; [discriminate|lia].
    - split; [discriminate|intros []].
    - constructor.
    - discriminate.
  Qed.
  Lemma reach_inv s tr : reach pool deferred s tr -> inv s tr.
  Proof.
    induction 1 as [|s tr a s' e R IH Al E]; [exact inv_init|]. destruct (step_inv s tr a IH Al) as (s2 & e2 & E2 & I2). congruence.
  Qed.

  (** ** Consequences *)
  Lemma no_fail s tr a : reach pool deferred s tr -> allowed pool deferred tr a -> step deferred s a <> Fail.
  Proof. intros R Al. destruct (step_inv s tr a (reach_inv s tr R) Al) as (s' & e & E & _). congruence. Qed.

  Lemma earliest s tr : reach pool deferred s tr ->
    match early s with
    | None => forall t d, state_of tr t <> Armed d
    | Some t => exists d, state_of tr t = Armed d /\ wake s t = d /\ forall t' d', state_of tr t' = Armed d' -> d <= d'
    end.
  Proof.
    intros R. pose proof (reach_inv s tr R) as I. destruct (early s) as [t|] eqn:E.
    - destruct (first_armed s tr t I E) as [W M]. exists (wake s t). split; [apply (i_armed s tr I); auto|]. split; [reflexivity|].
      intros t' d' Q. apply (i_armed s tr I) in Q. destruct Q as [Q1 <-]. specialize (M t' Q1). lia.
    - intros t d Q. apply (i_armed s tr I) in Q. pose proof (first_none s tr I E t). lia.
  Qed.

  (** What each iteration of the tick loop does *)
  Lemma tick_result s tr s' e : reach pool deferred s tr -> in_tick tr = true -> step deferred s TickLoop = Ok s' e ->
    match e with
    | ETickEnd => forall t d, state_of tr t = Armed d -> clock tr < d
    | EFire t => deferred t = false /\ state_of tr t = Armed (clock tr) /\ forall t', state_of tr t' = Armed (clock tr) -> t <= t'
    | EDefer t => deferred t = true /\ state_of tr t = Armed (clock tr) /\ forall t', state_of tr t' = Armed (clock tr) -> t <= t'
    | _ => False
    end.
  Proof.
    intros R Tk E. pose proof (reach_inv s tr R) as I. cbn [step] in E. unfold tick_loop in E. rewrite <- (i_now s tr I).
    destruct (early s) as [t|] eqn:Ee.
    - destruct (first_armed s tr t I Ee) as [W Mn]. destruct (wake s t >? now s) eqn:L.
      + inversion E; subst. intros x d Q. apply (i_armed s tr I) in Q. destruct Q as [Q1 <-]. specialize (Mn x Q1). lia.
      + assert (A : state_of tr t = Armed (wake s t)) by (apply (i_armed s tr I); auto).
        pose proof (i_late s tr I t _ A) as Lt. rewrite Tk in Lt. assert (Ew : wake s t = now s) by lia.
        assert (G : state_of tr t = Armed (now s) /\ forall t', state_of tr t' = Armed (now s) -> t <= t').
        { split; [congruence|]. intros t' Q. apply (i_armed s tr I) in Q. destruct Q as [Q1 Q2]. specialize (Mn t' Q1). lia. }
        destruct (tree_remove (wake s) (root s) t); [|discriminate]. destruct (deferred t) eqn:D.
        * destruct (in_dl s t); [discriminate|]. inversion E; subst. auto.
        * inversion E; subst. auto.
    - inversion E; subst. intros x d Q. apply (i_armed s tr I) in Q. pose proof (first_none s tr I Ee x). lia.
  Qed.

  Lemma never_late s tr t d : reach pool deferred s tr -> state_of tr t = Armed d -> in_tick tr = false -> clock tr < d.
  Proof.
    intros R Q T. pose proof (reach_inv s tr R) as I. pose proof (i_late s tr I t d Q) as L. rewrite T in L. rewrite <- (i_now s tr I). exact L.
  Qed.

  Lemma pending_result s tr : reach pool deferred s tr ->
    exists s' e, step deferred s RunPending = Ok s' e /\
    match expired tr with
    | [] => e = ENop /\ s' = s
    | t :: l => e = EFire t /\ state_of tr t = Queued /\ expired (e :: tr) = l
    end.
  Proof.
    intros R. pose proof (reach_inv s tr R) as I. cbn [step]. unfold run_pending. pose proof (i_dl s tr I) as D. destruct (dl s) as [|t l] eqn:E; rewrite <- D.
    - do 2 eexists. split; [reflexivity|]. auto.
    - do 2 eexists. split; [reflexivity|]. split; [reflexivity|]. split; [apply (i_queued s tr I); rewrite E; left; reflexivity|].
      cbn. rewrite <- D. cbn. rewrite Z.eqb_refl. cbn. apply filter_neq_out. pose proof (i_nodup s tr I) as ND. rewrite E in ND. apply NoDup_cons_iff in ND. apply ND.
  Qed.

  Lemma cancel_result s tr t s' e : reach pool deferred s tr -> step deferred s (Cancel t) = Ok s' e ->
    e = ECancel t (match state_of tr t with Idle => false | _ => true end).
  Proof.
    intros R E. pose proof (reach_inv s tr R) as I. cbn [step] in E. unfold ktimer_cancel in E. destruct (wake s t >? 0) eqn:W.
    - destruct (tree_remove (wake s) (root s) t); [|discriminate]. inversion E; subst. assert (A : state_of tr t = Armed (wake s t)) by (apply (i_armed s tr I); lia).
      rewrite A. reflexivity.
    - destruct (deferred t && in_dl s t) eqn:D; inversion E; subst.
      + apply andb_true_iff in D. destruct D as [_ D]. apply in_dl_iff, (i_queued s' tr I) in D || apply in_dl_iff, (i_queued s tr I) in D. rewrite D. reflexivity.
      + destruct (state_of tr t) as [|d|] eqn:S; [reflexivity| |].
        * apply (i_armed s' tr I) in S. lia.
        * apply (i_queued s' tr I) in S. pose proof (i_dldef s' tr I t S) as Df. apply in_dl_iff in S. rewrite S, Df in D. discriminate.
  Qed.

  Lemma is_armed_result s tr t : reach pool deferred s tr ->
    step deferred s (IsArmed t) = Ok s (EIsArmed t (match state_of tr t with Idle => false | _ => true end)).
  Proof.
    intros R. pose proof (reach_inv s tr R) as I. cbn [step]. unfold ktimer_is_armed. do 2 f_equal.
    destruct (wake s t >? 0) eqn:W.
    - assert (A : state_of tr t = Armed (wake s t)) by (apply (i_armed s tr I); lia). rewrite A. reflexivity.
    - cbn [orb]. destruct (state_of tr t) as [|d|] eqn:S.
      + apply not_true_iff_false. intros D. apply andb_true_iff in D. destruct D as [_ D]. apply in_dl_iff, (i_queued s tr I) in D. congruence.
      + apply (i_armed s tr I) in S. lia.
      + apply (i_queued s tr I) in S. pose proof (i_dldef s tr I t S) as Df. apply in_dl_iff in S. rewrite S, Df. reflexivity.
  Qed.

  Lemma arm_if_result s tr t n s' e : reach pool deferred s tr -> allowed pool deferred tr (ArmIfArmed t n) -> step deferred s (ArmIfArmed t n) = Ok s' e ->
    e = EArmIf t n (match state_of tr t with Armed _ => true | _ => false end).
  Proof.
    intros R (Hp & Hn & Hb) E. pose proof (reach_inv s tr R) as I. cbn [step] in E. unfold ktimer_arm_if_armed in E. replace (n <=? 0) with false in E by lia.
    destruct (wake s t >? 0) eqn:W.
    - destruct (tree_remove (wake s) (root s) t) as [r|]; [|discriminate]. unfold rearm in E. destruct (tree_insert _ r t); [|discriminate]. inversion E; subst.
      assert (A : state_of tr t = Armed (wake s t)) by (apply (i_armed s tr I); lia). rewrite A. reflexivity.
    - inversion E; subst. destruct (state_of tr t) as [|d|] eqn:S; try reflexivity. apply (i_armed s' tr I) in S. lia.
  Qed.

  (** A timer in the past of the trace: between arming and firing *)
  Lemma fired_was_armed s tr t : reach pool deferred s (EFire t :: tr) ->
    (deferred t = false /\ state_of tr t = Armed (clock tr)) \/ (deferred t = true /\ state_of tr t = Queued /\ hd_error (expired tr) = Some t).
  Proof.
    intros R. inversion R as [|s0 tr0 a s1 e1 R0 Al E]; subst. destruct a; cbn [step] in E.
    - unfold ktimer_arm, rearm in E. repeat match type of E with context [match ?x with _ => _ end] => destruct x end; discriminate.
    - unfold ktimer_arm_if_armed, rearm in E. repeat match type of E with context [match ?x with _ => _ end] => destruct x end; discriminate.
    - apply (cancel_result s0 tr t0 _ _ R0) in E. discriminate.
    - discriminate.
    - discriminate.
    - pose proof (tick_result s0 tr s (EFire t) R0 Al E) as Q. cbn in Q. left. tauto.
    - right. destruct (pending_result s0 tr R0) as (s' & e & E' & Q). cbn [step] in E'. rewrite E in E'. inversion E'; subst.
      destruct (expired tr) as [|x l] eqn:X; [destruct Q; discriminate|]. destruct Q as (Q1 & Q2 & _). inversion Q1; subst x.
      pose proof (reach_inv s0 tr R0) as I. split; [apply (i_dldef s0 tr I); apply (i_queued s0 tr I), Q2|]. auto.
  Qed.

  Lemma once s tr t : reach pool deferred s tr ->
    starts tr t = fires tr t + cancels tr t + match state_of tr t with Idle => 0 | _ => 1 end.
  Proof.
    induction 1 as [|s tr a s' e R IH Al E]; [reflexivity|]. destruct a; cbn [step] in E.
    - assert (Ee : e = EArm t0 ticks).
      { unfold ktimer_arm, rearm in E. repeat match type of E with context [match ?x with _ => _ end] => destruct x end; try discriminate; inversion E; reflexivity. }
      subst e. cbn [starts fires cancels state_of]. destruct (t0 =? t) eqn:Q; [apply Z.eqb_eq in Q; subst; destruct (state_of tr t)|]; lia.
    - apply (arm_if_result s tr t0 ticks s' e R Al) in E. subst e. cbn [starts fires cancels state_of].
      destruct (state_of tr t0) eqn:S0; try exact IH. destruct (t0 =? t) eqn:Q; [|exact IH]. apply Z.eqb_eq in Q. subst. rewrite S0 in IH. exact IH.
    - apply (cancel_result s tr t0 s' e R) in E. subst e. cbn [starts fires cancels state_of].
      destruct (state_of tr t0) eqn:S0; cbn; try exact IH; (destruct (t0 =? t) eqn:Q; [apply Z.eqb_eq in Q; subst; rewrite S0 in IH|]; lia).
    - inversion E; subst. exact IH.
    - inversion E; subst. exact IH.
    - pose proof (tick_result s tr s' e R Al E) as G. destruct e as [? ?|? ? ?|? ?|? ?| | |x|x|]; try contradiction G; cbn [starts fires cancels state_of].
      + exact IH.
      + destruct G as (_ & G & _). destruct (x =? t) eqn:Q; [apply Z.eqb_eq in Q; subst; rewrite G in IH|]; lia.
      + destruct G as (_ & G & _). destruct (x =? t) eqn:Q; [apply Z.eqb_eq in Q; subst; rewrite G in IH|]; lia.
    - destruct (pending_result s tr R) as (s2 & e2 & E2 & G). cbn [step] in E2. rewrite E in E2. inversion E2; subst.
      destruct (expired tr) as [|x l]; [destruct G; subst; exact IH|]. destruct G as (-> & G & _). cbn [starts fires cancels state_of].
      destruct (x =? t) eqn:Q; [apply Z.eqb_eq in Q; subst; rewrite G in IH|]; lia.
  Qed.
End P.

(** ** Misuse *)
Definition check (d : Z -> bool) (l : list action) (P : st -> list event -> bool) : bool :=
  match run d st_init l with Some (s, es) => P s es | None => false end.
Lemma check_run d l P : check d l P = true -> exists s es, run d st_init l = Some (s, es) /\ P s es = true.
Proof. unfold check. destruct (run d st_init l) as [[s es]|]; [eauto|discriminate]. Qed.

Definition ev_eqb (a b : event) : bool :=
  match a, b with ECancel t r, ECancel t' r' => (t =? t') && Bool.eqb r r' | EFire t, EFire t' => t =? t' | _, _ => false end.
Lemma ev_eqb_eq a b : ev_eqb a b = true -> a = b.
Proof.
  destruct a, b; cbn; try discriminate; intros H; [apply andb_true_iff in H; destruct H as [H1 H2]; apply Z.eqb_eq in H1; apply Bool.eqb_prop in H2; congruence|].
  apply Z.eqb_eq in H. congruence.
Qed.

Lemma wrap_arm : exists s es, run (fun _ => false) st_init [Tick; TickLoop; Arm 1 (2 ^ 64 - 1); Cancel 1; Tick; TickLoop] = Some (s, es) /\
  nth 3 es ENop = ECancel 1 false /\ nth 5 es ENop = EFire 1.
Proof.
  destruct (check_run (fun _ => false) [Tick; TickLoop; Arm 1 (2 ^ 64 - 1); Cancel 1; Tick; TickLoop]
    (fun s es => ev_eqb (nth 3 es ENop) (ECancel 1 false) && ev_eqb (nth 5 es ENop) (EFire 1))) as (s & es & R & Q); [vm_compute; reflexivity|].
  exists s, es. apply andb_true_iff in Q. destruct Q as [Q1 Q2]. apply ev_eqb_eq in Q1. apply ev_eqb_eq in Q2. auto.
Qed.

Lemma rearm_queued : exists s es, run (fun _ => true) st_init [Arm 1 1; Tick; TickLoop; TickLoop; Arm 1 1; Tick] = Some (s, es) /\
  step (fun _ => true) s TickLoop = Fail.
Proof.
  destruct (check_run (fun _ => true) [Arm 1 1; Tick; TickLoop; TickLoop; Arm 1 1; Tick]
    (fun s es => match step (fun _ => true) s TickLoop with Fail => true | _ => false end)) as (s & es & R & Q); [vm_compute; reflexivity|].
  exists s, es. split; [exact R|]. destruct (step (fun _ => true) s TickLoop); [reflexivity|discriminate].
Qed.
