From Verif Require Import Lib Avl_Model Avl_Spec.

Local Arguments Z.add : simpl never.
Local Arguments Z.sub : simpl never.
Local Arguments Z.max : simpl never.

Section V.
  Context {A : Type}.
  Notation tree := (@tree A).
  Notation slot := (label * tree)%type.
  Definition d0 : slot := (LNull, E).

  Lemma mem_read1 : forall (st : list slot) i, 0 <= i < zlen st ->
      mem_read st i 1 = Some [znth d0 st i].
  Proof.
    intros st i H. destruct (mem_read_some st i 1) as (d & E1 & E2 & E3); try lia.
    rewrite E1. destruct d as [|a [|b d]].
    - unfold zlen in E2; simpl in E2; lia.
    - specialize (E3 d0 0 ltac:(lia)). rewrite znth_cons_0 in E3. rewrite E3. do 3 f_equal. lia.
    - rewrite !zlen_cons in E2. pose proof (zlen_nonneg d). lia.
  Qed.

  Lemma mem_write1 : forall (st : list slot) i s, 0 <= i < zlen st ->
      exists st', mem_write st i [s] = Some st' /\ zlen st' = zlen st /\
        znth d0 st' i = s /\ (forall j, 0 <= j -> j <> i -> znth d0 st' j = znth d0 st j).
  Proof.
    intros st i s H. destruct (mem_write_some st i [s]) as (st' & E1 & E2 & E3);
      try (change (zlen [s]) with 1); try lia.
    exists st'. split; [auto|]. split; [auto|]. change (zlen [s]) with 1 in E3. split.
    - rewrite E3 by lia.
      destruct ((i <=? i) && (i <? i + 1)) eqn:E; [|lia]. rewrite Z.sub_diag. reflexivity.
    - intros j Hj Hn. rewrite E3 by lia.
      destruct ((i <=? j) && (j <? i + 1)) eqn:E; [lia|reflexivity].
  Qed.

  Lemma sim_call_ok : forall (st : list slot) size lb t, 0 <= size -> size + 1 < zlen st ->
      exists st', sim_call st size lb t = Some (st', size + 1) /\ zlen st' = zlen st /\
        znth d0 st' size = (lb, t) /\ fst (znth d0 st' (size + 1)) = LNull /\
        (forall i, 0 <= i < size -> znth d0 st' i = znth d0 st i).
  Proof.
    intros st size lb t H1 H2. unfold sim_call.
    destruct (mem_write1 st size (lb, t)) as (st1 & E1 & L1 & G1 & F1); [lia|].
    rewrite E1. rewrite mem_read1 by lia.
    destruct (znth d0 st1 (size + 1)) as [lb1 a1] eqn:Es.
    destruct (mem_write1 st1 (size + 1) (LNull, a1)) as (st2 & E2 & L2 & G2 & F2); [lia|].
    rewrite E2. exists st2. split; [auto|]. split; [lia|]. split; [rewrite F2 by lia; auto|].
    split; [rewrite G2; auto|]. intros i Hi. rewrite F2, F1 by lia. auto.
  Qed.

  Definition dir (rv : bool) (t : tree) : list A := if rv then rev (inorder t) else inorder t.

  Lemma dir_node : forall rv h l x r,
      dir rv (N h l x r) = dir rv (if rv then r else l) ++ x :: dir rv (if rv then l else r).
  Proof.
    intros [] h l x r; simpl; [|reflexivity].
    rewrite rev_app_distr. simpl. rewrite <- app_assoc. reflexivity.
  Qed.

  Section CB.
    Context {S : Type}.
    Variable cb : S -> A -> S * Z.

    Lemma visit_list_app : forall l1 l2 acc,
        visit_list cb (l1 ++ l2) acc =
        let '(rc, acc') := visit_list cb l1 acc in
        if rc =? 0 then visit_list cb l2 acc' else (rc, acc').
    Proof.
      induction l1 as [|x l1 IH]; intros l2 acc; simpl; [reflexivity|].
      destruct (cb acc x) as [acc' rc]. destruct (rc =? 0) eqn:E; simpl; [apply IH|].
      rewrite E. reflexivity.
    Qed.

    (** After [n] iterations, the loop has either stopped with the callback's
        value or is as if the top frame had been popped. *)
    Definition done_with (rv : bool) (st : list slot) (size : Z) (acc : S)
               (n : nat) (l : list A) : Prop :=
      exists st', zlen st' = zlen st /\
        (forall i, 0 <= i < size -> znth d0 st' i = znth d0 st i) /\
        forall f, v_loop cb (n + f) rv (mk_v st size acc) =
          let '(rc, acc') := visit_list cb l acc in
          if rc =? 0 then v_loop cb f rv (mk_v st' (size - 1) acc')
          else VStop rc acc'.

    Lemma v_loop_step : forall f rv st size acc, size <> 0 ->
        v_loop cb (Datatypes.S f) rv (mk_v st size acc) =
        match v_iter cb rv (mk_v st size acc) with
        | VCont v' => v_loop cb f rv v'
        | res => res
        end.
    Proof.
      intros. simpl. destruct (Z.eqb_spec size 0); [contradiction|]. reflexivity.
    Qed.

    Lemma sub_run : forall t rv st size acc lb,
        t <> E -> 1 <= size -> size + depth t < zlen st ->
        znth d0 st (size - 1) = (lb, t) -> fst (znth d0 st size) = LNull ->
        exists n, (1 <= n)%nat /\ done_with rv st size acc n (dir rv t).
    Proof.
      assert (Hdp : forall t : tree, -1 <= depth t).
      { induction t; cbn [depth]; lia. }
      assert (Hdn : forall h (l : tree) x r, 0 <= depth (N h l x r))
        by (intros h0 l0 x0 r0; cbn [depth]; pose proof (Hdp l0); lia).
      intros t. induction t as [|h l IHl x r IHr]; [congruence|].
      intros rv st size acc lb _ Hsz Hd Htop Hnull.
      set (a := if rv then r else l). set (b := if rv then l else r).
      assert (Ha : depth a < depth (N h l x r)) by (subst a; destruct rv; cbn [depth]; lia).
      assert (Hb : depth b < depth (N h l x r)) by (subst b; destruct rv; cbn [depth]; lia).
      pose proof (Hdp a). pose proof (Hdp b). pose proof (Hdp l). pose proof (Hdp r).
      assert (IHa : forall st size acc lb, a <> E -> 1 <= size -> size + depth a < zlen st ->
                znth d0 st (size - 1) = (lb, a) -> fst (znth d0 st size) = LNull ->
                exists n, (1 <= n)%nat /\ done_with rv st size acc n (dir rv a))
        by (subst a; intros; destruct rv; eauto).
      assert (IHb : forall st size acc lb, b <> E -> 1 <= size -> size + depth b < zlen st ->
                znth d0 st (size - 1) = (lb, b) -> fst (znth d0 st size) = LNull ->
                exists n, (1 <= n)%nat /\ done_with rv st size acc n (dir rv b))
        by (subst b; intros; destruct rv; eauto).
      clear IHl IHr.
      (* the part from the visit of x on *)
      assert (Hself : forall st1 acc1, zlen st1 = zlen st ->
                (forall i, 0 <= i < size -> znth d0 st1 i = znth d0 st i) ->
                exists n st', zlen st' = zlen st /\
                  (forall i, 0 <= i < size -> znth d0 st' i = znth d0 st i) /\
                  forall f, match v_self cb rv st1 size acc1 l x r with
                            | VCont v' => v_loop cb (n + f) rv v' | res => res end =
                    let '(rc, acc') := visit_list cb (x :: dir rv b) acc1 in
                    if rc =? 0 then v_loop cb f rv (mk_v st' (size - 1) acc')
                    else VStop rc acc').
      { intros st1 acc1 HL Hag. unfold v_self. simpl visit_list.
        destruct (cb acc1 x) as [acc2 rc] eqn:Ecb.
        destruct (Z.eqb_spec rc 0) as [->|Hrc]; simpl negb; cbn iota.
        2:{ exists O, st1. repeat split; auto. intros f.
            destruct (Z.eqb_spec rc 0); [lia|reflexivity]. }
        unfold v_right. fold b. destruct b as [|hb lb0 xb rb] eqn:Eb.
        - exists O, st1. repeat split; auto. intros f. unfold v_ret.
          assert (E0 : dir rv (@E A) = []) by (destruct rv; reflexivity). rewrite E0.
          simpl. reflexivity.
        - pose proof (Hdn hb lb0 xb rb). destruct (sim_call_ok st1 size LRight (N hb lb0 xb rb)) as (st2 & E1 & L2 & G1 & G2 & G3);
            [lia|lia|]. rewrite E1.
          destruct (IHb st2 (size + 1) acc2 LRight) as (n & Hn & st3 & L3 & Hag3 & Hrun);
            [discriminate|lia|lia| |auto|].
          { replace (size + 1 - 1) with size by lia. auto. }
          exists (n + 1)%nat, st3. split; [lia|]. split.
          { intros i Hi. rewrite Hag3, G3 by lia. apply Hag; lia. }
          intros f. replace (n + 1 + f)%nat with (n + Datatypes.S f)%nat by lia.
          rewrite Hrun. destruct (visit_list cb (dir rv (N hb lb0 xb rb)) acc2) as [rc acc'].
          destruct (Z.eqb_spec rc 0); [|reflexivity].
          replace (size + 1 - 1) with size by lia.
          rewrite v_loop_step by lia. unfold v_iter. cbn [v_stack v_size v_acc].
          rewrite !mem_read1 by lia. rewrite (Hag3 (size - 1)), (G3 (size - 1)), Hag, Htop by lia.
          rewrite (Hag3 size), G1 by lia. reflexivity. }
      assert (Hvl : forall acc, visit_list cb (dir rv (N h l x r)) acc =
                let '(rc, acc') := visit_list cb (dir rv a) acc in
                if rc =? 0 then visit_list cb (x :: dir rv b) acc' else (rc, acc')).
      { intros acc0. rewrite dir_node. fold a b. apply visit_list_app. }
      destruct (znth d0 st size) as [lbs args] eqn:Es. simpl in Hnull. subst lbs.
      destruct a as [|hla la0 xa ra] eqn:Ea.
      - destruct (Hself st acc eq_refl ltac:(auto)) as (n & st' & L' & Hag' & Hrun).
        exists (Datatypes.S n). split; [lia|]. exists st'. split; [auto|]. split; [auto|].
        intros f. change (Datatypes.S n + f)%nat with (Datatypes.S (n + f)).
        rewrite v_loop_step by lia. unfold v_iter. cbn [v_stack v_size v_acc].
        rewrite !mem_read1 by lia. rewrite Htop, Es. fold a. rewrite Ea.
        assert (E0 : dir rv (@E A) = []) by (destruct rv; reflexivity).
        rewrite Hvl, E0. change (visit_list cb [] acc) with (0, acc). cbn iota.
        rewrite Z.eqb_refl. apply Hrun.
      - pose proof (Hdn hla la0 xa ra). rewrite <- Ea in *.
        destruct (sim_call_ok st size LLeft a) as (st2 & E1 & L2 & G1 & G2 & G3); [lia|lia|].
        destruct (IHa st2 (size + 1) acc LLeft) as (n & Hn & st3 & L3 & Hag3 & Hrun);
          [rewrite Ea; discriminate|lia|lia| |auto|].
        { replace (size + 1 - 1) with size by lia. auto. }
        assert (Hag03 : forall i, 0 <= i < size -> znth d0 st3 i = znth d0 st i)
          by (intros i Hi; rewrite Hag3, G3 by lia; auto).
        destruct (visit_list cb (dir rv a) acc) as [rc acc1] eqn:Evl.
        destruct (Hself st3 acc1 ltac:(lia) Hag03) as (n2 & st4 & L4 & Hag4 & Hrun4).
        exists (1 + n + (1 + n2))%nat. split; [lia|]. exists st4. split; [auto|]. split; [auto|].
        intros f. replace (1 + n + (1 + n2) + f)%nat with (Datatypes.S (n + Datatypes.S (n2 + f))) by lia.
        rewrite v_loop_step by lia. unfold v_iter. cbn [v_stack v_size v_acc].
        rewrite !mem_read1 by lia. rewrite Htop, Es. fold a. rewrite Ea, <- Ea, E1.
        rewrite Hrun, Hvl, Evl. destruct (Z.eqb_spec rc 0) as [->|Hrc];
          [|destruct (Z.eqb_spec rc 0); [lia|reflexivity]].
        replace (size + 1 - 1) with size by lia.
        rewrite v_loop_step by lia. unfold v_iter. cbn [v_stack v_size v_acc].
        rewrite !mem_read1 by lia. rewrite Hag03, Htop by lia. rewrite (Hag3 size), G1 by lia.
        apply Hrun4.
    Qed.

    Lemma visit_ok : forall (t : tree) rv acc, depth t <= 30 ->
        exists n, forall fuel, (n <= fuel)%nat ->
          visit cb fuel rv t acc =
          VStop (fst (visit_list cb (dir rv t) acc)) (snd (visit_list cb (dir rv t) acc)).
    Proof.
      intros t rv acc Hd. destruct t as [|h l x r] eqn:Et.
      - exists O. intros fuel _. assert (E0 : dir rv (@E A) = []) by (destruct rv; reflexivity).
        rewrite E0. reflexivity.
      - rewrite <- Et in *. unfold visit.
        change (Z.to_nat MAX_TREE_HEIGHT) with 32%nat.
        set (zst := repeat (LNull, @E A) 32).
        assert (Lz : zlen zst = 32) by reflexivity.
        destruct (sim_call_ok zst 0 LTop t) as (st & E1 & L & G1 & G2 & G3); [lia|lia|].
        change (0 + 1) with 1 in *.
        destruct (sub_run t rv st 1 acc LTop) as (n & Hn & st' & L' & Hag & Hrun);
          [subst; discriminate|lia|lia|auto|auto|].
        exists n. intros fuel Hf. rewrite Et, <- Et. rewrite E1.
        replace fuel with (n + (fuel - n))%nat by lia. rewrite Hrun.
        destruct (visit_list cb (dir rv t) acc) as [rc acc'].
        destruct (Z.eqb_spec rc 0) as [->|]; [|reflexivity].
        destruct (fuel - n)%nat; reflexivity.
    Qed.
  End CB.

  (** ** Resumable visit *)
  (** [wsteps rv n s ys s']: [n] iterations from [s] yield [ys] and lead to [s'] *)
  Inductive wsteps (rv : bool) : nat -> list slot * Z -> list A -> list slot * Z -> Prop :=
  | ws_nil : forall s, wsteps rv 0 s [] s
  | ws_cont : forall n st size st' size' ys s2,
      size <> 0 -> w_iter rv st size = WCont st' size' ->
      wsteps rv n (st', size') ys s2 -> wsteps rv (S n) (st, size) ys s2
  | ws_yield : forall n st size x st' size' ys s2,
      size <> 0 -> w_iter rv st size = WYield x st' size' ->
      wsteps rv n (st', size') ys s2 -> wsteps rv (S n) (st, size) (x :: ys) s2.

  Lemma wsteps_app : forall rv n1 s1 ys1 s2, wsteps rv n1 s1 ys1 s2 ->
      forall n2 ys2 s3, wsteps rv n2 s2 ys2 s3 -> wsteps rv (n1 + n2) s1 (ys1 ++ ys2) s3.
  Proof.
    induction 1; intros n2 ys2 s3 H3; simpl; auto;
      [eapply ws_cont | eapply ws_yield]; eauto.
  Qed.

  Lemma w_sub : forall t rv st size lb,
      t <> E -> 1 <= size -> size + depth t < zlen st ->
      znth d0 st (size - 1) = (lb, t) -> fst (znth d0 st size) = LNull ->
      exists n st', wsteps rv n (st, size) (dir rv t) (st', size - 1) /\
        zlen st' = zlen st /\ forall i, 0 <= i < size -> znth d0 st' i = znth d0 st i.
  Proof.
    assert (Hdp : forall t : tree, -1 <= depth t).
    { induction t; cbn [depth]; lia. }
      assert (Hdn : forall h (l : tree) x r, 0 <= depth (N h l x r))
        by (intros h0 l0 x0 r0; cbn [depth]; pose proof (Hdp l0); lia).
    intros t. induction t as [|h l IHl x r IHr]; [congruence|].
    intros rv st size lb _ Hsz Hd Htop Hnull.
    set (a := if rv then r else l). set (b := if rv then l else r).
    assert (Ha : depth a < depth (N h l x r)) by (subst a; destruct rv; cbn [depth]; lia).
    assert (Hb : depth b < depth (N h l x r)) by (subst b; destruct rv; cbn [depth]; lia).
    pose proof (Hdp a). pose proof (Hdp b). pose proof (Hdp l). pose proof (Hdp r).
    assert (IHa : forall st size lb, a <> E -> 1 <= size -> size + depth a < zlen st ->
              znth d0 st (size - 1) = (lb, a) -> fst (znth d0 st size) = LNull ->
              exists n st', wsteps rv n (st, size) (dir rv a) (st', size - 1) /\
        zlen st' = zlen st /\ forall i, 0 <= i < size -> znth d0 st' i = znth d0 st i)
      by (subst a; intros; destruct rv; eauto).
    assert (IHb : forall st size lb, b <> E -> 1 <= size -> size + depth b < zlen st ->
              znth d0 st (size - 1) = (lb, b) -> fst (znth d0 st size) = LNull ->
              exists n st', wsteps rv n (st, size) (dir rv b) (st', size - 1) /\
        zlen st' = zlen st /\ forall i, 0 <= i < size -> znth d0 st' i = znth d0 st i)
      by (subst b; intros; destruct rv; eauto).
    clear IHl IHr.
    destruct (znth d0 st size) as [lbs args] eqn:Es. simpl in Hnull. subst lbs.
    (* from the yield of x on *)
    assert (Hself : forall st1, zlen st1 = zlen st ->
              (forall i, 0 <= i < size -> znth d0 st1 i = znth d0 st i) ->
              w_iter rv st1 size = w_yield st1 size x ->
              exists n st', wsteps rv n (st1, size) (x :: dir rv b) (st', size - 1) /\
                zlen st' = zlen st /\
                (forall i, 0 <= i < size -> znth d0 st' i = znth d0 st i)).
    { intros st1 HL Hag Hit. unfold w_yield in Hit. rewrite mem_read1 in Hit by lia.
      destruct (znth d0 st1 size) as [lb1 a1].
      destruct (mem_write1 st1 size (LYield, a1)) as (st2 & E2 & L2 & G2 & F2); [lia|].
      rewrite E2 in Hit.
      assert (Hit2 : w_iter rv st2 size = w_right rv st2 size l r).
      { unfold w_iter. rewrite !mem_read1 by lia. rewrite F2, Hag, Htop, G2 by lia. reflexivity. }
      unfold w_right in Hit2. fold b in Hit2. destruct b as [|hb lb0 xb rb] eqn:Eb.
      - assert (E0 : dir rv (@E A) = []) by (destruct rv; reflexivity). rewrite E0.
        exists 2%nat, st2. split; [|split; [lia|intros; rewrite F2 by lia; auto]].
        eapply ws_yield; [lia|exact Hit|]. eapply ws_cont; [lia|exact Hit2|]. constructor.
      - pose proof (Hdn hb lb0 xb rb). rewrite <- Eb in *.
        destruct (sim_call_ok st2 size LRight b) as (st3 & E3 & L3 & G3 & G4 & G5); [lia|lia|].
        rewrite Eb, <- Eb, E3 in Hit2.
        destruct (IHb st3 (size + 1) LRight) as (n & st4 & Hn & L4 & Hag4);
          [subst b; rewrite Eb; discriminate|lia|lia| |auto|].
        { replace (size + 1 - 1) with size by lia. auto. }
        replace (size + 1 - 1) with size in Hn by lia.
        assert (Hag04 : forall i, 0 <= i < size -> znth d0 st4 i = znth d0 st i)
          by (intros i Hi; rewrite Hag4, G5, F2 by lia; auto).
        exists (S (S (n + 1)))%nat, st4. split; [|split; [lia|auto]].
        eapply ws_yield; [lia|exact Hit|]. eapply ws_cont; [lia|exact Hit2|].
        rewrite <- (app_nil_r (dir rv b)). eapply wsteps_app; [exact Hn|].
        eapply ws_cont; [lia| |constructor].
        unfold w_iter. rewrite !mem_read1 by lia. rewrite Hag04, Htop by lia.
        rewrite (Hag4 size), G3 by lia. reflexivity. }
    rewrite dir_node. fold a b. destruct a as [|hla la0 xa ra] eqn:Ea.
    - assert (E0 : dir rv (@E A) = []) by (destruct rv; reflexivity). rewrite E0. simpl app.
      apply Hself; auto.
      unfold w_iter. rewrite !mem_read1 by lia. rewrite Htop, Es. fold a. rewrite Ea. reflexivity.
    - pose proof (Hdn hla la0 xa ra). rewrite <- Ea in *.
      destruct (sim_call_ok st size LLeft a) as (st2 & E1 & L2 & G1 & G2 & G3); [lia|lia|].
      destruct (IHa st2 (size + 1) LLeft) as (n & st3 & Hn & L3 & Hag3);
        [rewrite Ea; discriminate|lia|lia| |auto|].
      { replace (size + 1 - 1) with size by lia. auto. }
      replace (size + 1 - 1) with size in Hn by lia.
      assert (Hag03 : forall i, 0 <= i < size -> znth d0 st3 i = znth d0 st i)
        by (intros i Hi; rewrite Hag3, G3 by lia; auto).
      destruct (Hself st3 ltac:(lia) Hag03) as (n2 & st4 & Hn2 & L4 & Hag4).
      { unfold w_iter. rewrite !mem_read1 by lia. rewrite Hag03, Htop by lia.
        rewrite (Hag3 size), G1 by lia. reflexivity. }
      exists (S n + n2)%nat, st4. split; [|auto].
      eapply wsteps_app; [|exact Hn2].
      eapply ws_cont; [lia| |exact Hn].
      unfold w_iter. rewrite !mem_read1 by lia. rewrite Htop, Es. fold a. rewrite Ea, <- Ea, E1. reflexivity.
  Qed.

  (** Running [next] calls along a sequence of iterations that ends with an
      empty stack *)
  Lemma w_loop_steps : forall rv n s ys s', wsteps rv n s ys s' -> snd s' = 0 ->
      forall fuel, (n <= fuel)%nat ->
      match ys with
      | [] => exists st', w_loop fuel rv (fst s) (snd s) = Some (None, st', 0)
      | y :: ys' => exists m s1, w_loop fuel rv (fst s) (snd s) = Some (Some y, fst s1, snd s1) /\
                                 wsteps rv m s1 ys' s' /\ (m <= n)%nat
      end.
  Proof.
    induction 1; intros Hend fuel Hf; cbn [fst snd].
    - rewrite Hend. exists (fst s). destruct fuel; reflexivity.
    - destruct fuel as [|f]; [lia|].
      specialize (IHwsteps Hend f ltac:(lia)). cbn [w_loop].
      destruct (Z.eqb_spec size 0); [contradiction|]. rewrite H0.
      destruct ys; [exact IHwsteps|].
      destruct IHwsteps as (m & s1 & G1 & G2 & G3). exists m, s1. cbn [fst snd] in G1. auto.
    - destruct fuel as [|f]; [lia|]. cbn [w_loop].
      destruct (Z.eqb_spec size 0); [contradiction|]. rewrite H0.
      exists n, (st', size'). cbn [fst snd]. auto.
  Qed.

  Lemma walk_done : forall fuel k st (t : tree) rv,
      walk_results fuel k (mk_w st 0 true t rv) = Some (repeat None k).
  Proof.
    induction k as [|k IH]; intros st t rv; [reflexivity|].
    cbn [walk_results]. unfold walk_next. cbn.
    destruct fuel; cbn; rewrite IH; reflexivity.
  Qed.

  Lemma walk_tail : forall rv fuel k n s ys s' (t : tree), wsteps rv n s ys s' -> snd s' = 0 ->
      (n <= fuel)%nat ->
      walk_results fuel k (mk_w (fst s) (snd s) true t rv) =
      Some (firstn k (map Some ys ++ repeat None k)).
  Proof.
    induction k as [|k IH]; intros n s ys s' t Hs He Hf; [reflexivity|].
    pose proof (w_loop_steps _ _ _ _ _ Hs He fuel Hf) as Hl.
    cbn [walk_results]. unfold walk_next. cbn [w_called w_stack w_size w_rev w_obj].
    destruct ys as [|y ys].
    - destruct Hl as (st' & ->). rewrite walk_done. cbn. f_equal. f_equal.
      rewrite firstn_all2; [reflexivity|]. rewrite repeat_length. lia.
    - destruct Hl as (m & s1 & -> & Hs1 & Hm).
      rewrite (IH m s1 ys s' t Hs1 He ltac:(lia)). cbn [map app firstn]. do 2 f_equal.
      replace (repeat None (S k)) with (@repeat (option A) None k ++ [None])
        by (rewrite <- repeat_cons; reflexivity).
      rewrite app_assoc. symmetry. rewrite (firstn_app k (map Some ys ++ repeat None k)).
      rewrite app_length, repeat_length.
      replace (k - (length (map Some ys) + k))%nat with O by lia.
      rewrite firstn_O, app_nil_r. reflexivity.
  Qed.

  Lemma walk_ok : forall (t : tree) rv, depth t <= 30 ->
      exists n, forall fuel k, (n <= fuel)%nat ->
        walk_results fuel k (walk_start t rv) =
        Some (firstn k (map Some (dir rv t) ++ repeat None k)).
  Proof.
    intros t rv Hd. unfold walk_start. change (Z.to_nat MAX_TREE_HEIGHT) with 32%nat.
    set (zst := repeat (LNull, @E A) 32). assert (Lz : zlen zst = 32) by reflexivity.
    assert (Hfirst : forall fuel st size, match t with E => Some (zst, 0) | t0 => sim_call zst 0 LTop t0 end
               = Some (st, size) ->
             forall k, walk_results fuel k (mk_w zst 0 false t rv) =
                       walk_results fuel k (mk_w st size true t rv)).
    { intros fuel st size Hsc k. destruct k; [reflexivity|]. cbn [walk_results]. unfold walk_next.
      cbn [w_called w_stack w_size w_rev w_obj]. destruct t; [injection Hsc as <- <-; reflexivity|].
      rewrite Hsc. reflexivity. }
    destruct t as [|h l x r] eqn:Et.
    - exists O. intros fuel k _. rewrite (Hfirst fuel _ _ eq_refl).
      rewrite walk_done. assert (E0 : dir rv (@E A) = []) by (destruct rv; reflexivity).
      rewrite E0. simpl. f_equal. rewrite firstn_all2; [reflexivity|]. rewrite repeat_length. lia.
    - rewrite <- Et in *.
      destruct (sim_call_ok zst 0 LTop t) as (st & E1 & L & G1 & G2 & G3); [lia|lia|].
      change (0 + 1) with 1 in *.
      destruct (w_sub t rv st 1 LTop) as (n & st' & Hn & L' & Hag);
        [subst; discriminate|lia|lia|auto|auto|].
      exists n. intros fuel k Hf.
      rewrite (Hfirst fuel st 1) by (rewrite Et, <- Et; exact E1).
      eapply (walk_tail rv fuel k n (st, 1) _ (st', 1 - 1)); eauto.
  Qed.
End V.
