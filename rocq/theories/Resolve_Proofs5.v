From Verif Require Import Lib Resolve_Model Resolve_Spec Resolve_Proofs Resolve_Proofs2 Resolve_Proofs4.

Section Mount.
  Variables (dbg : bool) (NAMEMAX : Z) (W : world).

  Lemma mp_add_inv : forall MAXMP path cwd t rc W' log,
    mp_add dbg NAMEMAX W MAXMP path cwd t = MRet rc W' log ->
    (W' = W /\ rc <> 0) \/
    (rc = 0 /\ exists v i lg, vfs_resolve dbg NAMEMAX W path cwd true = Done 0 v lg /\ v_obj v = Some (i, VDir) /\
       uncovered W (v_fs v, i) /\ ~ In t (map m_target (mnts W)) /\ zlen (mnts W) < MAXMP /\
       W' = mkW (get W) (link W) (root W) (mnts W ++ [mkM (v_fs v) i t]) (rootfs W) /\
       log = RetFs t :: Unlock (v_fs v) :: RetI (v_fs v) i :: lg).
  Proof.
    intros MAXMP path cwd t rc W' log H. unfold mp_add in H.
    destruct (vfs_resolve _ _ _ _ _ _) as [rc0 v lg|] eqn:R; [|discriminate].
    destruct (rc0 =? 0) eqn:RC; cbn [negb] in H.
    2:{ injection H as <- <- _. left. split; [reflexivity|lia]. }
    apply Z.eqb_eq in RC. subst rc0.
    destruct (v_obj v) as [[i []]|] eqn:V; try (injection H as <- <- _; left; split; [reflexivity|unfold ENOTDIR; lia]).
    pose proof (mp_at_spec W (v_fs v) i) as M.
    destruct (mp_at W (v_fs v) i); [injection H as <- <- _; left; split; [reflexivity|unfold EBUSY; lia]|].
    destruct (existsb _ _) eqn:E; [injection H as <- <- _; left; split; [reflexivity|unfold EPERM; lia]|].
    destruct (_ <? _) eqn:L; [|injection H as <- <- _; left; split; [reflexivity|unfold EMFILE; lia]].
    injection H as <- <- <-. right. split; [reflexivity|]. exists v, i, lg. repeat split; auto; [|lia].
    intro I1. apply in_map_iff in I1. destruct I1 as (m & I1 & I2).
    assert (X: existsb (fun m => m_target m =? t) (mnts W) = true) by (apply existsb_exists; exists m; split; [exact I2|lia]).
    congruence.
  Qed.

  Lemma nodup_snoc : forall A (l : list A) x, NoDup l -> ~ In x l -> NoDup (l ++ [x]).
  Proof.
    induction l; cbn; intros x N I1; [constructor; [easy|constructor]|].
    apply NoDup_cons_iff in N. destruct N as [N1 N2]. constructor; [|apply IHl; tauto].
    rewrite in_app_iff. cbn. intuition.
  Qed.

  Lemma mp_add_table : forall MAXMP path cwd t rc W' log,
    mp_add dbg NAMEMAX W MAXMP path cwd t = MRet rc W' log ->
    NoDup (map (fun m => (m_host m, m_hino m)) (mnts W)) -> NoDup (map m_target (mnts W)) -> zlen (mnts W) <= MAXMP ->
    NoDup (map (fun m => (m_host m, m_hino m)) (mnts W')) /\ NoDup (map m_target (mnts W')) /\ zlen (mnts W') <= MAXMP.
  Proof.
    intros MAXMP path cwd t rc W' log H N1 N2 L. destruct (mp_add_inv _ _ _ _ _ _ _ H) as [[-> _]|(_ & v & i & lg & R & V & U & T & L2 & -> & _)]; [tauto|].
    cbn [mnts]. rewrite !map_app. cbn [map m_host m_hino m_target]. split; [|split].
    - apply nodup_snoc; [exact N1|]. intro I1. apply in_map_iff in I1. destruct I1 as (m & I1 & I2). eapply U; eauto.
    - apply nodup_snoc; assumption.
    - rewrite zlen_app. change (zlen [_]) with 1. lia.
  Qed.

  (** The mount point of a good world after a good mount *)
  Lemma mp_add_good : good W -> forall MAXMP path cwd t W' log, good_cwd W cwd -> 
    mp_add dbg NAMEMAX W MAXMP path cwd t = MRet 0 W' log ->
    forall f i j v lg, vfs_resolve dbg NAMEMAX W path cwd true = Done 0 v lg -> v_fs v = f -> v_obj v = Some (i, VDir) ->
    i <> root W f -> f <> t -> get W f i DOTDOT = Some (j, VDir) -> j <> i -> uncovered W (f, j) ->
    (forall m j', In m (mnts W) -> get W (m_host m) (m_hino m) DOTDOT = Some (j', VDir) -> (m_host m, j') <> (f, i)) ->
    good W'.
  Proof.
    intros GW MAXMP path cwd t W' log [CT [cd CD]] H f i j v lg R F V NR FT UP JI UJ UM.
    destruct (mp_add_inv _ _ _ _ _ _ _ H) as [[_ Q]|(_ & v' & i' & lg' & R' & V' & U & T & L2 & -> & _)]; [tauto|].
    rewrite R in R'. injection R' as <- <-. rewrite V in V'. injection V' as <-. rewrite F in *.
    pose proof (mp_add_table _ _ _ _ _ _ _ H (g_host W GW) (g_target W GW) ltac:(lia)) as (N1 & N2 & _).
    assert (TR: in_tree W f).
    { unfold vfs_resolve in R. destruct path as [|x path]; [discriminate|].
      set (st := if x =? SLASH then root_entry W (rootfs W) cwd else cwd) in R.
      assert (ST: exists s, at_dir (with_lc st 0) s /\ okv W st).
      { subst st. destruct (x =? SLASH).
        - eexists (rootfs W, root W (rootfs W)). split; [split; reflexivity|apply okv_root].
        - exists (v_fs cwd, cd). split; [split; [reflexivity|exact CD]|]. split; [exact CT|]. intros a b E _. congruence. }
      destruct ST as (s & AT & OS). clearbody st.
      match type of R with context[resolve _ _ _ 3 ?P ?T0 true ?L] =>
        pose proof (resolve_ok dbg NAMEMAX W GW 3 s P T0 true L ltac:(discriminate) AT (okv_lc W _ _ OS) eq_refl) as G;
        destruct (resolve dbg NAMEMAX W 3 P T0 true L) as [rc v0 lg0|w] end; [|discriminate].
      destruct G as (OV & _). destruct (rc =? 0) eqn:RC; [|injection R as -> _ _; discriminate RC].
      injection R as <- _. destruct OV as [OV _]. rewrite <- F.
      destruct (nth_error _ _) as [z|]; [destruct (z =? SLASH)|]; exact OV. }
    assert (TI: forall g, in_tree W g -> in_tree (mkW (get W) (link W) (root W) (mnts W ++ [mkM f i t]) (rootfs W)) g).
    { intros g [->|(m & M1 & M2)]; [now left|]. right. exists m. cbn. rewrite in_app_iff. tauto. }
    assert (UI: forall p, uncovered W p -> p <> (f, i) -> uncovered (mkW (get W) (link W) (root W) (mnts W ++ [mkM f i t]) (rootfs W)) p).
    { intros p UP0 NP m I1. cbn in I1. apply in_app_iff in I1. destruct I1 as [I1|[<-|[]]]; [now apply UP0|]. cbn. congruence. }
    constructor; cbn [mnts get link root rootfs] in *; auto.
    - intros m I1. apply in_app_iff in I1. destruct I1 as [I1|[<-|[]]].
      + destruct (g_tree W GW m I1). split; auto.
      + split; [now apply TI|exact FT].
    - intros m I1. apply in_app_iff in I1. destruct I1 as [I1|[<-|[]]].
      + destruct (g_up W GW m I1) as (j' & G1 & G2). exists j'. split; [exact G1|]. apply UI; [exact G2|]. eapply UM; eauto.
      + cbn [m_host m_hino]. exists j. split; [exact UP|]. apply UI; [exact UJ|]. congruence.
    - intro g. apply UI; [apply (g_root W GW)|]. intro E. injection E as E1 E2. congruence.
    - exact (g_rdir W GW).
    - exact (g_link W GW).
  Qed.

  (** References after a mount: the table keeps one on the host, its inode and the target *)
  Lemma mp_add_refs : forall MAXMP path cwd t W' log, calm W cwd ->
    mp_add dbg NAMEMAX W MAXMP path cwd t = MRet 0 W' log ->
    exists v i lg, vfs_resolve dbg NAMEMAX W path cwd true = Done 0 v lg /\ v_obj v = Some (i, VDir) /\
    (forall f, locks f log = 0) /\
    (forall f, fsrefs f log = one (v_fs v =? f) + one (t =? f)) /\
    (forall f j, irefs f j log = one ((v_fs v =? f) && (i =? j))).
  Proof.
    intros MAXMP path cwd t W' log CA H.
    destruct (mp_add_inv _ _ _ _ _ _ _ H) as [[_ Q]|(_ & v & i & lg & R & V & U & T & L2 & -> & ->)]; [tauto|].
    exists v, i, lg. split; [exact R|]. split; [exact V|].
    destruct (lock_balance _ _ _ _ _ _ _ _ _ CA R) as [_ LB]. cbn [Z.eqb] in LB.
    pose proof (inode_refs _ _ _ _ _ _ _ _ _ R) as IB.
    repeat split; intros; rewrite ?locks_cons, ?fsrefs_cons, ?irefs_cons; try destruct (LB f) as [L F]; rewrite ?IB; lia.
  Qed.

  (** A mount that fails for another reason than EBUSY and EPERM leaves nothing behind *)
  Lemma mp_add_fail : forall MAXMP path cwd t rc W' log, calm W cwd ->
    mp_add dbg NAMEMAX W MAXMP path cwd t = MRet rc W' log -> rc <> 0 -> rc <> EBUSY -> rc <> EPERM ->
    W' = W /\ (forall f, locks f log = 0 /\ fsrefs f log = 0) /\ (forall f i, irefs f i log = 0).
  Proof.
    intros MAXMP path cwd t rc W' log CA H N1 N2 N3. unfold mp_add in H.
    destruct (vfs_resolve _ _ _ _ _ _) as [rc0 v lg|] eqn:R; [|discriminate].
    destruct (lock_balance _ _ _ _ _ _ _ _ _ CA R) as [_ LB].
    pose proof (inode_refs _ _ _ _ _ _ _ _ _ R) as IB.
    destruct (rc0 =? 0) eqn:RC; cbn [negb] in H.
    2:{ injection H as <- <- <-. auto. }
    assert (X: MRet ENOTDIR W (RelFs (v_fs v) :: Unlock (v_fs v) :: lg) = MRet rc W' log ->
       W' = W /\ (forall f, locks f log = 0 /\ fsrefs f log = 0) /\ (forall f i, irefs f i log = 0)).
    { intro E. injection E as <- <- <-. split; [reflexivity|].
      split; intros; rewrite ?locks_cons, ?fsrefs_cons, ?irefs_cons; [destruct (LB f) as [L F]; lia|]. rewrite IB. lia. }
    destruct (v_obj v) as [[i []]|] eqn:V; try (now apply X).
    destruct (mp_at W (v_fs v) i); [injection H as <- _ _; tauto|].
    destruct (existsb _ _) eqn:E; [injection H as <- _ _; tauto|].
    destruct (_ <? _) eqn:L; [injection H as <- _ _; tauto|].
    injection H as <- <- <-. split; [reflexivity|].
    split; intros; rewrite ?locks_cons, ?fsrefs_cons, ?irefs_cons; [destruct (LB f) as [L1 F]; lia|]. rewrite IB. lia.
  Qed.
End Mount.
