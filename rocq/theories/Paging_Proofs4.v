From Coq Require Import ZArith List Bool Lia.
From Verif Require Import Lib Paging_Model Paging_Spec Paging_Proofs Paging_Proofs2 Paging_Proofs3.
Import ListNotations.
Open Scope Z_scope.

(* the store, on any state whose entries are those of s but for (pd, v), which is
   now writable and the only private mapping of its frame *)
Lemma written_of c s s1 pd v off y e e' :
  inv c (-1) s -> inv c (-1) s1 -> pte_at s pd v = Some e ->
  (forall a b, pte_at s1 a b = upd2 (pte_at s) pd v (Some e') a b) ->
  p_rw e' = true -> p_sh e' = p_sh e -> (p_sh e = true -> p_f e' = p_f e) ->
  p_rw e || p_cow e = true ->
  (forall o, dt s1 (p_f e') o = dt s (p_f e) o) ->
  (forall f o, kd s f <> KFree -> dt s1 f o = dt s f o) ->
  written s (set_dt s1 (p_f e') (fupd (dt s1 (p_f e')) off y)) pd v off y.
Proof.
  intros H H1 PE P1 RW SH SF WR D1 D2 a b o KA.
  set (s2 := set_dt _ _ _).
  assert (P2 : forall a b, pte_at s2 a b = upd2 (pte_at s) pd v (Some e') a b)
    by (intros; rewrite <- P1; apply pte_rc).
  unfold see at 1. rewrite P2. unfold same_page.
  destruct (pair_dec a b pd v) as [[-> ->]|N].
  - rewrite upd2_same. unfold see. rewrite PE. cbn [fst snd]. rewrite !Z.eqb_refl. cbn [andb orb].
    rewrite RW, WR. cbn [orb]. rewrite SH. f_equal. f_equal.
    + f_equal. destruct (p_sh e) eqn:S; [rewrite SF by reflexivity|]; reflexivity.
    + unfold s2, set_dt; cbn [dt]. rewrite fupd_same. unfold fupd. destruct (o =? off); [reflexivity|].
      apply D1.
  - rewrite upd2_other by exact N. unfold see.
    destruct (pte_at s a b) as [d|] eqn:PD; [|reflexivity]. rewrite PE.
    assert (E0 : (a =? pd) && (b =? v) = false)
      by (destruct (Z.eqb_spec a pd), (Z.eqb_spec b v); cbn; try reflexivity; lia).
    rewrite E0. cbn [orb]. f_equal. f_equal.
    assert (PD1 : pte_at s1 a b = Some d) by (rewrite P1, upd2_other by exact N; exact PD).
    assert (PE1 : pte_at s1 pd v = Some e') by (rewrite P1; apply upd2_same).
    assert (KF : kd s (p_f d) <> KFree).
    { destruct (f_kind _ _ _ _ _ (i_f _ _ _ H) _ _ _ PD) as [->|[-> _]]; discriminate. }
    destruct (Z.eq_dec (p_f d) (p_f e')) as [Q|Q].
    + assert (S : p_sh d = p_sh e')
        by (eapply (f_sh _ _ _ _ _ (i_f _ _ _ H1)); [exact PD1|exact PE1|exact Q]).
      destruct (p_sh e') eqn:SE.
      * rewrite <- SH, S, Q, SF by congruence. rewrite Z.eqb_refl. cbn [andb].
        unfold s2, set_dt; cbn [dt]. rewrite SF by congruence. rewrite fupd_same. unfold fupd.
        destruct (o =? off); [reflexivity|]. rewrite <- D1, (SF (eq_sym SH)). reflexivity.
      * exfalso. pose proof (f_rw _ _ _ _ _ (i_f _ _ _ H1) _ _ _ PE1 RW SE) as R1.
        assert (O : a = pd /\ b = v) by (eapply F_one; [apply (i_f _ _ _ H1)|exact PE1|exact PD1|exact Q|exact R1]).
        destruct O; destruct N; contradiction.
    + unfold s2, set_dt; cbn [dt]. rewrite fupd_other by exact Q. rewrite D2 by exact KF.
      destruct (p_sh e) eqn:SE; [|reflexivity]. rewrite <- SF by reflexivity.
      destruct (p_sh d); [|reflexivity].
      destruct (Z.eqb_spec (p_f e') (p_f d)); [congruence|reflexivity].
Qed.

Lemma inv_dt c x s f w : inv c x s -> inv c x (set_dt s f w).
Proof.
  intros H. eapply inv_eqv with (g := St (kd s) (de s) (te s) (rc s) (dt (set_dt s f w))).
  - destruct H as [Z A B]. constructor; [exact Z|apply (T_rc c s); exact A|].
    eapply F_ext; [exact B| | |]; reflexivity.
  - apply eqv_refl.
Qed.

Lemma write_ok c al s pd v off y :
  inv c (-1) s -> al_ok c al -> kd s pd = KPd ->
  exists s' r, write c al s pd v off y = Ok (s', r) /\ inv c (-1) s' /\
    (forall f, kd s f <> KFree -> kd s' f = kd s f) /\
    match r with
    | WDone => (exists sh z, see s pd v off = Some (true, sh, z)) /\ written s s' pd v off y
    | WFault => s' = s /\ forall o sh z, see s pd v o <> Some (true, sh, z)
    | WNoMem => s' = s /\ exists sh z, see s pd v off = Some (true, sh, z)
    end.
Proof.
  intros H AL K. pose proof (i_t _ _ _ H) as HT.
  unfold write, cow. rewrite (get_pt_ok c) by assumption. cbn [bind].
  pose proof (pte_at_of c s pd v HT K) as PE.
  destruct (de s pd (v / NPT)) as [p|] eqn:D.
  2:{ exists s, WFault. do 2 (split; [auto|]). split; [auto|]. split; [reflexivity|].
      intros o sh z. unfold see. rewrite PE. discriminate. }
  destruct (te s p (v mod NPT)) as [e|] eqn:E.
  2:{ exists s, WFault. do 2 (split; [auto|]). split; [auto|]. split; [reflexivity|].
      intros o sh z. unfold see. rewrite PE. discriminate. }
  destruct (p_rw e) eqn:RW.
  { eexists _, WDone. split; [reflexivity|]. split; [apply inv_dt; exact H|]. split; [auto|]. split.
    - unfold see. rewrite PE, RW. eauto.
    - apply written_of with (c := c) (e := e); auto.
      + intros a b. destruct (pair_dec a b pd v) as [[-> ->]|N].
        * rewrite upd2_same. exact PE.
        * rewrite upd2_other by exact N. reflexivity.
      + rewrite RW. reflexivity. }
  destruct (p_cow e) eqn:CW; cbn [negb].
  2:{ cbn [bind]. exists s, WFault. do 2 (split; [auto|]). split; [auto|]. split; [reflexivity|].
      intros o sh z. unfold see. rewrite PE, RW, CW. cbn. discriminate. }
  assert (SH : p_sh e = false).
  { destruct (p_sh e) eqn:S; [|reflexivity].
    rewrite (f_cow _ _ _ _ _ (i_f _ _ _ H) _ _ _ PE S) in CW. discriminate. }
  pose proof (inv_ram _ _ _ _ _ _ H PE) as RM.
  pose proof (F_pos _ _ _ _ _ _ _ _ (i_f _ _ _ H) PE) as RP.
  pose proof (f_kind _ _ _ _ _ (i_f _ _ _ H) _ _ _ PE) as FK.
  assert (SEE : exists sh z, see s pd v off = Some (true, sh, z))
    by (unfold see; rewrite PE, RW, CW; cbn; eauto).
  rewrite rc_get_ram by lia.
  destruct (Z.eqb_spec (rc s (p_f e)) 1) as [R1|R1].
  - (* the last one: taken over *)
    assert (KP : kd s (p_f e) = KPage).
    { destruct FK as [G|[G _]]; [exact G|]. exfalso.
      destruct (f_rc _ _ _ _ _ (i_f _ _ _ H) (p_f e)) as (L & [ND I] & R).
      assert (J : In (pd, v) L) by (apply I; eauto).
      unfold pin in R. rewrite G in R. destruct L; [destruct J|]. rewrite zlen_cons in R.
      unfold zlen in R. lia. }
    destruct (Z.eqb_spec (p_f e) (zf c)) as [Q|Q].
    { exfalso. rewrite Q, (i_zf _ _ _ H) in KP. discriminate. }
    cbn [bind]. unfold set_te at 1; cbn [te]. rewrite !fupd_same. cbn [p_rw p_f].
    edestruct (inv_te c (-1) (-1) s pd v p (Some (Pte (p_f e) true false false)) (rc s) (dt s) H K D)
      as [G1 G2].
    { eapply F_mod with (e := e); cbn; auto. apply (i_f _ _ _ H). }
    eexists _, WDone. split; [reflexivity|]. split.
    { apply inv_dt. exact G1. }
    split; [auto|]. split; [exact SEE|].
    apply (written_of c s (set_te s p (v mod NPT) (Some (Pte (p_f e) true false false)))
             pd v off y e (Pte (p_f e) true false false)); auto.
    rewrite CW. apply orb_true_r.
  - destruct (al s) as [f|] eqn:A.
    2:{ cbn [bind]. exists s, WNoMem. do 2 (split; [auto|]). split; [auto|]. split; [reflexivity|exact SEE]. }
    destruct (AL _ _ A) as [KF RF].
    destruct (F_free _ _ _ _ _ f (i_f _ _ _ H)) as [R0 FN]; [congruence|congruence|].
    assert (NF : p_f e <> f) by (eapply FN; exact PE).
    rewrite rc_get_ram by lia. cbn [set_dt set_kd rc]. rewrite R0. cbn [Z.eqb negb].
    rewrite rc_inc_ram by lia. cbn [set_dt set_kd rc dt kd de te set_rc].
    rewrite rc_dec_ram; [|lia|cbn [rc set_rc set_dt set_kd]; rewrite fupd_other by exact NF; exact RP].
    cbn [bind rc set_rc set_dt set_kd]. rewrite (fupd_other (rc s) f _ (p_f e) NF). rewrite R0.
    (* the invariant, by one mapping less and one more *)
    set (x := Pte f true false false).
    assert (PN : pte_at s pd v = Some e) by exact PE.
    assert (FC : F c (-1) (upd2 (pte_at s) pd v None) (kd s)
                   (fupd (rc s) (p_f e) (rc s (p_f e) - 1))).
    { eapply F_ext; [apply (F_clr c (-1) (pte_at s) (kd s) (rc s) pd v e
          (if rc s (p_f e) - 1 =? 0 then KFree else kd s (p_f e)) (i_f _ _ _ H) PE); [lia|reflexivity]
        | reflexivity | | reflexivity].
      intros g. destruct (Z.eqb_spec (rc s (p_f e) - 1) 0) as [Z|Z]; [lia|].
      destruct (Z.eq_dec g (p_f e)) as [->|N]; [rewrite fupd_same|rewrite fupd_other by exact N]; reflexivity. }
    assert (FD : F c f (upd2 (pte_at s) pd v None) (fupd (kd s) f KPage)
                   (fupd (rc s) (p_f e) (rc s (p_f e) - 1))).
    { eapply F_kd; [apply F_x; [exact FC|rewrite (inv_m1 _ _ _ H); discriminate]|].
      intros g. destruct (Z.eq_dec g f) as [->|N].
      - right. rewrite fupd_same, KF. unfold plain. auto.
      - left. apply fupd_other. exact N. }
    assert (FE : F c (-1) (upd2 (pte_at s) pd v (Some x)) (fupd (kd s) f KPage)
                   (fupd (fupd (rc s) f (0 + 1)) (p_f e) (rc s (p_f e) - 1))).
    { pose proof (F_set c f _ _ _ pd v x FD) as FS. cbn [x p_f] in FS. rewrite Z.eqb_refl in FS.
      eapply F_ext; [apply FS| | |].
      - apply upd2_same.
      - left. apply fupd_same.
      - intros a b d PD Q. exfalso. destruct (pair_dec a b pd v) as [[-> ->]|N].
        + rewrite upd2_same in PD. discriminate.
        + rewrite upd2_other in PD by exact N. eapply FN; eauto.
      - intros _ _. rewrite fupd_other by congruence. exact R0.
      - discriminate.
      - intros a b. destruct (pair_dec a b pd v) as [[-> ->]|N].
        + rewrite !upd2_same. reflexivity.
        + rewrite !upd2_other by exact N. reflexivity.
      - reflexivity.
      - intros g. unfold fupd. destruct (Z.eqb_spec f (p_f e)); [congruence|].
        destruct (Z.eqb_spec g f); destruct (Z.eqb_spec g (p_f e)); try reflexivity; try congruence; lia. }
    assert (IG : inv c (-1) (St (fupd (kd s) f KPage) (de s)
                  (fupd (te s) p (fupd (te s p) (v mod NPT) (Some x)))
                  (fupd (fupd (rc s) f (0 + 1)) (p_f e) (rc s (p_f e) - 1))
                  (fupd (dt s) f (dt s (p_f e)))) /\
                 forall a b, pte_at (St (fupd (kd s) f KPage) (de s)
                  (fupd (te s) p (fupd (te s p) (v mod NPT) (Some x)))
                  (fupd (fupd (rc s) f (0 + 1)) (p_f e) (rc s (p_f e) - 1))
                  (fupd (dt s) f (dt s (p_f e)))) a b = upd2 (pte_at s) pd v (Some x) a b).
    { apply inv_gen with (x := -1); auto.
      - rewrite KF. split; discriminate.
      - split; discriminate.
      - intros ->. pose proof (i_zf _ _ _ H). congruence. }
    destruct IG as [G1 G2].
    set (s3 := set_te _ p (v mod NPT) (Some x)).
    assert (E3 : te s3 p (v mod NPT) = Some x)
      by (unfold s3, set_te; cbn [te]; rewrite !fupd_same; reflexivity).
    rewrite E3. cbn [p_rw x].
    eexists _, WDone. split; [reflexivity|]. split; [apply inv_dt; exact G1|]. split.
    { intros g NG. cbn [set_dt kd]. unfold s3, set_te, set_rc, set_dt, set_kd; cbn [kd].
      rewrite fupd_other by congruence. reflexivity. }
    split; [exact SEE|].
    eapply (written_of c s _ pd v off y e x H G1 PE G2); auto.
    + intros Z. congruence.
    + rewrite CW. apply orb_true_r.
    + intros o. cbn [x p_f dt]. rewrite fupd_same. reflexivity.
    + intros g o NG. cbn [dt]. rewrite fupd_other by congruence. reflexivity.
Qed.

Lemma block_new_ok c al s :
  inv c (-1) s -> al_ok c al ->
  exists s' r, block_new al s = (s', r) /\ inv c (-1) s' /\
    (forall f, kd s f <> KFree -> kd s' f = kd s f /\ dt s' f = dt s f) /\
    (forall a b, pte_at s' a b = pte_at s a b) /\
    (forall f, r = Some f -> kd s f = KFree /\ kd s' f = KExt /\ forall o, dt s' f o = 0).
Proof.
  intros H AL. unfold block_new. destruct (al s) as [f|] eqn:A.
  2:{ exists s, None. split; [reflexivity|]. split; [exact H|]. split; [auto|]. split; [auto|]. discriminate. }
  destruct (AL _ _ A) as [KF RF].
  destruct (F_free _ _ _ _ _ f (i_f _ _ _ H)) as [R0 FN]; [congruence|congruence|].
  eexists _, (Some f). split; [reflexivity|].
  unfold set_rc, set_dt, set_kd; cbn [kd de te rc dt].
  destruct (inv_kd c (-1) (-1) s f KExt (fupd (rc s) f (rc s f + 1)) (fupd (dt s) f (fun _ => 0)) H)
    as [G1 G2].
  - rewrite KF. split; discriminate.
  - split; discriminate.
  - auto.
  - auto.
  - pose proof (i_f _ _ _ H) as [H1 H2 H3 H4 H5 H6]. constructor; auto.
    + intros a b e E. rewrite fupd_other by (eapply FN; exact E). eauto.
    + intros a b e E R S. rewrite fupd_other by (eapply FN; exact E). eauto.
    + intros g. destruct (H5 g) as (L & P & Q). exists L. split; [exact P|].
      unfold pin in *. destruct (Z.eq_dec g f) as [->|N].
      * rewrite !fupd_same. rewrite KF in Q. lia.
      * rewrite !fupd_other by exact N. exact Q.
    + intros g. destruct (Z.eq_dec g f) as [->|N]; [rewrite fupd_same; discriminate|].
      rewrite !fupd_other by exact N. apply H6.
  - split; [exact G1|]. split.
    { intros g NG. rewrite !fupd_other by congruence. auto. }
    split; [exact G2|]. intros g [= <-]. rewrite !fupd_same. auto.
Qed.

Lemma block_free_ok c s f :
  inv c (-1) s -> kd s f = KExt -> f <> zf c ->
  (forall pd v e, pte_at s pd v = Some e -> p_f e <> f) ->
  exists s', block_free s f = Ok s' /\ inv c (-1) s' /\
    (forall g, g <> f -> kd s' g = kd s g) /\ kd s' f = KFree /\ (forall g, dt s' g = dt s g) /\
    (forall a b, pte_at s' a b = pte_at s a b).
Proof.
  intros H KF NZ FN. unfold block_free. rewrite KF.
  pose proof (i_f _ _ _ H) as Ff.
  assert (R1 : rc s f = 1).
  { destruct (f_rc _ _ _ _ _ Ff f) as (L & [ND I] & R). destruct L as [|[a b] L].
    - rewrite R. unfold pin. rewrite KF. reflexivity.
    - exfalso. destruct (proj1 (I a b)) as (e & E & Q); [left; reflexivity|]. eapply FN; eauto. }
  rewrite R1. cbn [Z.leb Z.compare]. eexists. split; [reflexivity|].
  unfold set_kd, set_rc; cbn [kd de te rc dt].
  destruct (inv_kd c (-1) (-1) s f KFree (fupd (rc s) f (1 - 1)) (dt s) H) as [G1 G2].
  - rewrite KF. split; discriminate.
  - split; discriminate.
  - auto.
  - contradiction.
  - pose proof Ff as [H1 H2 H3 H4 H5 H6]. constructor; auto.
    + intros a b e E. rewrite fupd_other by (eapply FN; exact E). eauto.
    + intros a b e E R S. rewrite fupd_other by (eapply FN; exact E). eauto.
    + intros g. destruct (H5 g) as (L & P & Q). exists L. split; [exact P|].
      unfold pin in *. destruct (Z.eq_dec g f) as [->|N].
      * rewrite !fupd_same. rewrite KF in Q. lia.
      * rewrite !fupd_other by exact N. exact Q.
    + intros g. destruct (Z.eq_dec g f) as [->|N]; [rewrite fupd_same; discriminate|].
      rewrite !fupd_other by exact N. apply H6.
  - split; [exact G1|]. split; [intros g N; apply fupd_other; exact N|].
    split; [apply fupd_same|]. split; [reflexivity|exact G2].
Qed.
