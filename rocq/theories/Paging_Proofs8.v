From Coq Require Import ZArith List Bool Lia.
From Verif Require Import Lib Paging_Model Paging_Spec Paging_Proofs Paging_Proofs2 Paging_Proofs3.
From Verif Require Import Paging_Proofs4 Paging_Proofs5 Paging_Proofs6 Paging_Proofs7.
Import ListNotations.
Open Scope Z_scope.

Lemma t_safe c kp al s o :
  reach c kp s -> al_ok c al -> allowed c kp al s o -> exists s', step c al s o = Ok s'.
Proof.
  intros R AL A. destruct (step_ok c kp al s o (reach_Sinv _ _ _ R) AL A) as (s' & E & _). eauto.
Qed.

Lemma t_counts c kp s f :
  reach c kp s ->
  exists L, places s f L /\ rc s f = zlen L + match kd s f with KExt => 1 | _ => 0 end.
Proof.
  intros R. destruct (f_rc _ _ _ _ _ (i_f _ _ _ (s_i _ _ _ (reach_Sinv _ _ _ R))) f) as (L & P & E).
  exists L. split; [exact P|exact E].
Qed.

Lemma t_pages c kp s f :
  reach c kp s ->
  (kd s f = KPage -> exists pd v e, proc kp s pd /\ pte_at s pd v = Some e /\ p_f e = f) /\
  (forall pd v e, pte_at s pd v = Some e -> p_f e = f ->
     kd s f = KPage \/ kd s f = KExt /\ p_sh e = negb (f =? zf c)).
Proof.
  intros R. pose proof (reach_Sinv _ _ _ R) as [H K D Z]. pose proof (i_f _ _ _ H) as HF. split.
  - intros KF. assert (P : 0 < rc s f).
    { destruct (f_page _ _ _ _ _ HF f KF) as [-> |X]; [|exact X].
      rewrite (inv_m1 _ _ _ H) in KF. discriminate. }
    destruct (f_rc _ _ _ _ _ HF f) as (L & [_ I] & E). unfold pin in E. rewrite KF in E.
    destruct L as [|[pd v] L]; [unfold zlen in E; cbn in E; lia|].
    destruct (proj1 (I pd v)) as (e & PE & Q); [left; reflexivity|].
    exists pd, v, e. split; [|auto].
    unfold pte_at in PE. split.
    + destruct (kd s pd); congruence.
    + intros ->. rewrite K, D in PE. discriminate.
  - intros pd v e PE <-. destruct (f_kind _ _ _ _ _ HF _ _ _ PE) as [X|[X [(Y & -> & _)|(Y & ->)]]]; [auto| |].
    + right. split; [exact X|]. rewrite Y, Z.eqb_refl. reflexivity.
    + right. split; [exact X|]. destruct (Z.eqb_spec (p_f e) (zf c)); [contradiction|reflexivity].
Qed.

Lemma t_private c kp s pd v e :
  reach c kp s -> pte_at s pd v = Some e -> p_rw e = true -> p_sh e = false ->
  kd s (p_f e) = KPage /\
  forall pd' v' e', pte_at s pd' v' = Some e' -> p_f e' = p_f e -> pd' = pd /\ v' = v.
Proof.
  intros R PE W SH. pose proof (reach_Sinv _ _ _ R) as [H K D Z]. pose proof (i_f _ _ _ H) as HF. split.
  - destruct (f_kind _ _ _ _ _ HF _ _ _ PE) as [X|[X [(_ & _ & Y)|(_ & Y)]]]; congruence.
  - intros pd' v' e' PE' Q. apply (F_one _ _ _ _ _ _ _ _ _ _ _ HF PE PE' Q).
    eapply (f_rw _ _ _ _ _ HF); eassumption.
Qed.

Lemma t_tables c kp s p :
  reach c kp s -> kd s p = KPt ->
  exists pd i, proc kp s pd /\ 0 <= i < NPD /\ de s pd i = Some p /\
    forall pd' i', kd s pd' = KPd -> de s pd' i' = Some p -> pd' = pd /\ i' = i.
Proof.
  intros R KP. pose proof (reach_Sinv _ _ _ R) as [H K D Z]. pose proof (i_t _ _ _ H) as HT.
  destruct (t_pt _ _ HT p KP) as (pd & i & KD & X). exists pd, i. split.
  - split; [exact KD|]. intros ->. rewrite D in X. discriminate.
  - split; [apply (t_de _ _ HT _ _ _ KD X)|]. split; [exact X|]. intros pd' i' K' X'.
    destruct (t_own _ _ HT _ _ _ _ _ KD K' X X'). auto.
Qed.

Lemma t_zero c kp s o : reach c kp s -> dt s (zf c) o = 0.
Proof. intros R. apply (s_zero _ _ _ (reach_Sinv _ _ _ R)). Qed.

Lemma t_no_leak c kp s :
  reach c kp s -> (forall pd, kd s pd = KPd -> pd = kp) ->
  forall f, (f = kp \/ kd s f = KFree \/ kd s f = KExt) /\
            rc s f = match kd s f with KExt => 1 | _ => 0 end.
Proof.
  intros R O f. pose proof (reach_Sinv _ _ _ R) as [H K D Z].
  assert (NT : forall p, kd s p <> KPt).
  { intros p KP. destruct (t_tables _ _ _ _ R KP) as (pd & i & [KD N] & _). apply N. auto. }
  assert (NP : forall pd v, pte_at s pd v = None).
  { intros pd v. unfold pte_at. destruct (kd s pd) eqn:KD; try reflexivity. rewrite (O _ KD), D. reflexivity. }
  split.
  - destruct (kd s f) eqn:KF; auto.
    + exfalso. destruct (proj1 (t_pages _ _ _ f R) KF) as (pd & v & e & _ & X & _). rewrite NP in X. discriminate.
    + exfalso. eapply NT; exact KF.
  - destruct (t_counts _ _ _ f R) as (L & [_ I] & E). rewrite E. destruct L as [|[a b] L]; [reflexivity|].
    destruct (proj1 (I a b)) as (e & X & _); [left; reflexivity|]. rewrite NP in X. discriminate.
Qed.

Lemma t_write c kp al s pd v off y :
  reach c kp s -> al_ok c al -> proc kp s pd ->
  exists s' r, write c al s pd v off y = Ok (s', r) /\
    match r with
    | WDone => (exists sh z, see s pd v off = Some (true, sh, z)) /\ written s s' pd v off y
    | WFault => s' = s /\ forall o sh z, see s pd v o <> Some (true, sh, z)
    | WNoMem => s' = s /\ exists sh z, see s pd v off = Some (true, sh, z)
    end.
Proof.
  intros R AL [K _].
  destruct (write_ok c al s pd v off y (s_i _ _ _ (reach_Sinv _ _ _ R)) AL K) as (s' & r & E & _ & _ & G).
  eauto.
Qed.

Lemma t_fork c kp al s pd s' new :
  reach c kp s -> al_ok c al -> clone c al s pd = Ok (s', Some new) ->
  kd s pd = KPd /\ kd s new = KFree /\ kd s' new = KPd /\
  (forall v off, see s' new v off = see s pd v off) /\
  (forall a v off, kd s a = KPd -> kd s' a = KPd /\ see s' a v off = see s a v off).
Proof.
  intros R AL E. pose proof (s_i _ _ _ (reach_Sinv _ _ _ R)) as H.
  assert (K : kd s pd = KPd) by (unfold clone in E; destruct (kd s pd); congruence).
  split; [exact K|].
  destruct (clone_ok c al s pd H AL K) as (s1 & r & E1 & _ & G). rewrite E1 in E. injection E as <- ->.
  destruct (G new eq_refl) as (H' & KF & KN & KK & DD & P1 & P2 & P3).
  split; [exact KF|]. split; [exact KN|]. split.
  - intros v off. eapply see_mark; [apply P2|exact DD|exact H].
  - intros a v off KA. split; [rewrite KK; [exact KA|congruence]|].
    destruct (Z.eq_dec a pd) as [->|NA]; [eapply see_mark; [apply P1|exact DD|exact H]|].
    apply (keep_same c); [exact H| |intros f _; apply DD]. apply P3; congruence.
Qed.

Lemma keep_trans s s1 s2 a b : keep s s1 a b -> keep s1 s2 a b -> keep s s2 a b.
Proof.
  intros A B off. specialize (A off). specialize (B off).
  destruct (see s a b off) as [[[w sh] z]|].
  - destruct A as (z1 & E1 & Q1). rewrite E1 in B. destruct B as (z2 & E2 & Q2). exists z2.
    split; [exact E2|]. intros N. rewrite Q2, Q1; auto.
  - rewrite A in B. exact B.
Qed.

Lemma runs_keep c kp l s s' : runs c kp l s s' -> Sinv c kp s -> forall a b,
  kd s a = KPd -> ~ In (OExit a) l -> (forall o, In o l -> ~ touches o a b) ->
  kd s' a = KPd /\ keep s s' a b.
Proof.
  induction 1 as [|o l al s s1 s2 AL A E R IH]; intros H a b K NE NT.
  - split; [exact K|]. apply keep_of. reflexivity.
  - destruct (step_ok c kp al s o H AL A) as (s' & E' & H' & KK & P).
    rewrite E in E'. injection E' as <-.
    destruct (IH H' a b) as [K2 P2].
    + apply KK; [exact K|]. intros ->. apply NE. left; reflexivity.
    + intros X. apply NE. right; exact X.
    + intros o' X. apply NT. right; exact X.
    + split; [exact K2|]. eapply keep_trans; [|exact P2]. apply P; [exact K|]. apply NT. left; reflexivity.
Qed.

Lemma t_isolated c kp l s s' pd v :
  reach c kp s -> runs c kp l s s' -> kd s pd = KPd ->
  ~ In (OExit pd) l -> (forall o, In o l -> ~ touches o pd v) ->
  kd s' pd = KPd /\
  forall off, match see s pd v off with
              | None => see s' pd v off = None
              | Some (w, sh, z) => exists z', see s' pd v off = Some (w, sh, z') /\ (sh = None -> z' = z)
              end.
Proof. intros R RU K NE NT. exact (runs_keep _ _ _ _ _ RU (reach_Sinv _ _ _ R) pd v K NE NT). Qed.

Lemma runs_app c kp l l' s s1 s2 : runs c kp l s s1 -> runs c kp l' s1 s2 -> runs c kp (l ++ l') s s2.
Proof.
  induction 1 as [|o l al s sa sb AL A E R IH]; intros R'; [exact R'|].
  cbn [app]. econstructor; eauto.
Qed.

Lemma reach_step c kp al s o s' :
  reach c kp s -> al_ok c al -> allowed c kp al s o -> step c al s o = Ok s' -> reach c kp s'.
Proof.
  intros (s0 & l & I0 & R) AL A E. exists s0, (l ++ [o]). split; [exact I0|].
  eapply runs_app; [exact R|]. econstructor; [exact AL|exact A|exact E|constructor].
Qed.

Lemma t_snapshot c kp al s pd s1 new l s2 v off w z :
  reach c kp s -> al_ok c al -> clone c al s pd = Ok (s1, Some new) ->
  runs c kp l s1 s2 -> see s pd v off = Some (w, None, z) ->
  (~ In (OExit new) l -> (forall o, In o l -> ~ touches o new v) ->
   see s2 new v off = Some (w, None, z)) /\
  (~ In (OExit pd) l -> (forall o, In o l -> ~ touches o pd v) ->
   see s2 pd v off = Some (w, None, z)).
Proof.
  intros R AL E RU S.
  destruct (t_fork _ _ _ _ _ _ _ R AL E) as (K & KF & KN & S1 & S2).
  assert (R1 : reach c kp s1).
  { eapply (reach_step _ _ _ _ (OFork pd)); [exact R|exact AL| |].
    - split; [exact K|]. intros s' X. congruence.
    - cbn [step]. rewrite E. reflexivity. }
  split; intros NE NT.
  - destruct (t_isolated _ _ _ _ _ _ _ R1 RU KN NE NT) as [_ P]. specialize (P off).
    rewrite S1, S in P. destruct P as (z' & P & Q). rewrite P, (Q eq_refl). reflexivity.
  - destruct (S2 pd v off K) as [K1 SP].
    destruct (t_isolated _ _ _ _ _ _ _ R1 RU K1 NE NT) as [_ P]. specialize (P off).
    rewrite SP, S in P. destruct P as (z' & P & Q). rewrite P, (Q eq_refl). reflexivity.
Qed.

Lemma see_upd s' pd v x : pte_at s' pd v = x -> forall off, see s' pd v off =
  match x with
  | None => None
  | Some e => Some (p_rw e || p_cow e, if p_sh e then Some (p_f e) else None, dt s' (p_f e) off)
  end.
Proof. intros <- off. reflexivity. Qed.

Lemma t_map_new c kp al s pd v rw sh zero :
  reach c kp s -> al_ok c al -> proc kp s pd -> user v ->
  exists s' r, map_new c al s pd v rw sh zero = Ok (s', r) /\
    (forall a b off, kd s a = KPd -> a <> pd \/ b <> v \/ r <> 0 -> see s' a b off = see s a b off) /\
    (r = 0 /\ pte_at s pd v = None /\
     (exists f, kd s f = KFree /\ kd s' f = KPage /\
        forall off, exists z, see s' pd v off = Some (rw, if sh then Some f else None, z) /\
                              (zero = true -> z = 0))
     \/ r = EADDRINUSE /\ pte_at s pd v <> None \/ r = ENOMEM).
Proof.
  intros R AL [K _] U. pose proof (s_i _ _ _ (reach_Sinv _ _ _ R)) as H.
  destruct (map_new_ok c al s pd v rw sh zero H AL K U) as (s' & r & E & H' & KK & G).
  exists s', r. split; [exact E|]. split.
  - intros a b off KA N. apply (keep_same c); [exact H| |intros f NF; apply KK; exact NF].
    destruct G as [(R0 & _ & f & _ & _ & _ & _ & P)|(_ & P)]; rewrite P; [|reflexivity].
    apply upd2_other. destruct N as [N|[N|N]]; [left; exact N|right; exact N|contradiction].
  - destruct G as [(R0 & PN & f & KF & KF' & _ & ZZ & P)|(G & _)].
    + left. split; [exact R0|]. split; [exact PN|]. exists f. split; [exact KF|]. split; [exact KF'|].
      intros off. rewrite (see_upd s' pd v (Some (Pte f rw false sh))).
      * cbn [p_rw p_cow p_sh p_f]. rewrite orb_false_r. exists (dt s' f off). split; [reflexivity|]. auto.
      * rewrite P. apply upd2_same.
    + right. exact G.
Qed.

Lemma t_map_zero c kp al s pd v rw :
  reach c kp s -> al_ok c al -> proc kp s pd -> user v ->
  exists s' r, map_zero c al s pd v rw = Ok (s', r) /\
    (forall a b off, kd s a = KPd -> a <> pd \/ b <> v \/ r <> 0 -> see s' a b off = see s a b off) /\
    (r = 0 /\ pte_at s pd v = None /\ (forall off, see s' pd v off = Some (rw, None, 0))
     \/ r = EADDRINUSE /\ pte_at s pd v <> None \/ r = ENOMEM /\ pte_at s pd v = None).
Proof.
  intros R AL [K _] U. pose proof (s_i _ _ _ (reach_Sinv _ _ _ R)) as H.
  destruct (map_zero_ok c al s pd v rw H AL K U) as (s' & r & E & H' & DD & KK & G).
  exists s', r. split; [exact E|]. split.
  - intros a b off KA N. apply (keep_same c); [exact H| |intros f NF; apply DD].
    destruct G as [(R0 & _ & P)|(_ & P)]; rewrite P; [|reflexivity].
    apply upd2_other. destruct N as [N|[N|N]]; [left; exact N|right; exact N|contradiction].
  - destruct G as [(R0 & PN & P)|(G & _)].
    + left. split; [exact R0|]. split; [exact PN|].
      intros off. rewrite (see_upd s' pd v (Some (Pte (zf c) false rw false))).
      * cbn [p_rw p_cow p_sh p_f]. rewrite DD, (t_zero _ _ _ off R). reflexivity.
      * rewrite P. apply upd2_same.
    + right. exact G.
Qed.

Lemma t_map_ext c kp al s pd v f rw :
  reach c kp s -> al_ok c al -> proc kp s pd -> user v -> kd s f = KExt -> f <> zf c ->
  exists s' r, map_ext c al s pd v f rw = Ok (s', r) /\
    (forall a b off, kd s a = KPd -> a <> pd \/ b <> v \/ r <> 0 -> see s' a b off = see s a b off) /\
    (r = 0 /\ pte_at s pd v = None /\ (forall off, see s' pd v off = Some (rw, Some f, dt s f off))
     \/ r = EADDRINUSE /\ pte_at s pd v <> None \/ r = ENOMEM /\ pte_at s pd v = None).
Proof.
  intros R AL [K _] U KE NZ. pose proof (s_i _ _ _ (reach_Sinv _ _ _ R)) as H.
  destruct (map_ext_ok c al s pd v f rw H AL K U KE NZ) as (s' & r & E & H' & DD & KK & G).
  exists s', r. split; [exact E|]. split.
  - intros a b off KA N. apply (keep_same c); [exact H| |intros g NF; apply DD].
    destruct G as [(R0 & _ & P)|(_ & P)]; rewrite P; [|reflexivity].
    apply upd2_other. destruct N as [N|[N|N]]; [left; exact N|right; exact N|contradiction].
  - destruct G as [(R0 & PN & P)|(G & _)].
    + left. split; [exact R0|]. split; [exact PN|].
      intros off. rewrite (see_upd s' pd v (Some (Pte f rw false true))).
      * cbn [p_rw p_cow p_sh p_f]. rewrite DD, orb_false_r. reflexivity.
      * rewrite P. apply upd2_same.
    + right. exact G.
Qed.

Lemma t_unmap c kp s pd v fr perm :
  reach c kp s -> proc kp s pd ->
  (perm = true \/ pte_at s pd v <> None) ->
  (fr = true \/ forall e, pte_at s pd v = Some e -> kd s (p_f e) = KExt) ->
  exists s' r, unmap c s pd v fr perm = Ok (s', r) /\
    (r = if pte_at s pd v then 0 else EINVAL) /\
    (forall off, see s' pd v off = None) /\
    (forall a b off, kd s a = KPd -> a <> pd \/ b <> v -> see s' a b off = see s a b off).
Proof.
  intros R [K _] PM FR. pose proof (s_i _ _ _ (reach_Sinv _ _ _ R)) as H.
  destruct (unmap_ok c s pd v fr perm H K PM FR) as (s' & r & E & H' & DD & KK & P & RR).
  exists s', r. split; [exact E|]. split; [exact RR|]. split.
  - intros off. rewrite (see_upd s' pd v None); [reflexivity|]. rewrite P. apply upd2_same.
  - intros a b off KA N. apply (keep_same c); [exact H| |intros g NF; apply DD].
    rewrite P. apply upd2_other. exact N.
Qed.

Lemma t_exit c kp s pd :
  reach c kp s -> proc kp s pd ->
  exists s', destroy c s pd = Ok s' /\ kd s' pd = KFree /\
    (forall a b off, kd s a = KPd -> a <> pd -> kd s' a = KPd /\ see s' a b off = see s a b off).
Proof.
  intros R [K _]. pose proof (s_i _ _ _ (reach_Sinv _ _ _ R)) as H.
  destruct (destroy_ok c s pd H K) as (s' & E & H' & KF & KK & DD & P).
  exists s'. split; [exact E|]. split; [exact KF|]. intros a b off KA N. split.
  - destruct (KK a N) as [->|[[X|X] _]]; congruence.
  - apply (keep_same c); [exact H| |intros g NF; apply DD]. apply P. exact N.
Qed.

(* the exact count when all mappings of a page go *)
Lemma t_freed c kp s f :
  reach c kp s -> kd s f = KFree \/ kd s f = KPt \/ kd s f = KPd ->
  rc s f = 0 /\ forall pd v e, pte_at s pd v = Some e -> p_f e <> f.
Proof.
  intros R KF. pose proof (s_i _ _ _ (reach_Sinv _ _ _ R)) as H.
  apply (F_free _ _ _ _ _ _ (i_f _ _ _ H)); destruct KF as [->|[-> | ->]]; discriminate.
Qed.
