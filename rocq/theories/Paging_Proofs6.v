From Coq Require Import ZArith List Bool Lia.
From Verif Require Import Lib Paging_Model Paging_Spec Paging_Proofs Paging_Proofs2 Paging_Proofs3.
From Verif Require Import Paging_Proofs5.
Import ListNotations.
Open Scope Z_scope.

(* out of memory: what is given back was allocated *)
Lemma undo_ok pd (new : Z) : forall d s,
  NoDup d ->
  (forall i p, In i d -> de s pd i = Some p -> kd s p = KPt) ->
  (forall i i' p, de s pd i = Some p -> de s pd i' = Some p -> i = i') ->
  kd s new = KPd ->
  exists s', clone_undo s pd d = Ok s' /\ kd s' new = KPd.
Proof.
  induction d as [|i d IH]; intros s ND KP IJ KN; cbn [clone_undo]; [eauto|].
  apply NoDup_cons_iff in ND. destruct ND as [NI ND].
  destruct (de s pd i) as [p|] eqn:D.
  - pose proof (KP i p (or_introl eq_refl) D) as KD. unfold kfree. rewrite KD. cbn [bind].
    apply IH; auto.
    + intros k q IK X. cbn [set_kd kd de] in *. rewrite fupd_other.
      * eapply KP; [right; exact IK|exact X].
      * intros ->. assert (k = i) by (eapply IJ; eassumption). congruence.
    + cbn [set_kd kd]. rewrite fupd_other by congruence. exact KN.
  - apply IH; auto. intros k q IK. apply KP. right; exact IK.
Qed.

Record rela (pd new : Z) (l : list Z) (s g : st) : Prop := {
  a_kd : forall f, kd s f = kd g f;
  a_de : forall x i, x <> new -> de s x i = de g x i;
  a_dn : forall i, ~ In i l -> de s new i = de g new i;
  a_dl : forall i, In i l -> de g new i = None /\ de s new i = de s pd i;
  a_iff : forall i, ~ In i l -> (de g new i = None <-> de g pd i = None);
  a_te : forall p j, ~ (exists i, de g new i = Some p) -> te s p j = te g p j;
  a_tn : forall i q j, de g new i = Some q -> te g q j = None;
  a_rc : forall f, rc s f = rc g f;
  a_dt : forall f, dt s f = dt g f }.

Lemma alloc_loop c al pd new : al_ok c al -> pd <> new -> forall l d s g,
  NoDup (d ++ l) -> (forall i, In i l -> 0 <= i < NPD) -> inv c (-1) g -> rela pd new l s g ->
  kd g pd = KPd -> kd g new = KPd ->
  exists s' r, clone_alloc al s pd new l d = Ok (s', r) /\
    (r = true -> exists g', inv c (-1) g' /\ rela pd new [] s' g' /\
       (forall f, kd g f <> KFree -> kd g' f = kd g f) /\
       (forall f, dt g' f = dt g f) /\
       (forall i, de g' pd i = de g pd i) /\
       (forall a b, pte_at g' a b = pte_at g a b)).
Proof.
  intros AL N l. induction l as [|i l IH]; intros d s g ND RG H R K K'; cbn [clone_alloc].
  - exists s, true. split; [reflexivity|]. intros _. exists g. auto 10.
  - assert (NL : ~ In i l /\ NoDup (i :: d ++ l)).
    { split.
      - apply NoDup_remove_2 in ND. intros I. apply ND. apply in_or_app. right; exact I.
      - apply NoDup_remove in ND. destruct ND. constructor; assumption. }
    destruct NL as [NL ND'].
    pose proof (i_t _ _ _ H) as HT.
    assert (KE : forall f, kd s f = kd g f) by apply R.
    assert (DE : de s pd i = de g pd i) by (apply (a_de _ _ _ _ _ R); exact N).
    destruct (a_dl _ _ _ _ _ R i (or_introl eq_refl)) as [DG DS].
    destruct (de s pd i) as [p0|] eqn:D.
    + destruct (al s) as [p|] eqn:A.
      * destruct (AL _ _ A) as [KF RF]. rewrite KE in KF.
        assert (I : 0 <= i < NPD) by (apply RG; left; reflexivity).
        pose proof (inv_add c (-1) g new i p H K' DG KF I RF) as H1.
        assert (PN : p <> new) by congruence.
        assert (PD : p <> pd) by congruence.
        assert (FR : forall x k, kd g x = KPd -> de g x k <> Some p).
        { intros x k KX X. destruct (t_de _ _ HT _ _ _ KX X). congruence. }
        destruct (IH (i :: d) (set_de (set_kd s p KPt) new i (Some p)) (add_pt g new i p))
          as (s' & r & E & G).
        -- exact ND'.
        -- intros k IK. apply RG. right; exact IK.
        -- exact H1.
        -- destruct R as [R1 R2 R3 R4 R5 R6 R7 R8 R9].
           constructor; unfold set_de, set_kd, add_pt; cbn [kd de te rc dt]; auto.
           ++ intros f. unfold fupd. destruct (f =? p); [reflexivity|apply R1].
           ++ intros x k NX. rewrite !fupd_other by exact NX. apply R2. exact NX.
           ++ intros k NK. rewrite !fupd_same. destruct (Z.eq_dec k i) as [->|NI].
              ** rewrite !fupd_same. reflexivity.
              ** rewrite !fupd_other by exact NI. apply R3. intros [X|X]; [congruence|contradiction].
           ++ intros k IK. assert (k <> i) by congruence. rewrite !fupd_same.
              rewrite !fupd_other by assumption.
              apply R4. right; exact IK.
           ++ intros k NK. rewrite fupd_same. rewrite (fupd_other _ _ _ pd) by congruence.
              destruct (Z.eq_dec k i) as [->|NI].
              ** rewrite fupd_same. split; [discriminate|]. congruence.
              ** rewrite fupd_other by exact NI. apply R5. intros [X|X]; [congruence|contradiction].
           ++ intros q j NQ. assert (q <> p).
              { intros ->. apply NQ. exists i. rewrite !fupd_same. reflexivity. }
              rewrite fupd_other by assumption. apply R6. intros (k & X). apply NQ. exists k.
              rewrite fupd_same. rewrite fupd_other; [exact X|]. intros ->. congruence.
           ++ intros k q j. rewrite fupd_same. destruct (Z.eq_dec k i) as [->|NI].
              ** rewrite fupd_same. intros [= <-]. rewrite fupd_same. reflexivity.
              ** rewrite fupd_other by exact NI. intros X.
                 rewrite fupd_other; [eapply R7; exact X|]. intros ->. eapply FR; eauto.
        -- cbn [add_pt kd]. rewrite fupd_other by congruence. exact K.
        -- cbn [add_pt kd]. rewrite fupd_other by congruence. exact K'.
        -- exists s', r. split; [exact E|]. intros T'. destruct (G T') as (g' & B1 & B2 & B3 & B4 & B5 & B6).
           exists g'. split; [exact B1|]. split; [exact B2|]. split.
           { intros f NF. rewrite B3; cbn [add_pt kd]; rewrite fupd_other by congruence; auto. }
           split; [intros f; rewrite B4; reflexivity|]. split.
           { intros k. rewrite B5. cbn [add_pt de]. rewrite fupd_other by exact N. reflexivity. }
           intros a b. rewrite B6. eapply pte_add; eassumption.
      * assert (UO : exists s1, clone_undo s pd d = Ok s1 /\ kd s1 new = KPd).
        { apply undo_ok.
          - apply NoDup_remove_1 in ND. clear -ND. induction d as [|y d IHd]; [constructor|].
            cbn in ND. apply NoDup_cons_iff in ND. destruct ND as [X Y]. constructor; [|auto].
            intros Z. apply X. apply in_or_app. left; exact Z.
          - intros k q _ X. rewrite (a_de _ _ _ _ _ R) in X by exact N. rewrite KE.
            apply (t_de _ _ HT _ _ _ K X).
          - intros k k' q X Y. rewrite (a_de _ _ _ _ _ R) in X by exact N.
            rewrite (a_de _ _ _ _ _ R) in Y by exact N.
            apply (t_own _ _ HT _ _ _ _ _ K K X Y).
          - rewrite KE. exact K'. }
        destruct UO as (s1 & E1 & K1). rewrite E1. cbn [bind]. unfold kfree. rewrite K1. cbn [bind].
        eexists _, false. split; [reflexivity|]. discriminate.
    + destruct (IH (i :: d) s g) as (s' & r & E & G); try assumption.
      * intros k IK. apply RG. right; exact IK.
      * destruct R as [R1 R2 R3 R4 R5 R6 R7 R8 R9]. constructor; auto.
        -- intros k NK. destruct (Z.eq_dec k i) as [->|NI].
           ++ rewrite DG, DS. reflexivity.
           ++ apply R3. intros [X|X]; [congruence|contradiction].
        -- intros k IK. apply R4. right; exact IK.
        -- intros k NK. destruct (Z.eq_dec k i) as [->|NI].
           ++ rewrite DG, <- DE. split; reflexivity.
           ++ apply R5. intros [X|X]; [congruence|contradiction].
      * exists s', r. split; [exact E|exact G].
Qed.

Lemma clone_ok c al s pd :
  inv c (-1) s -> al_ok c al -> kd s pd = KPd ->
  exists s' r, clone c al s pd = Ok (s', r) /\
    (al s = None -> s' = s /\ r = None) /\
    forall new, r = Some new ->
      inv c (-1) s' /\ kd s new = KFree /\ kd s' new = KPd /\
      (forall f, kd s f <> KFree -> kd s' f = kd s f) /\
      (forall f, dt s' f = dt s f) /\
      (forall b, pte_at s' pd b = omark (pte_at s pd b)) /\
      (forall b, pte_at s' new b = omark (pte_at s pd b)) /\
      (forall a b, a <> pd -> a <> new -> pte_at s' a b = pte_at s a b).
Proof.
  intros H AL K. unfold clone. rewrite K. destruct (al s) as [new|] eqn:A.
  2:{ exists s, None. split; [reflexivity|]. split; [auto|]. discriminate. }
  destruct (AL _ _ A) as [KN RN]. assert (N : pd <> new) by congruence.
  pose proof (i_t _ _ _ H) as HT.
  pose proof (inv_addpd c (-1) s new H KN RN) as H0.
  assert (P0 : forall a b, pte_at (add_pd s new) a b = pte_at s a b)
    by (intros; eapply pte_addpd; eassumption).
  set (s1 := St _ _ _ _ _).
  destruct (alloc_loop c al pd new AL N (idx NPD) [] s1 (add_pd s new)) as (s2 & r & E & G).
  - apply nodup_idx.
  - intros i. apply in_idx.
  - exact H0.
  - constructor; unfold s1, set_kd, add_pd; cbn [kd de te rc dt]; auto.
    + intros x i NX. rewrite !fupd_other by exact NX. reflexivity.
    + intros i NI. rewrite !fupd_same. destruct (de s pd i) as [p|] eqn:D; [|reflexivity].
      exfalso. apply NI. apply in_idx. apply (t_de _ _ HT _ _ _ K D).
    + intros i _. rewrite !fupd_same. rewrite (fupd_other _ _ _ pd) by exact N. auto.
    + intros i NI. rewrite fupd_same. rewrite (fupd_other _ _ _ pd) by exact N. split; [|reflexivity].
      intros _. destruct (de s pd i) as [p|] eqn:D; [|reflexivity].
      exfalso. apply NI. apply in_idx. apply (t_de _ _ HT _ _ _ K D).
    + intros i q j. rewrite fupd_same. discriminate.
  - cbn [add_pd kd]. rewrite fupd_other by exact N. exact K.
  - cbn [add_pd kd]. apply fupd_same.
  - rewrite E. cbn [bind]. destruct r; cbn [negb].
    2:{ exists s2, None. split; [reflexivity|]. split; [discriminate|]. discriminate. }
    destruct (G eq_refl) as (g & B1 & B2 & B3 & B4 & B5 & B6).
    assert (Kg : kd g pd = KPd).
    { rewrite B3; cbn [add_pd kd]; rewrite fupd_other by exact N; [exact K|congruence]. }
    assert (Kn : kd g new = KPd).
    { rewrite B3; cbn [add_pd kd]; rewrite fupd_same; [reflexivity|discriminate]. }
    pose proof (i_t _ _ _ B1) as GT.
    destruct B2 as [R1 R2 R3 R4 R5 R6 R7 R8 R9].
    destruct (pts_loop c pd new N (idx NPD) s2 g (nodup_idx _) B1) as
      (s3 & g' & C1 & C2 & C3 & C4 & C5 & C6 & C7 & C8).
    + constructor; auto.
      * intros x i. destruct (Z.eq_dec x new) as [->|NX]; [apply R3; intros []|apply R2; exact NX].
      * intros p j NU. apply R6. intros (i & X). apply NU. exists i. split; [|exact X].
        apply in_idx. apply (t_de _ _ GT _ _ _ Kn X).
    + exact Kg.
    + exact Kn.
    + intros i. apply R5. intros [].
    + intros i q j _. apply R7.
    + rewrite C1. cbn [bind]. exists s3, (Some new). split; [reflexivity|]. split; [discriminate|].
      intros n [= <-].
      assert (EV : eqv s3 g').
      { destruct C3 as [X1 X2 X3 X4 X5]. constructor; auto. intros f o. rewrite X5. reflexivity. }
      pose proof (i_t _ _ _ C2) as GT'.
      split; [eapply inv_eqv; eassumption|]. split; [exact KN|].
      split; [rewrite (e_kd _ _ EV), C4; exact Kn|].
      assert (KK : forall f, kd s f <> KFree -> kd g' f = kd s f).
      { intros f NF. assert (f <> new) by congruence.
        rewrite C4, B3; cbn [add_pd kd]; rewrite fupd_other by assumption; auto. }
      split; [intros f NF; rewrite (e_kd _ _ EV); apply KK; exact NF|].
      split.
      { intros f. destruct C3 as [X1 X2 X3 X4 X5]. rewrite X5, C6, B4. reflexivity. }
      assert (Kg' : kd g' pd = KPd) by (rewrite C4; exact Kg).
      assert (Kn' : kd g' new = KPd) by (rewrite C4; exact Kn).
      assert (DI : forall x i p, kd g x = KPd -> de g x i = Some p -> In i (idx NPD))
        by (intros x i p KX X; apply in_idx; apply (t_de _ _ GT _ _ _ KX X)).
      assert (PP : forall b, pte_at g' pd b = omark (pte_at s pd b) /\ pte_at g' new b = pte_at g' pd b).
      { intros b. rewrite <- P0, <- B6.
        rewrite !(pte_at_of c g') by assumption. rewrite (pte_at_of c g) by assumption. rewrite !C5.
        destruct (de g pd (b / NPT)) as [p|] eqn:D.
        - destruct (de g new (b / NPT)) as [q|] eqn:D'.
          + destruct (C7 _ _ _ (DI _ _ _ Kg D) D D' (b mod NPT)) as [Y1 Y2].
            rewrite Y1, Y2, Y1. auto.
          + apply R5 in D'; [congruence|intros []].
        - apply R5 in D; [|intros []]. rewrite D. auto. }
      split; [intros b; rewrite (eqv_pte _ _ _ _ EV); apply PP|].
      split; [intros b; rewrite (eqv_pte _ _ _ _ EV), (proj2 (PP b)); apply PP|].
      intros a b NA NB. rewrite (eqv_pte _ _ _ _ EV), <- P0, <- B6.
      unfold pte_at. rewrite C4. destruct (kd g a) eqn:KA; try reflexivity. rewrite C5.
      destruct (de g a (b / NPT)) as [r|] eqn:D; [|reflexivity]. rewrite C4.
      destruct (t_de _ _ GT _ _ _ KA D) as [_ ->]. apply C8.
      intros i _. split; intros X.
      * destruct (t_own _ _ GT _ _ _ _ _ KA Kg D X). contradiction.
      * destruct (t_own _ _ GT _ _ _ _ _ KA Kn D X). contradiction.
Qed.

(* destroying *)
Definition lost (s s' : st) : Prop :=
  forall f, kd s' f = kd s f \/ (kd s f = KPage \/ kd s f = KPt \/ kd s f = KPd) /\ kd s' f = KFree.

Lemma destroy_pt_ok c pd i p : forall l s g,
  NoDup l -> (forall j, In j l -> 0 <= j < NPT) -> inv c (-1) g ->
  kd g pd = KPd -> de g pd i = Some p ->
  (forall f, kd s f = kd g f) -> (forall f, rc s f = rc g f) -> (forall f, dt s f = dt g f) ->
  (forall j, In j l -> te s p j = te g p j) -> (forall j, ~ In j l -> te g p j = None) ->
  exists s' g', destroy_pt c s p l = Ok s' /\ inv c (-1) g' /\
    (forall f, kd s' f = kd g' f) /\ (forall f, rc s' f = rc g' f) /\
    (forall f, dt s' f = dt s f) /\ (forall f, dt g' f = dt g f) /\
    (forall x i, de s' x i = de s x i) /\ (forall x j, te s' x j = te s x j) /\
    (forall x i, de g' x i = de g x i) /\ (forall x j, x <> p -> te g' x j = te g x j) /\
    (forall j, te g' p j = None) /\
    (forall f, kd g' f = kd g f \/ kd g f = KPage /\ kd g' f = KFree) /\
    (forall a b, a <> pd -> pte_at g' a b = pte_at g a b).
Proof.
  induction l as [|j l IH]; intros s g ND RG H K D SK SR SD TI TN.
  - exists s, g. cbn [destroy_pt]. split; [reflexivity|]. split; [exact H|].
    do 8 (split; [auto|]). split; [intros j; apply TN; intros []|]. split; auto.
  - apply NoDup_cons_iff in ND. destruct ND as [NI ND]. cbn [destroy_pt].
    assert (J : 0 <= j < NPT) by (apply RG; left; reflexivity).
    rewrite TI by (left; reflexivity).
    destruct (te g p j) as [e|] eqn:E.
    + set (v := i * NPT + j).
      assert (VI : v / NPT = i) by (apply div_ij; exact J).
      assert (VJ : v mod NPT = j) by (apply mod_ij; exact J).
      destruct (clr_ok c g pd v p e (dt g) H K) as (G1 & G2 & RM & RP & LAST);
        [rewrite VI; exact D|rewrite VJ; exact E|]. cbv zeta in G1, G2. rewrite VJ in G1, G2.
      rewrite rc_dec_ram by (rewrite ?SR; lia). cbn [bind]. rewrite SR.
      set (g1 := St _ _ _ _ _) in G1, G2.
      assert (KO : rc g (p_f e) - 1 = 0 -> kd g (p_f e) = KPage) by (intros Z; apply (LAST Z)).
      set (s1 := if rc g (p_f e) - 1 =? 0 then set_kd (set_rc s (p_f e) (rc g (p_f e) - 1)) (p_f e) KFree
                 else set_rc s (p_f e) (rc g (p_f e) - 1)).
      assert (ST : (if rc g (p_f e) - 1 =? 0
                    then bnd s <- kfree (set_rc s (p_f e) (rc g (p_f e) - 1)) (p_f e); destroy_pt c s p l
                    else destroy_pt c (set_rc s (p_f e) (rc g (p_f e) - 1)) p l) = destroy_pt c s1 p l).
      { unfold s1. destruct (Z.eqb_spec (rc g (p_f e) - 1) 0) as [Z|Z]; [|reflexivity].
        unfold kfree. cbn [set_rc kd]. rewrite SK, (KO Z). reflexivity. }
      rewrite ST. clear ST.
      assert (KP : kd g (p_f e) <> KPd /\ kd g (p_f e) <> KPt).
      { assert (PE : pte_at g pd v = Some e)
          by (rewrite (pte_at_of c) by (try exact K; apply (i_t _ _ _ H)); rewrite VI, VJ, D; exact E).
        destruct (f_kind _ _ _ _ _ (i_f _ _ _ H) _ _ _ PE) as [->|[-> _]]; split; discriminate. }
      destruct (IH s1 g1 ND) as (s' & g' & A1 & A2 & A3 & A4 & A5 & A6 & A7 & A8 & A9 & A10 & A11 & A12 & A13).
      * intros k IK. apply RG. right; exact IK.
      * exact G1.
      * unfold g1; cbn [kd]. rewrite fupd_other by (intros ->; tauto). exact K.
      * exact D.
      * intros f. unfold s1, g1; cbn [kd].
        destruct (Z.eq_dec f (p_f e)) as [->|NF].
        -- rewrite fupd_same. destruct (rc g (p_f e) - 1 =? 0); cbn [set_kd set_rc kd]; [apply fupd_same|apply SK].
        -- rewrite fupd_other by exact NF. destruct (rc g (p_f e) - 1 =? 0); cbn [set_kd set_rc kd];
             [rewrite fupd_other by exact NF|]; apply SK.
      * intros f. unfold s1, g1; cbn [rc].
        assert (X : rc (if rc g (p_f e) - 1 =? 0 then set_kd (set_rc s (p_f e) (rc g (p_f e) - 1)) (p_f e) KFree
                 else set_rc s (p_f e) (rc g (p_f e) - 1)) f = fupd (rc s) (p_f e) (rc g (p_f e) - 1) f)
          by (destruct (rc g (p_f e) - 1 =? 0); reflexivity).
        rewrite X. unfold fupd. destruct (f =? p_f e); [reflexivity|apply SR].
      * intros f. unfold s1, g1; cbn [dt]. destruct (rc g (p_f e) - 1 =? 0); apply SD.
      * intros k IK. assert (k <> j) by congruence. unfold g1; cbn [te]. rewrite fupd_same.
        rewrite fupd_other by assumption. rewrite <- TI by (right; exact IK).
        unfold s1. destruct (rc g (p_f e) - 1 =? 0); reflexivity.
      * intros k NK. unfold g1; cbn [te]. rewrite fupd_same. destruct (Z.eq_dec k j) as [->|NJ];
          [apply fupd_same|]. rewrite fupd_other by exact NJ. apply TN. intros [X|X]; [congruence|contradiction].
      * exists s', g'. split; [exact A1|]. split; [exact A2|]. split; [exact A3|]. split; [exact A4|].
        split.
        { intros f. rewrite A5. unfold s1. destruct (rc g (p_f e) - 1 =? 0); reflexivity. }
        split; [intros f; rewrite A6; reflexivity|].
        split.
        { intros x k. rewrite A7. unfold s1. destruct (rc g (p_f e) - 1 =? 0); reflexivity. }
        split.
        { intros x k. rewrite A8. unfold s1. destruct (rc g (p_f e) - 1 =? 0); reflexivity. }
        split; [intros x k; rewrite A9; reflexivity|].
        split; [intros x k NX; rewrite A10 by exact NX; unfold g1; cbn [te]; rewrite fupd_other by exact NX; reflexivity|].
        split; [exact A11|]. split.
        { intros f. specialize (A12 f). unfold g1 in A12; cbn [kd] in A12.
          destruct (Z.eq_dec f (p_f e)) as [->|NF].
          - rewrite fupd_same in A12. destruct (Z.eqb_spec (rc g (p_f e) - 1) 0) as [Z|Z]; [|exact A12].
            destruct A12 as [X|[X _]]; [|discriminate]. right. split; [apply KO; exact Z|exact X].
          - rewrite fupd_other in A12 by exact NF. exact A12. }
        intros a b NA. rewrite A13 by exact NA. rewrite G2. apply upd2_other. left; exact NA.
    + destruct (IH s g ND) as (s' & g' & A1 & A2 & A3 & A4 & A5 & A6 & A7 & A8 & A9 & A10 & A11 & A12 & A13);
        try assumption.
      * intros k IK. apply RG. right; exact IK.
      * intros k IK. apply TI. right; exact IK.
      * intros k NK. destruct (Z.eq_dec k j) as [->|NJ]; [exact E|].
        apply TN. intros [X|X]; [congruence|contradiction].
      * exists s', g'. auto 20.
Qed.

Lemma destroy_pts_ok c pd : forall l s g,
  NoDup l -> inv c (-1) g -> kd g pd = KPd ->
  (forall f, kd s f = kd g f) -> (forall f, rc s f = rc g f) -> (forall f, dt s f = dt g f) ->
  (forall x i, x <> pd -> de s x i = de g x i) ->
  (forall i, In i l -> de s pd i = de g pd i) -> (forall i, ~ In i l -> de g pd i = None) ->
  (forall p j, kd g p = KPt -> te s p j = te g p j) ->
  exists s' g', destroy_pts c s pd l = Ok s' /\ inv c (-1) g' /\ kd g' pd = KPd /\
    (forall f, kd s' f = kd g' f) /\ (forall f, rc s' f = rc g' f) /\ (forall f, dt s' f = dt g' f) /\
    (forall f, dt g' f = dt g f) /\
    (forall x i, x <> pd -> de s' x i = de g' x i) /\ (forall i, de g' pd i = None) /\
    (forall p j, kd g' p = KPt -> te s' p j = te g' p j) /\
    (forall f, kd g' f = kd g f \/ (kd g f = KPage \/ kd g f = KPt) /\ kd g' f = KFree) /\
    (forall a b, a <> pd -> pte_at g' a b = pte_at g a b).
Proof.
  induction l as [|i l IH]; intros s g ND H K SK SR SD DX DI DN TE.
  - exists s, g. cbn [destroy_pts]. split; [reflexivity|]. split; [exact H|]. split; [exact K|].
    do 5 (split; [auto|]). split; [intros i; apply DN; intros []|]. auto.
  - apply NoDup_cons_iff in ND. destruct ND as [NI ND]. cbn [destroy_pts].
    pose proof (i_t _ _ _ H) as HT.
    assert (GP : get_pt s pd i = Ok (de g pd i)).
    { unfold get_pt. rewrite SK, K, DI by (left; reflexivity).
      destruct (de g pd i) as [p|] eqn:D; [|reflexivity]. rewrite SK.
      destruct (t_de _ _ HT _ _ _ K D) as [_ ->]. reflexivity. }
    rewrite GP. cbn [bind]. destruct (de g pd i) as [p|] eqn:D.
    + destruct (t_de _ _ HT _ _ _ K D) as [RI KP].
      destruct (destroy_pt_ok c pd i p (idx NPT) s g (nodup_idx _)) as
        (s1 & g1 & A1 & A2 & A3 & A4 & A5 & A6 & A7 & A8 & A9 & A10 & A11 & A12 & A13); try assumption.
      * intros j. apply in_idx.
      * intros j _. apply TE. exact KP.
      * intros j NJ. destruct (te g p j) as [e|] eqn:E; [|reflexivity]. exfalso. apply NJ.
        apply in_idx. eapply (t_te _ _ HT); eassumption.
      * rewrite A1. cbn [bind].
        assert (KP1 : kd g1 p = KPt) by (destruct (A12 p) as [->|[X _]]; congruence).
        assert (KD1 : kd g1 pd = KPd) by (destruct (A12 pd) as [->|[X _]]; congruence).
        assert (D1 : de g1 pd i = Some p) by (rewrite A9; exact D).
        unfold kfree. rewrite A3, KP1. cbn [bind].
        pose proof (inv_del c (-1) g1 pd i p A2 KD1 D1 A11) as H1.
        assert (PP : p <> pd) by congruence.
        destruct (IH (set_kd s1 p KFree) (del_pt g1 pd i p) ND H1) as
          (s' & g' & B1 & B2 & B3 & B4 & B5 & B6 & B7 & B8 & B9 & B10 & B11 & B12).
        -- cbn [del_pt kd]. rewrite fupd_other by congruence. exact KD1.
        -- intros f. cbn [set_kd del_pt kd]. unfold fupd. destruct (f =? p); [reflexivity|apply A3].
        -- intros f. cbn [set_kd del_pt rc]. apply A4.
        -- intros f. cbn [set_kd del_pt dt]. rewrite A5, A6. apply SD.
        -- intros x k NX. cbn [set_kd del_pt de]. rewrite fupd_other by exact NX. rewrite A7, A9.
           apply DX. exact NX.
        -- intros k IK. cbn [set_kd del_pt de]. rewrite fupd_same.
           rewrite fupd_other by congruence. rewrite A7, A9. apply DI. right; exact IK.
        -- intros k NK. cbn [set_kd del_pt de]. rewrite fupd_same. destruct (Z.eq_dec k i) as [->|NJ];
             [apply fupd_same|]. rewrite fupd_other by exact NJ. rewrite A9. apply DN.
           intros [X|X]; [congruence|contradiction].
        -- intros q j. cbn [set_kd del_pt kd te]. destruct (Z.eq_dec q p) as [->|NQ];
             [rewrite fupd_same; discriminate|]. rewrite fupd_other by exact NQ. intros KQ.
           rewrite A8, A10 by exact NQ. apply TE. destruct (A12 q) as [<-|[X Y]]; congruence.
        -- exists s', g'. split; [exact B1|]. split; [exact B2|]. split; [exact B3|].
           split; [exact B4|]. split; [exact B5|]. split; [exact B6|].
           split; [intros f; rewrite B7; cbn [del_pt dt]; apply A6|].
           split; [exact B8|]. split; [exact B9|]. split; [exact B10|]. split.
           { intros f. destruct (B11 f) as [X|[X Y]]; cbn [del_pt kd] in X.
             - destruct (Z.eq_dec f p) as [->|NF]; [rewrite fupd_same in X; right; auto|].
               rewrite fupd_other in X by exact NF. rewrite X. destruct (A12 f) as [Z|[Z W]]; [auto|right; auto].
             - destruct (Z.eq_dec f p) as [->|NF]; [rewrite fupd_same in X; destruct X; discriminate|].
               rewrite fupd_other in X by exact NF. right. split; [|exact Y].
               destruct (A12 f) as [Z|[Z W]]; [rewrite <- Z; exact X|left; exact Z]. }
           intros a b NA. rewrite B12 by exact NA.
           rewrite (pte_del c g1 pd i p a b (i_t _ _ _ A2) KD1 D1 A11). apply A13. exact NA.
    + destruct (IH s g ND H K) as (s' & g' & B); try assumption.
      * intros k IK. apply DI. right; exact IK.
      * intros k NK. destruct (Z.eq_dec k i) as [->|NJ]; [exact D|]. apply DN.
        intros [X|X]; [congruence|contradiction].
      * exists s', g'. exact B.
Qed.

Lemma destroy_ok c s pd :
  inv c (-1) s -> kd s pd = KPd ->
  exists s', destroy c s pd = Ok s' /\ inv c (-1) s' /\ kd s' pd = KFree /\
    (forall f, f <> pd -> kd s' f = kd s f \/ (kd s f = KPage \/ kd s f = KPt) /\ kd s' f = KFree) /\
    (forall f, dt s' f = dt s f) /\
    (forall a b, a <> pd -> pte_at s' a b = pte_at s a b).
Proof.
  intros H K. pose proof (i_t _ _ _ H) as HT. unfold destroy.
  destruct (destroy_pts_ok c pd (idx NPD) s s (nodup_idx _) H K) as
    (s1 & g & B1 & B2 & B3 & B4 & B5 & B6 & B7 & B8 & B9 & B10 & B11 & B12); auto.
  { intros i NI. destruct (de s pd i) as [p|] eqn:D; [|reflexivity]. exfalso. apply NI. apply in_idx.
    apply (t_de _ _ HT _ _ _ K D). }
  rewrite B1. cbn [bind]. unfold kfree. rewrite B4, B3.
  eexists. split; [reflexivity|].
  pose proof (inv_delpd c (-1) g pd B2 B3 B9) as H1.
  assert (EV : eqv (set_kd s1 pd KFree) (set_kd g pd KFree)).
  { constructor; cbn [set_kd kd de te rc dt]; auto.
    - intros f. unfold fupd. destruct (f =? pd); [reflexivity|apply B4].
    - intros x i KX. destruct (Z.eq_dec x pd) as [->|NX]; [rewrite fupd_same in KX; discriminate|].
      apply B8. exact NX.
    - intros p j KX. destruct (Z.eq_dec p pd) as [->|NX]; [rewrite fupd_same in KX; discriminate|].
      rewrite fupd_other in KX by exact NX. apply B10. exact KX.
    - intros f o. rewrite B6. reflexivity. }
  split; [eapply inv_eqv; eassumption|]. split; [cbn [set_kd kd]; apply fupd_same|]. split.
  { intros f NF. cbn [set_kd kd]. rewrite fupd_other by exact NF. rewrite B4. apply B11. }
  split; [intros f; cbn [set_kd dt]; rewrite B6; apply B7|].
  intros a b NA. rewrite (eqv_pte _ _ _ _ EV). rewrite pte_delpd; auto.
  intros x i KX X. destruct (t_de _ _ (i_t _ _ _ B2) _ _ _ KX X). congruence.
Qed.
