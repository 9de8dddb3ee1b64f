From Coq Require Import ZArith List Bool Lia.
From Coq Require FinFun.
From Verif Require Import Lib Paging_Model Paging_Spec Paging_Proofs Paging_Proofs2 Paging_Proofs3.
Import ListNotations.
Open Scope Z_scope.

Lemma in_idx n i : In i (idx n) <-> 0 <= i < n.
Proof.
  unfold idx. rewrite in_map_iff. split.
  - intros (k & <- & I). apply in_seq in I. lia.
  - intros H. exists (Z.to_nat i). rewrite in_seq. lia.
Qed.

Lemma nodup_idx n : NoDup (idx n).
Proof.
  unfold idx. apply FinFun.Injective_map_NoDup; [|apply seq_NoDup].
  intros a b E. lia.
Qed.

(* one page more for the child: both entries are now copy-on-write *)
Definition share (g : st) (p q j : Z) (e : pte) : st :=
  set_rc (set_te (set_te g p j (Some (mark e))) q j (Some (mark e))) (p_f e) (rc g (p_f e) + 1).

Lemma mark_f e : p_f (mark e) = p_f e.
Proof. unfold mark. destruct (p_sh e); reflexivity. Qed.

Lemma mark_sh e : p_sh (mark e) = p_sh e.
Proof. unfold mark. destruct (p_sh e) eqn:S; [exact S|reflexivity]. Qed.

Lemma mark_rw e : p_rw (mark e) = true -> p_sh e = true.
Proof. unfold mark. destruct (p_sh e); [reflexivity|cbn; discriminate]. Qed.

Lemma mark_w e : p_rw (mark e) || p_cow (mark e) = p_rw e || p_cow e.
Proof. unfold mark. destruct (p_sh e); cbn; [reflexivity|]. apply orb_comm. Qed.

Lemma inv_share c g pd new i p q j e :
  inv c (-1) g -> kd g pd = KPd -> kd g new = KPd -> pd <> new ->
  de g pd i = Some p -> de g new i = Some q -> 0 <= j < NPT ->
  te g p j = Some e -> te g q j = None -> inv c (-1) (share g p q j e).
Proof.
  intros H K K' N D D' J E E'.
  set (v := i * NPT + j).
  assert (VI : v / NPT = i) by (apply div_ij; exact J).
  assert (VJ : v mod NPT = j) by (apply mod_ij; exact J).
  assert (PE : pte_at g pd v = Some e)
    by (rewrite (pte_at_of c) by (try exact K; apply (i_t _ _ _ H)); rewrite VI, VJ, D; exact E).
  assert (PN : pte_at g new v = None)
    by (rewrite (pte_at_of c) by (try exact K'; apply (i_t _ _ _ H)); rewrite VI, VJ, D'; exact E').
  assert (DP : de g pd (v / NPT) = Some p) by (rewrite VI; exact D).
  pose proof (i_f _ _ _ H) as Ff.
  pose proof (f_kind _ _ _ _ _ Ff _ _ _ PE) as FK.
  assert (CW : p_sh e = true -> p_cow e = false) by (apply (f_cow _ _ _ _ _ Ff _ _ _ PE)).
  edestruct (inv_te c (-1) (-1) g pd v p (Some (mark e)) (rc g) (dt g) H K DP) as [G1 G2].
  { eapply F_mod with (e := e); try exact Ff; try exact PE.
    - apply mark_f.
    - apply mark_sh.
    - intros R S. rewrite mark_sh in S. apply mark_rw in R. congruence.
    - rewrite mark_sh. intros S. unfold mark. rewrite S. auto.
    - intros R. right. left. apply mark_rw. exact R. }
  rewrite VJ in G1, G2. set (g1 := St _ _ _ _ _) in G1, G2.
  assert (DQ : de g1 new (v / NPT) = Some q) by (rewrite VI; exact D').
  assert (PD1 : pte_at g1 pd v = Some (mark e)) by (rewrite G2; apply upd2_same).
  pose proof (i_f _ _ _ G1) as F1.
  assert (NV : new <> pd \/ v <> v) by (left; congruence).
  edestruct (inv_te c (-1) (-1) g1 new v q (Some (mark e))
     (fupd (rc g) (p_f e) (rc g (p_f e) + 1)) (dt g) G1 K' DQ) as [G3 G4].
  { pose proof (F_set c (-1) (pte_at g1) (kd g1) (rc g1) new v (mark e) F1) as FS.
    rewrite mark_f in FS.
    replace (if -1 =? p_f e then -1 else -1) with (-1) in FS by (destruct (-1 =? p_f e); reflexivity).
    apply FS.
    - rewrite G2, upd2_other by exact NV. exact PN.
    - rewrite mark_sh. pose proof (f_kind _ _ _ _ _ F1 _ _ _ PD1) as X.
      rewrite mark_f, mark_sh in X. exact X.
    - intros a b d PD Q. split.
      + eapply (f_sh _ _ _ _ _ F1); [exact PD|exact PD1|]. rewrite mark_f. exact Q.
      + intros S. destruct (p_rw d) eqn:RW; [|reflexivity]. exfalso.
        pose proof (f_rw _ _ _ _ _ F1 _ _ _ PD RW S) as R1.
        assert (O : pd = a /\ v = b).
        { eapply F_one; [exact F1|exact PD|exact PD1| |exact R1]. rewrite mark_f. congruence. }
        destruct O as [-> ->]. rewrite PD1 in PD. injection PD as <-.
        apply mark_rw in RW. rewrite mark_sh in S. congruence.
    - intros R S. rewrite mark_sh in S. apply mark_rw in R. congruence.
    - rewrite mark_sh. intros S. unfold mark. rewrite S. auto. }
  rewrite VJ in G3. exact G3.
Qed.

Definition omark (x : option pte) : option pte := match x with Some e => Some (mark e) | None => None end.

(* the real state and the one in which the tables of U are still empty *)
Record rel (U : Z -> Prop) (s g : st) : Prop := {
  r_kd : forall f, kd s f = kd g f;
  r_de : forall x i, de s x i = de g x i;
  r_te : forall p j, ~ U p -> te s p j = te g p j;
  r_rc : forall f, rc s f = rc g f;
  r_dt : forall f, dt s f = dt g f }.

Lemma mark_loop c pd new i p q (U : Z -> Prop) :
  pd <> new -> U q -> ~ U p -> forall l s g,
  NoDup l -> (forall j, In j l -> 0 <= j < NPT) -> inv c (-1) g -> rel U s g ->
  kd g pd = KPd -> kd g new = KPd -> de g pd i = Some p -> de g new i = Some q ->
  (forall j, In j l -> te g q j = None) -> (forall j, ~ In j l -> te g q j = te g p j) ->
  exists s' g', clone_mark c s p l = Ok s' /\ inv c (-1) g' /\ rel U s' g' /\
    (forall f, kd g' f = kd g f) /\ (forall x i, de g' x i = de g x i) /\ (forall f, dt g' f = dt g f) /\
    (forall j, te g' q j = te g' p j) /\
    (forall j, te g' p j = if in_dec Z.eq_dec j l then omark (te g p j) else te g p j) /\
    (forall r j, r <> p -> r <> q -> te g' r j = te g r j).
Proof.
  intros N UQ UP l. induction l as [|j l IH]; intros s g ND RG H R K K' D D' EN EQ.
  - exists s, g. cbn [clone_mark]. split; [reflexivity|]. split; [exact H|]. split; [exact R|].
    do 3 (split; [reflexivity|]). split; [intros j; apply EQ; intros []|]. split; [reflexivity|reflexivity].
  - apply NoDup_cons_iff in ND. destruct ND as [NI ND].
    assert (PQ : p <> q) by (intros ->; contradiction).
    cbn [clone_mark]. rewrite (r_te _ _ _ R) by exact UP.
    destruct (te g p j) as [e|] eqn:E.
    + assert (J : 0 <= j < NPT) by (apply RG; left; reflexivity).
      assert (PE : pte_at g pd (i * NPT + j) = Some e)
        by (rewrite (pte_at_of c) by (try exact K; apply (i_t _ _ _ H));
            rewrite div_ij, mod_ij, D by exact J; exact E).
      pose proof (inv_ram _ _ _ _ _ _ H PE) as RM.
      pose proof (F_pos _ _ _ _ _ _ _ _ (i_f _ _ _ H) PE) as RP.
      rewrite rc_get_ram by lia. rewrite (r_rc _ _ _ R).
      destruct (Z.leb_spec (rc g (p_f e)) 0); [lia|].
      rewrite rc_inc_ram by lia.
      assert (EQN : te g q j = None) by (apply EN; left; reflexivity).
      pose proof (inv_share c g pd new i p q j e H K K' N D D' J E EQN) as H1.
      edestruct (IH (set_rc (set_te s p j (Some (mark e))) (p_f e) (rc (set_te s p j (Some (mark e))) (p_f e) + 1))
                    (share g p q j e) ND) as (s' & g' & A1 & A2 & A3 & A4 & A5 & A6 & A7 & A8 & A9).
      * intros k IK. apply RG. right; exact IK.
      * exact H1.
      * destruct R as [R1 R2 R3 R4 R5]. constructor; cbn [share set_rc set_te kd de te rc dt]; auto.
        -- intros r k NU. rewrite (fupd_other _ q) by (intros ->; contradiction).
           destruct (Z.eq_dec r p) as [->|NR].
           ++ rewrite !fupd_same. destruct (Z.eq_dec k j) as [->|NK]; [rewrite !fupd_same; reflexivity|].
              rewrite !fupd_other by exact NK. apply R3. exact NU.
           ++ rewrite !fupd_other by exact NR. apply R3. exact NU.
        -- intros f. destruct (Z.eq_dec f (p_f e)) as [->|NF]; [rewrite !fupd_same, R4; reflexivity|].
           rewrite !fupd_other by exact NF. apply R4.
      * exact K.
      * exact K'.
      * exact D.
      * exact D'.
      * intros k IK. cbn [share set_rc set_te te]. rewrite fupd_same.
        assert (k <> j) by congruence. rewrite fupd_other by assumption.
        rewrite fupd_other by congruence. apply EN. right; exact IK.
      * intros k NK. cbn [share set_rc set_te te]. rewrite fupd_same.
        rewrite (fupd_other _ q) by exact PQ. rewrite fupd_same.
        destruct (Z.eq_dec k j) as [->|NJ]; [rewrite !fupd_same; reflexivity|].
        rewrite !fupd_other by (try exact NJ; congruence). apply EQ. intros [X|X]; [congruence|contradiction].
      * exists s', g'. split; [exact A1|]. split; [exact A2|]. split; [exact A3|]. split; [exact A4|].
        split; [exact A5|]. split; [exact A6|]. split; [exact A7|]. split.
        -- intros k. rewrite A8. cbn [share set_rc set_te te].
           rewrite (fupd_other _ q) by exact PQ. rewrite fupd_same.
           destruct (Z.eq_dec k j) as [->|NJ].
           ++ rewrite fupd_same. destruct (in_dec Z.eq_dec j l); [contradiction|].
              destruct (in_dec Z.eq_dec j (j :: l)) as [|X]; [rewrite E; reflexivity|].
              exfalso. apply X. left; reflexivity.
           ++ rewrite fupd_other by exact NJ. destruct (in_dec Z.eq_dec k l) as [I1|I1];
                destruct (in_dec Z.eq_dec k (j :: l)) as [I2|I2]; try reflexivity.
              ** exfalso. apply I2. right; exact I1.
              ** destruct I2; [congruence|contradiction].
        -- intros r k N1 N2. rewrite A9 by assumption. cbn [share set_rc set_te te].
           rewrite !fupd_other by assumption. reflexivity.
    + edestruct (IH s g ND) as (s' & g' & A1 & A2 & A3 & A4 & A5 & A6 & A7 & A8 & A9);
        try eassumption.
      * intros k IK. apply RG. right; exact IK.
      * intros k IK. apply EN. right; exact IK.
      * intros k NK. destruct (Z.eq_dec k j) as [->|NJ].
        -- rewrite E. apply EN. left; reflexivity.
        -- apply EQ. intros [X|X]; [congruence|contradiction].
      * exists s', g'. do 7 (split; [assumption|]). split; [|assumption].
        intros k. rewrite A8. destruct (in_dec Z.eq_dec k l) as [I1|I1];
          destruct (in_dec Z.eq_dec k (j :: l)) as [I2|I2]; try reflexivity.
        -- exfalso. apply I2. right; exact I1.
        -- destruct I2 as [<-|]; [rewrite E; reflexivity|contradiction].
Qed.

Lemma pts_loop c pd new :
  pd <> new -> forall l s g,
  NoDup l -> inv c (-1) g -> rel (fun r => exists i, In i l /\ de g new i = Some r) s g ->
  kd g pd = KPd -> kd g new = KPd ->
  (forall i, de g new i = None <-> de g pd i = None) ->
  (forall i q j, In i l -> de g new i = Some q -> te g q j = None) ->
  exists s' g', clone_pts c s pd new l = Ok s' /\ inv c (-1) g' /\ rel (fun _ => False) s' g' /\
    (forall f, kd g' f = kd g f) /\ (forall x i, de g' x i = de g x i) /\ (forall f, dt g' f = dt g f) /\
    (forall i p q, In i l -> de g pd i = Some p -> de g new i = Some q ->
       forall j, te g' p j = omark (te g p j) /\ te g' q j = te g' p j) /\
    (forall r, (forall i, In i l -> de g pd i <> Some r /\ de g new i <> Some r) ->
       forall j, te g' r j = te g r j).
Proof.
  intros N l. induction l as [|i l IH]; intros s g ND H R K K' DN EN.
  - exists s, g. cbn [clone_pts]. split; [reflexivity|]. split; [exact H|]. split.
    { destruct R as [R1 R2 R3 R4 R5]. constructor; auto. intros p j _. apply R3. intros (i & [] & _). }
    do 3 (split; [reflexivity|]). split; [intros i p q []|reflexivity].
  - apply NoDup_cons_iff in ND. destruct ND as [NI ND].
    pose proof (i_t _ _ _ H) as HT.
    assert (GP : forall x, kd g x = KPd -> forall k, get_pt s x k = Ok (de g x k)).
    { intros x KX k. unfold get_pt. rewrite (r_kd _ _ _ R), KX, (r_de _ _ _ R).
      destruct (de g x k) as [p|] eqn:D; [|reflexivity].
      rewrite (r_kd _ _ _ R). destruct (t_de _ _ HT _ _ _ KX D) as [_ ->]. reflexivity. }
    cbn [clone_pts]. rewrite (GP pd K). cbn [bind].
    destruct (de g pd i) as [p|] eqn:D.
    + rewrite (GP new K'). cbn [bind].
      destruct (de g new i) as [q|] eqn:D'; [|exfalso; apply DN in D'; congruence].
      set (U := fun r => exists i0, In i0 (i :: l) /\ de g new i0 = Some r) in *.
      assert (UP : ~ U p).
      { intros (k & _ & X). destruct (t_own _ _ HT _ _ _ _ _ K K' D X). contradiction. }
      assert (UQ : U q) by (exists i; split; [left; reflexivity|exact D']).
      assert (PQ : p <> q) by (intros ->; contradiction).
      destruct (mark_loop c pd new i p q U N UQ UP (idx NPT) s g (nodup_idx _)) as
        (s1 & g1 & A1 & A2 & A3 & A4 & A5 & A6 & A7 & A8 & A9); try assumption.
      * intros j. apply in_idx.
      * intros j _. eapply EN; [left; reflexivity|exact D'].
      * intros j NJ. rewrite (EN i q j) by (auto; left; reflexivity). destruct (te g p j) as [e|] eqn:E; [|reflexivity].
        exfalso. apply NJ. apply in_idx. eapply (t_te _ _ HT); [|exact E].
        apply (t_de _ _ HT _ _ _ K D).
      * rewrite A1. cbn [bind].
        assert (MK : forall j, te g1 p j = omark (te g p j)).
        { intros j. rewrite A8. destruct (in_dec Z.eq_dec j (idx NPT)) as [|NJ]; [reflexivity|].
          destruct (te g p j) as [e|] eqn:E; [|reflexivity]. exfalso. apply NJ. apply in_idx.
          eapply (t_te _ _ HT); [|exact E]. apply (t_de _ _ HT _ _ _ K D). }
        assert (UN : forall k r, In k l -> de g new k = Some r -> r <> q /\ r <> p).
        { intros k r IK X. split; intros ->.
          - destruct (t_own _ _ HT _ _ _ _ _ K' K' X D') as [_ ->]. contradiction.
          - destruct (t_own _ _ HT _ _ _ _ _ K' K X D) as [Y _]. congruence. }
        edestruct (IH (St (kd s1) (de s1) (fupd (te s1) q (te s1 p)) (rc s1) (dt s1)) g1 ND A2)
          as (s' & g' & B1 & B2 & B3 & B4 & B5 & B6 & B7 & B8).
        { destruct A3 as [R1 R2 R3 R4 R5]. constructor; cbn [kd de te rc dt]; auto.
          intros r j NU. destruct (Z.eq_dec r q) as [->|NQ].
          - rewrite fupd_same, A7. apply R3. exact UP.
          - rewrite fupd_other by exact NQ. apply R3. intros (k & [<-|IK] & X); [congruence|].
            apply NU. exists k. split; [exact IK|]. rewrite A5. exact X. }
        { rewrite A4. exact K. }
        { rewrite A4. exact K'. }
        { intros k. rewrite !A5. apply DN. }
        { intros k r j IK X. rewrite A5 in X. destruct (UN _ _ IK X). rewrite A9 by assumption.
          eapply EN; [right; exact IK|exact X]. }
        exists s', g'. split; [exact B1|]. split; [exact B2|]. split; [exact B3|].
        split; [intros f; rewrite B4; apply A4|]. split; [intros x k; rewrite B5; apply A5|].
        split; [intros f; rewrite B6; apply A6|]. split.
        -- intros k p1 q1 [<-|IK] X Y j.
           ++ assert (p1 = p) by congruence. assert (q1 = q) by congruence. subst p1 q1.
              assert (SP : te g' p j = te g1 p j).
              { apply B8. intros k IK. rewrite !A5. split; intros Z.
                - destruct (t_own _ _ HT _ _ _ _ _ K K Z D) as [_ ->]. contradiction.
                - destruct (UN _ _ IK Z). contradiction. }
              assert (SQ : te g' q j = te g1 q j).
              { apply B8. intros k IK. rewrite !A5. split; intros Z.
                - destruct (t_own _ _ HT _ _ _ _ _ K K' Z D') as [W _]. contradiction.
                - destruct (UN _ _ IK Z). contradiction. }
              rewrite SP, SQ, A7. split; [apply MK|reflexivity].
           ++ destruct (B7 k p1 q1 IK) with (j := j) as [C1 C2]; [rewrite A5; exact X|rewrite A5; exact Y|].
              split; [|exact C2]. rewrite C1. f_equal. apply A9.
              ** intros ->. destruct (t_own _ _ HT _ _ _ _ _ K K X D) as [_ ->]. contradiction.
              ** intros ->. destruct (t_own _ _ HT _ _ _ _ _ K K' X D') as [W _]. contradiction.
        -- intros r NR j. rewrite B8.
           ++ destruct (NR i (or_introl eq_refl)). apply A9; congruence.
           ++ intros k IK. rewrite !A5. apply NR. right; exact IK.
    + edestruct (IH s g ND H) as (s' & g' & B1 & B2 & B3 & B4 & B5 & B6 & B7 & B8); try assumption.
      { destruct R as [R1 R2 R3 R4 R5]. constructor; auto. intros p j NU. apply R3.
        intros (k & [<-|IK] & X); [apply DN in D; congruence|]. apply NU. eauto. }
      { intros k q j IK. apply EN. right; exact IK. }
      exists s', g'. do 6 (split; [assumption|]). split.
      * intros k p q [<-|IK] X; [congruence|]. eauto.
      * intros r NR. apply B8. intros k IK. apply NR. right; exact IK.
Qed.
