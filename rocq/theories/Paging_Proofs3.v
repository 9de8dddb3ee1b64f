From Coq Require Import ZArith List Bool Lia.
From Verif Require Import Lib Paging_Model Paging_Spec Paging_Proofs Paging_Proofs2.
Import ListNotations.
Open Scope Z_scope.

Definition data (k : kind) : Prop := k <> KPt /\ k <> KPd.

Lemma inv_gen c x x' s pd v p y f k r w :
  inv c x s -> kd s pd = KPd -> de s pd (v / NPT) = Some p ->
  data (kd s f) -> data k -> (k = KFree \/ 0 <= f < lim c) -> (f = zf c -> k = KExt) ->
  F c x' (upd2 (pte_at s) pd v y) (fupd (kd s) f k) r ->
  inv c x' (St (fupd (kd s) f k) (de s) (fupd (te s) p (fupd (te s p) (v mod NPT) y)) r w) /\
  forall a b, pte_at (St (fupd (kd s) f k) (de s) (fupd (te s) p (fupd (te s p) (v mod NPT) y)) r w) a b
              = upd2 (pte_at s) pd v y a b.
Proof.
  intros [Z H Ff] K D [D1 D2] [D3 D4] R ZK F'.
  assert (H1 : T c (set_te s p (v mod NPT) y)) by (apply T_set; [exact H|right; apply mod_NPT]).
  assert (H2 : T c (set_kd (set_te s p (v mod NPT) y) f k)) by (apply T_kd; assumption).
  assert (P : forall a b, pte_at (set_kd (set_te s p (v mod NPT) y) f k) a b
                          = upd2 (pte_at s) pd v y a b).
  { intros a b. rewrite pte_kd by assumption. eapply pte_set; eassumption. }
  assert (P' : forall a b, pte_at (St (fupd (kd s) f k) (de s)
       (fupd (te s) p (fupd (te s p) (v mod NPT) y)) r w) a b = upd2 (pte_at s) pd v y a b).
  { intros a b. rewrite <- P. apply (pte_rc (set_kd (set_te s p (v mod NPT) y) f k)). }
  split; [|exact P']. constructor.
  - cbn [kd]. destruct (Z.eq_dec (zf c) f) as [E|N].
    + rewrite <- E, fupd_same. apply ZK. auto.
    + rewrite fupd_other by exact N. exact Z.
  - apply (T_rc c (set_kd (set_te s p (v mod NPT) y) f k)). exact H2.
  - eapply F_ext; [exact F'|exact P'|reflexivity|reflexivity].
Qed.

(* the same without a change of kind *)
Lemma inv_te c x x' s pd v p y r w :
  inv c x s -> kd s pd = KPd -> de s pd (v / NPT) = Some p ->
  F c x' (upd2 (pte_at s) pd v y) (kd s) r ->
  inv c x' (St (kd s) (de s) (fupd (te s) p (fupd (te s p) (v mod NPT) y)) r w) /\
  forall a b, pte_at (St (kd s) (de s) (fupd (te s) p (fupd (te s p) (v mod NPT) y)) r w) a b
              = upd2 (pte_at s) pd v y a b.
Proof.
  intros [Z H Ff] K D F'.
  assert (H1 : T c (set_te s p (v mod NPT) y)) by (apply T_set; [exact H|right; apply mod_NPT]).
  assert (P' : forall a b, pte_at (St (kd s) (de s)
       (fupd (te s) p (fupd (te s p) (v mod NPT) y)) r w) a b = upd2 (pte_at s) pd v y a b).
  { intros a b. rewrite <- (pte_set c s pd v p y a b H K D). apply (pte_rc (set_te s p (v mod NPT) y)). }
  split; [|exact P']. constructor.
  - exact Z.
  - apply (T_rc c (set_te s p (v mod NPT) y)). exact H1.
  - eapply F_ext; [exact F'|exact P'|reflexivity|reflexivity].
Qed.

Lemma inv_kd c x x' s f k r w :
  inv c x s -> data (kd s f) -> data k -> (k = KFree \/ 0 <= f < lim c) -> (f = zf c -> k = KExt) ->
  F c x' (pte_at s) (fupd (kd s) f k) r ->
  inv c x' (St (fupd (kd s) f k) (de s) (te s) r w) /\
  forall a b, pte_at (St (fupd (kd s) f k) (de s) (te s) r w) a b = pte_at s a b.
Proof.
  intros [Z H Ff] [D1 D2] [D3 D4] R ZK F'.
  assert (P : forall a b, pte_at (St (fupd (kd s) f k) (de s) (te s) r w) a b = pte_at s a b).
  { intros a b. rewrite <- (pte_kd s f k a b) by assumption. apply (pte_rc (set_kd s f k)). }
  split; [|exact P]. constructor.
  - cbn [kd]. destruct (Z.eq_dec (zf c) f) as [E|N].
    + rewrite <- E, fupd_same. apply ZK. auto.
    + rewrite fupd_other by exact N. exact Z.
  - apply (T_rc c (set_kd s f k)). apply T_kd; assumption.
  - eapply F_ext; [exact F'|exact P|reflexivity|reflexivity].
Qed.

Lemma F_x c x pm kd rc : F c (-1) pm kd rc -> kd (-1) <> KPage -> F c x pm kd rc.
Proof.
  intros H N. destruct H as [H1 H2 H3 H4 H5 H6]. constructor; auto.
  intros f K. destruct (H6 f K) as [->|G]; [contradiction|auto].
Qed.

Lemma inv_m1 c x s : inv c x s -> kd s (-1) = KFree.
Proof.
  intros H. pose proof (t_ram _ _ (i_t _ _ _ H) (-1)) as R.
  destruct (kd s (-1)); try reflexivity; exfalso; assert (0 <= -1 < lim c) by (apply R; discriminate); lia.
Qed.

Lemma inv_x c x s : inv c (-1) s -> inv c x s.
Proof.
  intros H. pose proof H as [Z A B]. constructor; auto. apply F_x; [exact B|].
  rewrite (inv_m1 _ _ _ H). discriminate.
Qed.

Lemma inv_ram c x s pd v e : inv c x s -> pte_at s pd v = Some e -> 0 <= p_f e < lim c.
Proof.
  intros H E. apply (t_ram _ _ (i_t _ _ _ H)).
  destruct (f_kind _ _ _ _ _ (i_f _ _ _ H) _ _ _ E) as [->|[-> _]]; discriminate.
Qed.

Lemma rc_inc_ram c s f : f < lim c -> rc_inc c s f = set_rc s f (rc s f + 1).
Proof. intros. unfold rc_inc. destruct (Z.leb_spec (lim c) f); [lia|reflexivity]. Qed.

Lemma rc_get_ram c s f : f < lim c -> rc_get c s f = rc s f.
Proof. intros. unfold rc_get. destruct (Z.leb_spec (lim c) f); [lia|reflexivity]. Qed.

Lemma rc_dec_ram c s f : f < lim c -> 0 < rc s f -> rc_dec c s f = Ok (set_rc s f (rc s f - 1), rc s f - 1).
Proof.
  intros. unfold rc_dec. destruct (Z.leb_spec (lim c) f); [lia|].
  destruct (Z.leb_spec (rc s f) 0); [lia|reflexivity].
Qed.

(* the frame may be mapped by the entry e *)
Definition fit (c : cfg) (s : st) (e : pte) : Prop :=
  (kd s (p_f e) = KPage \/ kd s (p_f e) = KExt /\
    (p_f e = zf c /\ p_sh e = false /\ p_rw e = false \/ p_f e <> zf c /\ p_sh e = true)) /\
  (forall pd' v' e', pte_at s pd' v' = Some e' -> p_f e' = p_f e ->
     p_sh e' = p_sh e /\ (p_sh e' = false -> p_rw e' = false)) /\
  (p_rw e = true -> p_sh e = false -> rc s (p_f e) = 0) /\
  (p_sh e = true -> p_cow e = false).

Lemma map_int_ok c x al s pd v e :
  inv c x s -> al_ok c al -> kd s pd = KPd -> user v -> fit c s e ->
  exists s' r, map_int c al s pd v e = Ok (s', r) /\
    (forall f, dt s' f = dt s f) /\ (forall f, kd s f <> KFree -> kd s' f = kd s f) /\
    (r = 0 /\ pte_at s pd v = None /\ inv c (if x =? p_f e then -1 else x) s' /\
       (forall a b, pte_at s' a b = upd2 (pte_at s) pd v (Some e) a b) /\
       (forall f, rc s' f = fupd (rc s) (p_f e) (rc s (p_f e) + 1) f)
     \/
     (r = EADDRINUSE /\ pte_at s pd v <> None \/ r = ENOMEM /\ pte_at s pd v = None) /\
       inv c x s' /\ (forall a b, pte_at s' a b = pte_at s a b) /\ (forall f, rc s' f = rc s f)).
Proof.
  intros H AL K U (F1 & F2 & F3 & F4). pose proof (i_t _ _ _ H) as HT.
  assert (RM : p_f e < lim c).
  { apply (t_ram _ _ HT). destruct F1 as [->|[-> _]]; discriminate. }
  unfold map_int. rewrite (get_pt_ok c) by assumption. cbn [bind].
  pose proof (pte_at_of c s pd v HT K) as PE.
  destruct (de s pd (v / NPT)) as [p|] eqn:D.
  - destruct (te s p (v mod NPT)) as [e0|] eqn:TE.
    + exists s, EADDRINUSE. split; [reflexivity|]. do 2 (split; [reflexivity|]). right.
      split; [left; split; [reflexivity|rewrite PE; discriminate]|]. auto.
    + rewrite rc_inc_ram by exact RM.
      eexists _, 0. split; [reflexivity|]. do 2 (split; [reflexivity|]). left.
      split; [reflexivity|]. split; [exact PE|].
      unfold set_rc, set_te; cbn [kd de te rc dt].
      edestruct (inv_te c x (if x =? p_f e then -1 else x) s pd v p (Some e)
        (fupd (rc s) (p_f e) (rc s (p_f e) + 1)) (dt s) H K D) as [G1 G2].
      { apply F_set; try assumption. apply (i_f _ _ _ H). }
      split; [exact G1|]. split; [exact G2|]. reflexivity.
  - destruct (al s) as [p|] eqn:A.
    + destruct (AL _ _ A) as [KP RP].
      change (set_de _ pd (v / NPT) (Some p)) with (add_pt s pd (v / NPT) p).
      assert (H' : inv c x (add_pt s pd (v / NPT) p))
        by (apply inv_add; try assumption; apply user_div; exact U).
      assert (PA : forall a b, pte_at (add_pt s pd (v / NPT) p) a b = pte_at s a b)
        by (intros; eapply pte_add; eassumption).
      assert (PN : p <> pd) by congruence.
      assert (FN : p_f e <> p) by (intros Q; rewrite Q in F1; destruct F1 as [|[]]; congruence).
      assert (K' : kd (add_pt s pd (v / NPT) p) pd = KPd)
        by (cbn [add_pt kd]; rewrite fupd_other by congruence; exact K).
      assert (D' : de (add_pt s pd (v / NPT) p) pd (v / NPT) = Some p)
        by (cbn [add_pt de]; rewrite !fupd_same; reflexivity).
      assert (KE : kd (add_pt s pd (v / NPT) p) (p_f e) = kd s (p_f e))
        by (cbn [add_pt kd]; rewrite fupd_other by exact FN; reflexivity).
      replace (te (add_pt s pd (v / NPT) p) p (v mod NPT)) with (@None pte)
        by (cbn [add_pt te]; rewrite fupd_same; reflexivity).
      rewrite rc_inc_ram by exact RM.
      eexists _, 0. split; [reflexivity|]. split; [reflexivity|]. split.
      { intros f NF. unfold set_rc, set_te, add_pt; cbn [kd]. rewrite fupd_other; [reflexivity|].
        congruence. }
      left. split; [reflexivity|]. split; [exact PE|].
      edestruct (inv_te c x (if x =? p_f e then -1 else x) (add_pt s pd (v / NPT) p) pd v p (Some e)
        (fupd (rc s) (p_f e) (rc s (p_f e) + 1)) (dt s) H' K' D') as [G1 G2].
      { apply (F_set c x (pte_at (add_pt s pd (v / NPT) p)) (kd (add_pt s pd (v / NPT) p)) (rc s));
          try assumption.
        - apply (i_f _ _ _ H').
        - rewrite PA. exact PE.
        - rewrite KE. exact F1.
        - intros pd' v' e' E'. rewrite PA in E'. eauto. }
      split; [exact G1|]. split; [|reflexivity].
      intros a b. etransitivity; [exact (G2 a b)|]. unfold upd2.
      destruct ((a =? pd) && (b =? v)); [reflexivity|apply PA].
    + exists s, ENOMEM. split; [reflexivity|]. do 2 (split; [reflexivity|]). right.
      split; [right; split; [reflexivity|exact PE]|]. auto.
Qed.

(* a page that is handed over *)
Lemma inv_fresh c s f w :
  inv c (-1) s -> kd s f = KFree -> 0 <= f < lim c ->
  inv c f (St (fupd (kd s) f KPage) (de s) (te s) (rc s) w) /\
  forall a b, pte_at (St (fupd (kd s) f KPage) (de s) (te s) (rc s) w) a b = pte_at s a b.
Proof.
  intros H K R. apply inv_kd with (x := -1); auto.
  - rewrite K. split; discriminate.
  - split; discriminate.
  - intros ->. pose proof (i_zf _ _ _ H). congruence.
  - eapply F_kd with (kd := kd s).
    + apply F_x; [apply (i_f _ _ _ H)|]. rewrite (inv_m1 _ _ _ H). discriminate.
    + intros g. destruct (Z.eq_dec g f) as [->|N].
      * right. rewrite fupd_same, K. unfold plain. auto.
      * left. apply fupd_other. exact N.
Qed.

(* and not used *)
Lemma inv_unfresh c s f w :
  inv c f s -> kd s f = KPage -> rc s f = 0 ->
  inv c (-1) (St (fupd (kd s) f KFree) (de s) (te s) (rc s) w) /\
  forall a b, pte_at (St (fupd (kd s) f KFree) (de s) (te s) (rc s) w) a b = pte_at s a b.
Proof.
  intros H K R. apply inv_kd with (x := f); auto.
  - rewrite K. split; discriminate.
  - split; discriminate.
  - intros ->. pose proof (i_zf _ _ _ H). congruence.
  - pose proof (i_f _ _ _ H) as Ff. destruct Ff as [H1 H2 H3 H4 H5 H6].
    assert (NF : forall a b e, pte_at s a b = Some e -> p_f e <> f).
    { intros a b e E Q. subst f. pose proof (F_pos _ _ _ _ _ _ _ _ (i_f _ _ _ H) E). lia. }
    constructor; auto.
    + intros a b e E. rewrite fupd_other by (eapply NF; exact E). eauto.
    + intros g. destruct (H5 g) as (L & P & Q). exists L. split; [exact P|]. rewrite Q. f_equal.
      unfold pin. destruct (Z.eq_dec g f) as [->|N].
      * rewrite fupd_same, K. reflexivity.
      * rewrite fupd_other by exact N. reflexivity.
    + intros g. destruct (Z.eq_dec g f) as [->|N]; [rewrite fupd_same; discriminate|].
      rewrite fupd_other by exact N. intros G. destruct (H6 g G); [contradiction|auto].
Qed.

Lemma map_new_ok c al s pd v rw sh zero :
  inv c (-1) s -> al_ok c al -> kd s pd = KPd -> user v ->
  exists s' r, map_new c al s pd v rw sh zero = Ok (s', r) /\ inv c (-1) s' /\
    (forall f, kd s f <> KFree -> kd s' f = kd s f /\ dt s' f = dt s f) /\
    (r = 0 /\ pte_at s pd v = None /\
      (exists f, kd s f = KFree /\ kd s' f = KPage /\ rc s' f = 1 /\
         (zero = true -> forall o, dt s' f o = 0) /\
         (forall a b, pte_at s' a b = upd2 (pte_at s) pd v (Some (Pte f rw false sh)) a b))
     \/
     (r = EADDRINUSE /\ pte_at s pd v <> None \/ r = ENOMEM) /\
     (forall a b, pte_at s' a b = pte_at s a b)).
Proof.
  intros H AL K U. unfold map_new. destruct (al s) as [f|] eqn:A.
  2:{ exists s, ENOMEM. split; [reflexivity|]. split; [exact H|]. split; [auto|]. right. auto. }
  destruct (AL _ _ A) as [KF RF]. cbn zeta.
  set (s1 := if zero then _ else _).
  set (w := if zero then fupd (dt s) f (fun _ => 0) else dt s).
  assert (E1 : s1 = St (fupd (kd s) f KPage) (de s) (te s) (rc s) w)
    by (unfold s1, w; destruct zero; reflexivity).
  rewrite E1. clearbody s1. clear s1 E1.
  destruct (inv_fresh c s f w H KF RF) as [H1 P1].
  set (s1 := St (fupd (kd s) f KPage) (de s) (te s) (rc s) w) in *.
  assert (FF : rc s f = 0 /\ forall a b e, pte_at s a b = Some e -> p_f e <> f)
    by (apply (F_free _ _ _ _ _ f (i_f _ _ _ H)); congruence).
  destruct FF as [R0 FN].
  assert (K1 : kd s1 f = KPage) by (unfold s1; cbn [kd]; apply fupd_same).
  assert (FT : fit c s1 (Pte f rw false sh)).
  { unfold fit; cbn [p_f p_rw p_sh p_cow]. split; [left; exact K1|]. split.
    - intros a b e E Q. rewrite P1 in E. exfalso. eapply FN; eauto.
    - split; auto. }
  assert (PD : kd s1 pd = KPd)
    by (unfold s1; cbn [kd]; rewrite fupd_other by congruence; exact K).
  assert (KK : forall g, kd s g <> KFree -> kd s1 g = kd s g /\ dt s1 g = dt s g).
  { intros g NG. assert (g <> f) by congruence. unfold s1, w; cbn [kd dt].
    rewrite fupd_other by assumption. split; [reflexivity|]. destruct zero; [|reflexivity].
    rewrite fupd_other by assumption. reflexivity. }
  destruct (map_int_ok c f al s1 pd v _ H1 AL PD U FT) as (s2 & r & E & DT & KD & CS).
  rewrite E. cbn [bind]. cbn [p_f] in CS.
  assert (W : zero = true -> forall o, dt s2 f o = 0).
  { intros -> o. rewrite DT. unfold s1, w; cbn [dt]. rewrite fupd_same. reflexivity. }
  assert (KK2 : forall g, kd s g <> KFree -> kd s2 g = kd s g /\ dt s2 g = dt s g).
  { intros g NG. destruct (KK g NG) as [A1 A2]. rewrite DT, A2. split; [|reflexivity].
    rewrite KD by congruence. exact A1. }
  destruct CS as [(-> & PN & I2 & P2 & RC)|([(-> & PN)|(-> & PN)] & I2 & P2 & RC)].
  - cbn. exists s2, 0. split; [reflexivity|]. rewrite Z.eqb_refl in I2. split; [exact I2|].
    split; [exact KK2|]. left. split; [reflexivity|]. rewrite P1 in PN. split; [exact PN|].
    exists f. split; [exact KF|]. split; [rewrite KD by (rewrite K1; discriminate); exact K1|].
    split; [rewrite RC, fupd_same; unfold s1; cbn [rc]; lia|].
    split; [exact W|]. intros a b. rewrite P2. unfold upd2. rewrite P1. reflexivity.
  - assert (K2 : kd s2 f = KPage) by (rewrite KD by (rewrite K1; discriminate); exact K1).
    change (EADDRINUSE =? 0) with false. cbv iota. unfold kfree. rewrite K2. cbn [bind].
    destruct (inv_unfresh c s2 f (dt s2) I2 K2) as [I3 P3].
    { rewrite RC. exact R0. }
    eexists _, EADDRINUSE. split; [reflexivity|]. split; [exact I3|]. split.
    { intros g NG. cbn [set_kd kd dt]. rewrite fupd_other by congruence. apply KK2. exact NG. }
    right. split; [left; split; [reflexivity|rewrite <- P1; exact PN]|].
    intros a b. etransitivity; [apply P3|]. rewrite P2. apply P1.
  - assert (K2 : kd s2 f = KPage) by (rewrite KD by (rewrite K1; discriminate); exact K1).
    change (ENOMEM =? 0) with false. cbv iota. unfold kfree. rewrite K2. cbn [bind].
    destruct (inv_unfresh c s2 f (dt s2) I2 K2) as [I3 P3].
    { rewrite RC. exact R0. }
    eexists _, ENOMEM. split; [reflexivity|]. split; [exact I3|]. split.
    { intros g NG. cbn [set_kd kd dt]. rewrite fupd_other by congruence. apply KK2. exact NG. }
    right. split; [right; reflexivity|].
    intros a b. etransitivity; [apply P3|]. rewrite P2. apply P1.
Qed.

Lemma map_zero_ok c al s pd v rw :
  inv c (-1) s -> al_ok c al -> kd s pd = KPd -> user v ->
  exists s' r, map_zero c al s pd v rw = Ok (s', r) /\ inv c (-1) s' /\
    (forall f, dt s' f = dt s f) /\ (forall f, kd s f <> KFree -> kd s' f = kd s f) /\
    (r = 0 /\ pte_at s pd v = None /\
       (forall a b, pte_at s' a b = upd2 (pte_at s) pd v (Some (Pte (zf c) false rw false)) a b)
     \/
     (r = EADDRINUSE /\ pte_at s pd v <> None \/ r = ENOMEM /\ pte_at s pd v = None) /\
     (forall a b, pte_at s' a b = pte_at s a b)).
Proof.
  intros H AL K U. unfold map_zero.
  destruct (map_int_ok c (-1) al s pd v (Pte (zf c) false rw false) H AL K U) as (s' & r & E & DT & KD & CS).
  { unfold fit; cbn [p_f p_rw p_sh p_cow]. split.
    - right. split; [apply (i_zf _ _ _ H)|]. left. auto.
    - split; [|split; [discriminate|discriminate]].
      intros a b e E Q. destruct (f_kind _ _ _ _ _ (i_f _ _ _ H) _ _ _ E) as [G|[_ [(A & B & C)|[A B]]]].
      + rewrite Q, (i_zf _ _ _ H) in G. discriminate.
      + auto.
      + contradiction. }
  rewrite E. cbn [p_f] in CS.
  exists s', r. split; [reflexivity|]. destruct CS as [(A & B & C & D & G)|(A & B & C & _)].
  - split; [destruct (-1 =? zf c); exact C|]. split; [exact DT|]. split; [exact KD|]. left. auto.
  - split; [exact B|]. split; [exact DT|]. split; [exact KD|]. right. auto.
Qed.

Lemma map_ext_ok c al s pd v f rw :
  inv c (-1) s -> al_ok c al -> kd s pd = KPd -> user v -> kd s f = KExt -> f <> zf c ->
  exists s' r, map_ext c al s pd v f rw = Ok (s', r) /\ inv c (-1) s' /\
    (forall f, dt s' f = dt s f) /\ (forall f, kd s f <> KFree -> kd s' f = kd s f) /\
    (r = 0 /\ pte_at s pd v = None /\
       (forall a b, pte_at s' a b = upd2 (pte_at s) pd v (Some (Pte f rw false true)) a b)
     \/
     (r = EADDRINUSE /\ pte_at s pd v <> None \/ r = ENOMEM /\ pte_at s pd v = None) /\
     (forall a b, pte_at s' a b = pte_at s a b)).
Proof.
  intros H AL K U KF NZ. unfold map_ext.
  destruct (map_int_ok c (-1) al s pd v (Pte f rw false true) H AL K U) as (s' & r & E & DT & KD & CS).
  { unfold fit; cbn [p_f p_rw p_sh p_cow]. split.
    - right. split; [exact KF|]. right. auto.
    - split; [|split; [discriminate|reflexivity]].
      intros a b e E Q. destruct (f_kind _ _ _ _ _ (i_f _ _ _ H) _ _ _ E) as [G|[_ [(A & B & C)|[A B]]]].
      + rewrite Q, KF in G. discriminate.
      + congruence.
      + split; [exact B|congruence]. }
  rewrite E. cbn [p_f] in CS.
  exists s', r. split; [reflexivity|]. destruct CS as [(A & B & C & D & G)|(A & B & C & _)].
  - split; [destruct (-1 =? f); exact C|]. split; [exact DT|]. split; [exact KD|]. left. auto.
  - split; [exact B|]. split; [exact DT|]. split; [exact KD|]. right. auto.
Qed.

(* freeing a data frame *)
Lemma clr_ok c s pd v p e w :
  inv c (-1) s -> kd s pd = KPd -> de s pd (v / NPT) = Some p -> te s p (v mod NPT) = Some e ->
  let k := if rc s (p_f e) - 1 =? 0 then KFree else kd s (p_f e) in
  let s' := St (fupd (kd s) (p_f e) k) (de s) (fupd (te s) p (fupd (te s p) (v mod NPT) None))
               (fupd (rc s) (p_f e) (rc s (p_f e) - 1)) w in
  inv c (-1) s' /\ (forall a b, pte_at s' a b = upd2 (pte_at s) pd v None a b) /\
  0 <= p_f e < lim c /\ 0 < rc s (p_f e) /\
  (rc s (p_f e) - 1 = 0 -> kd s (p_f e) = KPage /\ p_f e <> zf c).
Proof.
  intros H K D E k s'.
  assert (PE : pte_at s pd v = Some e)
    by (rewrite (pte_at_of c) by (try exact K; apply (i_t _ _ _ H)); rewrite D; exact E).
  pose proof (inv_ram _ _ _ _ _ _ H PE) as RM.
  pose proof (F_pos _ _ _ _ _ _ _ _ (i_f _ _ _ H) PE) as RP.
  pose proof (f_kind _ _ _ _ _ (i_f _ _ _ H) _ _ _ PE) as FK.
  assert (EX : kd s (p_f e) = KExt -> 1 < rc s (p_f e)).
  { intros KX. destruct (f_rc _ _ _ _ _ (i_f _ _ _ H) (p_f e)) as (L & [ND I] & R).
    assert (J : In (pd, v) L) by (apply I; eauto).
    rewrite R. unfold pin. rewrite KX. destruct L; [destruct J|]. rewrite zlen_cons. unfold zlen. lia. }
  assert (LAST : rc s (p_f e) - 1 = 0 -> kd s (p_f e) = KPage /\ p_f e <> zf c).
  { intros Z. destruct FK as [G|[G _]]; [|specialize (EX G); lia]. split; [exact G|].
    intros Q. rewrite Q, (i_zf _ _ _ H) in G. discriminate. }
  assert (KN : kd s (p_f e) = KPage \/ kd s (p_f e) = KExt) by tauto.
  assert (NM : -1 <> p_f e) by lia.
  pose proof (F_clr c (-1) (pte_at s) (kd s) (rc s) pd v e k (i_f _ _ _ H) PE NM eq_refl) as FC.
  assert (IG := fun A B C G => inv_gen c (-1) (-1) s pd v p None (p_f e) k _ w H K D A B C G FC).
  destruct IG as [G1 G2].
  - destruct KN as [->| ->]; split; discriminate.
  - unfold k. destruct (rc s (p_f e) - 1 =? 0); [split; discriminate|].
    destruct KN as [->| ->]; split; discriminate.
  - auto.
  - intros Q. unfold k. destruct (Z.eqb_spec (rc s (p_f e) - 1) 0) as [Z|Z].
    + destruct (LAST Z) as [_ N]. contradiction.
    + rewrite Q. apply (i_zf _ _ _ H).
  - split; [exact G1|]. split; [exact G2|]. auto.
Qed.

Lemma inv_fupd_kd_id c x s f r g h w :
  inv c x (St (fupd (kd s) f (kd s f)) g h r w) -> inv c x (St (kd s) g h r w).
Proof.
  intros H. eapply inv_eqv; [exact H|]. constructor; cbn [kd de te rc dt]; auto.
  intros y. destruct (Z.eq_dec y f) as [->|N]; [rewrite fupd_same|rewrite fupd_other by exact N]; reflexivity.
Qed.

Lemma pte_fupd_kd_id s f r g h w a b :
  pte_at (St (fupd (kd s) f (kd s f)) g h r w) a b = pte_at (St (kd s) g h r w) a b.
Proof.
  apply eqv_pte. constructor; cbn [kd de te rc dt]; auto.
  intros y. destruct (Z.eq_dec y f) as [->|N]; [rewrite fupd_same|rewrite fupd_other by exact N]; reflexivity.
Qed.

Lemma unmap_ok c s pd v fr perm :
  inv c (-1) s -> kd s pd = KPd ->
  (perm = true \/ pte_at s pd v <> None) ->
  (fr = true \/ forall e, pte_at s pd v = Some e -> kd s (p_f e) = KExt) ->
  exists s' r, unmap c s pd v fr perm = Ok (s', r) /\ inv c (-1) s' /\
    (forall f, dt s' f = dt s f) /\
    (forall f, kd s' f = kd s f \/ kd s f = KPage /\ kd s' f = KFree) /\
    (forall a b, pte_at s' a b = upd2 (pte_at s) pd v None a b) /\
    (r = if pte_at s pd v then 0 else EINVAL).
Proof.
  intros H K PM FR. unfold unmap. rewrite (get_pt_ok c) by (try exact K; apply (i_t _ _ _ H)).
  cbn [bind]. pose proof (pte_at_of c s pd v (i_t _ _ _ H) K) as PE. rewrite PE in *.
  assert (NOP : pte_at s pd v = None -> forall a b, pte_at s a b = upd2 (pte_at s) pd v None a b).
  { intros N a b. destruct (pair_dec a b pd v) as [[-> ->]|M].
    - rewrite upd2_same. exact N.
    - rewrite upd2_other by exact M. reflexivity. }
  destruct (de s pd (v / NPT)) as [p|] eqn:D.
  2:{ destruct PM as [->|]; [|contradiction]. exists s, EINVAL. split; [reflexivity|].
      split; [exact H|]. split; [reflexivity|]. split; [auto|]. split; [apply NOP; exact PE|reflexivity]. }
  destruct (te s p (v mod NPT)) as [e|] eqn:E.
  2:{ destruct PM as [->|]; [|contradiction]. exists s, EINVAL. split; [reflexivity|].
      split; [exact H|]. split; [reflexivity|]. split; [auto|]. split; [apply NOP; exact PE|reflexivity]. }
  destruct (clr_ok c s pd v p e (dt s) H K D E) as (G1 & G2 & RM & RP & LAST). cbv zeta in G1, G2.
  rewrite rc_dec_ram by (cbn [set_te rc]; lia). cbn [bind set_te rc].
  destruct (Z.eqb_spec (rc s (p_f e) - 1) 0) as [Z|Z].
  - destruct (LAST Z) as [KP NZ]. assert (fr = true) as -> by
      (destruct FR as [|FR]; [assumption|specialize (FR e eq_refl); congruence]).
    cbn [andb]. destruct (Z.eqb_spec (p_f e) (zf c)); [contradiction|].
    unfold kfree. cbn [set_rc set_te kd]. rewrite KP. cbn [bind].
    eexists _, 0. split; [reflexivity|]. unfold set_kd, set_rc; cbn [kd de te rc dt].
    split; [exact G1|]. split; [reflexivity|]. split.
    { intros f. destruct (Z.eq_dec f (p_f e)) as [->|N].
      - right. rewrite fupd_same. auto.
      - left. apply fupd_other. exact N. }
    split; [exact G2|reflexivity].
  - cbn [andb]. eexists _, 0. split; [reflexivity|]. unfold set_rc; cbn [kd de te rc dt].
    split; [eapply inv_fupd_kd_id; exact G1|]. split; [reflexivity|]. split; [auto|].
    split; [|reflexivity]. intros a b. rewrite <- G2. symmetry. apply (pte_fupd_kd_id s).
Qed.

Lemma set_ro_ok c s pd v :
  inv c (-1) s -> kd s pd = KPd -> pte_at s pd v <> None ->
  exists s' e, set_ro s pd v = Ok s' /\ inv c (-1) s' /\ pte_at s pd v = Some e /\
    (forall f, dt s' f = dt s f) /\ (forall f, kd s' f = kd s f) /\
    (forall a b, pte_at s' a b =
       upd2 (pte_at s) pd v (Some (Pte (p_f e) false (p_cow e) (p_sh e))) a b).
Proof.
  intros H K PM. unfold set_ro. rewrite (get_pt_ok c) by (try exact K; apply (i_t _ _ _ H)).
  cbn [bind]. pose proof (pte_at_of c s pd v (i_t _ _ _ H) K) as PE. rewrite PE in PM.
  destruct (de s pd (v / NPT)) as [p|] eqn:D; [|contradiction].
  destruct (te s p (v mod NPT)) as [e|] eqn:E; [|contradiction].
  eexists _, e. split; [reflexivity|].
  edestruct (inv_te c (-1) (-1) s pd v p (Some (Pte (p_f e) false (p_cow e) (p_sh e))) (rc s) (dt s) H K D)
    as [G1 G2].
  { eapply F_mod with (e := e); cbn; auto; try discriminate.
    - apply (i_f _ _ _ H).
    - apply (f_cow _ _ _ _ _ (i_f _ _ _ H) _ _ _ PE). }
  split; [exact G1|]. split; [exact PE|]. split; [reflexivity|]. split; [reflexivity|exact G2].
Qed.
