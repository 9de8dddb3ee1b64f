From Coq Require Import ZArith List Bool Lia.
From Verif Require Import Lib Paging_Model Paging_Spec.
Import ListNotations.
Open Scope Z_scope.

Definition upd2 (pm : Z -> Z -> option pte) pd v x : Z -> Z -> option pte :=
  fun a b => if (a =? pd) && (b =? v) then x else pm a b.

Lemma upd2_same pm pd v x : upd2 pm pd v x pd v = x.
Proof. unfold upd2. rewrite !Z.eqb_refl. reflexivity. Qed.

Lemma upd2_other pm pd v x a b : a <> pd \/ b <> v -> upd2 pm pd v x a b = pm a b.
Proof.
  intros H. unfold upd2. destruct (Z.eqb_spec a pd); destruct (Z.eqb_spec b v); cbn [andb];
    try reflexivity. lia.
Qed.

Lemma pair_dec (a b pd v : Z) : (a = pd /\ b = v) \/ (a <> pd \/ b <> v).
Proof. destruct (Z.eq_dec a pd); destruct (Z.eq_dec b v); auto. Qed.

Definition pl (pm : Z -> Z -> option pte) (f : Z) (L : list (Z * Z)) : Prop :=
  NoDup L /\ forall pd v, In (pd, v) L <-> exists e, pm pd v = Some e /\ p_f e = f.

Definition pin (kd : Z -> kind) f := match kd f with KExt => 1 | _ => 0 end.

(* the frames and their mappings; x is a frame that is being handed over *)
Record F (c : cfg) (x : Z) (pm : Z -> Z -> option pte) (kd : Z -> kind) (rc : Z -> Z) : Prop := {
  f_kind : forall pd v e, pm pd v = Some e ->
    kd (p_f e) = KPage \/
    kd (p_f e) = KExt /\
    (p_f e = zf c /\ p_sh e = false /\ p_rw e = false \/ p_f e <> zf c /\ p_sh e = true);
  f_rw : forall pd v e, pm pd v = Some e -> p_rw e = true -> p_sh e = false -> rc (p_f e) = 1;
  f_sh : forall pd v e pd' v' e', pm pd v = Some e -> pm pd' v' = Some e' ->
    p_f e = p_f e' -> p_sh e = p_sh e';
  f_cow : forall pd v e, pm pd v = Some e -> p_sh e = true -> p_cow e = false;
  f_rc : forall f, exists L, pl pm f L /\ rc f = zlen L + pin kd f;
  f_page : forall f, kd f = KPage -> f = x \/ 0 < rc f }.

Lemma F_ext c x pm pm' kd kd' rc rc' :
  F c x pm kd rc ->
  (forall a b, pm' a b = pm a b) -> (forall f, kd' f = kd f) -> (forall f, rc' f = rc f) ->
  F c x pm' kd' rc'.
Proof.
  intros H EP EK ER. destruct H as [H1 H2 H3 H4 H5 H6]. constructor.
  - intros pd v e E. rewrite EP in E. rewrite EK. eauto.
  - intros pd v e E. rewrite EP in E. rewrite ER. eauto.
  - intros pd v e pd' v' e' E E'. rewrite EP in E, E'. eauto.
  - intros pd v e E. rewrite EP in E. eauto.
  - intros f. destruct (H5 f) as (L & [ND I] & E). exists L. split.
    + split; [exact ND|]. intros pd v. rewrite EP. apply I.
    + rewrite ER, E. unfold pin. rewrite EK. reflexivity.
  - intros f. rewrite EK, ER. apply H6.
Qed.

(* a change of the kind of frames that are not mapped *)
Definition plain (k : kind) : Prop := k = KFree \/ k = KPt \/ k = KPd.

Lemma F_kd c x pm kd kd' rc :
  F c x pm kd rc ->
  (forall f, kd' f = kd f \/ (plain (kd f) /\ (plain (kd' f) \/ kd' f = KPage /\ f = x))) ->
  F c x pm kd' rc.
Proof.
  intros H E. destruct H as [H1 H2 H3 H4 H5 H6]. constructor; auto.
  - intros pd v e P. specialize (H1 _ _ _ P). destruct (E (p_f e)) as [->|[Q _]]; [exact H1|].
    exfalso. destruct H1 as [H|[H _]]; rewrite H in Q; destruct Q as [|[|]]; discriminate.
  - intros f. destruct (H5 f) as (L & Q & R). exists L. split; [exact Q|]. rewrite R. f_equal.
    unfold pin. destruct (E f) as [->|[A B]]; [reflexivity|].
    destruct A as [A|[A|A]]; rewrite A; destruct B as [[B|[B|B]]|[B _]]; rewrite B; reflexivity.
  - intros f K. destruct (E f) as [Q|[A B]]; [rewrite Q in K; apply H6; exact K|].
    destruct B as [[B|[B|B]]|[_ B]]; try congruence. left; exact B.
Qed.

Lemma pl_len pm f L L' : pl pm f L -> pl pm f L' -> zlen L = zlen L'.
Proof.
  intros [A B] [A' B']. unfold zlen. f_equal.
  apply Nat.le_antisymm; apply NoDup_incl_length; auto; intros [a b] I.
  - apply B'. apply B. exact I.
  - apply B. apply B'. exact I.
Qed.

Lemma F_pos c x pm kd rc pd v e : F c x pm kd rc -> pm pd v = Some e -> 0 < rc (p_f e).
Proof.
  intros H E. destruct (f_rc _ _ _ _ _ H (p_f e)) as (L & [ND I] & R).
  assert (J : In (pd, v) L) by (apply I; eauto).
  destruct L as [|y L]; [destruct J|]. rewrite R. unfold pin, zlen. cbn [length].
  destruct (kd (p_f e)); lia.
Qed.

Lemma F_ge0 c x pm kd rc f : F c x pm kd rc -> 0 <= rc f.
Proof.
  intros H. destruct (f_rc _ _ _ _ _ H f) as (L & _ & ->). unfold pin, zlen.
  destruct (kd f); lia.
Qed.

Lemma F_free c x pm kd rc f :
  F c x pm kd rc -> kd f <> KPage -> kd f <> KExt ->
  rc f = 0 /\ forall pd v e, pm pd v = Some e -> p_f e <> f.
Proof.
  intros H K1 K2.
  assert (N : forall pd v e, pm pd v = Some e -> p_f e <> f).
  { intros pd v e E Q. subst f. destruct (f_kind _ _ _ _ _ H _ _ _ E) as [|[]]; contradiction. }
  split; [|exact N].
  destruct (f_rc _ _ _ _ _ H f) as (L & [ND I] & R). destruct L as [|[a b] L].
  - rewrite R. unfold pin. cbn. destruct (kd f); try reflexivity. contradiction.
  - exfalso. destruct (proj1 (I a b)) as (e & E & Q); [left; reflexivity|]. eapply N; eauto.
Qed.

(* a frame counted once and not pinned is mapped once *)
Lemma F_one c x pm kd rc pd v e pd' v' e' :
  F c x pm kd rc -> pm pd v = Some e -> pm pd' v' = Some e' -> p_f e' = p_f e ->
  rc (p_f e) = 1 -> pd' = pd /\ v' = v.
Proof.
  intros H E E' Q R. destruct (f_rc _ _ _ _ _ H (p_f e)) as (L & [ND I] & R').
  assert (J : In (pd, v) L) by (apply I; eauto).
  assert (J' : In (pd', v') L) by (apply I; eauto).
  assert (LL : zlen L <= 1) by (unfold pin in R'; destruct (kd (p_f e)); lia).
  destruct L as [|y [|z L]]; [destruct J| |exfalso; unfold zlen in LL; cbn [length] in LL; lia].
  destruct J as [->|[]]. destruct J' as [J|[]]. injection J as -> ->. auto.
Qed.

(* a new mapping *)
Lemma F_set c x pm kd rc pd v e :
  F c x pm kd rc -> pm pd v = None ->
  (kd (p_f e) = KPage \/ kd (p_f e) = KExt /\
    (p_f e = zf c /\ p_sh e = false /\ p_rw e = false \/ p_f e <> zf c /\ p_sh e = true)) ->
  (forall pd' v' e', pm pd' v' = Some e' -> p_f e' = p_f e ->
     p_sh e' = p_sh e /\ (p_sh e' = false -> p_rw e' = false)) ->
  (p_rw e = true -> p_sh e = false -> rc (p_f e) = 0) ->
  (p_sh e = true -> p_cow e = false) ->
  F c (if x =? p_f e then -1 else x) (upd2 pm pd v (Some e)) kd (fupd rc (p_f e) (rc (p_f e) + 1)).
Proof.
  intros H PN KD OT RW CW. pose proof H as [H1 H2 H3 H4 H5 H6]. constructor.
  - intros a b d E. destruct (pair_dec a b pd v) as [[-> ->]|N].
    + rewrite upd2_same in E. injection E as <-. exact KD.
    + rewrite upd2_other in E by exact N. eauto.
  - intros a b d E A B. destruct (pair_dec a b pd v) as [[-> ->]|N].
    + rewrite upd2_same in E. injection E as <-. rewrite fupd_same.
      rewrite (RW A B). reflexivity.
    + rewrite upd2_other in E by exact N. destruct (Z.eq_dec (p_f d) (p_f e)) as [Q|Q].
      * exfalso. destruct (OT _ _ _ E Q) as [_ Z]. rewrite (Z B) in A. discriminate.
      * rewrite fupd_other by exact Q. eauto.
  - intros a b d a' b' d' E E' Q.
    destruct (pair_dec a b pd v) as [[-> ->]|N]; destruct (pair_dec a' b' pd v) as [[-> ->]|N'].
    + rewrite upd2_same in E, E'. congruence.
    + rewrite upd2_same in E. rewrite upd2_other in E' by exact N'. injection E as <-.
      symmetry. apply (proj1 (OT _ _ _ E' (eq_sym Q))).
    + rewrite upd2_same in E'. rewrite upd2_other in E by exact N. injection E' as <-.
      apply (proj1 (OT _ _ _ E Q)).
    + rewrite upd2_other in E by exact N. rewrite upd2_other in E' by exact N'. eauto.
  - intros a b d E. destruct (pair_dec a b pd v) as [[-> ->]|N].
    + rewrite upd2_same in E. injection E as <-. exact CW.
    + rewrite upd2_other in E by exact N. eauto.
  - intros f. destruct (H5 f) as (L & [ND I] & R). destruct (Z.eq_dec f (p_f e)) as [->|Q].
    + exists ((pd, v) :: L). split.
      * split.
        { constructor; [|exact ND]. intros J. apply I in J. destruct J as (d & E & _). congruence. }
        intros a b. destruct (pair_dec a b pd v) as [[-> ->]|N].
        { rewrite upd2_same. split; [eauto|]. intros _. left; reflexivity. }
        rewrite upd2_other by exact N. cbn [In]. rewrite I. split; [|tauto].
        intros [J|J]; [|exact J]. injection J as -> ->. destruct N; congruence.
      * rewrite fupd_same, R, zlen_cons. lia.
    + exists L. split.
      * split; [exact ND|]. intros a b. destruct (pair_dec a b pd v) as [[-> ->]|N].
        { rewrite upd2_same. rewrite I. split.
          - intros (d & E & _). congruence.
          - intros (d & E & G). congruence. }
        rewrite upd2_other by exact N. apply I.
      * rewrite fupd_other by exact Q. exact R.
  - intros f K. destruct (Z.eq_dec f (p_f e)) as [->|Q].
    + right. rewrite fupd_same. pose proof (F_ge0 _ _ _ _ _ (p_f e) H). lia.
    + rewrite fupd_other by exact Q. destruct (H6 f K) as [->|G]; [|right; exact G].
      destruct (Z.eqb_spec x (p_f e)); [contradiction|left; reflexivity].
Qed.

Lemma remove_len (l : list (Z * Z)) y (D : forall a b : Z * Z, {a = b} + {a <> b}) :
  NoDup l -> In y l -> zlen (remove D y l) = zlen l - 1.
Proof.
  intros ND. induction ND as [|z l NI ND IH]; intros I; [destruct I|]. cbn [remove].
  destruct (D y z) as [->|N].
  - rewrite notin_remove by exact NI. rewrite zlen_cons. lia.
  - destruct I as [->|I]; [contradiction|]. rewrite !zlen_cons, IH by exact I. lia.
Qed.

Definition zz_dec : forall a b : Z * Z, {a = b} + {a <> b}.
Proof. intros [a b] [a' b']. destruct (Z.eq_dec a a'); destruct (Z.eq_dec b b');
  try (left; congruence); right; congruence. Defined.

Lemma remove_ND (l : list (Z * Z)) y : NoDup l -> NoDup (remove zz_dec y l).
Proof.
  intros ND. induction ND as [|z l NI ND IH]; cbn [remove]; [constructor|].
  destruct (zz_dec y z); [exact IH|]. constructor; [|exact IH].
  intros I. apply in_remove in I. tauto.
Qed.

(* a mapping less; the frame is freed when it was the last *)
Lemma F_clr c x pm kd rc pd v e (k' : kind) :
  F c x pm kd rc -> pm pd v = Some e -> x <> p_f e ->
  k' = (if rc (p_f e) - 1 =? 0 then KFree else kd (p_f e)) ->
  F c x (upd2 pm pd v None) (fupd kd (p_f e) k') (fupd rc (p_f e) (rc (p_f e) - 1)).
Proof.
  intros H E XN EK. pose proof H as [H1 H2 H3 H4 H5 H6].
  destruct (H5 (p_f e)) as (L & [ND I] & R).
  assert (J : In (pd, v) L) by (apply I; eauto).
  assert (LP : 0 < zlen L) by (destruct L; [destruct J|rewrite zlen_cons; unfold zlen; lia]).
  assert (OT : forall a b d, upd2 pm pd v None a b = Some d ->
            pm a b = Some d /\ (p_f d = p_f e -> rc (p_f e) - 1 <> 0)).
  { intros a b d D. destruct (pair_dec a b pd v) as [[-> ->]|N].
    - rewrite upd2_same in D. discriminate.
    - rewrite upd2_other in D by exact N. split; [exact D|]. intros Q Z.
      assert (O : a = pd /\ b = v) by (eapply F_one with (e := e) (e' := d); eauto; lia).
      destruct O; destruct N; contradiction. }
  assert (KN : rc (p_f e) - 1 <> 0 -> k' = kd (p_f e)).
  { intros Z. rewrite EK. apply Z.eqb_neq in Z. rewrite Z. reflexivity. }
  constructor.
  - intros a b d D. destruct (OT _ _ _ D) as [D' Z]. destruct (Z.eq_dec (p_f d) (p_f e)) as [Q|Q].
    + specialize (KN (Z Q)). pose proof (H1 _ _ _ D') as G. rewrite Q in *.
      rewrite fupd_same, KN. exact G.
    + rewrite fupd_other by exact Q. eauto.
  - intros a b d D A B. destruct (OT _ _ _ D) as [D' Z]. destruct (Z.eq_dec (p_f d) (p_f e)) as [Q|Q].
    + exfalso. specialize (Z Q). pose proof (H2 _ _ _ D' A B) as G. rewrite Q in G. lia.
    + rewrite fupd_other by exact Q. eauto.
  - intros a b d a' b' d' D D' Q. destruct (OT _ _ _ D) as [G _]. destruct (OT _ _ _ D') as [G' _].
    eauto.
  - intros a b d D. destruct (OT _ _ _ D) as [G _]. eauto.
  - intros f. destruct (Z.eq_dec f (p_f e)) as [->|Q].
    + exists (remove zz_dec (pd, v) L). split.
      * split; [apply remove_ND; exact ND|]. intros a b.
        destruct (pair_dec a b pd v) as [[-> ->]|N].
        { rewrite upd2_same. split.
          - intros G. exfalso. apply (remove_In _ _ _ G).
          - intros (d & D & _). discriminate. }
        rewrite upd2_other by exact N. rewrite <- I. split.
        { intros G. apply in_remove in G. tauto. }
        intros G. apply in_in_remove; [|exact G]. intros Z. injection Z as -> ->.
        destruct N; congruence.
      * rewrite remove_len by assumption. rewrite fupd_same. unfold pin in *.
        rewrite fupd_same. destruct (Z.eq_dec (rc (p_f e) - 1) 0) as [Z|Z].
        { rewrite EK, Z. cbn. destruct (kd (p_f e)); lia. }
        rewrite (KN Z). lia.
    + destruct (H5 f) as (M & [ND' I'] & R'). exists M. split.
      * split; [exact ND'|]. intros a b. rewrite I'. destruct (pair_dec a b pd v) as [[-> ->]|N].
        { rewrite upd2_same. split; intros (d & D & G); congruence. }
        rewrite upd2_other by exact N. reflexivity.
      * rewrite fupd_other by exact Q. rewrite R'. unfold pin. rewrite fupd_other by exact Q.
        reflexivity.
  - intros f. destruct (Z.eq_dec f (p_f e)) as [->|Q].
    + rewrite !fupd_same. intros K. right. destruct (Z.eq_dec (rc (p_f e) - 1) 0) as [Z|Z].
      * rewrite EK, Z in K. cbn in K. discriminate.
      * pose proof (F_pos _ _ _ _ _ _ _ _ H E). lia.
    + rewrite !fupd_other by exact Q. apply H6.
Qed.

(* an entry changed, the frame and the sharing staying *)
Lemma F_mod c x pm kd rc pd v e e' :
  F c x pm kd rc -> pm pd v = Some e ->
  p_f e' = p_f e -> p_sh e' = p_sh e ->
  (p_rw e' = true -> p_sh e' = false -> rc (p_f e) = 1) ->
  (p_sh e' = true -> p_cow e' = false) ->
  (p_rw e' = true -> p_f e <> zf c \/ p_sh e = true \/ kd (p_f e) = KPage) ->
  F c x (upd2 pm pd v (Some e')) kd rc.
Proof.
  intros H E EF ES RW CW ZN. pose proof H as [H1 H2 H3 H4 H5 H6].
  assert (AL : forall a b d, upd2 pm pd v (Some e') a b = Some d ->
            exists d', pm a b = Some d' /\ p_f d = p_f d' /\ p_sh d = p_sh d').
  { intros a b d D. destruct (pair_dec a b pd v) as [[-> ->]|N].
    - rewrite upd2_same in D. injection D as <-. eauto.
    - rewrite upd2_other in D by exact N. eauto. }
  constructor.
  - intros a b d D. destruct (pair_dec a b pd v) as [[-> ->]|N].
    + rewrite upd2_same in D. injection D as <-. rewrite EF, ES.
      destruct (H1 _ _ _ E) as [G|[G [(A & B & C)|B]]]; [left; exact G| |right; auto].
      right. split; [exact G|]. left. split; [exact A|split; [exact B|]].
      destruct (p_rw e') eqn:RR; [|reflexivity].
      destruct (ZN eq_refl) as [Z|[Z|Z]]; congruence.
    + rewrite upd2_other in D by exact N. eauto.
  - intros a b d D. destruct (pair_dec a b pd v) as [[-> ->]|N].
    + rewrite upd2_same in D. injection D as <-. rewrite EF. exact RW.
    + rewrite upd2_other in D by exact N. eauto.
  - intros a b d a' b' d' D D' Q. destruct (AL _ _ _ D) as (g & G & A & B).
    destruct (AL _ _ _ D') as (g' & G' & A' & B'). rewrite B, B'.
    eapply H3; [exact G|exact G'|congruence].
  - intros a b d D. destruct (pair_dec a b pd v) as [[-> ->]|N].
    + rewrite upd2_same in D. injection D as <-. exact CW.
    + rewrite upd2_other in D by exact N. eauto.
  - intros f. destruct (H5 f) as (L & [ND I] & R). exists L. split; [|exact R].
    split; [exact ND|]. intros a b. rewrite I. destruct (pair_dec a b pd v) as [[-> ->]|N].
    + rewrite upd2_same. split; intros (d & D & Q); [exists e'|exists e]; split; try congruence.
    + rewrite upd2_other by exact N. reflexivity.
  - exact H6.
Qed.
