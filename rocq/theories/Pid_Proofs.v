From Verif Require Import Lib Pid_Model Pid_Spec.
From Coq Require Import Sorted.

Definition lt_tid (a b : task) : Prop := tid a < tid b.
Definition sorted (l : list task) : Prop := StronglySorted lt_tid l.

Lemma inc_if_spec c i v : exists c' r, inc_if c i v = (c', r) /\
  ((c' = c /\ r = 0) \/ (c' = c + 1 /\ r = 1 /\ c = v /\ c <> i)).
Proof.
  unfold inc_if. destruct (c =? v) eqn:E1; cbn [negb]; [destruct (c =? i) eqn:E2|]; eexists _, _; (split; [reflexivity|]); [left; auto|right; lia|left; auto].
Qed.

Lemma bump_spec t c : inval (bump t c) = inval c /\
  low (bump t c) = (if low c =? t then low c + 1 else low c) /\ after (bump t c) = (if after c =? t then after c + 1 else after c).
Proof. unfold bump. destruct (low c =? t); cbn; destruct (after c =? t); auto. Qed.

(** One visit, for a process not skipped *)
Definition field (t : task) (v : Z) : Prop := v = pgid t \/ v = sid t.
Lemma visit_user_spec c t c' : visit_user c t = Some c' -> main t = true -> low c <= tid t ->
  low c <= low c' <= tid t + 1 /\ after c <= after c' /\
  (forall y, low c <= y < low c' -> y = tid t \/ field t y) /\
  (inval c' = inval c \/ inval c' = true /\ exists v, field t v /\ (low c <= v < low c' \/ after c <= v < after c')) /\
  (inval c' = false -> inval c = false /\ low c' = (if low c =? tid t then low c + 1 else low c)) /\
  (forall (lv : Z -> Prop) cm, cm < after c -> (lv (after c) -> tid t <= after c) ->
     (forall v, field t v -> cm < v < tid t -> lv v) -> lv (after c') -> tid t < after c').
Proof.
  intros E M L. unfold visit_user in E. rewrite M in E. cbn [negb] in E. destruct (tid t >=? 0); [|discriminate]. cbn [negb] in E.
  assert (X : (tid t <? low c) = false) by lia. rewrite X in E.
  destruct (inc_if_spec (low c) (tid t) (pgid t)) as (l1 & r1 & E1 & H1). rewrite E1 in E.
  destruct (inc_if_spec l1 (tid t) (sid t)) as (l2 & r2 & E2 & H2). rewrite E2 in E.
  destruct (inc_if_spec (after c) (tid t) (pgid t)) as (a1 & r3 & E3 & H3). rewrite E3 in E.
  destruct (inc_if_spec a1 (tid t) (sid t)) as (a2 & r4 & E4 & H4). rewrite E4 in E. inversion E. subst c'. clear E E1 E2 E3 E4.
  set (b := if r1 + r2 + r3 + r4 =? 0 then inval c else true).
  destruct (bump_spec (tid t) (Ctx l2 a2 b)) as (B1 & B2 & B3). rewrite B1, B2, B3. cbn [low after inval] in *.
  assert (L2 : low c <= l2 <= tid t) by lia.
  assert (A2 : after c <= a2) by lia.
  assert (LL : (if l2 =? tid t then l2 + 1 else l2) = l2 /\ l2 <> tid t \/ (if l2 =? tid t then l2 + 1 else l2) = l2 + 1 /\ l2 = tid t) by (destruct (l2 =? tid t) eqn:Q; lia).
  assert (AA : (if a2 =? tid t then a2 + 1 else a2) = a2 /\ a2 <> tid t \/ (if a2 =? tid t then a2 + 1 else a2) = a2 + 1 /\ a2 = tid t) by (destruct (a2 =? tid t) eqn:Q; lia).
  revert LL AA. generalize (if l2 =? tid t then l2 + 1 else l2) as l3. generalize (if a2 =? tid t then a2 + 1 else a2) as a3. intros a3 l3 LL AA.
  split; [lia|]. split; [lia|]. split; [|split; [|split]].
  - intros y Hy. unfold field. destruct (Z.eq_dec y (tid t)); [left; assumption|right]. lia.
  - unfold b. destruct (r1 + r2 + r3 + r4 =? 0) eqn:R; [left; reflexivity|right]. split; [reflexivity|].
    destruct H1 as [H1|H1]; [|exists (pgid t); unfold field; lia].
    destruct H2 as [H2|H2]; [|exists (sid t); unfold field; lia].
    destruct H3 as [H3|H3]; [|exists (pgid t); unfold field; lia].
    destruct H4 as [H4|H4]; [|exists (sid t); unfold field; lia]. lia.
  - unfold b. destruct (r1 + r2 + r3 + r4 =? 0) eqn:R; [|discriminate]. intros ->. split; [reflexivity|].
    assert (l2 = low c) by lia. subst l2. destruct (low c =? tid t) eqn:Q; lia.
  - intros lv cm Hc HA HS HL.
    assert (K1 : lv a1 -> tid t <= a1).
    { destruct H3 as [[-> _]|(-> & _ & Ev & Ne)]; [exact HA|]. intros _. destruct (Z_lt_le_dec (after c) (tid t)) as [Q|Q]; [|lia].
      assert (lv (after c)) by (rewrite Ev; apply HS; [left; reflexivity|lia]). lia. }
    assert (K2 : lv a2 -> tid t <= a2).
    { destruct H4 as [[-> _]|(-> & _ & Ev & Ne)]; [exact K1|]. intros _. destruct (Z_lt_le_dec a1 (tid t)) as [Q|Q]; [|lia].
      assert (lv a1) by (rewrite Ev; apply HS; [right; reflexivity|lia]). lia. }
    destruct AA as [[-> N]|[-> E]]; [|lia]. apply K2 in HL. lia.
Qed.
Lemma visit_user_skip c t : main t = false \/ (0 <= tid t < low c) -> visit_user c t = Some c.
Proof.
  unfold visit_user. intros [->|H]; [reflexivity|]. destruct (main t); [|reflexivity]. cbn [negb].
  assert (E1 : (tid t >=? 0) = true) by lia. assert (E2 : (tid t <? low c) = true) by lia. rewrite E1, E2. reflexivity.
Qed.

Lemma iterate_user_total l c : (forall t, In t l -> 0 <= tid t) -> exists c', iterate visit_user l c = Some c'.
Proof.
  revert c. induction l as [|t l IH]; intros c H; [eexists; reflexivity|]. cbn [iterate].
  assert (E : exists c1, visit_user c t = Some c1).
  { unfold visit_user. destruct (negb (main t)); [eauto|]. assert (E : (tid t >=? 0) = true) by (pose proof (H t (or_introl eq_refl)); lia). rewrite E. cbn [negb].
    destruct (tid t <? low c); [eauto|]. destruct (inc_if (low c) (tid t) (pgid t)) as [l1 r1]. destruct (inc_if l1 (tid t) (sid t)) as [l2 r2].
    destruct (inc_if (after c) (tid t) (pgid t)) as [a1 r3]. destruct (inc_if a1 (tid t) (sid t)) as [a2 r4]. eauto. }
  destruct E as [c1 ->]. apply IH. intros x Hx. apply H. right. exact Hx.
Qed.

(** One pass *)
Definition is_main (l : list task) (i : Z) : Prop := exists t, In t l /\ main t = true /\ tid t = i.
Definition fieldof (l : list task) (v : Z) : Prop := exists t, In t l /\ main t = true /\ field t v.

Lemma iterate_user_spec l c c' : (forall t, In t l -> 0 <= tid t) -> iterate visit_user l c = Some c' ->
  low c <= low c' /\ after c <= after c' /\
  (forall y, low c <= y < low c' -> is_main l y \/ fieldof l y) /\
  (inval c' = inval c \/ inval c' = true /\ exists v, fieldof l v /\ (low c <= v < low c' \/ after c <= v < after c')).
Proof.
  revert c. induction l as [|t l IH]; intros c P E; cbn [iterate] in E.
  - inversion E. subst. split; [lia|]. split; [lia|]. split; [intros; lia|left; reflexivity].
  - destruct (visit_user c t) as [c1|] eqn:V; [|discriminate].
    assert (P' : forall x, In x l -> 0 <= tid x) by (intros x Hx; apply P; right; exact Hx).
    destruct (IH c1 P' E) as (A & B & D & F).
    assert (S1 : forall y, is_main l y -> is_main (t :: l) y) by (intros y (x & Hx & R); exists x; split; [right; exact Hx|exact R]).
    assert (S2 : forall y, fieldof l y -> fieldof (t :: l) y) by (intros y (x & Hx & R); exists x; split; [right; exact Hx|exact R]).
    destruct (main t) eqn:M; [destruct (Z_lt_le_dec (tid t) (low c)) as [Lt|Le]|].
    + rewrite visit_user_skip in V by (right; pose proof (P t (or_introl eq_refl)); lia). inversion V. subst c1.
      split; [exact A|]. split; [exact B|]. split; [intros y Hy; destruct (D y Hy); auto|]. destruct F as [F|(F & v & Hv & R)]; [left; exact F|right; split; [exact F|exists v; auto]].
    + destruct (visit_user_spec c t c1 V M Le) as (V1 & V2 & V3 & V4 & _). split; [lia|]. split; [lia|]. split.
      * intros y Hy. destruct (Z_lt_le_dec y (low c1)) as [Q|Q]; [|destruct (D y ltac:(lia)); auto].
        destruct (V3 y ltac:(lia)) as [->|Hf]; [left; exists t|right; exists t]; (split; [left; reflexivity|]); auto.
      * destruct F as [F|(F & v & Hv & R)]; [rewrite F|right; split; [exact F|exists v; split; [auto|lia]]].
        destruct V4 as [V4|(V4 & v & Hv & R)]; [left; exact V4|right; split; [exact V4|exists v; split; [exists t; split; [left; reflexivity|auto]|lia]]].
    + rewrite visit_user_skip in V by (left; exact M). inversion V. subst c1.
      split; [exact A|]. split; [exact B|]. split; [intros y Hy; destruct (D y Hy); auto|]. destruct F as [F|(F & v & Hv & R)]; [left; exact F|right; split; [exact F|exists v; auto]].
Qed.

Lemma sorted_inv t l : sorted (t :: l) -> sorted l /\ forall x, In x l -> tid t < tid x.
Proof. intros S. apply StronglySorted_inv in S. destruct S as [S F]. rewrite Forall_forall in F. auto. Qed.

(** lowest_available is free after a pass without changes due to groups *)
Lemma iterate_low l c c' x : sorted l -> (forall t, In t l -> 0 <= tid t /\ x < tid t) -> iterate visit_user l c = Some c' -> inval c' = false ->
  forall lv : Z -> Prop, (forall i, lv i -> i <= x \/ is_main l i) -> (lv (low c) -> x < low c) -> ~ lv (low c').
Proof.
  revert c x. induction l as [|t l IH]; intros c x S P E V lv HL H; cbn [iterate] in E.
  - inversion E. subst. intros K. specialize (H K). destruct (HL _ K) as [Q|(y & [] & _)]. lia.
  - apply sorted_inv in S. destruct S as [S F]. destruct (visit_user c t) as [c1|] eqn:V1; [|discriminate].
    assert (P0 : forall y, In y l -> 0 <= tid y) by (intros y Hy; apply P; right; exact Hy).
    pose proof (P t (or_introl eq_refl)) as [Pt Px].
    destruct (main t) eqn:M.
    + apply (IH c1 (tid t) S); [intros y Hy; split; [apply P0, Hy|apply F, Hy]|exact E|exact V| |].
      * intros i Hi. destruct (HL i Hi) as [Q|(y & [<-|Hy] & R)]; [left; lia|left; lia|right; exists y; auto].
      * intros K. destruct (Z_lt_le_dec (tid t) (low c)) as [Lt|Le].
        -- rewrite visit_user_skip in V1 by (right; lia). inversion V1. subst c1. exact Lt.
        -- destruct (visit_user_spec c t c1 V1 M Le) as (_ & _ & _ & _ & V5 & _).
           assert (I1 : inval c1 = false).
           { destruct (iterate_user_spec l c1 c' P0 E) as (_ & _ & _ & [Q|[Q _]]); congruence. }
           destruct (V5 I1) as [_ El]. rewrite El in K |- *. destruct (low c =? tid t) eqn:Q; [lia|].
           exfalso. specialize (H K). destruct (HL _ K) as [R|(y & [<-|Hy] & _ & R)]; [lia|lia|]. specialize (F y Hy). lia.
    + rewrite visit_user_skip in V1 by (left; exact M). inversion V1. subst c1.
      apply (IH c x S); [intros y Hy; split; [apply P0, Hy|specialize (F y Hy); lia]|exact E|exact V| |exact H].
      intros i Hi. destruct (HL i Hi) as [Q|(y & [<-|Hy] & R)]; [left; lia|destruct R; congruence|right; exists y; auto].
Qed.

(** lowest_after_current_max is free after any pass, if there are no stale groups *)
Lemma iterate_after l c c' x : sorted l -> (forall t, In t l -> 0 <= tid t /\ x < tid t) -> iterate visit_user l c = Some c' ->
  forall (lv : Z -> Prop) cm, (forall i, lv i -> i <= x \/ is_main l i) -> cm < after c ->
    (forall t v, In t l -> main t = true -> field t v -> cm < v < tid t -> lv v) ->
    (lv (after c) -> x < after c) -> (low c <= x + 1 \/ ~ lv (after c)) -> ~ lv (after c').
Proof.
  revert c x. induction l as [|t l IH]; intros c x S P E lv cm HL HC HS H HK; cbn [iterate] in E.
  - inversion E. subst. intros K. specialize (H K). destruct (HL _ K) as [Q|(y & [] & _)]. lia.
  - apply sorted_inv in S. destruct S as [S F]. destruct (visit_user c t) as [c1|] eqn:V1; [|discriminate].
    assert (P0 : forall y, In y l -> 0 <= tid y) by (intros y Hy; apply P; right; exact Hy).
    pose proof (P t (or_introl eq_refl)) as [Pt Px].
    destruct (main t) eqn:M.
    + assert (R1 : forall i, lv i -> i <= tid t \/ is_main l i).
      { intros i Hi. destruct (HL i Hi) as [Q|(y & [<-|Hy] & R)]; [left; lia|left; lia|right; exists y; auto]. }
      destruct (Z_lt_le_dec (tid t) (low c)) as [Lt|Le].
      * rewrite visit_user_skip in V1 by (right; lia). inversion V1. subst c1.
        assert (Na : ~ lv (after c)) by (destruct HK as [Q|Q]; [lia|exact Q]).
        refine (IH c (tid t) S _ E lv cm R1 HC _ _ (or_intror Na)); [intros y Hy; split; [apply P0, Hy|apply F, Hy]|intros y v Hy; apply HS; right; exact Hy|intros K; contradiction].
      * destruct (visit_user_spec c t c1 V1 M Le) as (V2 & V3 & _ & _ & _ & V6).
        refine (IH c1 (tid t) S _ E lv cm R1 _ _ _ _); [intros y Hy; split; [apply P0, Hy|apply F, Hy]|lia|intros y v Hy; apply HS; right; exact Hy| |left; lia].
        apply (V6 lv cm HC); [|intros v; apply HS; [left; reflexivity|exact M]].
        intros K. specialize (H K). destruct (HL _ K) as [R|(y & [<-|Hy] & _ & R)]; [lia|lia|]. specialize (F y Hy). lia.
    + rewrite visit_user_skip in V1 by (left; exact M). inversion V1. subst c1.
      refine (IH c x S _ E lv cm _ HC _ H HK); [intros y Hy; split; [apply P0, Hy|specialize (F y Hy); lia]| |intros y v Hy; apply HS; right; exact Hy].
      intros i Hi. destruct (HL i Hi) as [Q|(y & [<-|Hy] & R)]; [left; lia|destruct R; congruence|right; exists y; auto].
Qed.

(** The loop ends *)
Definition ge1 (a v : Z) : nat := if a <=? v then 1%nat else 0%nat.
Fixpoint meas (l : list task) (c : ctx) : nat :=
  match l with
  | [] => O
  | t :: l => (ge1 (low c) (pgid t) + ge1 (low c) (sid t) + ge1 (after c) (pgid t) + ge1 (after c) (sid t) + meas l c)%nat
  end.
Lemma ge1_mono a b v : a <= b -> (ge1 b v <= ge1 a v)%nat.
Proof. unfold ge1. intros. destruct (a <=? v) eqn:E, (b <=? v) eqn:F; lia. Qed.
Lemma ge1_lt a b v : a <= v < b -> (ge1 b v < ge1 a v)%nat.
Proof. unfold ge1. intros. destruct (a <=? v) eqn:E, (b <=? v) eqn:F; lia. Qed.
Lemma meas_mono l c c' : low c <= low c' -> after c <= after c' -> (meas l c' <= meas l c)%nat.
Proof.
  intros A B. induction l as [|t l IH]; [reflexivity|]. cbn [meas].
  pose proof (ge1_mono _ _ (pgid t) A). pose proof (ge1_mono _ _ (sid t) A). pose proof (ge1_mono _ _ (pgid t) B). pose proof (ge1_mono _ _ (sid t) B). lia.
Qed.
Lemma meas_lt l c c' v : low c <= low c' -> after c <= after c' -> fieldof l v -> (low c <= v < low c' \/ after c <= v < after c') -> (meas l c' < meas l c)%nat.
Proof.
  intros A B (t & It & _ & Hf) R. induction l as [|x l IH]; [destruct It|]. cbn [meas].
  pose proof (ge1_mono _ _ (pgid x) A). pose proof (ge1_mono _ _ (sid x) A). pose proof (ge1_mono _ _ (pgid x) B). pose proof (ge1_mono _ _ (sid x) B).
  destruct It as [->|It]; [|specialize (IH It); lia]. pose proof (meas_mono l c c' A B).
  destruct Hf as [->| ->], R as [R|R]; pose proof (ge1_lt _ _ _ R); lia.
Qed.
Lemma meas_bound l c : (meas l c <= 4 * length l)%nat.
Proof. induction l as [|t l IH]; [reflexivity|]. cbn [meas length]. unfold ge1. repeat match goal with |- context [if ?b then _ else _] => destruct b end; lia. Qed.

Lemma meas_inval l c : meas l (Ctx (low c) (after c) false) = meas l c.
Proof. induction l as [|t l IH]; [reflexivity|]. cbn [meas]. rewrite IH. reflexivity. Qed.

(** Everything about the loop *)
Lemma create_id_S v l m f c : create_id v l m (S f) c = match iterate v l (Ctx (low c) (after c) false) with
      | None => None
      | Some c =>
          let r := if after c <=? m then after c else if low c <=? m then low c else -1 in
          if (r =? low c) && inval c then create_id v l m f c else Some r
      end.
Proof. reflexivity. Qed.

Lemma create_user l m fuel c : sorted l -> (forall t, In t l -> 0 <= tid t) -> 0 <= low c -> 0 <= m -> (meas l c < fuel)%nat ->
  forall cm, cm < after c ->
    (forall t v, In t l -> main t = true -> field t v -> cm < v < tid t -> is_main l v) -> (low c = 0 \/ ~ is_main l (after c)) -> 0 <= after c ->
    (forall y, 0 <= y < low c -> is_main l y \/ fieldof l y) ->
  exists r, create_id visit_user l m fuel c = Some r /\
    ((0 <= r <= m /\ ~ is_main l r) \/ (r = -1 /\ forall y, 0 <= y <= m -> is_main l y \/ fieldof l y)).
Proof.
  intros S P. revert c. induction fuel as [|f IH]; intros c L0 M0 F cm HC HS HK HA HY; [lia|]. rewrite create_id_S.
  destruct (iterate_user_total l (Ctx (low c) (after c) false) P) as [c' E]. rewrite E.
  pose proof (iterate_user_spec l _ c' P E) as (A & B & D & G). cbn [low after inval] in *.
  assert (Na : ~ is_main l (after c')).
  { apply (iterate_after l (Ctx (low c) (after c) false) c' (-1) S) with (cm := cm); cbn [low after]; auto.
    - intros t Ht. specialize (P t Ht). lia.
    - intros _. lia.
    - destruct HK as [->|HK]; [left; lia|right; exact HK]. }
  assert (Y' : forall y, 0 <= y < low c' -> is_main l y \/ fieldof l y).
  { intros y Hy. destruct (Z_lt_le_dec y (low c)); [apply HY; lia|apply D; lia]. }
  set (r := if after c' <=? m then after c' else if low c' <=? m then low c' else -1). cbn zeta.
  destruct ((r =? low c') && inval c') eqn:Q.
  - apply andb_true_iff in Q. destruct Q as [_ Q]. destruct G as [G|(_ & v & Hv & R)]; [congruence|].
    apply (IH c' ltac:(lia) M0) with (cm := cm); auto; try lia.
    pose proof (meas_lt l (Ctx (low c) (after c) false) c' v A B Hv R).
    assert (X : meas l (Ctx (low c) (after c) false) = meas l c) by apply meas_inval.
    lia.
  - exists r. split; [reflexivity|]. unfold r in *. destruct (after c' <=? m) eqn:Q1; [left; split; [lia|exact Na]|].
    destruct (low c' <=? m) eqn:Q2.
    + left. split; [lia|]. rewrite Z.eqb_refl in Q. cbn [andb] in Q.
      apply (iterate_low l (Ctx (low c) (after c) false) c' (-1) S) ; auto; [intros t Ht; specialize (P t Ht); lia|intros _; cbn [low]; lia].
    + right. split; [reflexivity|]. intros y Hy. apply Y'. lia.
Qed.

(** Kernel threads: one pass *)
Definition is_kern (l : list task) (i : Z) : Prop := exists t, In t l /\ kern t = true /\ tid t = i + ktid_start.
Lemma iterate_kern l c x : sorted l -> (forall t, In t l -> kern t = true -> ktid_start <= tid t) -> (forall t, In t l -> x < tid t - ktid_start) ->
  exists c', iterate visit_kern l c = Some c' /\ inval c' = inval c /\ low c <= low c' /\ after c <= after c' /\
    (forall y, low c <= y < low c' -> is_kern l y) /\
    (forall lv : Z -> Prop, (forall i, lv i -> i <= x \/ is_kern l i) -> ((lv (low c) -> x < low c) -> ~ lv (low c')) /\ ((lv (after c) -> x < after c) -> ~ lv (after c'))).
Proof.
  revert c x. induction l as [|t l IH]; intros c x S P X; cbn [iterate].
  - exists c. split; [reflexivity|]. split; [reflexivity|]. split; [lia|]. split; [lia|]. split; [intros; lia|].
    intros lv HL. split; intros H K; specialize (H K); destruct (HL _ K) as [Q|(y & [] & _)]; lia.
  - apply sorted_inv in S. destruct S as [S F]. pose proof (X t (or_introl eq_refl)) as Xt.
    assert (P0 : forall y, In y l -> kern y = true -> ktid_start <= tid y) by (intros y Hy; apply P; right; exact Hy).
    unfold visit_kern at 1. destruct (kern t) eqn:Kt; cbn [negb].
    + assert (G : (tid t - ktid_start >=? 0) = true) by (pose proof (P t (or_introl eq_refl) Kt); lia). rewrite G. cbn [negb].
      set (i := tid t - ktid_start) in *. destruct (bump_spec i c) as (B1 & B2 & B3).
      destruct (IH (bump i c) i S P0) as (c' & E & I1 & I2 & I3 & I4 & I5); [intros y Hy; specialize (F y Hy); lia|].
      exists c'. rewrite E. split; [reflexivity|]. split; [congruence|]. rewrite B2 in I2, I4. rewrite B3 in I3.
      split; [destruct (low c =? i) eqn:Q; lia|]. split; [destruct (after c =? i) eqn:Q; lia|]. split.
      * intros y Hy. destruct (Z_lt_le_dec y (if low c =? i then low c + 1 else low c)) as [Q|Q].
        -- exists t. split; [left; reflexivity|]. split; [exact Kt|]. destruct (low c =? i) eqn:R; lia.
        -- destruct (I4 y ltac:(lia)) as (z & Hz & R). exists z. split; [right; exact Hz|exact R].
      * intros lv HL. destruct (I5 lv) as [J1 J2].
        { intros j Hj. destruct (HL j Hj) as [Q|(y & [<-|Hy] & R)]; [left; lia|left; lia|right; exists y; auto]. }
        split; intros H.
        -- apply J1. rewrite B2. intros K. destruct (low c =? i) eqn:Q; [lia|]. specialize (H K). destruct (HL _ K) as [R|(y & [<-|Hy] & _ & R)]; [lia|lia|]. specialize (F y Hy). lia.
        -- apply J2. rewrite B3. intros K. destruct (after c =? i) eqn:Q; [lia|]. specialize (H K). destruct (HL _ K) as [R|(y & [<-|Hy] & _ & R)]; [lia|lia|]. specialize (F y Hy). lia.
    + destruct (IH c x S P0) as (c' & E & I1 & I2 & I3 & I4 & I5); [intros y Hy; apply X; right; exact Hy|].
      exists c'. rewrite E. split; [reflexivity|]. split; [exact I1|]. split; [exact I2|]. split; [exact I3|]. split.
      * intros y Hy. destruct (I4 y Hy) as (z & Hz & R). exists z. split; [right; exact Hz|exact R].
      * intros lv HL. apply I5. intros j Hj. destruct (HL j Hj) as [Q|(y & [<-|Hy] & R)]; [left; lia|destruct R; congruence|right; exists y; auto].
Qed.

Lemma create_kern l m f a : sorted l -> (forall t, In t l -> kern t = true -> ktid_start <= tid t) -> (forall t, In t l -> - 1 - ktid_start < tid t - ktid_start) -> 0 <= m -> 0 <= a ->
  exists r, create_id visit_kern l m (S f) (Ctx 0 a false) = Some r /\
    ((0 <= r <= m /\ ~ is_kern l r) \/ (r = -1 /\ forall y, 0 <= y <= m -> is_kern l y)).
Proof.
  intros S P X M A. rewrite create_id_S. cbn [low after].
  destruct (iterate_kern l (Ctx 0 a false) (-1 - ktid_start) S P X) as (c' & E & I1 & I2 & I3 & I4 & I5). rewrite E. cbn [low after inval] in *.
  rewrite I1, andb_false_r. destruct (I5 (is_kern l) (fun i H => or_intror H)) as [J1 J2]. unfold ktid_start in *.
  eexists. split; [reflexivity|]. destruct (after c' <=? m) eqn:Q1; [left; split; [lia|apply J2; lia]|].
  destruct (low c' <=? m) eqn:Q2; [left; split; [lia|apply J1; lia]|]. right. split; [reflexivity|]. intros y Hy. apply I4. lia.
Qed.

(** ** The table *)
Record wf (s : st) : Prop := {
  w_sorted : sorted (tasks s);
  w_user : forall t, In t (tasks s) -> kern t = false -> 0 <= tid t <= max_pid /\ main t = true;
  w_kern : forall t, In t (tasks s) -> kern t = true -> ktid_start <= tid t <= ktid_start + max_ktid /\ pgid t = 0 /\ sid t = 0 /\ (main t = true -> tid t = ktid_start);
  w_root : In (Task ktid_start true true 0 0) (tasks s);
  w_cmax : 0 <= cmax s <= max_pid;
  w_ckmax : 0 <= ckmax s <= max_ktid
}.

Lemma wf_tid_pos s t : wf s -> In t (tasks s) -> 0 <= tid t.
Proof. intros W I. destruct (kern t) eqn:K; [apply (w_kern s W t I) in K; unfold ktid_start in K; lia|apply (w_user s W t I) in K; lia]. Qed.

Lemma main_live s i : wf s -> i <= max_pid -> is_main (tasks s) i <-> live s i.
Proof.
  intros W B. unfold live. rewrite in_map_iff. split.
  - intros (t & It & _ & E). exists t. auto.
  - intros (t & E & It). exists t. split; [exact It|]. split; [|exact E]. destruct (kern t) eqn:K; [|apply (w_user s W t It K)].
    apply (w_kern s W t It) in K. unfold ktid_start, max_pid in *. lia.
Qed.

Lemma fieldof_named s i : fieldof (tasks s) i -> named s i.
Proof. intros (t & It & _ & [->| ->]); exists t; auto. Qed.

Lemma new_pid_ok s : wf s -> no_stale_group s ->
  exists r, new_pid s = Some r /\
    ((0 <= r <= max_pid /\ ~ live s r) \/ (r = -1 /\ forall y, 0 <= y <= max_pid -> live s y \/ named s y)).
Proof.
  intros W NS. unfold new_pid. pose proof (w_cmax s W).
  destruct (create_user (tasks s) max_pid (fuel_for s) (Ctx 0 (cmax s + 1) false)) with (cm := cmax s) as (r & E & R); cbn [low after].
  - apply W.
  - intros t. apply wf_tid_pos, W.
  - lia.
  - unfold max_pid. lia.
  - unfold fuel_for. pose proof (meas_bound (tasks s) (Ctx 0 (cmax s + 1) false)). lia.
  - lia.
  - intros t v It M Hf Hv. destruct (kern t) eqn:K.
    + apply (w_kern s W t It) in K. destruct Hf as [->| ->]; lia.
    + apply (w_user s W t It) in K. apply main_live; [exact W|lia|]. apply (NS t v It); [lia|exact Hf|exact Hv].
  - left. reflexivity.
  - lia.
  - intros; lia.
  - exists r. split; [exact E|]. destruct R as [[R1 R2]|[R1 R2]].
    + left. split; [exact R1|]. rewrite <- main_live by (auto; lia). exact R2.
    + right. split; [exact R1|]. intros y Hy. destruct (R2 y Hy) as [Q|Q]; [left; apply main_live; [exact W|lia|exact Q]|right; apply fieldof_named, Q].
Qed.

Lemma kern_live s i : wf s -> 0 <= i -> is_kern (tasks s) i <-> live s (i + ktid_start).
Proof.
  intros W B. unfold live. rewrite in_map_iff. split.
  - intros (t & It & _ & E). exists t. auto.
  - intros (t & E & It). exists t. split; [exact It|]. split; [|exact E]. destruct (kern t) eqn:K; [reflexivity|].
    apply (w_user s W t It) in K. unfold ktid_start, max_pid in *. lia.
Qed.
Lemma new_ktid_ok s : wf s ->
  exists r, new_ktid s = Some r /\
    ((0 <= r <= max_ktid /\ ~ live s (r + ktid_start)) \/ (r = -1 /\ forall y, 0 <= y <= max_ktid -> live s (y + ktid_start))).
Proof.
  intros W. unfold new_ktid, fuel_for. pose proof (w_ckmax s W).
  destruct (create_kern (tasks s) max_ktid (4 * length (tasks s)) (ckmax s + 1)) as (r & E & R).
  - apply W.
  - intros t It K. apply (w_kern s W t It K).
  - intros t It. pose proof (wf_tid_pos s t W It). lia.
  - unfold max_ktid. lia.
  - lia.
  - exists r. split; [exact E|]. destruct R as [[R1 R2]|[R1 R2]].
    + left. split; [exact R1|]. rewrite <- kern_live by (auto; lia). exact R2.
    + right. split; [exact R1|]. intros y Hy. apply kern_live; [exact W|lia|apply R2, Hy].
Qed.

Lemma add_spec l t : sorted l -> ~ In (tid t) (map tid l) -> exists l', add l t = Some l' /\ sorted l' /\ forall x, In x l' <-> x = t \/ In x l.
Proof.
  induction l as [|y l IH]; intros S N.
  - eexists. split; [reflexivity|]. split; [repeat constructor|]. intros x. cbn. intuition auto.
  - cbn [add]. cbn [map In] in N. assert (E : (tid t =? tid y) = false) by lia. rewrite E. pose proof (sorted_inv _ _ S) as [S' F].
    destruct (tid t <? tid y) eqn:L.
    + eexists. split; [reflexivity|]. split; [|intros x; cbn; intuition auto]. constructor; [exact S|]. constructor; [unfold lt_tid; lia|].
      rewrite Forall_forall. intros x Hx. unfold lt_tid. specialize (F x Hx). lia.
    + destruct (IH S' ltac:(tauto)) as (l' & El & S1 & I1). rewrite El. eexists. split; [reflexivity|]. split; [|intros x; cbn; rewrite I1; intuition auto].
      constructor; [exact S1|]. rewrite Forall_forall. intros x Hx. apply I1 in Hx. unfold lt_tid. destruct Hx as [->|Hx]; [lia|apply F, Hx].
Qed.

Lemma sorted_map f l : (forall t, tid (f t) = tid t) -> sorted l -> sorted (map f l).
Proof.
  intros H. induction l as [|t l IH]; intros S; [constructor|]. apply sorted_inv in S. destruct S as [S F]. cbn. constructor; [apply IH, S|].
  rewrite Forall_forall. intros x Hx. apply in_map_iff in Hx. destruct Hx as (y & <- & Hy). unfold lt_tid. rewrite !H. apply F, Hy.
Qed.
Lemma sorted_filter f l : sorted l -> sorted (filter f l).
Proof.
  induction l as [|t l IH]; intros S; [constructor|]. apply sorted_inv in S. destruct S as [S F]. cbn. destruct (f t); [|apply IH, S]. constructor; [apply IH, S|].
  rewrite Forall_forall. intros x Hx. apply filter_In in Hx. apply F, Hx.
Qed.
Lemma sorted_nodup l : sorted l -> NoDup (map tid l).
Proof.
  induction l as [|t l IH]; intros S; [constructor|]. apply sorted_inv in S. destruct S as [S F]. cbn. constructor; [|apply IH, S].
  intros H. apply in_map_iff in H. destruct H as (x & E & Hx). specialize (F x Hx). lia.
Qed.
Lemma find_in s i t : wf s -> In t (tasks s) -> tid t = i -> find (tasks s) i = Some t.
Proof.
  intros W It E. unfold find. pose proof (sorted_nodup _ (w_sorted s W)) as N. induction (tasks s) as [|x l IH]; [destruct It|]. cbn. destruct (tid x =? i) eqn:Q.
  - destruct It as [->|It]; [reflexivity|]. cbn in N. apply NoDup_cons_iff in N. exfalso. apply N. apply in_map_iff. exists t. split; [lia|exact It].
  - destruct It as [->|It]; [lia|]. apply IH; [exact It|]. cbn in N. apply NoDup_cons_iff in N. apply N.
Qed.

Lemma set_task_wf s i pg sd : wf s -> (exists x, In x (tasks s) /\ tid x = i /\ kern x = false) ->
  wf (mk (set_task (tasks s) i (fun x => Task (tid x) (kern x) (main x) (pg x) (sd x))) (cmax s) (ckmax s)).
Proof.
  intros W (x0 & I0 & E0 & K0).
  assert (Ni : i <> ktid_start) by (apply (w_user s W x0 I0) in K0; unfold ktid_start, max_pid in *; lia).
  constructor; cbn [tasks cmax ckmax]; try apply W.
  - apply sorted_map; [|apply W]. intros t. destruct (tid t =? i); reflexivity.
  - intros t It K. apply in_map_iff in It. destruct It as (x & <- & Ix). destruct (tid x =? i); cbn in *; apply (w_user s W x Ix K).
  - intros t It K. apply in_map_iff in It. destruct It as (x & <- & Ix). destruct (tid x =? i) eqn:Q; cbn in *; [|apply (w_kern s W x Ix K)].
    pose proof (w_kern s W x Ix K). apply (w_user s W x0 I0) in K0. unfold ktid_start, max_pid in *. lia.
  - apply in_map_iff. exists (Task ktid_start true true 0 0). split; [|apply W]. cbn [tid]. assert (Q : (ktid_start =? i) = false) by lia. rewrite Q. reflexivity.
Qed.

Lemma step_wf s a : wf s -> allowed s a -> exists s' r, step s a = Ok s' r /\ wf s'.
Proof.
  intros W A. destruct a as [p oom|oom|t|t pg|t]; cbn [allowed] in A; cbn [step].
  - destruct A as ((pt & Ip & Ep & Kp) & NS). rewrite (find_in s p pt W Ip Ep). destruct (new_pid_ok s W NS) as (r & E & R). rewrite E.
    destruct (r <? 0) eqn:Q; [eexists _, _; split; [reflexivity|exact W]|]. destruct R as [[R1 R2]|[R1 _]]; [|lia].
    destruct oom.
    + eexists _, _. split; [reflexivity|]. constructor; cbn [tasks cmax ckmax]; try apply W. exact R1.
    + cbn [tasks cmax ckmax]. destruct (add_spec (tasks s) (Task r false true (pgid pt) (sid pt)) (w_sorted s W) R2) as (l & El & Sl & Il). rewrite El. eexists _, _. split; [reflexivity|].
      constructor; cbn [tasks cmax ckmax]; try apply W; try assumption.
      * intros t It K. apply Il in It. destruct It as [->|It]; [split; [exact R1|reflexivity]|apply (w_user s W t It K)].
      * intros t It K. apply Il in It. destruct It as [->|It]; [discriminate|apply (w_kern s W t It K)].
      * apply Il. right. apply W.
  - destruct (new_ktid_ok s W) as (r & E & R). rewrite E.
    destruct (r <? 0) eqn:Q; [eexists _, _; split; [reflexivity|exact W]|]. destruct R as [[R1 R2]|[R1 _]]; [|lia].
    destruct oom.
    + eexists _, _. split; [reflexivity|]. constructor; cbn [tasks cmax ckmax]; try apply W. exact R1.
    + cbn [tasks cmax ckmax]. destruct (add_spec (tasks s) (Task (r + ktid_start) true false 0 0) (w_sorted s W) R2) as (l & El & Sl & Il). rewrite El. eexists _, _. split; [reflexivity|].
      constructor; cbn [tasks cmax ckmax]; try apply W; try assumption.
      * intros t It K. apply Il in It. destruct It as [->|It]; [discriminate|apply (w_user s W t It K)].
      * intros t It K. apply Il in It. destruct It as [->|It]; [cbn; split; [lia|]; split; [reflexivity|]; split; [reflexivity|discriminate]|apply (w_kern s W t It K)].
      * apply Il. right. apply W.
  - eexists _, _. split; [reflexivity|]. constructor; cbn [tasks cmax ckmax]; try apply W.
    + apply sorted_filter, W.
    + intros x Ix. apply filter_In in Ix. apply (w_user s W), Ix.
    + intros x Ix. apply filter_In in Ix. apply (w_kern s W), Ix.
    + apply filter_In. split; [apply W|]. cbn [tid]. assert (Q : (ktid_start =? t) = false) by lia. rewrite Q. reflexivity.
  - destruct A as ((x & Ix & Ex & Kx) & Hp). rewrite (find_in s t x W Ix Ex). destruct (_ && _); eexists _, _; (split; [reflexivity|]); [exact W|].
    apply (set_task_wf s t (fun _ => if pg =? 0 then tid x else pg) sid W). eauto.
  - destruct A as (x & Ix & Ex & Kx). rewrite (find_in s t x W Ix Ex). destruct (_ =? 0); eexists _, _; (split; [reflexivity|]); [|exact W].
    apply (set_task_wf s t (fun _ => t) (fun _ => t) W). eauto.
Qed.

Lemma init_wf : wf st_init.
Proof.
  constructor; cbn [st_init tasks cmax ckmax]; unfold max_pid, max_ktid, ktid_start; try lia.
  - repeat constructor; unfold lt_tid; cbn; lia.
  - intros t [<-|[<-|[]]]; cbn; [intros _; split; [lia|reflexivity]|discriminate].
  - intros t [<-|[<-|[]]]; cbn; [discriminate|intros _; split; [lia|auto]].
  - right. left. reflexivity.
Qed.
Lemma reach_wf s : reach s -> wf s.
Proof. induction 1 as [|s a s' r H IH A E]; [apply init_wf|]. destruct (step_wf s a IH A) as (s2 & r2 & E2 & W). rewrite E in E2. inversion E2. subst. exact W. Qed.

Lemma ids_unique s : reach s -> NoDup (map tid (tasks s)).
Proof. intros R. apply sorted_nodup, w_sorted, reach_wf, R. Qed.
Lemma never_duplicate s a : reach s -> allowed s a -> step s a <> Fail.
Proof. intros R A. destruct (step_wf s a (reach_wf s R) A) as (s' & r & -> & _). discriminate. Qed.
Lemma pid_result s : reach s -> no_stale_group s ->
  exists r, new_pid s = Some r /\ ((0 <= r <= max_pid /\ ~ live s r) \/ (r = -1 /\ forall y, 0 <= y <= max_pid -> live s y \/ named s y)).
Proof. intros R. apply new_pid_ok, reach_wf, R. Qed.
Lemma ktid_result s : reach s ->
  exists r, new_ktid s = Some r /\ ((0 <= r <= max_ktid /\ ~ live s (r + ktid_start)) \/ (r = -1 /\ forall y, 0 <= y <= max_ktid -> live s (y + ktid_start))).
Proof. intros R. apply new_ktid_ok, reach_wf, R. Qed.
(** Before the ids wrap around there is nothing to assume *)
Lemma no_wrap_no_stale s : (forall t, In t (tasks s) -> tid t <= max_pid -> tid t <= cmax s) -> no_stale_group s.
Proof. intros H t v It B _ Hv. specialize (H t It B). lia. Qed.

(** The loop ends whatever the groups *)
Lemma create_ends l m fuel c : (forall t, In t l -> 0 <= tid t) -> (meas l c < fuel)%nat -> exists r, create_id visit_user l m fuel c = Some r.
Proof.
  intros P. revert c. induction fuel as [|f IH]; intros c F; [lia|]. rewrite create_id_S.
  destruct (iterate_user_total l (Ctx (low c) (after c) false) P) as [c' E]. rewrite E.
  pose proof (iterate_user_spec l _ c' P E) as (A & B & _ & G). cbn [low after inval] in *. cbn zeta.
  match goal with |- context [if ?b && _ then _ else _] => destruct b end; cbn [andb]; [|eauto]. destruct (inval c') eqn:Q; [|eauto].
  destruct G as [G|(_ & v & Hv & R)]; [congruence|]. apply IH.
  pose proof (meas_lt l (Ctx (low c) (after c) false) c' v A B Hv R).
  assert (X : meas l (Ctx (low c) (after c) false) = meas l c) by apply meas_inval.
  lia.
Qed.
Lemma pid_always_ends s : (forall t, In t (tasks s) -> 0 <= tid t) -> exists r, new_pid s = Some r.
Proof. intros P. apply create_ends; [exact P|]. unfold fuel_for. pose proof (meas_bound (tasks s) (Ctx 0 (cmax s + 1) false)). lia. Qed.

(** ** Counterexamples *)
(** the first [n] forks of processes that exit at once *)
Fixpoint churn (n : nat) (i : Z) : list action := match n with O => [] | S n => Fork 1 false :: Remove i :: churn n (i + 1) end.
(** 6 and 9 live; 5 led a group, of which 9 is a member; all the other ids are used up; then 2, 3, 4 *)
Definition wrap_run : list action :=
  [Fork 1 false; Fork 1 false; Fork 1 false; Fork 1 false; Fork 1 false; Fork 1 false; Fork 1 false; SetPgid 5 0; Fork 5 false;
   Remove 2; Remove 3; Remove 4; Remove 5; Remove 7; Remove 8] ++ churn (Z.to_nat 8182) 10 ++ [Fork 1 false; Fork 1 false; Fork 1 false].

Definition refute (l : list action) (P : st -> bool) : bool := match run st_init l with Some s => P s | None => false end.
Lemma refute_ok l P : refute l P = true -> exists s, run st_init l = Some s /\ P s = true.
Proof. unfold refute. destruct (run st_init l); [eauto|discriminate]. Qed.

Definition inb (i : Z) (l : list Z) : bool := existsb (Z.eqb i) l.
Lemma inb_in i l : inb i l = true -> In i l.
Proof. unfold inb. rewrite existsb_exists. intros (x & H & E). apply Z.eqb_eq in E. subst. exact H. Qed.

Lemma duplicate_pid : exists l s r, run st_init l = Some s /\ new_pid s = Some r /\ 0 <= r /\ live s r.
Proof.
  exists wrap_run. destruct (refute_ok wrap_run (fun s => match new_pid s with Some r => (0 <=? r) && inb r (map tid (tasks s)) | None => false end)) as (s & E & H); [vm_compute; reflexivity|].
  exists s. destruct (new_pid s) as [r|]; [|discriminate]. exists r. apply andb_true_iff in H. split; [exact E|]. split; [reflexivity|]. split; [lia|apply inb_in, H].
Qed.

(** Processes 2 and 3 have moved themselves to groups 7 and 6, which do not exist; 5 is the last pid given out: the next process gets 7 *)
Definition orphan_run : list action := [Fork 1 false; Fork 1 false; Fork 1 false; Fork 1 false; SetPgid 2 7; SetPgid 3 6].
Definition no_wrapb (s : st) : bool := forallb (fun t => (max_pid <? tid t) || (tid t <=? cmax s)) (tasks s).
Definition userb (s : st) (p : Z) : bool := existsb (fun t => (tid t =? p) && negb (kern t)) (tasks s).
Definition allowedb (s : st) (a : action) : bool :=
  match a with
  | Fork p _ => userb s p && no_wrapb s
  | Kthread _ => true
  | Remove t => negb (t =? ktid_start)
  | SetPgid t pg => userb s t && (0 <=? pg)
  | SetSid t => userb s t
  end.
Lemma no_wrapb_ok s : no_wrapb s = true -> no_stale_group s.
Proof. unfold no_wrapb. rewrite forallb_forall. intros H. apply no_wrap_no_stale. intros t It B. specialize (H t It). lia. Qed.
Lemma userb_ok s p : userb s p = true -> exists t, In t (tasks s) /\ tid t = p /\ kern t = false.
Proof. unfold userb. rewrite existsb_exists. intros (t & It & H). exists t. split; [exact It|]. destruct (kern t); [rewrite andb_false_r in H; discriminate|]. lia. Qed.
Lemma allowedb_ok s a : allowedb s a = true -> allowed s a.
Proof.
  destruct a; cbn [allowed allowedb]; intros H; try apply andb_true_iff in H.
  - split; [apply userb_ok, H|apply no_wrapb_ok, H].
  - exact Logic.I.
  - lia.
  - split; [apply userb_ok, H|lia].
  - apply userb_ok, H.
Qed.
Fixpoint runb (s : st) (l : list action) : option st :=
  match l with [] => Some s | a :: l => if allowedb s a then match step s a with Ok s' _ => runb s' l | Fail => None end else None end.
Lemma runb_reach l : forall s s', reach s -> runb s l = Some s' -> reach s'.
Proof.
  induction l as [|a l IH]; intros s s' R E; cbn [runb] in *; [inversion E; subst; exact R|].
  destruct (allowedb s a) eqn:A; [|discriminate]. destruct (step s a) as [s1 r|] eqn:S; [|discriminate].
  apply (IH s1 s'); [eapply reach_step; [exact R|apply allowedb_ok, A|exact S]|exact E].
Qed.
Lemma run_check l (P : st -> bool) : match runb st_init l with Some s => P s | None => false end = true -> exists s, reach s /\ P s = true.
Proof. destruct (runb st_init l) as [s|] eqn:E; [|discriminate]. intros H. exists s. split; [|exact H]. apply (runb_reach l st_init); [constructor|exact E]. Qed.
Lemma not_inb i l : negb (inb i l) = true -> ~ In i l.
Proof. intros H K. apply negb_true_iff in H. assert (X : inb i l = true); [|congruence]. unfold inb. rewrite existsb_exists. exists i. split; [exact K|apply Z.eqb_refl]. Qed.

Lemma accidental_leader : exists s r, reach s /\ no_stale_group s /\ new_pid s = Some r /\ 0 <= r /\ ~ live s r /\ named s r.
Proof.
  destruct (run_check orphan_run (fun s => no_wrapb s && match new_pid s with Some r => (0 <=? r) && (negb (inb r (map tid (tasks s))) && existsb (fun t => pgid t =? r) (tasks s)) | None => false end)) as (s & R & H); [vm_compute; reflexivity|].
  apply andb_true_iff in H. destruct H as [H1 H]. destruct (new_pid s) as [r|] eqn:E; [|discriminate]. rewrite !andb_true_iff in H. destruct H as (H2 & H3 & H4).
  exists s, r. split; [exact R|]. split; [apply no_wrapb_ok, H1|]. split; [exact E|]. split; [lia|]. split; [apply not_inb, H3|].
  apply existsb_exists in H4. destruct H4 as (t & It & Q). exists t. split; [exact It|]. left. lia.
Qed.

(** setpgid joins a group that does not exist *)
Lemma setpgid_any s t x pg : reach s -> In x (tasks s) -> tid x = t -> kern x = false -> 0 < pg -> (forall y, In y (tasks s) -> pgid y <> pg) ->
  exists s', step s (SetPgid t pg) = Ok s' 0 /\ exists y, In y (tasks s') /\ tid y = t /\ pgid y = pg.
Proof.
  intros R Ix Ex Kx Hp N. cbn [step]. rewrite (find_in s t x (reach_wf s R) Ix Ex).
  assert (E : session_of (tasks s) pg = None).
  { unfold session_of. destruct (List.find _ (tasks s)) as [y|] eqn:F; [|reflexivity]. apply find_some in F. destruct F as [Iy Q]. specialize (N y Iy). lia. }
  rewrite E, andb_false_r. eexists. split; [reflexivity|]. exists (Task t (kern x) (main x) pg (sid x)). cbn [tasks tid pgid]. split; [|auto].
  unfold set_task. apply in_map_iff. exists x. split; [|exact Ix]. rewrite Ex, Z.eqb_refl. assert (Q : (pg =? 0) = false) by lia. rewrite Q. reflexivity.
Qed.

(** Scope of what setpgid and setsid change: never an id, never another process *)
Lemma groups_keep_ids s a s' r : match a with SetPgid _ _ | SetSid _ => True | _ => False end -> step s a = Ok s' r -> map tid (tasks s') = map tid (tasks s) /\ cmax s' = cmax s /\ ckmax s' = ckmax s.
Proof.
  intros K E. assert (M : forall l i f, (forall x, tid (f x) = tid x) -> map tid (set_task l i f) = map tid l).
  { intros l i f H. unfold set_task. rewrite map_map. apply map_ext. intros x. destruct (tid x =? i); auto. }
  destruct a as [| | |t pg|t]; try destruct K; cbn [step] in E.
  - destruct (find (tasks s) t); [|inversion E; auto]. destruct (_ && _); inversion E; [auto|]. cbn [tasks cmax ckmax]. rewrite M by reflexivity. auto.
  - destruct (find (tasks s) t); [|discriminate]. destruct (_ =? 0); inversion E; [|auto]. cbn [tasks cmax ckmax]. rewrite M by reflexivity. auto.
Qed.
(** A session leader does not lead another's session: setsid succeeds only for an id naming no group *)
Lemma setsid_result s t s' : reach s -> step s (SetSid t) = Ok s' t -> 0 <= t -> (forall x, In x (tasks s) -> pgid x <> t) /\
  exists y, In y (tasks s') /\ tid y = t /\ pgid y = t /\ sid y = t.
Proof.
  intros R E Ht. cbn [step] in E. destruct (find (tasks s) t) as [x|] eqn:F; [|discriminate]. destruct (count_group (tasks s) t =? 0) eqn:C; [|inversion E; lia].
  inversion E. clear E. split.
  - intros y Iy Q. unfold count_group in C. assert (I : In y (filter (fun t0 => pgid t0 =? t) (tasks s))) by (apply filter_In; split; [exact Iy|lia]).
    destruct (filter _ _); [destruct I|]. rewrite zlen_cons in C. pose proof (zlen_nonneg l). lia.
  - unfold find in F. apply find_some in F. destruct F as [Ix Q]. exists (Task (tid x) (kern x) (main x) t t). cbn. split; [|auto with zarith].
    unfold set_task. apply in_map_iff. exists x. rewrite Q. auto.
Qed.
