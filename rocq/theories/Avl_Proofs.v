From Verif Require Import Lib Avl_Model Avl_Spec.
From Coq Require Import Sorted Permutation.

Local Arguments Z.add : simpl never.
Local Arguments Z.sub : simpl never.
Local Arguments Z.max : simpl never.

Section Shape.
  Context {A : Type}.
  Notation tree := (@tree A).
  Notation frame := (@frame A).

  Fixpoint avl (t : tree) : Prop :=
    match t with
    | E => True
    | N h l _ r => avl l /\ avl r /\ h = 1 + Z.max (height l) (height r) /\
                   -1 <= height l - height r <= 1
    end.

  Lemma avl_height_ge : forall t, avl t -> -1 <= height t.
  Proof.
    induction t as [|h l IHl x r IHr]; simpl; intros H; [lia|].
    destruct H as (Hl & Hr & Hh & Hb). specialize (IHl Hl). lia.
  Qed.

  Lemma u16_upd : forall m, -1 <= m <= 2000 -> u16 (u16 m + 1) = m + 1.
  Proof. intros m H. unfold u16. lia. Qed.

  Lemma upd_eq : forall (l : tree) x r,
      -1 <= height l <= 1005 -> -1 <= height r <= 1005 ->
      upd l x r = N (1 + Z.max (height l) (height r)) l x r.
  Proof. intros. unfold upd. rewrite u16_upd by lia. f_equal. lia. Qed.

  (** [res] is what balancing leaves for an unbalanced-by-at-most-2 node *)
  Lemma balance_ok : forall h (l : tree) x r,
      avl l -> avl r -> -2 <= height l - height r <= 2 ->
      height l <= 1000 -> height r <= 1000 ->
      exists t', balance (N h l x r) = Some (t', negb (height t' =? h)) /\
        avl t' /\ inorder t' = inorder (N h l x r) /\
        Z.max (height l) (height r) <= height t' <= 1 + Z.max (height l) (height r) /\
        (-1 <= height l - height r <= 1 ->
         t' = N (1 + Z.max (height l) (height r)) l x r).
  Proof.
    intros h l x r Hl Hr Hd Hbl Hbr.
    pose proof (avl_height_ge l Hl). pose proof (avl_height_ge r Hr).
    unfold balance.
    destruct (Z.ltb_spec 1 (height l - height r)) as [Hc|Hc].
    - destruct l as [|hl ll y lr]; [simpl in *; lia|].
      cbn [height] in *. destruct Hl as (Hll & Hlr & Hhl & Hlb).
      pose proof (avl_height_ge ll Hll). pose proof (avl_height_ge lr Hlr).
      destruct (Z.leb_spec (height lr) (height ll)).
      + cbn [rotate_left_child]. rewrite (upd_eq lr) by lia.
        rewrite upd_eq by (cbn [height]; lia). cbn [upd_root].
        rewrite upd_eq by (cbn [height]; lia).
        eexists; split; [reflexivity|]. cbn [avl height inorder].
        repeat split; auto; try lia.
        rewrite <- ?app_assoc; reflexivity.
      + destruct lr as [|hlr a z b]; [cbn [height] in *; lia|].
        cbn [height] in *. cbn [avl] in Hlr. destruct Hlr as (Ha & Hb & Hhlr & Hlrb).
        pose proof (avl_height_ge a Ha). pose proof (avl_height_ge b Hb).
        cbn [rotate_right_child]. rewrite (upd_eq ll) by lia.
        rewrite upd_eq by (cbn [height]; lia).
        cbn [rotate_left_child]. rewrite (upd_eq b) by lia.
        rewrite upd_eq by (cbn [height]; lia). cbn [upd_root].
        rewrite upd_eq by (cbn [height]; lia).
        eexists; split; [reflexivity|]. cbn [avl height inorder].
        repeat split; auto; try lia.
        rewrite <- ?app_assoc; cbn; rewrite <- ?app_assoc; reflexivity.
    - destruct (Z.ltb_spec (height l - height r) (-1)) as [Hc2|Hc2].
      + destruct r as [|hr rl y rr]; [simpl in *; lia|].
        cbn [height] in *. destruct Hr as (Hrl & Hrr & Hhr & Hrb).
        pose proof (avl_height_ge rl Hrl). pose proof (avl_height_ge rr Hrr).
        destruct (Z.leb_spec (height rl) (height rr)).
        * cbn [rotate_right_child]. rewrite (upd_eq l) by lia.
          rewrite upd_eq by (cbn [height]; lia). cbn [upd_root].
          rewrite upd_eq by (cbn [height]; lia).
          eexists; split; [reflexivity|]. cbn [avl height inorder].
          repeat split; auto; try lia.
          rewrite <- ?app_assoc; reflexivity.
        * destruct rl as [|hrl a z b]; [cbn [height] in *; lia|].
          cbn [height] in *. cbn [avl] in Hrl. destruct Hrl as (Ha & Hb & Hhrl & Hrlb).
          pose proof (avl_height_ge a Ha). pose proof (avl_height_ge b Hb).
          cbn [rotate_left_child]. rewrite (upd_eq b) by lia.
          rewrite upd_eq by (cbn [height]; lia).
          cbn [rotate_right_child]. rewrite (upd_eq l) by lia.
          rewrite upd_eq by (cbn [height]; lia). cbn [upd_root].
          rewrite upd_eq by (cbn [height]; lia).
          eexists; split; [reflexivity|]. cbn [avl height inorder].
          repeat split; auto; try lia.
          rewrite <- ?app_assoc; cbn; rewrite <- ?app_assoc; reflexivity.
      + cbn [upd_root]. rewrite upd_eq by lia.
        eexists; split; [reflexivity|]. cbn [avl height inorder].
        repeat split; auto; try lia.
  Qed.

  Lemma balance_avl : forall t, avl t -> height t <= 1000 ->
      balance t = Some (t, false).
  Proof.
    intros [|h l x r] H Hb; [reflexivity|].
    cbn [avl height] in *. destruct H as (Hl & Hr & Hh & Hd).
    pose proof (avl_height_ge l Hl). pose proof (avl_height_ge r Hr).
    destruct (balance_ok h l x r) as (t' & E1 & _ & _ & _ & Ht); auto; try lia.
    rewrite Ht in E1 by lia. rewrite <- Hh in E1. rewrite E1.
    cbn [height]. rewrite Z.eqb_refl. reflexivity.
  Qed.

  (** Contexts *)
  Fixpoint ctxl (fs : list frame) : list A :=
    match fs with
    | [] => []
    | FL _ _ _ :: fs' => ctxl fs'
    | FR _ l x :: fs' => ctxl fs' ++ inorder l ++ [x]
    end.
  Fixpoint ctxr (fs : list frame) : list A :=
    match fs with
    | [] => []
    | FL _ x r :: fs' => x :: inorder r ++ ctxr fs'
    | FR _ _ _ :: fs' => ctxr fs'
    end.

  Lemma inorder_plug : forall fs t,
      inorder (plug_all fs t) = ctxl fs ++ inorder t ++ ctxr fs.
  Proof.
    induction fs as [|f fs IH]; intros t; simpl; [rewrite app_nil_r; reflexivity|].
    destruct f; simpl; rewrite IH; simpl; rewrite <- ?app_assoc; simpl;
      rewrite <- ?app_assoc; reflexivity.
  Qed.

  Lemma plug_all_sub : forall fs t, avl (plug_all fs t) ->
      avl t /\ height t <= height (plug_all fs t).
  Proof.
    induction fs as [|f fs IH]; intros t H; simpl in *; [split; [auto|lia]|].
    apply IH in H. destruct H as (H1 & H2). destruct f; cbn [plug avl height] in *; split; try tauto; try lia.
  Qed.

  Lemma plug_all_height : forall fs t, avl (plug_all fs t) ->
      zlen fs + height t <= height (plug_all fs t).
  Proof.
    induction fs as [|f fs IH]; intros t H; simpl in *.
    - unfold zlen; simpl; lia.
    - pose proof (IH _ H). apply plug_all_sub in H. destruct H as (H & _).
      rewrite zlen_cons. destruct f; cbn [plug avl height] in *; lia.
  Qed.

  Lemma plug_all_replace : forall fs t t', avl (plug_all fs t) -> avl t' ->
      height t' = height t ->
      avl (plug_all fs t') /\ height (plug_all fs t') = height (plug_all fs t).
  Proof.
    induction fs as [|f fs IH]; intros t t' H Ht' Hh; simpl in *; [auto|].
    pose proof (plug_all_sub _ _ H) as (Hp & _).
    apply (IH (plug f t)); auto; destruct f; cbn [plug avl height] in *; try rewrite Hh; tauto.
  Qed.

  Lemma unwind_ins_ok : forall fs s0 s, avl (plug_all fs s0) ->
      height (plug_all fs s0) <= 900 -> avl s -> height s = height s0 + 1 ->
      exists t', unwind_ins fs s = Some t' /\ avl t' /\
        inorder t' = ctxl fs ++ inorder s ++ ctxr fs /\
        height (plug_all fs s0) <= height t' <= height (plug_all fs s0) + 1.
  Proof.
    induction fs as [|f fs IH]; intros s0 s H Hb Hs Hh; simpl in H, Hb |- *.
    - exists s. rewrite app_nil_r. repeat split; auto; lia.
    - pose proof (plug_all_sub _ _ H) as (Hp & Hle).
      assert (exists h l x r, plug f s = N h l x r /\ height (plug f s0) = h /\
              avl l /\ avl r /\ -2 <= height l - height r <= 2 /\
              height l <= 1000 /\ height r <= 1000 /\
              h <= Z.max (height l) (height r) + 1 /\
              Z.max (height l) (height r) <= h /\
              (-1 <= height l - height r <= 1 ->True) /\
              (~ -1 <= height l - height r <= 1 -> h = Z.max (height l) (height r))) as
        (h & l & x & r & Ep & Eh & Hl & Hr & Hd & Hb1 & Hb2 & Hm1 & Hm2 & _ & Hm3).
      { destruct f; cbn [plug avl height] in *.
        - do 4 eexists; split; [reflexivity|]. repeat split; try tauto; lia.
        - do 4 eexists; split; [reflexivity|]. repeat split; try tauto; lia. }
      destruct (balance_ok h l x r Hl Hr Hd Hb1 Hb2) as (t' & E1 & Ht' & Ei & Hrange & Heq).
      rewrite Ep, E1.
      assert (Hio : forall u, inorder u = inorder t' ->
                ctxl fs ++ inorder u ++ ctxr fs =
                ctxl (f :: fs) ++ inorder s ++ ctxr (f :: fs)).
      { intros u Eu. rewrite Eu, Ei, <- Ep. destruct f; simpl;
          rewrite <- ?app_assoc; simpl; rewrite <- ?app_assoc; reflexivity. }
      destruct (Z.eqb_spec (height t') h) as [He|He]; simpl.
      + destruct (plug_all_replace fs (plug f s0) t') as (G1 & G2); auto; [lia|].
        eexists; split; [reflexivity|]. split; [auto|].
        split; [rewrite inorder_plug; apply Hio; reflexivity | lia].
      + assert (height t' = height (plug f s0) + 1).
        { rewrite Eh. destruct (Z_le_dec (-1) (height l - height r));
            destruct (Z_le_dec (height l - height r) 1).
          - rewrite Heq in * by lia. cbn [height] in *. lia.
          - rewrite Hm3 in * by lia. lia.
          - rewrite Hm3 in * by lia. lia.
          - lia. }
        destruct (IH (plug f s0) t') as (t'' & G1 & G2 & G3 & G4); auto.
        exists t''. rewrite G1. repeat split; auto; try lia.
        rewrite G3. apply Hio. reflexivity.
  Qed.

  Lemma unwind_bal_ok : forall fs s0 t t1 b, avl (plug_all fs s0) ->
      height (plug_all fs s0) <= 900 ->
      balance t = Some (t1, b) -> avl t1 -> inorder t1 = inorder t ->
      height s0 - 1 <= height t1 <= height s0 ->
      exists t', unwind_bal fs t = Some t' /\ avl t' /\
        inorder t' = ctxl fs ++ inorder t ++ ctxr fs /\
        height (plug_all fs s0) - 1 <= height t' <= height (plug_all fs s0).
  Proof.
    induction fs as [|f fs IH]; intros s0 t t1 b H Hb Eb Ht1 Ei Hr; simpl in H, Hb |- *; rewrite Eb.
    - exists t1. rewrite app_nil_r. repeat split; auto; lia.
    - pose proof (plug_all_sub _ _ H) as (Hp & Hle).
      assert (exists h l x r, plug f t1 = N h l x r /\ height (plug f s0) = h /\
              avl l /\ avl r /\ -2 <= height l - height r <= 2 /\
              height l <= 1000 /\ height r <= 1000 /\
              h - 1 <= Z.max (height l) (height r) + 1 <= h /\
              (~ -1 <= height l - height r <= 1 -> h = Z.max (height l) (height r) + 1)) as
        (h & l & x & r & Ep & Eh & Hl & Hr' & Hd & Hb1 & Hb2 & Hm1 & Hm3).
      { destruct f; cbn [plug avl height] in *.
        - do 4 eexists; split; [reflexivity|]. repeat split; try tauto; lia.
        - do 4 eexists; split; [reflexivity|]. repeat split; try tauto; lia. }
      destruct (balance_ok h l x r Hl Hr' Hd Hb1 Hb2) as (t' & E1 & Ht' & Ei' & Hrange & Heq).
      rewrite <- Ep in E1.
      destruct (IH (plug f s0) (plug f t1) t' (negb (height t' =? h))) as (t'' & G1 & G2 & G3 & G4); auto.
      + rewrite Ei', <- Ep. reflexivity.
      + rewrite Eh. destruct (Z_le_dec (-1) (height l - height r));
            destruct (Z_le_dec (height l - height r) 1);
          [rewrite Heq in * by lia; cbn [height] in *; lia | specialize (Hm3 ltac:(lia)); lia ..].
      + exists t''. rewrite G1. repeat split; auto; try lia.
        rewrite G3. destruct f; cbn [plug inorder ctxl ctxr]; rewrite Ei;
          rewrite <- ?app_assoc; simpl; rewrite <- ?app_assoc; reflexivity.
  Qed.

  Lemma succ_path_ok : forall t gs, avl t -> t <> E ->
      exists gs' sh sx sr, succ_path t gs = Some (gs', sh, sx, sr) /\
        plug_all gs' (N sh E sx sr) = plug_all gs t /\ ctxl gs' = ctxl gs.
  Proof.
    induction t as [|h l IHl x r _]; intros gs H Hne; [congruence|].
    destruct l as [|hl ll y lr].
    - cbn. do 4 eexists. split; [reflexivity|]. auto.
    - destruct (IHl (FL h x r :: gs)) as (gs' & sh & sx & sr & E1 & E2 & E3);
        [apply H | discriminate |].
      exists gs', sh, sx, sr. split; [exact E1|]. split; [exact E2| rewrite E3; reflexivity].
  Qed.

  (** Fibonacci bound *)
  Lemma fewest_step : forall n, fewest (S (S n)) = 1 + fewest (S n) + fewest n.
  Proof. reflexivity. Qed.
  Lemma fewest_nonneg : forall n, 0 <= fewest n /\ 0 <= fewest (S n).
  Proof.
    induction n; [simpl; lia|]. destruct IHn. split; [lia|].
    rewrite fewest_step. lia.
  Qed.
  Lemma fewest_mono1 : forall n, fewest n <= fewest (S n).
  Proof.
    destruct n; [simpl; lia|]. rewrite fewest_step.
    pose proof (fewest_nonneg n). lia.
  Qed.
  Lemma fewest_mono : forall n m, (n <= m)%nat -> fewest n <= fewest m.
  Proof. induction 1; [lia|]. pose proof (fewest_mono1 m). lia. Qed.

  Lemma avl_size : forall t, avl t ->
      fewest (Z.to_nat (height t + 1)) <= zlen (inorder t).
  Proof.
    induction t as [|h l IHl x r IHr]; intros H; [simpl; unfold zlen; simpl; lia|].
    cbn [avl] in H. destruct H as (Hl & Hr & Hh & Hd).
    specialize (IHl Hl). specialize (IHr Hr).
    pose proof (avl_height_ge l Hl). pose proof (avl_height_ge r Hr).
    cbn [height inorder]. rewrite zlen_app, zlen_cons.
    set (m := Z.max (height l) (height r)) in *.
    destruct (Z.eq_dec m (-1)) as [Hm|Hm].
    - rewrite Hh, Hm. simpl. unfold zlen; lia.
    - replace (Z.to_nat (h + 1)) with (S (S (Z.to_nat m))) by lia.
      rewrite fewest_step.
      assert (fewest (Z.to_nat m) <= fewest (Z.to_nat (Z.min (height l) (height r) + 1)))
        by (apply fewest_mono; lia).
      assert (fewest (S (Z.to_nat m)) = fewest (Z.to_nat (Z.max (height l) (height r) + 1)))
        by (f_equal; lia).
      destruct (Z_le_dec (height l) (height r)).
      + rewrite Z.min_l, Z.max_r in * by lia. lia.
      + rewrite Z.min_r, Z.max_l in * by lia. lia.
  Qed.

  Definition fibpair (n : nat) : Z * Z :=
    Nat.iter n (fun '(a, b) => (b, 1 + a + b)) (0, 1).
  Lemma fibpair_ok : forall n, fibpair n = (fewest n, fewest (S n)).
  Proof.
    induction n; [reflexivity|]. unfold fibpair in *. simpl Nat.iter. rewrite IHn.
    rewrite (fewest_step n). f_equal. lia.
  Qed.
  Lemma fewest_32 : fewest 32 = 5702886.
  Proof. pose proof (fibpair_ok 32) as H. vm_compute fibpair in H. congruence. Qed.

  Lemma avl_height_30 : forall t, avl t -> zlen (inorder t) <= 5702885 -> height t <= 30.
  Proof.
    intros t H Hs. pose proof (avl_size t H).
    destruct (Z_le_dec (height t) 30); [auto|].
    assert (fewest 32 <= fewest (Z.to_nat (height t + 1))) by (apply fewest_mono; lia).
    rewrite fewest_32 in *. lia.
  Qed.

  Lemma avl_depth : forall t, avl t -> height t = depth t.
  Proof.
    induction t as [|h l IHl x r IHr]; intros H; [reflexivity|].
    destruct H as (Hl & Hr & Hh & Hd). cbn [height depth].
    rewrite <- IHl, <- IHr by auto. lia.
  Qed.
  Lemma avl_avl_shaped : forall t, avl t -> avl_shaped t.
  Proof.
    induction t as [|h l IHl x r IHr]; intros H; [exact I|].
    pose proof (avl_depth _ H) as Hdp. cbn [height] in Hdp.
    destruct H as (Hl & Hr & Hh & Hd). cbn [avl_shaped].
    rewrite <- (avl_depth l), <- (avl_depth r) by auto. repeat split; auto; lia.
  Qed.
  Lemma avl_shaped_avl : forall t, avl_shaped t -> avl t.
  Proof.
    induction t as [|h l IHl x r IHr]; intros H; [exact I|].
    cbn [avl_shaped] in H. destruct H as (Hl & Hr & Hh & Hd).
    specialize (IHl Hl). specialize (IHr Hr). cbn [avl].
    rewrite (avl_depth l), (avl_depth r) by auto. cbn [depth] in Hh. repeat split; auto; lia.
  Qed.
End Shape.

Section Order.
  Context {A K : Type}.
  Variable key : A -> K.
  Variable cmp : K -> K -> Z.
  Hypothesis gc : good_cmp cmp.
  Notation tree := (@tree A).
  Notation frame := (@frame A).

  Lemma cmp_lt_trans : forall a b c, cmp a b < 0 -> cmp b c < 0 -> cmp a c < 0.
  Proof.
    intros a b c H1 H2. pose proof (gc_trans _ gc a b c ltac:(lia) ltac:(lia)).
    destruct (Z.eq_dec (cmp a c) 0) as [E|E]; [|lia].
    pose proof (gc_sym _ gc a c). rewrite E in H0. simpl in H0.
    assert (cmp c a = 0) by lia.
    pose proof (gc_trans _ gc b c a ltac:(lia) ltac:(lia)).
    pose proof (gc_sym _ gc a b). lia.
  Qed.
  Lemma cmp_lt_eq : forall a b c, cmp a b < 0 -> cmp b c = 0 -> cmp a c < 0.
  Proof.
    intros a b c H1 H2. pose proof (gc_trans _ gc a b c ltac:(lia) ltac:(lia)).
    destruct (Z.eq_dec (cmp a c) 0) as [E|E]; [|lia].
    pose proof (gc_sym _ gc a c). pose proof (gc_sym _ gc b c). pose proof (gc_sym _ gc a b).
    assert (cmp c a = 0) by lia.
    pose proof (gc_trans _ gc b c a ltac:(lia) ltac:(lia)). lia.
  Qed.
  Lemma cmp_gt : forall a b, 0 < cmp a b <-> cmp b a < 0.
  Proof. intros a b. pose proof (gc_sym _ gc a b). lia. Qed.
  Lemma cmp_eq : forall a b, cmp a b = 0 <-> cmp b a = 0.
  Proof. intros a b. pose proof (gc_sym _ gc a b). lia. Qed.

  Notation inc := (increasing key cmp).

  Lemma inc_app : forall a b, inc (a ++ b) <->
      inc a /\ inc b /\ (forall x y, In x a -> In y b -> cmp (key x) (key y) < 0).
  Proof.
    unfold increasing. induction a as [|x a IH]; intros b; simpl.
    - split; [intros H; repeat split; auto; [constructor|tauto]| tauto].
    - split.
      + intros H. inversion H as [|? ? H1 H2]; subst. apply IH in H1.
        destruct H1 as (G1 & G2 & G3). rewrite Forall_app in H2. destruct H2 as [F1 F2].
        repeat split; auto; [constructor; auto|].
        intros u v [->|Hu] Hv; [rewrite Forall_forall in F2; auto | auto].
      + intros (H1 & H2 & H3). inversion H1 as [|? ? G1 G2]; subst.
        constructor; [apply IH; repeat split; auto|].
        apply Forall_app; split; auto. apply Forall_forall. intros v Hv. auto.
  Qed.

  Definition below (k : K) (l : list A) := forall x, In x l -> cmp (key x) k < 0.
  Definition above (k : K) (l : list A) := forall x, In x l -> 0 < cmp (key x) k.

  Lemma inc_node : forall l x r, inc (inorder l ++ x :: inorder r) ->
      inc (inorder l) /\ inc (inorder r) /\ below (key x) (inorder l) /\
      above (key x) (inorder r).
  Proof.
    intros l x r H. apply inc_app in H. destruct H as (H1 & H2 & H3).
    inversion H2 as [|? ? G1 G2]; subst. repeat split; auto.
    - intros y Hy. apply H3; simpl; auto.
    - intros y Hy. rewrite Forall_forall in G2. apply cmp_gt. auto.
  Qed.

  Lemma below_trans : forall k k' l, below k l -> cmp k k' < 0 -> below k' l.
  Proof. intros k k' l H Hk x Hx. eapply cmp_lt_trans; eauto. Qed.
  Lemma above_trans : forall k k' l, above k l -> 0 < cmp k k' -> above k' l.
  Proof.
    intros k k' l H Hk x Hx. apply cmp_gt. apply cmp_gt in Hk.
    eapply cmp_lt_trans; [exact Hk|]. apply cmp_gt. auto.
  Qed.

  Lemma descend_ok : forall t k fs, inc (inorder t) ->
      below k (ctxl fs) -> above k (ctxr fs) ->
      exists fs' s, descend key cmp t k fs = (fs', s) /\
        plug_all fs' s = plug_all fs t /\
        below k (ctxl fs') /\ above k (ctxr fs') /\
        match s with E => True | N _ l x r => cmp (key x) k = 0 /\
                                              below k (inorder l) /\ above k (inorder r) end.
  Proof.
    induction t as [|h l IHl x r IHr]; intros k fs Hinc Hb Ha; simpl.
    - do 2 eexists; split; [reflexivity|]. auto.
    - simpl in Hinc. apply inc_node in Hinc. destruct Hinc as (Hil & Hir & Hbl & Har).
      destruct (Z.eqb_spec (cmp (key x) k) 0) as [He|He].
      + do 2 eexists; split; [reflexivity|]. repeat split; auto.
        * intros y Hy. eapply cmp_lt_eq; eauto.
        * intros y Hy. apply cmp_gt. pose proof (Har _ Hy) as G. apply cmp_gt in G.
          destruct (Z_lt_dec (cmp k (key y)) 0); auto.
          pose proof (gc_sym _ gc k (key y)). pose proof (gc_trans _ gc (key y) k (key x)).
          apply cmp_eq in He. pose proof (gc_sym _ gc (key x) (key y)). lia.
      + destruct (Z.ltb_spec (cmp (key x) k) 0) as [Hl|Hl].
        * destruct (IHr k (FR h l x :: fs)) as (fs' & s & G); auto.
          { simpl. intros y Hy. rewrite !in_app_iff in Hy. simpl in Hy.
            destruct Hy as [Hy|[Hy|[<-|[]]]]; [apply Hb; auto | exact (below_trans _ _ _ Hbl Hl _ Hy) | exact Hl]. }
          exists fs', s. exact G.
        * destruct (IHl k (FL h x r :: fs)) as (fs' & s & G); auto.
          { simpl. intros y Hy. cbn [In] in Hy. rewrite in_app_iff in Hy.
            destruct Hy as [<-|[Hy|Hy]]; [lia | refine (above_trans _ _ _ Har _ _ Hy); lia | apply Ha; auto]. }
          exists fs', s. exact G.
  Qed.

  Lemma find_descend : forall t k fs fs' s, descend key cmp t k fs = (fs', s) ->
      find key cmp t k = match s with E => None | N _ _ x _ => Some x end.
  Proof.
    induction t as [|h l IHl x r IHr]; intros k fs fs' s H; simpl in *; [inversion H; auto|].
    destruct (cmp (key x) k =? 0); [inversion H; auto|].
    destruct (cmp (key x) k <? 0); eauto.
  Qed.

  (** Facts about the spec's list *)
  Notation same := (same key cmp).

  Lemma same_none : forall k a b, below k a -> above k b ->
      existsb (same k) (a ++ b) = false /\ List.find (same k) (a ++ b) = None /\
      filter (fun y => negb (same k y)) (a ++ b) = a ++ b.
  Proof.
    intros k a b Ha Hb.
    assert (H : forall x, In x (a ++ b) -> same k x = false).
    { intros x Hx. unfold Avl_Spec.same. apply Z.eqb_neq. apply in_app_iff in Hx.
      destruct Hx as [Hx|Hx]; [specialize (Ha _ Hx)|specialize (Hb _ Hx)]; lia. }
    induction (a ++ b) as [|x l IH]; [auto|]. simpl. rewrite (H x) by (simpl; auto).
    simpl. destruct IH as (E1 & E2 & E3); [intros; apply H; simpl; auto|].
    rewrite E3. auto.
  Qed.

  Lemma same_some : forall k a x b, below k a -> above k b -> cmp (key x) k = 0 ->
      existsb (same k) (a ++ x :: b) = true /\
      List.find (same k) (a ++ x :: b) = Some x /\
      filter (fun y => negb (same k y)) (a ++ x :: b) = a ++ b.
  Proof.
    intros k a x b Ha Hb Hx.
    assert (Hax : forall x, In x a -> same k x = false).
    { intros y Hy. apply Z.eqb_neq. specialize (Ha _ Hy); lia. }
    assert (Hbx : forall x, In x b -> same k x = false).
    { intros y Hy. apply Z.eqb_neq. specialize (Hb _ Hy); lia. }
    assert (Hs : same k x = true) by (apply Z.eqb_eq; auto).
    repeat split.
    - rewrite existsb_app. simpl. rewrite Hs. apply orb_true_r.
    - clear Ha. induction a as [|y a IH]; simpl; [rewrite Hs; auto|].
      rewrite (Hax y) by (simpl; auto). apply IH. intros; apply Hax; simpl; auto.
    - rewrite filter_app. simpl. rewrite Hs. simpl. f_equal.
      + clear Ha. induction a as [|y a IH]; simpl; auto. rewrite (Hax y) by (simpl; auto). simpl.
        f_equal. apply IH. intros; apply Hax; simpl; auto.
      + clear Hb. induction b as [|y b IH]; simpl; auto. rewrite (Hbx y) by (simpl; auto). simpl.
        f_equal. apply IH. intros; apply Hbx; simpl; auto.
  Qed.

  Definition wf (t : tree) := avl t /\ inc (inorder t).

  Lemma inc_insert : forall a b x, inc (a ++ b) -> below (key x) a -> above (key x) b ->
      inc (a ++ x :: b).
  Proof.
    intros a b x H Ha Hb. apply inc_app in H. destruct H as (H1 & H2 & H3).
    apply inc_app. repeat split; auto.
    - constructor; auto. apply Forall_forall. intros y Hy. apply cmp_gt. auto.
    - intros u v Hu [<-|Hv]; auto.
  Qed.
  Lemma inc_delete : forall a b x, inc (a ++ x :: b) -> inc (a ++ b).
  Proof.
    intros a b x H. apply inc_app in H. destruct H as (H1 & H2 & H3).
    apply inc_app. inversion H2; subst. repeat split; auto.
    intros u v Hu Hv. apply H3; simpl; auto.
  Qed.

  (** Description of what a lookup sees: the sorted list split at the key *)
  Lemma build_path_ok : forall t k, wf t -> height t <= 30 ->
      exists fs s, build_path key cmp t k = Some (fs, s) /\
        plug_all fs s = t /\ below k (ctxl fs) /\ above k (ctxr fs) /\
        zlen fs + height s <= height t /\
        match s with E => True | N _ l x r => cmp (key x) k = 0 /\
                                              below k (inorder l) /\ above k (inorder r) end.
  Proof.
    intros t k [Ha Hi] Hh. unfold build_path.
    destruct (descend_ok t k [] Hi) as (fs & s & E1 & E2 & E3 & E4 & E5);
      try (intros x []).
    rewrite E1. simpl in E2. rewrite <- E2 in Ha, Hh.
    pose proof (plug_all_height _ _ Ha). rewrite E2 in *.
    assert (-1 <= height s). { apply avl_height_ge. apply plug_all_sub with (fs := fs). rewrite E2; auto. }
    unfold MAX_TREE_HEIGHT. destruct (Z.leb_spec (zlen fs + 1) 32); [|lia].
    do 2 eexists; split; [reflexivity|]. auto.
  Qed.

  Lemma insert_ok : forall t x, wf t -> height t <= 30 ->
      exists t' b, insert key cmp t x = Some (t', b) /\ wf t' /\
        ((b = false /\ t' = t /\ existsb (same (key x)) (inorder t) = true) \/
         (b = true /\ existsb (same (key x)) (inorder t) = false /\
          exists p q, inorder t = p ++ q /\ inorder t' = p ++ x :: q)).
  Proof.
    intros t x Hw Hh. unfold insert. destruct t as [|h0 l0 x0 r0] eqn:Et.
    - do 2 eexists; split; [reflexivity|]. split.
      + split; [simpl; lia | repeat constructor].
      + right. repeat split; auto. exists [], []. auto.
    - rewrite <- Et in *. clear Et h0 l0 x0 r0.
      destruct (build_path_ok t (key x) Hw Hh) as (fs & s & E1 & E2 & E3 & E4 & E5 & E6).
      rewrite E1. destruct Hw as [Hav Hinc]. pose proof E2 as Hpl. rewrite <- E2 in Hinc.
      rewrite inorder_plug in Hinc.
      destruct s as [|hs ls xs rs].
      + destruct (unwind_ins_ok fs E (N 0 E x E)) as (t' & G1 & G2 & G3 & G4);
          rewrite ?E2; auto; try lia.
        { simpl. lia. }
        rewrite G1. do 2 eexists; split; [reflexivity|]. simpl in G3, Hinc.
        split; [split; [auto|]|].
        * rewrite G3. apply inc_insert; auto.
        * right. split; auto. rewrite <- Hpl, inorder_plug. simpl.
          split; [eapply proj1, same_none; auto|]. exists (ctxl fs), (ctxr fs). auto.
      + do 2 eexists; split; [reflexivity|]. split.
        * split; auto. rewrite <- Hpl, inorder_plug. auto.
        * left. repeat split. rewrite <- Hpl, inorder_plug. simpl.
          destruct E6 as (Ee & El & Er).
          rewrite <- app_assoc. simpl. rewrite app_assoc.
          eapply proj1, same_some; auto.
          -- intros y Hy. apply in_app_iff in Hy. destruct Hy; auto.
          -- intros y Hy. apply in_app_iff in Hy. destruct Hy; auto.
  Qed.

  Lemma remove_aux_ok : forall (fs : list frame) h (l : tree) x r, avl (plug_all fs (N h l x r)) ->
      height (plug_all fs (N h l x r)) <= 30 ->
      exists t', remove_aux fs h l r = Some t' /\ avl t' /\
        inorder t' = ctxl fs ++ (inorder l ++ inorder r) ++ ctxr fs.
  Proof.
    intros fs h l x r H Hh.
    pose proof (plug_all_sub _ _ H) as (Hs & Hle).
    pose proof (plug_all_height _ _ H) as Hpl.
    cbn [avl height] in Hs, Hle, Hpl. destruct Hs as (Hl & Hr & Hhh & Hd).
    pose proof (avl_height_ge l Hl). pose proof (avl_height_ge r Hr).
    assert (Hone : forall t, avl t -> h - 1 <= height t <= h ->
              exists t', unwind_bal fs t = Some t' /\ avl t' /\
                inorder t' = ctxl fs ++ inorder t ++ ctxr fs).
    { intros t Ht Hht.
      destruct (unwind_bal_ok fs (N h l x r) t t false) as (t' & G1 & G2 & G3 & G4);
        auto; try lia; try (apply balance_avl; auto; lia).
      eauto. }
    unfold remove_aux. destruct l as [|hl ll y lr] eqn:El.
    - destruct (Hone r) as (t' & G1 & G2 & G3); auto; [cbn [height] in *; lia|].
      exists t'. simpl. auto.
    - rewrite <- El in *. destruct r as [|hr rl z rr] eqn:Er.
      + destruct (Hone l) as (t' & G1 & G2 & G3); auto; [subst l; cbn [height] in *; lia|].
        exists t'. simpl. rewrite app_nil_r. auto.
      + rewrite <- Er in *.
        destruct (succ_path_ok r [] Hr) as (gs & sh & sx & sr & E1 & E2 & E3); [subst; discriminate|].
        rewrite E1. simpl in E2, E3.
        assert (Hg : avl (plug_all gs (N sh E sx sr))) by (rewrite E2; auto).
        pose proof (plug_all_height _ _ Hg) as Hgl.
        pose proof (plug_all_sub _ _ Hg) as (Hgs & _).
        rewrite E2 in Hgl. cbn [avl height] in Hgs, Hgl. destruct Hgs as (_ & Hsr & Hsh & Hsd).
        pose proof (avl_height_ge sr Hsr).
        unfold MAX_TREE_HEIGHT.
        destruct (Z.leb_spec (zlen fs + 1 + (zlen gs + 1)) 32); [|lia].
        destruct (unwind_bal_ok gs (N sh E sx sr) sr sr false) as (r' & G1 & G2 & G3 & G4); auto;
          rewrite ?E2; try (cbn [height]; lia); try (apply balance_avl; auto; lia).
        rewrite G1. rewrite E2 in G4.
        pose proof (inorder_plug gs (N sh E sx sr)) as Hio. rewrite E2, E3 in Hio. simpl in Hio.
        rewrite E3 in G3. simpl in G3.
        destruct (balance_ok sh l sx r') as (t1 & B1 & B2 & B3 & B4 & B5); auto; try lia.
        destruct (unwind_bal_ok fs (N h l x r) (N sh l sx r') t1 (negb (height t1 =? sh)))
          as (t' & U1 & U2 & U3 & U4); auto; try lia.
        { cbn [height]. destruct (Z_le_dec (-1) (height l - height r'));
            destruct (Z_le_dec (height l - height r') 1);
            [rewrite B5 in * by lia; cbn [height] in *; lia | lia ..]. }
        exists t'. rewrite El in U1 |- *. rewrite U1. split; [auto|]. split; [auto|].
        rewrite U3. cbn [inorder]. rewrite Hio, G3. rewrite El. reflexivity.
  Qed.

  Lemma remove_ok : forall t k, wf t -> height t <= 30 ->
      exists t' o, remove key cmp t k = Some (t', o) /\ wf t' /\
        o = List.find (same k) (inorder t) /\
        inorder t' = filter (fun y => negb (same k y)) (inorder t).
  Proof.
    intros t k Hw Hh. unfold remove.
    destruct (build_path_ok t k Hw Hh) as (fs & s & E1 & E2 & E3 & E4 & E5 & E6).
    rewrite E1. destruct Hw as [Hav Hinc]. pose proof (f_equal inorder E2) as Hio.
    rewrite inorder_plug in Hio.
    destruct s as [|h l x r].
    - do 2 eexists; split; [reflexivity|]. split; [split; auto|].
      rewrite <- Hio. simpl. destruct (same_none k (ctxl fs) (ctxr fs) E3 E4) as (_ & -> & ->). auto.
    - destruct E6 as (Ee & El & Er).
      destruct (remove_aux_ok fs h l x r) as (t' & G1 & G2 & G3); rewrite ?E2; auto.
      rewrite G1. do 2 eexists; split; [reflexivity|].
      simpl in Hio. rewrite <- app_assoc in Hio. simpl in Hio. rewrite app_assoc in Hio.
      rewrite <- app_assoc, app_assoc in G3.
      destruct (same_some k (ctxl fs ++ inorder l) x (inorder r ++ ctxr fs)) as (_ & F1 & F2); auto.
      { intros y Hy. apply in_app_iff in Hy. destruct Hy; auto. }
      { intros y Hy. apply in_app_iff in Hy. destruct Hy; auto. }
      rewrite <- Hio, F1, F2, G3. repeat split; auto.
      rewrite G3. rewrite <- Hio in Hinc. eapply inc_delete; eauto.
  Qed.

  Lemma find_ok : forall t k, wf t ->
      find key cmp t k = List.find (same k) (inorder t).
  Proof.
    intros t k [Hav Hinc].
    destruct (descend_ok t k [] Hinc) as (fs & s & E1 & E2 & E3 & E4 & E5); try (intros x []).
    rewrite (find_descend _ _ _ _ _ E1). simpl in E2. rewrite <- E2, inorder_plug.
    destruct s as [|h l x r].
    - simpl. destruct (same_none k (ctxl fs) (ctxr fs) E3 E4) as (_ & -> & _). auto.
    - destruct E5 as (Ee & El & Er). simpl. rewrite <- app_assoc. simpl. rewrite app_assoc.
      destruct (same_some k (ctxl fs ++ inorder l) x (inorder r ++ ctxr fs)) as (_ & -> & _); auto.
      { intros y Hy. apply in_app_iff in Hy. destruct Hy; auto. }
      { intros y Hy. apply in_app_iff in Hy. destruct Hy; auto. }
  Qed.

  (** Permutation invariance of the spec, for lists with distinct keys *)
  Definition keys_distinct (l : list A) :=
    NoDup l /\ forall x y, In x l -> In y l -> cmp (key x) (key y) = 0 -> x = y.

  Lemma inc_keys_distinct : forall l, inc l -> keys_distinct l.
  Proof.
    induction l as [|a l IH]; intros H.
    - split; [constructor| intros ? ? []].
    - inversion H as [|? ? H1 H2]; subst. rewrite Forall_forall in H2.
      destruct (IH H1) as [I1 I2]. split.
      + constructor; auto. intros Hin. specialize (H2 _ Hin).
        rewrite (gc_refl _ gc) in H2. lia.
      + intros x y [<-|Hx] [<-|Hy] He; auto.
        * specialize (H2 _ Hy). lia.
        * specialize (H2 _ Hx). apply cmp_eq in He. lia.
  Qed.
  Lemma keys_distinct_perm : forall l l', Permutation l l' -> keys_distinct l -> keys_distinct l'.
  Proof.
    intros l l' P [H1 H2]. split.
    - eapply Permutation_NoDup; eauto.
    - intros x y Hx Hy. apply H2; eapply Permutation_in; try apply Permutation_sym; eauto.
  Qed.

  Lemma find_perm : forall k l l', keys_distinct l -> Permutation l l' ->
      List.find (same k) l = List.find (same k) l'.
  Proof.
    intros k l l' [_ H] P.
    destruct (List.find (same k) l) as [x|] eqn:E1; destruct (List.find (same k) l') as [y|] eqn:E2; auto.
    - apply find_some in E1. apply find_some in E2. f_equal. apply H; try tauto.
      + eapply Permutation_in; [apply Permutation_sym; eauto|]. tauto.
      + destruct E1 as [_ E1]. destruct E2 as [_ E2]. apply Z.eqb_eq in E1, E2.
        pose proof (gc_trans _ gc (key x) k (key y)). pose proof (gc_trans _ gc (key y) k (key x)).
        apply cmp_eq in E1 as E1'. apply cmp_eq in E2 as E2'.
        pose proof (gc_sym _ gc (key x) (key y)). lia.
    - apply find_some in E1. destruct E1 as [I1 S1]. pose proof (find_none _ _ E2 x) as G.
      rewrite G in S1; [discriminate|]. eapply Permutation_in; eauto.
    - apply find_some in E2. destruct E2 as [I1 S1]. pose proof (find_none _ _ E1 y) as G.
      rewrite G in S1; [discriminate|]. eapply Permutation_in; [apply Permutation_sym|]; eauto.
  Qed.
  Lemma existsb_perm : forall (f : A -> bool) l l', Permutation l l' -> existsb f l = existsb f l'.
  Proof.
    induction 1; simpl; auto; try congruence.
    destruct (f x), (f y); auto.
  Qed.
  Lemma filter_perm : forall (f : A -> bool) l l', Permutation l l' -> Permutation (filter f l) (filter f l').
  Proof.
    induction 1; simpl; auto.
    - destruct (f x); auto.
    - destruct (f y), (f x); auto. constructor.
    - eapply perm_trans; eauto.
  Qed.

  Lemma step_ok : forall t l o, wf t -> Permutation (inorder t) l -> zlen l <= 5702885 ->
      exists t' x, bt_step key cmp t o = Some (t', x) /\ wf t' /\
        x = snd (spec_step key cmp l o) /\
        Permutation (inorder t') (fst (spec_step key cmp l o)).
  Proof.
    intros t l o Hw P Hn.
    assert (Hh : height t <= 30).
    { apply avl_height_30; [apply Hw|]. unfold zlen in *. rewrite (Permutation_length P). auto. }
    assert (Hkd : keys_distinct (inorder t)) by (apply inc_keys_distinct, Hw).
    destruct o as [x|k|k]; cbn [bt_step spec_step].
    - destruct (insert_ok t x Hw Hh) as (t' & b & E1 & Hw' & H). rewrite E1.
      rewrite <- (existsb_perm _ _ _ P).
      do 2 eexists; split; [reflexivity|]. split; [auto|].
      destruct H as [(-> & -> & ->) | (-> & -> & p & q & Ep & Eq)]; simpl; split; auto.
      rewrite Eq. apply Permutation_sym. apply Permutation_cons_app.
      rewrite <- Ep. apply Permutation_sym; auto.
    - destruct (remove_ok t k Hw Hh) as (t' & ob & E1 & Hw' & E2 & E3). rewrite E1.
      do 2 eexists; split; [reflexivity|]. split; [auto|].
      rewrite <- (find_perm k _ _ Hkd P). subst ob.
      destruct (List.find (same k) (inorder t)) as [x|] eqn:Ef; simpl; split; auto.
      + rewrite E3. apply filter_perm; auto.
      + rewrite E3. eapply perm_trans; [|exact P].
        assert (G : forall y, In y (inorder t) -> same k y = false) by (intros y; apply (find_none _ _ Ef)).
        clear - G. induction (inorder t) as [|y m IH]; simpl; auto.
        rewrite (G y) by (simpl; auto). simpl. constructor. apply IH. intros; apply G; simpl; auto.
    - do 2 eexists; split; [reflexivity|]. split; [auto|]. simpl. split; auto.
      rewrite find_ok by auto. rewrite (find_perm k _ _ Hkd P). auto.
  Qed.

  Lemma spec_run_cons : forall l o os,
      spec_run key cmp l (o :: os) =
      (fst (spec_run key cmp (fst (spec_step key cmp l o)) os),
       snd (spec_step key cmp l o) :: snd (spec_run key cmp (fst (spec_step key cmp l o)) os)).
  Proof.
    intros. cbn [spec_run]. destruct (spec_step key cmp l o) as [l' x].
    simpl. destruct (spec_run key cmp l' os). reflexivity.
  Qed.

  Lemma run_ok : forall ops t l, wf t -> Permutation (inorder t) l ->
      (forall pre o post, ops = pre ++ o :: post -> zlen (fst (spec_run key cmp l pre)) <= 5702885) ->
      exists t', bt_run key cmp t ops = Some (t', snd (spec_run key cmp l ops)) /\ wf t' /\
        Permutation (inorder t') (fst (spec_run key cmp l ops)).
  Proof.
    induction ops as [|o os IH]; intros t l Hw P Hs.
    - exists t. simpl. auto.
    - destruct (step_ok t l o Hw P) as (t' & x & E1 & Hw' & E2 & P').
      { apply (Hs [] o os). reflexivity. }
      destruct (IH t' (fst (spec_step key cmp l o)) Hw' P') as (t'' & G1 & G2 & G3).
      { intros pre o' post Eo. specialize (Hs (o :: pre) o' post). rewrite spec_run_cons in Hs.
        apply Hs. rewrite Eo. reflexivity. }
      exists t''. rewrite spec_run_cons. cbn [bt_run fst snd]. rewrite E1, G1.
      rewrite E2. auto.
  Qed.

  Theorem bt_refines : forall ops, sizes_ok key cmp 5702885 ops ->
      exists t, bt_run key cmp E ops = Some (t, snd (spec_run key cmp [] ops)) /\
        avl_shaped t /\ inc (inorder t) /\ Permutation (inorder t) (contents key cmp ops).
  Proof.
    intros ops Hs. destruct (run_ok ops E []) as (t & E1 & [Ha Hi] & E3); auto.
    - split; [exact I | constructor].
    - exists t. split; [auto|]. split; [apply avl_avl_shaped; auto|]. auto.
  Qed.

  (** first/last *)
  Lemma get_first_ok : forall t : tree, get_first t = hd_error (inorder t).
  Proof.
    induction t as [|h l IHl x r IHr]; auto.
    destruct l as [|hl ll y lr]; [reflexivity|].
    change (get_first (N h (N hl ll y lr) x r)) with (get_first (N hl ll y lr)).
    rewrite IHl. cbn [inorder]. destruct (inorder ll); reflexivity.
  Qed.
  Lemma get_last_ok : forall t : tree, get_last t = hd_error (rev (inorder t)).
  Proof.
    induction t as [|h l IHl x r IHr]; auto.
    destruct r as [|hr rl y rr].
    - cbn. rewrite rev_app_distr. reflexivity.
    - change (get_last (N h l x (N hr rl y rr))) with (get_last (N hr rl y rr)).
      rewrite IHr. cbn [inorder]. rewrite !rev_app_distr. simpl. rewrite !rev_app_distr. simpl.
      rewrite <- ?app_assoc.
      destruct (rev (inorder rr)); reflexivity.
  Qed.
End Order.

(** ** The pointer-sized comparison *)
Lemma long_sub_small : forall w a b, 1 <= w -> - 2 ^ (w - 1) < a - b < 2 ^ (w - 1) ->
    long_sub w a b = a - b.
Proof.
  intros w a b Hw H. unfold long_sub.
  assert (Hp : 2 ^ w = 2 * 2 ^ (w - 1)).
  { replace w with (Z.succ (w - 1)) at 1 by lia. rewrite Z.pow_succ_r by lia. reflexivity. }
  set (p := 2 ^ (w - 1)) in *. rewrite Hp.
  destruct (Z_le_dec 0 (a - b)).
  - rewrite Z.mod_small by lia. destruct (Z.ltb_spec (a - b) p); lia.
  - replace ((a - b) mod (2 * p)) with (a - b + 2 * p)
      by (symmetry; rewrite <- (Z.mod_add _ 1) by lia; rewrite Z.mod_small; lia).
    destruct (Z.ltb_spec (a - b + 2 * p) p); lia.
Qed.

Lemma good_long : forall w lo, 1 <= w ->
    good_cmp (fun a b : {z | lo <= z < lo + 2 ^ (w - 1)} =>
                long_sub w (proj1_sig a) (proj1_sig b)).
Proof.
  intros w lo Hw. split.
  - intros [a Ha]; simpl. rewrite long_sub_small; lia.
  - intros [a Ha] [b Hb]; simpl. rewrite !long_sub_small; lia.
  - intros [a Ha] [b Hb] [c Hc]; simpl. rewrite !long_sub_small; lia.
Qed.
