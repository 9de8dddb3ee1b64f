(** Every AVL tree of height at most 31 can be built by inserts; hence the
    traversal stack overflows after 5,702,886 inserts of suitable keys. *)
From Verif Require Import Lib Avl_Model Avl_Spec Avl_Proofs.
From Coq Require Import Sorted Permutation.

Local Arguments Z.add : simpl never.
Local Arguments Z.sub : simpl never.
Local Arguments Z.max : simpl never.

Section Reach.
  Context {A K : Type}.
  Variable key : A -> K.
  Variable cmp : K -> K -> Z.
  Hypothesis gc : good_cmp cmp.
  Notation tree := (@tree A).
  Notation inc := (increasing key cmp).

  (** Inserting [x] in the first tree gives the second without rotations; the
      flag tells whether the height grew *)
  Inductive ins_rel (x : A) : tree -> tree -> bool -> Prop :=
  | ir_leaf : ins_rel x E (N 0 E x E) true
  | ir_left : forall h' h l' l y r (b c : bool),
      ins_rel x l' l b -> 0 < cmp (key y) (key x) ->
      (if b then balance (N h' l y r) = Some (N h l y r, c) else h' = h /\ c = false) ->
      ins_rel x (N h' l' y r) (N h l y r) c
  | ir_right : forall h' h l r' r y (b c : bool),
      ins_rel x r' r b -> cmp (key y) (key x) < 0 ->
      (if b then balance (N h' l y r) = Some (N h l y r, c) else h' = h /\ c = false) ->
      ins_rel x (N h' l y r') (N h l y r) c.

  Lemma ins_rel_run : forall x t' t b, ins_rel x t' t b -> avl t ->
      forall fs, exists gs, descend key cmp t' (key x) fs = (gs ++ fs, E) /\
        zlen gs <= height t /\
        unwind_ins (gs ++ fs) (N 0 E x E) =
        if b then unwind_ins fs t else Some (plug_all fs t).
  Proof.
    induction 1 as [|h' h l' l y r b c H IH Hc Hb|h' h l r' r y b c H IH Hc Hb]; intros Ht fs.
    - exists []. simpl. repeat split; auto. unfold zlen; simpl; lia.
    - cbn [avl height] in Ht. destruct Ht as (Hl & Hr & Hh & Hd).
      destruct (IH Hl (FL h' y r :: fs)) as (gs & E1 & E2 & E3).
      exists (gs ++ [FL h' y r]). rewrite <- app_assoc. cbn [app].
      cbn [descend height]. split.
      + destruct (Z.eqb_spec (cmp (key y) (key x)) 0); [lia|].
        destruct (Z.ltb_spec (cmp (key y) (key x)) 0); [lia|]. exact E1.
      + rewrite zlen_snoc. split; [lia|]. rewrite E3. destruct b.
        * cbn [unwind_ins plug]. rewrite Hb. reflexivity.
        * destruct Hb as [-> ->]. reflexivity.
    - cbn [avl height] in Ht. destruct Ht as (Hl & Hr & Hh & Hd).
      destruct (IH Hr (FR h' l y :: fs)) as (gs & E1 & E2 & E3).
      exists (gs ++ [FR h' l y]). rewrite <- app_assoc. cbn [app].
      cbn [descend height]. split.
      + destruct (Z.eqb_spec (cmp (key y) (key x)) 0); [lia|].
        destruct (Z.ltb_spec (cmp (key y) (key x)) 0); [|lia]. exact E1.
      + rewrite zlen_snoc. split; [lia|]. rewrite E3. destruct b.
        * cbn [unwind_ins plug]. rewrite Hb. reflexivity.
        * destruct Hb as [-> ->]. reflexivity.
  Qed.

  Lemma ins_rel_insert : forall x t' t b, ins_rel x t' t b -> avl t -> height t <= 31 ->
      insert key cmp t' x = Some (t, true).
  Proof.
    intros x t' t b H Ht Hh. unfold insert. destruct t' as [|h0 l0 x0 r0] eqn:Et.
    - inversion H; subst. reflexivity.
    - rewrite <- Et in *. destruct (ins_rel_run _ _ _ _ H Ht []) as (gs & E1 & E2 & E3).
      unfold build_path. rewrite E1, app_nil_r in *. unfold MAX_TREE_HEIGHT.
      destruct (Z.leb_spec (zlen gs + 1) 32); [|lia]. rewrite E3.
      destruct b; reflexivity.
  Qed.

  Lemma pred_exists : forall t, avl t -> t <> E -> inc (inorder t) -> height t <= 500 ->
      exists x t' b p q, ins_rel x t' t b /\ avl t' /\
        inorder t = p ++ x :: q /\ inorder t' = p ++ q /\
        height t' = (if b then height t - 1 else height t).
  Proof.
    induction t as [|h l IHl y r IHr]; intros Ht Hne Hinc Hb; [congruence|].
    cbn [avl height inorder] in Ht, Hb, Hinc |- *. destruct Ht as (Hl & Hr & Hh & Hd).
    apply (inc_node key cmp gc) in Hinc. destruct Hinc as (Hil & Hir & Hbl & Har).
    pose proof (avl_height_ge l Hl). pose proof (avl_height_ge r Hr).
    destruct (balance_ok (A:=A) (h - 1) l y r) as (t2 & B1 & _ & _ & _ & B2); auto; try lia.
    specialize (B2 ltac:(lia)). rewrite <- Hh in B2. subst t2. cbn [height] in B1.
    replace (h =? h - 1) with false in B1 by lia. cbn [negb] in B1.
    pose proof (balance_avl (N h l y r)) as Bsame. cbn [avl height] in Bsame.
    specialize (Bsame ltac:(auto) ltac:(lia)).
    destruct (Z_le_dec (height r) (height l)) as [Hlr|Hlr].
    - destruct l as [|hl ll z lr] eqn:El.
      + destruct r as [|hr rl z rr]; [|cbn [avl height] in *;
          pose proof (avl_height_ge rl (proj1 Hr)); lia].
        cbn [height] in Hh. replace h with 0 in * by lia.
        exists y, E, true, [], []. repeat split; auto. constructor.
      + rewrite <- El in *.
        destruct IHl as (x & l' & b & p & q & I1 & I2 & I3 & I4 & I5);
          [auto|subst; discriminate|auto|lia|].
        assert (Hx : 0 < cmp (key y) (key x)).
        { apply (cmp_gt cmp gc). apply Hbl. rewrite I3. apply in_app_iff. simpl. auto. }
        set (h' := 1 + Z.max (height l') (height r)).
        exists x, (N h' l' y r), (negb (h' =? h)), p, (q ++ y :: inorder r).
        destruct (Z.eqb_spec h' h) as [He|He]; simpl negb.
        * assert (G : avl (N h' l' y r)).
          { cbn [avl]. destruct b; repeat split; auto; try lia. }
          split; [|split; [exact G|]].
          -- eapply ir_left; eauto. rewrite He. destruct b; auto.
          -- cbn [inorder height]. rewrite I3, I4, <- !app_assoc. simpl. auto.
        * destruct b; [|lia].
          assert (G : avl (N h' l' y r)). { cbn [avl]. repeat split; auto; try lia. }
          split; [|split; [exact G|]].
          -- eapply ir_left; eauto. cbn iota. replace h' with (h - 1) by lia. exact B1.
          -- cbn [inorder height]. rewrite I3, I4, <- !app_assoc. simpl. repeat split; auto. lia.
    - destruct r as [|hr rl z rr] eqn:Er; [cbn [height] in *; lia|].
      rewrite <- Er in *.
      destruct IHr as (x & r' & b & p & q & I1 & I2 & I3 & I4 & I5);
          [auto|subst; discriminate|auto|lia|].
      assert (Hx : cmp (key y) (key x) < 0).
      { apply (cmp_gt cmp gc). apply Har. rewrite I3. apply in_app_iff. simpl. auto. }
      set (h' := 1 + Z.max (height l) (height r')).
      exists x, (N h' l y r'), (negb (h' =? h)), (inorder l ++ y :: p), q.
      destruct (Z.eqb_spec h' h) as [He|He]; simpl negb.
      * assert (G : avl (N h' l y r')).
        { cbn [avl]. destruct b; repeat split; auto; try lia. }
        split; [|split; [exact G|]].
        -- eapply ir_right; eauto. rewrite He. destruct b; auto.
        -- cbn [inorder height]. rewrite I3, I4, <- !app_assoc. simpl. auto.
      * destruct b; [|lia].
        assert (G : avl (N h' l y r')). { cbn [avl]. repeat split; auto; try lia. }
        split; [|split; [exact G|]].
        -- eapply ir_right; eauto. cbn iota. replace h' with (h - 1) by lia. exact B1.
        -- cbn [inorder height]. rewrite I3, I4, <- !app_assoc. simpl. repeat split; auto. lia.
  Qed.

  Lemma bt_run_app : forall ops1 ops2 t,
      bt_run key cmp t (ops1 ++ ops2) =
      match bt_run key cmp t ops1 with
      | None => None
      | Some (t1, o1) => match bt_run key cmp t1 ops2 with
                         | None => None | Some (t2, o2) => Some (t2, o1 ++ o2) end
      end.
  Proof.
    induction ops1 as [|o ops1 IH]; intros ops2 t; cbn [bt_run app].
    - destruct (bt_run key cmp t ops2) as [[? ?]|]; reflexivity.
    - destruct (bt_step key cmp t o) as [[t1 x]|]; [|reflexivity]. rewrite IH.
      destruct (bt_run key cmp t1 ops1) as [[t2 o2]|]; [|reflexivity].
      destruct (bt_run key cmp t2 ops2) as [[? ?]|]; reflexivity.
  Qed.

  Lemma reach : forall n t, length (inorder t) = n -> avl t -> inc (inorder t) -> height t <= 31 ->
      exists xs, Permutation xs (inorder t) /\
        bt_run key cmp E (map BIns xs) = Some (t, map (fun _ => BBool true) xs).
  Proof.
    induction n as [|n IH]; intros t Hn Ht Hinc Hh.
    - destruct t as [|h l x r]; [exists []; simpl; auto|].
      cbn [inorder] in Hn. rewrite app_length in Hn. simpl in Hn. lia.
    - destruct (pred_exists t) as (x & t' & b & p & q & I1 & I2 & I3 & I4 & I5); auto; [|lia|].
      { intros ->. simpl in Hn. lia. }
      destruct (IH t') as (xs & P & R); auto.
      + rewrite I3 in Hn. rewrite I4. rewrite app_length in *. simpl in Hn. lia.
      + rewrite I4. rewrite I3 in Hinc. eapply inc_delete; eauto.
      + destruct b; lia.
      + exists (xs ++ [x]). split.
        * rewrite I3. apply Permutation_sym. apply Permutation_sym in P.
          eapply perm_trans; [apply Permutation_sym, Permutation_middle|].
          eapply perm_trans; [|apply Permutation_cons_append].
          constructor. rewrite <- I4. auto.
        * rewrite !map_app, bt_run_app, R. cbn [map bt_run bt_step].
          rewrite (ins_rel_insert x t' t b) by auto. reflexivity.
  Qed.
End Reach.

(** The Fibonacci tree with [fewest n] consecutive integer keys from [lo] *)
Fixpoint fibtree (n : nat) (lo : Z) : @tree Z :=
  match n with
  | O => E
  | S m => match m with
           | O => N 0 E lo E
           | S p => N (Z.of_nat m) (fibtree m lo) (lo + fewest m)
                      (fibtree p (lo + fewest m + 1))
           end
  end.

Lemma fibtree_step : forall p lo,
    fibtree (S (S p)) lo = N (Z.of_nat (S p)) (fibtree (S p) lo) (lo + fewest (S p))
                             (fibtree p (lo + fewest (S p) + 1)).
Proof. reflexivity. Qed.

Lemma nat_two_ind : forall P : nat -> Prop, P O -> P 1%nat ->
    (forall n, P n -> P (S n) -> P (S (S n))) -> forall n, P n.
Proof.
  intros P H0 H1 H n. assert (P n /\ P (S n)); [|tauto].
  induction n; [auto|]. destruct IHn. auto.
Qed.

Lemma fibtree_ok : forall n lo,
    avl (fibtree n lo) /\ height (fibtree n lo) = Z.of_nat n - 1 /\
    zlen (inorder (fibtree n lo)) = fewest n /\
    increasing (fun x => x) Z.sub (inorder (fibtree n lo)) /\
    (forall x, In x (inorder (fibtree n lo)) -> lo <= x < lo + fewest n).
Proof.
  intros n. induction n as [| |n IH0 IH1] using nat_two_ind; intros lo.
  - repeat split; simpl; auto; try contradiction; constructor.
  - simpl. repeat split; try lia; try (intros; tauto). repeat constructor.
  - rewrite fibtree_step, fewest_step.
    destruct (IH1 lo) as (A1 & H1 & L1 & I1 & R1).
    destruct (IH0 (lo + fewest (S n) + 1)) as (A0 & H0 & L0 & I0 & R0).
    pose proof (fewest_nonneg n) as [F1 F2].
    cbn [avl height inorder]. rewrite H1, H0, zlen_app, zlen_cons, L0, L1.
    repeat split; auto; try lia.
    + apply inc_app. split; [auto|]. split.
      * constructor; auto. apply Forall_forall. intros x Hx. specialize (R0 _ Hx). lia.
      * intros x y Hx [<-|Hy]; [|specialize (R0 _ Hy)]; specialize (R1 _ Hx); lia.
    + apply in_app_iff in H. destruct H as [H|[<-|H]]; [specialize (R1 _ H)| |specialize (R0 _ H)]; lia.
    + apply in_app_iff in H. destruct H as [H|[<-|H]]; [specialize (R1 _ H)| |specialize (R0 _ H)]; lia.
Qed.

Lemma good_sub : good_cmp Z.sub.
Proof. split; intros; lia. Qed.

Lemma fibtree_left : forall n lo fs, 0 <= lo -> exists fs' s,
    descend (fun x => x) Z.sub (fibtree n lo) (-1) fs = (fs', s) /\
    zlen fs' = zlen fs + Z.of_nat n /\ s = E.
Proof.
  intros n. induction n as [| |n IH0 IH1] using nat_two_ind; intros lo fs Hlo.
  - do 2 eexists; split; [reflexivity|]. split; [lia|auto].
  - cbn [fibtree descend]. destruct (Z.eqb_spec (lo - -1) 0); [lia|].
    destruct (Z.ltb_spec (lo - -1) 0); [lia|].
    do 2 eexists; split; [reflexivity|]. split; [rewrite zlen_cons; lia|auto].
  - rewrite fibtree_step. pose proof (fewest_nonneg n) as [F1 F2].
    cbn [descend]. destruct (Z.eqb_spec (lo + fewest (S n) - -1) 0); [lia|].
    destruct (Z.ltb_spec (lo + fewest (S n) - -1) 0); [lia|].
    edestruct (IH1 lo) as (fs' & s & E1 & E2 & E3); [auto|].
    exists fs', s. split; [exact E1|]. rewrite E2, zlen_cons. split; [lia|auto].
Qed.

Lemma overflow_gen : forall n, n = 32%nat -> exists xs : list Z,
    zlen xs = fewest n /\
    (exists t, bt_run (fun x => x) Z.sub E (map BIns xs) = Some (t, map (fun _ => BBool true) xs)) /\
    bt_run (fun x => x) Z.sub E (map BIns xs ++ [BIns (-1)]) = None.
Proof.
  intros n Hn32. assert (Hn : Z.of_nat n = 32) by lia. clear Hn32.
  destruct (fibtree_ok n 0) as (A1 & H1 & L1 & I1 & R1).
  destruct (reach (fun x => x) Z.sub good_sub _ (fibtree n 0) eq_refl A1 I1) as (xs & P & R).
  { lia. }
  exists xs. split; [|split].
  - unfold zlen in *. rewrite (Permutation_length P), L1. reflexivity.
  - eauto.
  - rewrite bt_run_app, R. cbn [bt_run bt_step].
    assert (insert (fun x => x) Z.sub (fibtree n 0) (-1) = None) as ->; [|reflexivity].
    destruct (fibtree_left n 0 [] ltac:(lia)) as (fs & s & E1 & E2 & E3).
    unfold insert. destruct (fibtree n 0) as [|h l x r].
    + cbn [height] in H1. lia.
    + unfold build_path. rewrite E1. change (zlen []) with 0 in E2.
      destruct (Z.leb_spec (zlen fs + 1) MAX_TREE_HEIGHT) as [G|G]; [|reflexivity].
      exfalso. unfold MAX_TREE_HEIGHT in G. lia.
Qed.

Lemma overflow_reachable : exists xs : list Z,
    zlen xs = 5702886 /\
    (exists t, bt_run (fun x => x) Z.sub E (map BIns xs) = Some (t, map (fun _ => BBool true) xs)) /\
    bt_run (fun x => x) Z.sub E (map BIns xs ++ [BIns (-1)]) = None.
Proof.
  destruct (overflow_gen _ eq_refl) as (xs & L & H). exists xs.
  rewrite fewest_32 in L. exact (conj L H).
Qed.
