(** The metadata operations of a buddy heap as operations on trees. *)
From Coq Require Import Permutation.
From Verif Require Import Lib Bits Buddy_Model Buddy_Tree.

(** ** Allocation: put [x] at the leftmost free place of height [j] *)
Fixpoint talloc (x : tree) (j k : nat) (t : tree) {struct k} : option (tree * Z) :=
  match t with
  | TU => None
  | TF =>
      if Nat.eqb k j then Some (x, 0)
      else match k with
           | O => None
           | S k' => match talloc x j k' TF with Some (l, p) => Some (TS l TF, p) | None => None end
           end
  | TS l r =>
      if Nat.eqb k j then None
      else match k with
           | O => None
           | S k' =>
               match talloc x j k' l with
               | Some (l', p) => Some (TS l' r, p)
               | None =>
                   match talloc x j k' r with
                   | Some (r', p) => Some (TS l r', 2 ^ Z.of_nat (k' - j) + p)
                   | None => None
                   end
               end
           end
  end.

Lemma talloc_full x j t : forall k, tfull t = true -> talloc x j k t = None.
Proof.
  induction t as [| |l IHl r IHr]; intros k H; [discriminate|destruct k; reflexivity|].
  cbn in H. apply andb_true_iff in H. destruct H.
  destruct k as [|k]; cbn [talloc]; [destruct (0 =? j)%nat; reflexivity|].
  destruct (Nat.eqb (S k) j); [reflexivity|]. rewrite IHl, IHr by assumption. reflexivity.
Qed.

Lemma talloc_eq_TF x j : talloc x j j TF = Some (x, 0).
Proof. destruct j; cbn; [reflexivity|rewrite Nat.eqb_refl; reflexivity]. Qed.
Lemma talloc_eq_TS x j l r : talloc x j j (TS l r) = None.
Proof. destruct j; cbn; [reflexivity|rewrite Nat.eqb_refl; reflexivity]. Qed.
Lemma talloc_TU x j k : talloc x j k TU = None.
Proof. destruct k; reflexivity. Qed.
Lemma talloc_S_TF x j k : (j <= k)%nat -> talloc x j (S k) TF =
  match talloc x j k TF with Some (l, p) => Some (TS l TF, p) | None => None end.
Proof. intros H. cbn [talloc]. replace (Nat.eqb (S k) j) with false by (symmetry; apply Nat.eqb_neq; lia). reflexivity. Qed.
Lemma talloc_S_TS x j k l r : (j <= k)%nat -> talloc x j (S k) (TS l r) =
  match talloc x j k l with
  | Some (l', p) => Some (TS l' r, p)
  | None => match talloc x j k r with Some (r', p) => Some (TS l r', 2 ^ Z.of_nat (k - j) + p) | None => None end
  end.
Proof. intros H. cbn [talloc]. replace (Nat.eqb (S k) j) with false by (symmetry; apply Nat.eqb_neq; lia). reflexivity. Qed.

Lemma talloc_TF x j k : (j <= k)%nat -> exists l, talloc x j k TF = Some (l, 0).
Proof.
  induction k as [|k IH]; intros H.
  - assert (j = 0)%nat by lia. subst j. exists x. reflexivity.
  - destruct (Nat.eq_dec (S k) j) as [<-|N]; [exists x; apply talloc_eq_TF|].
    destruct IH as [l E]; [lia|]. rewrite talloc_S_TF by lia. rewrite E. eauto.
Qed.

(** The place found, as a context *)
Lemma talloc_ctx j : forall k x t t' p, (j <= k)%nat -> talloc x j k t = Some (t', p) ->
  exists c, t' = plug c x /\ length c = (k - j)%nat /\ pos c = p /\
    (forall y, talloc y j k t = Some (plug c y, p)) /\
    (forall a base, 0 <= a -> blocks a k base (plug c TF) = blocks a k base t) /\
    (wf t -> x <> TF -> wf x -> wf (plug c x)).
Proof.
  pose proof plug_snoc as PA. pose proof pos_snoc as PP.
  induction k as [|k IH]; intros x t t' p Hj E.
  - assert (j = 0)%nat by lia. subst j. destruct t; try discriminate. cbn in E. inversion E; subst.
    exists []. cbn. repeat split; auto.
  - destruct (Nat.eq_dec (S k) j) as [<-|N].
    + destruct t; [|rewrite talloc_TU in E; discriminate|rewrite talloc_eq_TS in E; discriminate].
      rewrite talloc_eq_TF in E. inversion E; subst. exists []. cbn [plug length pos]. rewrite Nat.sub_diag.
      repeat split; auto. intros y. apply talloc_eq_TF.
    + assert (Hj' : (j <= k)%nat) by lia. destruct t as [| |l r].
      * rewrite talloc_S_TF in E by assumption. destruct (talloc x j k TF) as [[l p0]|] eqn:T; [|discriminate].
        inversion E; subst. clear E. apply IH in T; [|assumption].
        destruct T as (c & E1 & E2 & E3 & E4 & E5 & E6). exists (c ++ [(true, TF)]).
        rewrite PA, PP, app_length, E2, E1. cbn [length]. split; [reflexivity|]. split; [lia|]. split; [exact E3|]. split; [|split].
        -- intros y. rewrite talloc_S_TF, E4, PA by assumption. reflexivity.
        -- intros a base Ha. rewrite PA. cbn [blocks]. rewrite E5 by assumption. reflexivity.
        -- intros W Nx Wx. cbn. split; [apply E6; auto; exact Logic.I|]. split; [exact Logic.I|].
           intros [Q _]. destruct (Nat.eq_dec (length c) 0) as [Z0|Z0].
           ++ destruct c; [cbn in Q; congruence|discriminate].
           ++ clear - Q Nx. revert x Nx Q. induction c as [|[[|] s] c IHc]; cbn; intros x Nx Q; [congruence| |]; apply IHc in Q; auto; discriminate.
      * rewrite talloc_TU in E. discriminate.
      * rewrite talloc_S_TS in E by assumption. destruct (talloc x j k l) as [[l' p0]|] eqn:T.
        -- inversion E; subst. clear E. apply IH in T; [|assumption].
           destruct T as (c & E1 & E2 & E3 & E4 & E5 & E6). exists (c ++ [(true, r)]).
           rewrite PA, PP, app_length, E2, E1. cbn [length]. split; [reflexivity|]. split; [lia|]. split; [exact E3|]. split; [|split].
           ++ intros y. rewrite talloc_S_TS, E4, PA by assumption. reflexivity.
           ++ intros a base Ha. rewrite PA. cbn [blocks]. rewrite E5 by assumption. reflexivity.
           ++ intros W Nx Wx. cbn in W |- *. split; [apply E6; tauto|]. split; [tauto|].
              intros [Q _]. clear - Q Nx. revert x Nx Q. induction c as [|[[|] s] c IHc]; cbn; intros x Nx Q; [congruence| |]; apply IHc in Q; auto; discriminate.
        -- destruct (talloc x j k r) as [[r' p0]|] eqn:T2; [|discriminate].
           assert (NL : forall y, talloc y j k l = None).
           { intros y. destruct (talloc y j k l) as [[? ?]|] eqn:Q; [|reflexivity]. apply IH in Q; [|assumption].
             destruct Q as (c & _ & _ & _ & Q & _). rewrite Q in T. discriminate. }
           inversion E; subst. clear E. apply IH in T2; [|assumption].
           destruct T2 as (c & E1 & E2 & E3 & E4 & E5 & E6). exists (c ++ [(false, l)]).
           rewrite PA, PP, app_length, E2, E1. cbn [length]. split; [reflexivity|]. split; [lia|]. split; [rewrite E3; reflexivity|]. split; [|split].
           ++ intros y. rewrite talloc_S_TS, NL, E4, PA by assumption. reflexivity.
           ++ intros a base Ha. rewrite PA. cbn [blocks]. rewrite E5 by assumption. reflexivity.
           ++ intros W Nx Wx. cbn in W |- *. split; [tauto|]. split; [apply E6; tauto|].
              intros [_ Q]. clear - Q Nx. revert x Nx Q. induction c as [|[[|] s] c IHc]; cbn; intros x Nx Q; [congruence| |]; apply IHc in Q; auto; discriminate.
Qed.

(** Failure means that no free subtree is high enough *)
Lemma talloc_none x j : forall k t, (j <= k)%nat -> fits k t -> talloc x j k t = None ->
  forall a, 0 <= a -> wf t -> forall base p, 0 <= p < 2 ^ Z.of_nat (k - j) ->
  exists b, In b (blocks a k base t) /\ fst b < base + (p + 1) * psz a j /\ base + p * psz a j < fst b + snd b.
Proof.
  induction k as [|k IH]; intros t Hj F E a Ha W base p Hp.
  - assert (j = 0)%nat by lia. subst j. cbn in Hp. assert (p = 0) by lia. subst p. pose proof (psz_pos a 0 Ha).
    destruct t; [discriminate| |cbn in F; tauto]. cbn [blocks]. exists (base, psz a 0). split; [left; reflexivity|]. cbn [fst snd]. lia.
  - pose proof (psz_pos a j Ha) as Pj. destruct t as [| |l r].
    + destruct (talloc_TF x j (S k) Hj) as [t' E']. rewrite E' in E. discriminate.
    + cbn [blocks]. exists (base, psz a (S k)). split; [left; reflexivity|]. cbn [fst snd].
      replace (S k) with (j + (S k - j))%nat at 1 by lia. rewrite psz_add by assumption. nia.
    + cbn [fits] in F. destruct F as [Fl Fr]. destruct W as (Wl & Wr & Wn). destruct (Nat.eq_dec (S k) j) as [Ej|N].
      * subst j. rewrite Nat.sub_diag in Hp. change (2 ^ Z.of_nat 0) with 1 in Hp. assert (p = 0) by lia. subst p.
        assert (NE : blocks a (S k) base (TS l r) <> []).
        { intros Q. apply blocks_nil in Q; [discriminate|cbn; tauto|cbn; tauto]. }
        destruct (blocks a (S k) base (TS l r)) as [|[bx bs] rest] eqn:B; [congruence|]. exists (bx, bs). split; [left; reflexivity|].
        assert (In (bx, bs) (blocks a (S k) base (TS l r))) by (rewrite B; left; reflexivity).
        apply blocks_in in H; [|assumption]. destruct H as (H1 & H2 & j & q & _ & H3 & _). cbn [fst snd].
        pose proof (psz_pos a j Ha). lia.
      * assert (Hj' : (j <= k)%nat) by lia. rewrite talloc_S_TS in E by assumption.
        destruct (talloc x j k l) as [[? ?]|] eqn:El; [discriminate|]. destruct (talloc x j k r) as [[? ?]|] eqn:Er; [discriminate|].
        replace (S k - j)%nat with (S (k - j)) in Hp by lia. rewrite pow2S in Hp. cbn [blocks].
        assert (Pk : psz a k = 2 ^ Z.of_nat (k - j) * psz a j).
        { rewrite <- psz_add by assumption. f_equal. lia. }
        destruct (Z_lt_le_dec p (2 ^ Z.of_nat (k - j))) as [L|L].
        -- destruct (IH l Hj' Fl El a Ha Wl base p) as (b & B1 & B2 & B3); [lia|]. exists b.
           split; [apply in_app_iff; auto|]. split; [lia|]. nia.
        -- destruct (IH r Hj' Fr Er a Ha Wr (base + psz a k) (p - 2 ^ Z.of_nat (k - j))) as (b & B1 & B2 & B3); [lia|]. exists b.
           split; [apply in_app_iff; auto|]. split; lia.
Qed.

(** ** internal_kmalloc finds that place *)
Lemma fix_full_rep ns n k l r : 0 <= n -> ns n = mk_node true false -> rep ns (left n) k l -> rep ns (right n) k r ->
  exists ns', fix_full ns n = Some ns' /\ rep ns' n (S k) (TS l r) /\ forall i, i <> n -> ns' i = ns i.
Proof.
  intros Hn E Rl Rr. unfold fix_full. rewrite (rep_full _ _ _ _ Rl), (rep_full _ _ _ _ Rr), E. cbn [nfull].
  destruct (tfull l && tfull r) eqn:Q.
  - exists (set_full ns n true). split; [reflexivity|]. split.
    + cbn [rep]. unfold set_full. rewrite fupd_same, E, Q. cbn [nsplit]. split; [reflexivity|].
      split; (apply rep_ext with ns; [|assumption]); intros i Hi; apply fupd_other; apply sub_ge in Hi; unfold left, right in *; lia.
    + intros i Hi. apply fupd_other. auto.
  - exists ns. split; [reflexivity|]. split; [|auto]. cbn [rep]. rewrite Q. auto.
Qed.

Definition mk (mark : bool) : tree := if mark then TU else TF.

Lemma find_leaf a j k : 0 <= a -> (j <= k)%nat -> (psz a k / 2 <? psz a j) = Nat.eqb k j.
Proof.
  intros Ha Hj. pose proof (psz_pos a j Ha) as P. destruct (Nat.eqb k j) eqn:E.
  - apply Nat.eqb_eq in E. subst k. apply Z.ltb_lt. apply Z.div_lt; lia.
  - apply Nat.eqb_neq in E. destruct k as [|k]; [lia|]. rewrite psz_half by assumption. apply Z.ltb_ge. apply psz_le; [assumption|lia].
Qed.

Lemma find_S f size mark ns n nsz : find (S f) size mark ns n nsz =
      if nfull (ns n) then Some (ns, None)
      else if nsz / 2 <? size then
        if nsplit (ns n) then Some (ns, None)
        else Some (if mark then set_full ns n true else ns, Some (n, nsz))
      else
        let ns1 := if nsplit (ns n) then ns else set_split ns n true in
        let up ns' r :=
          match fix_full ns' n with None => None | Some ns'' => Some (ns'', Some r) end in
        let try_right ns2 :=
          if nfull (ns2 (right n)) then Some (ns2, None)
          else
            match find f size mark ns2 (right n) (nsz / 2) with
            | None => None
            | Some (ns3, Some r) => up ns3 r
            | Some (ns3, None) => Some (ns3, None)
            end in
        if nfull (ns1 (left n)) then try_right ns1
        else
          match find f size mark ns1 (left n) (nsz / 2) with
          | None => None
          | Some (ns2, Some r) => up ns2 r
          | Some (ns2, None) => try_right ns2
          end.
Proof. reflexivity. Qed.

Lemma find_sim a mark j : 0 <= a -> forall k fuel ns n t, (j <= k)%nat -> (k - j < fuel)%nat -> 0 <= n -> rep ns n k t ->
  match talloc (mk mark) j k t with
  | None => find fuel (psz a j) mark ns n (psz a k) = Some (ns, None)
  | Some (t', p) => exists ns',
      find fuel (psz a j) mark ns n (psz a k) = Some (ns', Some ((n + 1) * 2 ^ Z.of_nat (k - j) - 1 + p, psz a j)) /\
      rep ns' n k t' /\ forall i, ~ sub n k i -> ns' i = ns i
  end.
Proof.
  intros Ha. induction k as [|k IH]; intros fuel ns n t Hj Hf Hn R.
  - assert (j = 0)%nat by lia. subst j. destruct fuel as [|f]; [lia|]. rewrite find_S. rewrite (rep_full _ _ _ _ R).
    rewrite find_leaf by auto. cbn [Nat.eqb]. rewrite (rep_split _ _ _ _ R).
    destruct t as [| |l r]; cbn [talloc tfull]; [|reflexivity|cbn in R; tauto].
    cbn [Nat.eqb]. cbn [Nat.sub]. change (2 ^ Z.of_nat 0) with 1.
    replace ((n + 1) * 1 - 1 + 0) with n by lia.
    destruct mark; cbn [mk].
    + exists (set_full ns n true). split; [reflexivity|]. split.
      * cbn [rep]. unfold set_full. rewrite fupd_same. rewrite (R n (sub_self _ _)). split; [reflexivity|].
        intros i Hi N. rewrite fupd_other by auto. apply R, Hi.
      * intros i Hi. apply fupd_other. intros ->. apply Hi, sub_self.
    + exists ns. auto.
  - destruct fuel as [|f]; [lia|]. rewrite find_S. rewrite (rep_full _ _ _ _ R). rewrite find_leaf by auto.
    destruct (tfull t) eqn:Ft; [rewrite talloc_full by assumption; reflexivity|].
    destruct (Nat.eqb (S k) j) eqn:Ej.
    + apply Nat.eqb_eq in Ej. subst j. rewrite (rep_split _ _ _ _ R). rewrite Nat.sub_diag. change (2 ^ Z.of_nat 0) with 1.
      destruct t as [| |l r]; [|discriminate|rewrite talloc_eq_TS; reflexivity]. rewrite talloc_eq_TF.
      replace ((n + 1) * 1 - 1 + 0) with n by lia.
      destruct mark; cbn [mk].
      * exists (set_full ns n true). split; [reflexivity|]. split.
        -- cbn [rep]. unfold set_full. rewrite fupd_same. rewrite (R n (sub_self _ _)). split; [reflexivity|].
           intros i Hi N. rewrite fupd_other by auto. apply R, Hi.
        -- intros i Hi. apply fupd_other. intros ->. apply Hi, sub_self.
      * exists ns. auto.
    + apply Nat.eqb_neq in Ej. assert (Hj' : (j <= k)%nat) by lia. rewrite psz_half by assumption.
      rewrite (rep_split _ _ _ _ R).
      assert (Nl : forall i, sub (left n) k i -> i <> n /\ ~ sub (right n) k i).
      { intros i Hi. split; [apply sub_ge in Hi; unfold left in *; lia|]. intros Q. eapply sub_lr; eauto. }
      assert (Nr : forall i, sub (right n) k i -> i <> n /\ ~ sub (left n) k i).
      { intros i Hi. split; [apply sub_ge in Hi; unfold right in *; lia|]. intros Q. eapply sub_lr; eauto. }
      assert (Nn1 : ~ sub (left n) k n) by (intros Q; apply Nl in Q; tauto).
      assert (Nn2 : ~ sub (right n) k n) by (intros Q; apply Nr in Q; tauto).
      assert (Ep : 2 ^ Z.of_nat (S k - j) = 2 * 2 ^ Z.of_nat (k - j)).
      { rewrite <- pow2S. do 2 f_equal. lia. }
      assert (HL : 0 <= left n) by (unfold left; lia). assert (HR : 0 <= right n) by (unfold right; lia).
      destruct t as [| |l r]; [|discriminate|].
      * (* free: split it *)
        rewrite talloc_S_TF by assumption. cbv zeta.
        destruct (talloc_TF (mk mark) j k Hj') as [l' Tl]. rewrite Tl.
        assert (Rl : rep (set_split ns n true) (left n) k TF).
        { intros i Hi. unfold set_split. rewrite fupd_other by (destruct (Nl i Hi); auto). apply R, sub_S. auto. }
        assert (Rr : rep (set_split ns n true) (right n) k TF).
        { intros i Hi. unfold set_split. rewrite fupd_other by (destruct (Nr i Hi); auto). apply R, sub_S. auto. }
        rewrite (rep_full _ _ _ _ Rl). cbn [tfull].
        specialize (IH f _ (left n) TF Hj' ltac:(lia) HL Rl). rewrite Tl in IH.
        destruct IH as (ns2 & F & R2 & O2). rewrite F.
        destruct (fix_full_rep ns2 n k l' TF) as (ns3 & E3 & R3 & O3); auto.
        { rewrite O2 by assumption. unfold set_split. rewrite fupd_same. rewrite (R n (sub_self _ _)). reflexivity. }
        { apply rep_ext with (set_split ns n true); [|exact Rr]. intros i Hi. apply O2. destruct (Nr i Hi); auto. }
        rewrite E3. exists ns3. split; [|split; [exact R3|]].
        -- do 4 f_equal. unfold left. lia.
        -- intros i Hi. rewrite sub_S in Hi. rewrite O3, O2 by tauto. apply fupd_other. tauto.
      * (* already split *)
        cbn [rep] in R. destruct R as (Rn & Rl & Rr). cbn [tfull] in Ft. rewrite Ft in Rn.
        rewrite talloc_S_TS by assumption. cbv zeta.
        rewrite (rep_full _ _ _ _ Rl).
        assert (TR : talloc (mk mark) j k l = None ->
          match
            match talloc (mk mark) j k r with Some (r', p) => Some (TS l r', 2 ^ Z.of_nat (k - j) + p) | None => None end
          with
          | Some (t', p) => exists ns',
              (if nfull (ns (right n)) then Some (ns, None) else
               match find f (psz a j) mark ns (right n) (psz a k) with
               | None => None
               | Some (ns3, Some r0) => match fix_full ns3 n with None => None | Some ns'' => Some (ns'', Some r0) end
               | Some (ns3, None) => Some (ns3, None)
               end) = Some (ns', Some ((n + 1) * 2 ^ Z.of_nat (S k - j) - 1 + p, psz a j)) /\
              rep ns' n (S k) t' /\ forall i, ~ sub n (S k) i -> ns' i = ns i
          | None => (if nfull (ns (right n)) then Some (ns, None) else
               match find f (psz a j) mark ns (right n) (psz a k) with
               | None => None
               | Some (ns3, Some r0) => match fix_full ns3 n with None => None | Some ns'' => Some (ns'', Some r0) end
               | Some (ns3, None) => Some (ns3, None)
               end) = Some (ns, None)
          end).
        { intros _. rewrite (rep_full _ _ _ _ Rr). destruct (tfull r) eqn:Fr.
          - rewrite (talloc_full _ _ r) by assumption. reflexivity.
          - pose proof (IH f ns (right n) r Hj' ltac:(lia) HR Rr) as IHr. destruct (talloc (mk mark) j k r) as [[r' p]|]; [|rewrite IHr; reflexivity].
            destruct IHr as (ns2 & F & R2 & O2). rewrite F.
            destruct (fix_full_rep ns2 n k l r') as (ns3 & E3 & R3 & O3); auto.
            { rewrite O2 by assumption. exact Rn. }
            { apply rep_ext with ns; [|exact Rl]. intros i Hi. apply O2. destruct (Nl i Hi); auto. }
            rewrite E3. exists ns3. split; [|split; [exact R3|]].
            + do 4 f_equal. rewrite Ep. unfold right. lia.
            + intros i Hi. rewrite sub_S in Hi. rewrite O3, O2 by tauto. reflexivity. }
        destruct (tfull l) eqn:Fl.
        -- rewrite (talloc_full _ _ l) by assumption. rewrite (talloc_full _ _ l) in TR by assumption. apply TR; reflexivity.
        -- pose proof (IH f ns (left n) l Hj' ltac:(lia) HL Rl) as IHl. destruct (talloc (mk mark) j k l) as [[l' p]|].
           ++ destruct IHl as (ns2 & F & R2 & O2). rewrite F.
              destruct (fix_full_rep ns2 n k l' r) as (ns3 & E3 & R3 & O3); auto.
              { rewrite O2 by assumption. exact Rn. }
              { apply rep_ext with ns; [|exact Rr]. intros i Hi. apply O2. destruct (Nr i Hi); auto. }
              rewrite E3. exists ns3. split; [|split; [exact R3|]].
              ** do 4 f_equal. rewrite Ep. unfold left. lia.
              ** intros i Hi. rewrite sub_S in Hi. rewrite O3, O2 by tauto. reflexivity.
           ++ rewrite IHl. apply TR; reflexivity.
Qed.

(** ** Freeing *)
Lemma parent_lt n : 0 <= n -> parent n < n.
Proof. intros H. unfold parent. rewrite Z.shiftr_div_pow2 by lia. change (2 ^ 1) with 2. pose proof (Z.div_lt_upper_bound (n - 1) 2 n). lia. Qed.

Lemma clear_S f ns n : clear_up (S f) ns n = if n <? 0 then Some ns else clear_up f (set_full ns n false) (parent n).
Proof. reflexivity. Qed.

Lemma clear_sim c : forall fuel ns k f, (length c + 2 <= fuel)%nat -> rctx ns k c f ->
  exists ns', clear_up fuel ns (cnode c) = Some ns' /\ rctx ns' k c false /\
    ns' (cnode c) = mk_node (nsplit (ns (cnode c))) false /\
    forall i, i <> cnode c -> parent (cnode c) < i -> ns' i = ns i.
Proof.
  induction c as [|[d s] c IH]; intros fuel ns k f Hf R.
  - destruct fuel as [|[|f0]]; cbn [length] in Hf; try lia. change (cnode []) with 0.
    exists (set_full ns 0 false). split; [reflexivity|]. split; [exact Logic.I|]. split; [apply fupd_same|].
    intros i Hi _. apply fupd_other. auto.
  - cbn [length] in Hf. destruct fuel as [|f0]; [lia|]. rewrite clear_S.
    set (n := cnode ((d, s) :: c)). assert (Hn : 0 <= n) by apply cnode_nonneg.
    replace (n <? 0) with false by (symmetry; apply Z.ltb_ge; exact Hn).
    assert (Pn : parent n = cnode c).
    { unfold n. destruct d; [rewrite cnode_left; apply parent_left|rewrite cnode_right; apply parent_right]. }
    rewrite Pn. pose proof (parent_lt n Hn) as Hp. rewrite Pn in Hp. pose proof (cnode_nonneg c) as Hc.
    pose proof (parent_lt _ Hc) as Hpc.
    assert (Sn : sub (cnode c) (S k) n).
    { apply sub_S. unfold n. destruct d; [rewrite cnode_left|rewrite cnode_right]; auto using sub_self. }
    set (ns1 := set_full ns n false).
    assert (E1 : forall i, i <> n -> ns1 i = ns i) by (intros i Hi; apply fupd_other; auto).
    destruct d.
    + cbn [rctx] in R. destruct R as (R1 & R2 & R3).
      destruct (IH f0 ns1 (S k) (f && tfull s)) as (ns' & C1 & C2 & C3 & C4); [lia| |].
      { apply rctx_ext with ns; [|exact R3]. intros i Hi. apply E1. intros ->. auto. }
      exists ns'. split; [exact C1|]. split; [|split].
      * cbn [rctx]. split; [rewrite C3, E1 by lia; rewrite R1; reflexivity|]. split; [|exact C2].
        apply rep_ext with ns; [|exact R2]. intros i Hi.
        assert (i <> n). { intros ->. unfold n in Hi. rewrite cnode_left in Hi. apply sub_ge in Hi; unfold left, right in *; lia. }
        apply sub_ge in Hi; [|unfold right; lia]. unfold right in Hi. rewrite C4, E1 by lia. reflexivity.
      * rewrite C4 by lia. unfold ns1, set_full. rewrite fupd_same. reflexivity.
      * intros i Hi Hpi. rewrite C4, E1 by lia. reflexivity.
    + cbn [rctx] in R. destruct R as (R1 & R2 & R3).
      destruct (IH f0 ns1 (S k) (tfull s && f)) as (ns' & C1 & C2 & C3 & C4); [lia| |].
      { apply rctx_ext with ns; [|exact R3]. intros i Hi. apply E1. intros ->. auto. }
      exists ns'. split; [exact C1|]. split; [|split].
      * cbn [rctx]. rewrite andb_false_r. split; [rewrite C3, E1 by lia; rewrite R1; reflexivity|]. split; [|exact C2].
        apply rep_ext with ns; [|exact R2]. intros i Hi.
        assert (i <> n). { intros ->. unfold n in Hi. rewrite cnode_right in Hi. eapply sub_lr; [exact Hc|exact Hi|apply sub_self with (k := 0%nat)]. }
        apply sub_ge in Hi; [|unfold left; lia]. unfold left in Hi. rewrite C4, E1 by lia. reflexivity.
      * rewrite C4 by lia. unfold ns1, set_full. rewrite fupd_same. reflexivity.
      * intros i Hi Hpi. rewrite C4, E1 by lia. reflexivity.
Qed.

Lemma coalesce_S f ns n best sz : coalesce_up (S f) ns n best sz =
  if n <? 0 then None
      else if is_free (ns n) then Some (ns, n, best, sz)
      else
        let l := ns (left n) in
        let r := ns (right n) in
        if negb (is_free l) || negb (is_free r) then
          if nsplit (ns n) then Some (set_full ns n (nfull l && nfull r), n, best, sz / 2) else None
        else
          let ns1 := fupd ns n zero_node in
          if n =? 0 then Some (ns1, n, n, sz) else coalesce_up f ns1 (parent n) n (2 * sz).
Proof. reflexivity. Qed.

Lemma clear_frame : forall fuel ns n ns', clear_up fuel ns n = Some ns' -> forall i, ~ (0 <= i <= n) -> ns' i = ns i.
Proof.
  induction fuel as [|f IH]; intros ns n ns' E i Hi; [discriminate|]. rewrite clear_S in E. destruct (n <? 0) eqn:L; [inversion E; reflexivity|].
  apply Z.ltb_ge in L. pose proof (parent_lt n L). rewrite (IH _ _ _ E i) by lia. apply fupd_other. lia.
Qed.
Lemma coalesce_frame : forall fuel ns n b s ns1 n1 b1 z, coalesce_up fuel ns n b s = Some (ns1, n1, b1, z) ->
  n1 <= n /\ forall i, ~ (0 <= i <= n) -> ns1 i = ns i.
Proof.
  induction fuel as [|f IH]; intros ns n b s ns1 n1 b1 z E; [discriminate|]. rewrite coalesce_S in E. destruct (n <? 0) eqn:L; [discriminate|].
  apply Z.ltb_ge in L. pose proof (parent_lt n L). destruct (is_free (ns n)); [inversion E; subst; split; [lia|reflexivity]|].
  cbv zeta in E. destruct (negb (is_free (ns (left n))) || negb (is_free (ns (right n)))).
  - destruct (nsplit (ns n)); inversion E; subst. split; [lia|]. intros i Hi. apply fupd_other. lia.
  - destruct (n =? 0) eqn:N0; [inversion E; subst; split; [lia|]; intros i Hi; apply fupd_other; lia|].
    apply IH in E. destruct E as [E1 E2]. split; [lia|]. intros i Hi. rewrite E2 by lia. apply fupd_other. lia.
Qed.

Lemma up_sim c : forall fuel ns k f best sz, (length c <= fuel)%nat -> (length c <= 60)%nat -> c <> [] ->
  rep ns (cnode c) k TF -> rctx ns k c f ->
  exists ns1 n1 b z ns2, coalesce_up fuel ns (parent (cnode c)) best (2 * sz) = Some (ns1, n1, b, z) /\
    clear_up 64 ns1 n1 = Some ns2 /\ rep ns2 0 (k + length c) (join c) /\ (b = best \/ 2 * sz <= z \/ sz <= 0).
Proof.
  induction c as [|[d s] c IH]; intros fuel ns k f best sz Hf H60 N R C; [congruence|]. clear N.
  cbn [length] in Hf, H60. destruct fuel as [|f0]; [lia|]. rewrite coalesce_S.
  set (n := cnode ((d, s) :: c)) in *. assert (Hn : 0 <= n) by apply cnode_nonneg.
  assert (Pn : parent n = cnode c).
  { unfold n. destruct d; [rewrite cnode_left; apply parent_left|rewrite cnode_right; apply parent_right]. }
  rewrite Pn. set (p := cnode c) in *. pose proof (cnode_nonneg c) as Hp. fold p in Hp.
  replace (p <? 0) with false by (symmetry; apply Z.ltb_ge; exact Hp).
  replace (k + length ((d, s) :: c))%nat with (S k + length c)%nat by (cbn [length]; lia).
  (* both children of p *)
  set (tl := if d then TF else s). set (tr := if d then s else TF).
  assert (RR : exists g, ns p = mk_node true g /\ rep ns (left p) k tl /\ rep ns (right p) k tr /\ rctx ns (S k) c g).
  { unfold tl, tr, n in *. destruct d; cbn [rctx] in C; destruct C as (C1 & C2 & C3);
      [rewrite cnode_left in R|rewrite cnode_right in R]; eexists; repeat split; eauto. }
  clear C R. destruct RR as (g & Ep & Rl & Rr & C). cbv zeta.
  assert (Fp : is_free (ns p) = false) by (rewrite Ep; reflexivity). rewrite Fp.
  rewrite (rep_is_free _ _ _ _ Rl), (rep_is_free _ _ _ _ Rr), (rep_full _ _ _ _ Rl), (rep_full _ _ _ _ Rr).
  assert (Fl : forall i, sub (left p) k i -> i <> p) by (intros i Hi; apply sub_ge in Hi; unfold left in *; lia).
  assert (Fr : forall i, sub (right p) k i -> i <> p) by (intros i Hi; apply sub_ge in Hi; unfold right in *; lia).
  assert (Ff : tfull tl && tfull tr = false) by (unfold tl, tr; destruct d; cbn; auto using andb_false_r).
  destruct (match s with TF => true | _ => false end) eqn:Es.
  - (* merge *)
    assert (s = TF) by (destruct s; congruence). subst s. assert (Etl : tl = TF) by (unfold tl; destruct d; reflexivity).
    assert (Etr : tr = TF) by (unfold tr; destruct d; reflexivity). rewrite Etl, Etr in *. cbn [negb orb].
    replace (join ((d, TF) :: c)) with (join c) by (destruct d; reflexivity).
    set (ns1 := fupd ns p zero_node).
    assert (R1 : rep ns1 p (S k) TF).
    { intros i Hi. apply sub_S in Hi. unfold ns1. destruct Hi as [->|[Hi|Hi]]; [apply fupd_same| |]; rewrite fupd_other by (intros ->; first [eapply Fl; eauto; fail | eapply Fr; eauto]); auto. }
    destruct c as [|x c].
    + change p with 0 in *. cbn [Z.eqb length join]. exists ns1, 0, 0, (2 * sz), (set_full ns1 0 false).
      split; [reflexivity|]. split; [reflexivity|]. split; [|lia]. rewrite Nat.add_0_r. intros i Hi. unfold set_full.
      unfold fupd. destruct (i =? 0) eqn:E0; [apply Z.eqb_eq in E0; subst; rewrite (R1 0 (sub_self _ _)); reflexivity|apply R1, Hi].
    + assert (NP : p <> 0).
      { unfold p, cnode. cbn [length]. rewrite pow2S. pose proof (pos_range (x :: c)). pose proof (pow2pos (length c)). lia. }
      replace (p =? 0) with false by (symmetry; apply Z.eqb_neq; exact NP).
      destruct (IH f0 ns1 (S k) g p (2 * sz)) as (ns2 & n1 & b & z & ns3 & E1 & E2 & E3 & E4); auto; try lia; try discriminate.
      { apply rctx_ext with ns; [|exact C]. intros i Hi. apply fupd_other. intros ->. apply Hi, sub_self. }
      exists ns2, n1, b, z, ns3. split; [exact E1|]. split; [exact E2|]. split; [exact E3|].
      destruct (Z_lt_le_dec 0 sz); [|lia].  right. left. destruct E4 as [E4|E4]; [|lia].
      (* b = p: the size was at least doubled *)
      clear - E1 E4 l. revert E1. rewrite <- (Z.mul_1_l (2 * (2 * sz))) at 1. replace (1 * (2 * (2 * sz))) with (2 * (2 * sz)) by lia.
      assert (G : forall fu m q b0 s0 r1 r2 r3 r4, 0 < s0 -> coalesce_up fu m q b0 s0 = Some (r1, r2, r3, r4) -> s0 / 2 <= r4).
      { induction fu as [|fu IHf]; intros m q b0 s0 r1 r2 r3 r4 P E; [discriminate|]. rewrite coalesce_S in E.
        destruct (q <? 0); [discriminate|]. destruct (is_free (m q)); [inversion E; subst; apply Z.div_le_upper_bound; lia|].
        cbv zeta in E. destruct (negb (is_free (m (left q))) || negb (is_free (m (right q)))).
        - destruct (nsplit (m q)); inversion E; subst; lia.
        - destruct (q =? 0); [inversion E; subst; apply Z.div_le_upper_bound; lia|]. apply IHf in E; [|lia].
          rewrite Z.mul_comm, Z.div_mul in E by lia. assert (s0 / 2 <= s0) by (apply Z.div_le_upper_bound; lia). lia. }
      intros E1. apply G in E1; [|lia]. replace (2 * (2 * sz)) with (2 * sz * 2) in E1 by lia. rewrite Z.div_mul in E1 by lia. lia.
  - (* stop *)
    assert (Nf : negb (match tl with TF => true | _ => false end) || negb (match tr with TF => true | _ => false end) = true).
    { unfold tl, tr. destruct d, s; cbn; congruence. }
    rewrite Nf, Ff. rewrite Ep. cbn [nsplit].
    replace (join ((d, s) :: c)) with (plug c (TS tl tr)) by (unfold tl, tr; destruct d, s; cbn; congruence).
    set (ns1 := set_full ns p false).
    assert (O1 : forall i, i <> p -> ns1 i = ns i) by (intros i Hi; apply fupd_other; auto).
    destruct (clear_sim c 64 ns1 (S k) g) as (ns2 & C1 & C2 & C3 & C4); [lia| |].
    { apply rctx_ext with ns; [|exact C]. intros i Hi. apply O1. intros ->. apply Hi, sub_self. }
    exists ns1, p, best, (2 * sz / 2), ns2. split; [reflexivity|]. split; [exact C1|]. split; [|auto].
    apply rep_plug. cbn [tfull]. rewrite Ff. split; [|exact C2]. cbn [rep]. rewrite Ff. fold p.
    pose proof (parent_lt p Hp) as PL.
    split; [fold p in C3; rewrite C3; unfold ns1, set_full; rewrite fupd_same, Ep; reflexivity|].
    split; (apply rep_ext with ns; [|assumption]); intros i Hi.
    + assert (i <> p) by (apply Fl; exact Hi). apply sub_ge in Hi; [|unfold left; lia]. unfold left in Hi. fold p in C4. rewrite C4, O1 by lia. reflexivity.
    + assert (i <> p) by (apply Fr; exact Hi). apply sub_ge in Hi; [|unfold right; lia]. unfold right in Hi. fold p in C4. rewrite C4, O1 by lia. reflexivity.
Qed.

Lemma free_sim c ns k sz : (length c <= 60)%nat -> c <> [] -> 0 < sz ->
  rep ns 0 (k + length c) (plug c TU) ->
  exists ns2 b z, set_free_uplevels ns (cnode c) sz = Some (ns2, b, z) /\ rep ns2 0 (k + length c) (join c) /\
    (b = cnode c \/ z <> sz).
Proof.
  intros H60 N Hsz R. apply rep_plug in R. destruct R as [R C]. unfold set_free_uplevels.
  rewrite (rep_split _ _ _ _ R). 
  destruct (up_sim c 64 (set_full ns (cnode c) false) k true (cnode c) sz) as (ns1 & n1 & b & z & ns2 & E1 & E2 & E3 & E4); try assumption; [lia| | |].
  - cbn [rep] in R |- *. destruct R as [R1 R2]. intros i Hi. unfold set_full, fupd. destruct (i =? cnode c) eqn:E.
    + rewrite R1. reflexivity.
    + apply Z.eqb_neq in E. apply R2; assumption.
  - apply rctx_ext with ns; [|exact C]. intros i Hi. apply fupd_other. intros ->. apply Hi, sub_self.
  - rewrite E1, E2. exists ns2, b, z. split; [reflexivity|]. split; [exact E3|]. destruct E4 as [E4|E4]; [auto|right; lia].
Qed.

(** ** Splitting an allocated block *)
Lemma row_inj n d1 d2 i : 0 <= n -> row n d1 i -> row n d2 i -> d1 = d2.
Proof.
  assert (G : forall d1 d2, (d1 < d2)%nat -> 0 <= n -> row n d1 i -> row n d2 i -> False).
  { clear. intros d1 d2 L Hn H1 H2. unfold row in *. assert (2 * 2 ^ Z.of_nat d1 <= 2 ^ Z.of_nat d2).
    { rewrite <- pow2S. apply Z.pow_le_mono_r; lia. } pose proof (pow2pos d1). nia. }
  intros Hn H1 H2. destruct (lt_eq_lt_dec d1 d2) as [[L|E]|L]; [exfalso; eauto|exact E|exfalso; eauto].
Qed.

Lemma fill_row ns n d x i : fill ns ((n + 1) * 2 ^ Z.of_nat d - 1) (2 ^ Z.of_nat d) x i = x /\ row n d i \/
  fill ns ((n + 1) * 2 ^ Z.of_nat d - 1) (2 ^ Z.of_nat d) x i = ns i /\ ~ row n d i.
Proof.
  unfold fill, row. destruct ((n + 1) * 2 ^ Z.of_nat d - 1 <=? i) eqn:A; cbn [andb].
  - apply Z.leb_le in A. destruct (i <? (n + 1) * 2 ^ Z.of_nat d - 1 + 2 ^ Z.of_nat d) eqn:B.
    + apply Z.ltb_lt in B. left. split; [reflexivity|lia].
    + apply Z.ltb_ge in B. right. split; [reflexivity|lia].
  - apply Z.leb_gt in A. right. split; [reflexivity|lia].
Qed.
Lemma row_next n d : left ((n + 1) * 2 ^ Z.of_nat d - 1) = (n + 1) * 2 ^ Z.of_nat (S d) - 1.
Proof. unfold left. rewrite pow2S. lia. Qed.

Fixpoint tfl (D : nat) : tree := match D with O => TU | S D' => TS (tfl D') (tfl D') end.
Lemma tfl_full D : tfull (tfl D) = true.
Proof. induction D as [|D IH]; cbn; [reflexivity|rewrite IH; reflexivity]. Qed.

Lemma rep_tfl D : forall ns n k, (D <= k)%nat -> 0 <= n ->
  (forall d i, (d < D)%nat -> row n d i -> ns i = mk_node true true) ->
  (forall i, row n D i -> ns i = mk_node false true) ->
  (forall d i, (D < d <= k)%nat -> row n d i -> ns i = zero_node) -> rep ns n k (tfl D).
Proof.
  induction D as [|D IH]; intros ns n k Hk Hn H1 H2 H3.
  - cbn [tfl rep]. split; [apply H2, row_0; reflexivity|]. intros i (d & Hd & Hi) N. apply H3 with d; [|exact Hi].
    destruct d; [|lia]. apply row_0 in Hi. congruence.
  - destruct k as [|k]; [lia|]. cbn [tfl rep]. rewrite tfl_full. split; [apply H1 with 0%nat; [lia|apply row_0; reflexivity]|].
    split; apply IH; try (unfold left, right; lia); intros.
    + apply H1 with (S d); [lia|apply row_S; auto].
    + apply H2, row_S; auto.
    + apply H3 with (S d); [lia|apply row_S; auto].
    + apply H1 with (S d); [lia|apply row_S; auto].
    + apply H2, row_S; auto.
    + apply H3 with (S d); [lia|apply row_S; auto].
Qed.

Lemma split_S f ns n cnt s leaf : split_loop (S f) ns n cnt s leaf =
      if s >? leaf then split_loop f (fill ns n cnt (mk_node true true)) (left n) (2 * cnt) (s / 2) leaf
      else if s =? leaf then Some (fill ns n cnt (mk_node false true)) else None.
Proof. reflexivity. Qed.

Lemma split_sim a jl n : 0 <= a -> 0 <= n -> forall e d fuel ns, (e < fuel)%nat ->
  exists ns', split_loop fuel ns ((n + 1) * 2 ^ Z.of_nat d - 1) (2 ^ Z.of_nat d) (psz a (jl + e)) (psz a jl) = Some ns' /\
    (forall e' i, (e' < e)%nat -> row n (d + e') i -> ns' i = mk_node true true) /\
    (forall i, row n (d + e) i -> ns' i = mk_node false true) /\
    (forall i, (forall e', (e' <= e)%nat -> ~ row n (d + e') i) -> ns' i = ns i).
Proof.
  intros Ha Hn. induction e as [|e IH]; intros d fuel ns Hf; (destruct fuel as [|f]; [lia|]); rewrite split_S.
  - rewrite Nat.add_0_r. replace (psz a jl >? psz a jl) with false by (rewrite Z.gtb_ltb; symmetry; apply Z.ltb_irrefl).
    rewrite Z.eqb_refl. eexists. split; [reflexivity|]. split; [intros; lia|]. rewrite Nat.add_0_r. split.
    + intros i Hi. destruct (fill_row ns n d (mk_node false true) i) as [[E _]|[_ Q]]; [exact E|tauto].
    + intros i Hi. destruct (fill_row ns n d (mk_node false true) i) as [[_ Q]|[E _]]; [|exact E].
      exfalso. apply (Hi 0%nat); [lia|]. rewrite Nat.add_0_r. exact Q.
  - replace (jl + S e)%nat with (S (jl + e)) by lia.
    replace (psz a (S (jl + e)) >? psz a jl) with true.
    2:{ rewrite Z.gtb_ltb. symmetry. apply Z.ltb_lt. apply psz_lt; [assumption|lia]. }
    rewrite psz_half, row_next, <- pow2S by assumption.
    set (ns1 := fill ns _ _ _). destruct (IH (S d) f ns1) as (ns' & E1 & E2 & E3 & E4); [lia|].
    exists ns'. split; [exact E1|]. split; [|split].
    + intros e' i He Hi. destruct e' as [|e'].
      * rewrite Nat.add_0_r in Hi. rewrite E4.
        -- unfold ns1. destruct (fill_row ns n d (mk_node true true) i) as [[E _]|[_ Q]]; [exact E|tauto].
        -- intros e' He' Hr. apply (row_inj n d (S d + e')) in Hr; [lia|assumption|assumption].
      * apply E2 with e'; [lia|]. replace (S d + e')%nat with (d + S e')%nat by lia. exact Hi.
    + intros i Hi. apply E3. replace (S d + e)%nat with (d + S e)%nat by lia. exact Hi.
    + intros i Hi. rewrite E4.
      * unfold ns1. destruct (fill_row ns n d (mk_node true true) i) as [[_ Q]|[E _]]; [|exact E].
        exfalso. apply (Hi 0%nat); [lia|]. rewrite Nat.add_0_r. exact Q.
      * intros e' He' Hr. apply (Hi (S e')); [lia|]. replace (d + S e')%nat with (S d + e')%nat by lia. exact Hr.
Qed.

Lemma split_rep a jl k n ns : 0 <= a -> 0 <= n -> (jl <= k)%nat -> (k - jl < 64)%nat -> rep ns n k TU ->
  exists ns', split_loop 64 ns n 1 (psz a k) (psz a jl) = Some ns' /\ rep ns' n k (tfl (k - jl)) /\
    forall i, ~ sub n k i -> ns' i = ns i.
Proof.
  intros Ha Hn Hj Hd R. destruct (split_sim a jl n Ha Hn (k - jl) 0 64 ns Hd) as (ns' & E1 & E2 & E3 & E4).
  cbn [Nat.add] in *. change (2 ^ Z.of_nat 0) with 1 in E1. replace ((n + 1) * 1 - 1) with n in E1 by lia.
  replace (jl + (k - jl))%nat with k in E1 by lia. exists ns'. split; [exact E1|]. cbn [rep] in R. destruct R as [R1 R2]. split.
  - apply rep_tfl; auto; [lia|]. intros d i Hdd Hi. rewrite E4.
    + apply R2; [exists d; split; [lia|exact Hi]|]. intros ->. apply (row_inj n d 0%nat) in Hi; [lia|exact Hn|apply row_0; reflexivity].
    + intros e' He' Hr. apply (row_inj n d e') in Hr; [lia|exact Hn|exact Hi].
  - intros i Hi. apply E4. intros e' He' Hr. apply Hi. exists e'. split; [lia|exact Hr].
Qed.

(** ** Coalescing a split block before freeing it *)
Fixpoint tfree (k : nat) (t : tree) {struct t} : Z :=
  match t with
  | TF => 2 ^ Z.of_nat k
  | TU => match k with O => 0 | _ => 2 ^ Z.of_nat k end
  | TS l r => match k with O => 0 | S k' => tfree k' l + tfree k' r end
  end.

Lemma count_ext ns ns' n cnt : (forall i, n <= i < n + cnt -> ns' i = ns i) -> count_free ns' n cnt = count_free ns n cnt.
Proof.
  intros E. unfold count_free. f_equal. apply filter_ext_in. intros j Hj. apply in_seq in Hj. rewrite E by lia. reflexivity.
Qed.
Lemma count_app ns n c1 c2 : 0 <= c1 -> 0 <= c2 -> count_free ns n (c1 + c2) = count_free ns n c1 + count_free ns (n + c1) c2.
Proof.
  intros H1 H2. unfold count_free. rewrite Z2Nat.inj_add, seq_app, filter_app, zlen_app by assumption. f_equal.
  cbn [Nat.add]. assert (G : forall m s, zlen (filter (fun j => is_free (ns (n + Z.of_nat j))) (seq (Z.to_nat c1 + s) m)) =
    zlen (filter (fun j => is_free (ns (n + c1 + Z.of_nat j))) (seq s m))).
  { induction m as [|m IH]; intros s; [reflexivity|]. cbn [seq filter].
    replace (n + Z.of_nat (Z.to_nat c1 + s)) with (n + c1 + Z.of_nat s) by lia.
    specialize (IH (S s)). rewrite Nat.add_succ_r in IH.
    destruct (is_free (ns (n + c1 + Z.of_nat s))); [rewrite !zlen_cons; f_equal; exact IH|exact IH]. }
  rewrite <- (Nat.add_0_r (Z.to_nat c1)) at 1. apply G.
Qed.
Lemma count_all ns n cnt : (forall i, n <= i < n + cnt -> ns i = zero_node) -> 0 <= cnt -> count_free ns n cnt = cnt.
Proof.
  intros E H. rewrite (count_ext (fun _ => zero_node) ns n cnt E). unfold count_free. cbn.
  assert (G : forall l : list nat, filter (fun _ => true) l = l) by (induction l; cbn; congruence).
  rewrite G. unfold zlen. rewrite seq_length. lia.
Qed.

Lemma count_tfree t : forall ns n k, 0 <= n -> rep ns n k t ->
  count_free ns ((n + 1) * 2 ^ Z.of_nat k - 1) (2 ^ Z.of_nat k) = tfree k t.
Proof.
  induction t as [| |l IHl r IHr]; intros ns n k Hn R; cbn [rep tfree] in *.
  - apply count_all; [|pose proof (pow2pos k); lia]. intros i Hi. apply R. exists k. split; [lia|unfold row; lia].
  - destruct R as [R1 R2]. destruct k as [|k].
    + change (2 ^ Z.of_nat 0) with 1. replace ((n + 1) * 1 - 1) with n by lia. unfold count_free.
      change (Z.to_nat 1) with 1%nat. cbn [seq filter]. replace (n + Z.of_nat 0) with n by lia. rewrite R1. reflexivity.
    + apply count_all; [|pose proof (pow2pos (S k)); lia]. intros i Hi. apply R2; [exists (S k); split; [lia|unfold row; lia]|].
      rewrite pow2S in Hi. pose proof (pow2pos k). nia.
  - destruct k as [|k]; [tauto|]. destruct R as (_ & Rl & Rr). pose proof (pow2pos k).
    assert (E : 2 ^ Z.of_nat (S k) = 2 ^ Z.of_nat k + 2 ^ Z.of_nat k) by (rewrite pow2S; lia).
    rewrite E at 2. rewrite count_app by lia.
    rewrite <- (IHl ns (left n) k), <- (IHr ns (right n) k); auto; try (unfold left, right; lia).
    f_equal; f_equal; unfold left, right; rewrite pow2S; lia.
Qed.

Definition total_of (l : list (Z * Z)) : Z := fold_right (fun b s => snd b + s) 0 l.
Lemma total_of_app l1 l2 : total_of (l1 ++ l2) = total_of l1 + total_of l2.
Proof. induction l1 as [|b l IH]; cbn; [reflexivity|]. unfold total_of in *. lia. Qed.

Lemma tfree_min a t : 0 <= a -> forall k base, fits k t -> (forall b, In b (blocks a k base t) -> snd b = psz a 0) ->
  tfree k t * psz a 0 = psz a k - total_of (blocks a k base t).
Proof.
  intros Ha. induction t as [| |l IHl r IHr]; intros k base F H; cbn [fits tfree blocks] in *.
  - change (total_of []) with 0. pose proof (psz_add a 0 k Ha) as E. cbn [Nat.add] in E. lia.
  - specialize (H (base, psz a k) (or_introl eq_refl)). cbn in H. apply psz_inj in H; [|assumption]. subst k. cbn. lia.
  - destruct k as [|k]; [tauto|]. destruct F as [Fl Fr]. rewrite total_of_app, psz_S by assumption.
    rewrite Z.mul_add_distr_r, (IHl k base), (IHr k (base + psz a k)); auto; try lia; intros b Hb; apply H, in_app_iff; auto.
Qed.

Lemma cloop_S f h ns n cnt s acc : coalesce_loop (S f) h ns n cnt s acc =
      if s >=? hmin h then
        let acc1 := if s >? hmin h then acc else acc + count_free ns n cnt * s in
        coalesce_loop f h (fill ns n cnt zero_node) (left n) (2 * cnt) (s / 2) acc1
      else Some (ns, acc).
Proof. reflexivity. Qed.

Lemma cloop_sim a h n : 0 <= a -> 0 <= n -> hmin h = psz a 0 -> forall e d fuel ns acc, (e + 1 < fuel)%nat ->
  exists ns', coalesce_loop fuel h ns ((n + 1) * 2 ^ Z.of_nat d - 1) (2 ^ Z.of_nat d) (psz a e) acc =
      Some (ns', acc + count_free ns ((n + 1) * 2 ^ Z.of_nat (d + e) - 1) (2 ^ Z.of_nat (d + e)) * psz a 0) /\
    (forall e' i, (e' <= e)%nat -> row n (d + e') i -> ns' i = zero_node) /\
    (forall i, (forall e', (e' <= e)%nat -> ~ row n (d + e') i) -> ns' i = ns i).
Proof.
  intros Ha Hn Hm. induction e as [|e IH]; intros d fuel ns acc Hf; (destruct fuel as [|f]; [lia|]); rewrite cloop_S, Hm.
  - pose proof (psz_pos a 0 Ha). replace (psz a 0 >=? psz a 0) with true by (rewrite Z.geb_leb; symmetry; apply Z.leb_le; lia).
    replace (psz a 0 >? psz a 0) with false by (rewrite Z.gtb_ltb; symmetry; apply Z.ltb_irrefl). cbv zeta.
    destruct f as [|f]; [lia|]. rewrite cloop_S, Hm.
    replace (psz a 0 / 2 >=? psz a 0) with false.
    2:{ rewrite Z.geb_leb. symmetry. apply Z.leb_gt. apply Z.div_lt; lia. }
    rewrite Nat.add_0_r. eexists. split; [reflexivity|]. split.
    + intros e' i He Hi. assert (e' = 0)%nat by lia. subst e'. rewrite Nat.add_0_r in Hi.
      destruct (fill_row ns n d zero_node i) as [[E _]|[_ Q]]; [exact E|tauto].
    + intros i Hi. destruct (fill_row ns n d zero_node i) as [[_ Q]|[E _]]; [|exact E].
      exfalso. apply (Hi 0%nat); [lia|]. rewrite Nat.add_0_r. exact Q.
  - pose proof (psz_pos a 0 Ha). assert (psz a 0 < psz a (S e)) by (apply psz_lt; [assumption|lia]).
    replace (psz a (S e) >=? psz a 0) with true by (rewrite Z.geb_leb; symmetry; apply Z.leb_le; lia).
    replace (psz a (S e) >? psz a 0) with true by (rewrite Z.gtb_ltb; symmetry; apply Z.ltb_lt; lia). cbv zeta.
    rewrite psz_half, row_next, <- pow2S by assumption.
    set (ns1 := fill ns _ _ _). destruct (IH (S d) f ns1 acc) as (ns' & E1 & E2 & E3); [lia|].
    exists ns'. split; [|split].
    + rewrite E1. do 3 f_equal. replace (S d + e)%nat with (d + S e)%nat by lia. f_equal. apply count_ext.
      intros i Hi. unfold ns1. destruct (fill_row ns n d zero_node i) as [[_ Q]|[E _]]; [|exact E].
      exfalso. assert (Hr : row n (d + S e) i) by (unfold row; lia). apply (row_inj n d (d + S e)) in Hr; [lia|exact Hn|exact Q].
    + intros e' i He Hi. destruct e' as [|e'].
      * rewrite Nat.add_0_r in Hi. rewrite E3.
        -- unfold ns1. destruct (fill_row ns n d zero_node i) as [[E _]|[_ Q]]; [exact E|tauto].
        -- intros e' He' Hr. apply (row_inj n d (S d + e')) in Hr; [lia|assumption|assumption].
      * apply E2 with e'; [lia|]. replace (S d + e')%nat with (d + S e')%nat by lia. exact Hi.
    + intros i Hi. rewrite E3.
      * unfold ns1. destruct (fill_row ns n d zero_node i) as [[_ Q]|[E _]]; [|exact E].
        exfalso. apply (Hi 0%nat); [lia|]. rewrite Nat.add_0_r. exact Q.
      * intros e' He' Hr. apply (Hi (S e')); [lia|]. replace (d + S e')%nat with (S d + e')%nat by lia. exact Hr.
Qed.

Lemma coalesce_rep a h n k t : 0 <= a -> 0 <= n -> hmin h = psz a 0 -> (k + 1 < 64)%nat -> rep (nd h) n k t ->
  exists ns', coalesce_loop 64 h (nd h) n 1 (psz a k) 0 = Some (ns', tfree k t * psz a 0) /\
    rep (set_full ns' n true) n k TU /\ forall i, ~ sub n k i -> set_full ns' n true i = nd h i.
Proof.
  intros Ha Hn Hm Hk R. destruct (cloop_sim a h n Ha Hn Hm k 0 64 (nd h) 0 Hk) as (ns' & E1 & E2 & E3).
  cbn [Nat.add] in *. change (2 ^ Z.of_nat 0) with 1 in E1. replace ((n + 1) * 1 - 1) with n in E1 by lia.
  rewrite (count_tfree t) in E1 by assumption. exists ns'. split; [exact E1|]. split.
  - cbn [rep]. unfold set_full. rewrite fupd_same. split.
    + rewrite (E2 0%nat n); [reflexivity|lia|apply row_0; reflexivity].
    + intros i (d & Hd & Hi) N. rewrite fupd_other by auto. apply E2 with d; assumption.
  - intros i Hi. unfold set_full. rewrite fupd_other by (intros ->; apply Hi, sub_self). apply E3. intros e' He Hr. apply Hi. exists e'. auto.
Qed.

(** ** calculate_block_size *)
Lemma bsl_S f h n va size off : block_size_loop (S f) h n va size off =
      if size >? hmin h then
        if nsplit (nd h n) then
          if off >=? va + size / 2 then block_size_loop f h (right n) (va + size / 2) (size / 2) off
          else block_size_loop f h (left n) va (size / 2) off
        else Some size
      else Some size.
Proof. reflexivity. Qed.

Lemma block_size_sim a h off b : 0 <= a -> hmin h = psz a 0 -> forall k fuel n va t, (k < fuel)%nat ->
  rep (nd h) n k t -> In (off, b) (blocks a k va t) -> block_size_loop fuel h n va (psz a k) off = Some b.
Proof.
  intros Ha Hm. induction k as [|k IH]; intros fuel n va t Hf R H; (destruct fuel as [|f]; [lia|]); rewrite bsl_S, Hm.
  - replace (psz a 0 >? psz a 0) with false by (rewrite Z.gtb_ltb; symmetry; apply Z.ltb_irrefl).
    destruct t; cbn [blocks] in H; [destruct H| |destruct H]. destruct H as [E|[]]. inversion E. reflexivity.
  - assert (psz a 0 < psz a (S k)) by (apply psz_lt; [assumption|lia]).
    replace (psz a (S k) >? psz a 0) with true by (rewrite Z.gtb_ltb; symmetry; apply Z.ltb_lt; lia).
    rewrite (rep_split _ _ _ _ R). destruct t as [| |l r]; cbn [blocks] in H; [destruct H| |].
    + destruct H as [E|[]]. inversion E. reflexivity.
    + cbn [rep] in R. destruct R as (_ & Rl & Rr). rewrite psz_half by assumption. apply in_app_iff in H.
      destruct H as [H|H].
      * pose proof (blocks_in a l Ha k va off b H) as (B1 & B2 & j & p & _ & B3 & _). pose proof (psz_pos a j Ha).
        replace (off >=? va + psz a k) with false by (rewrite Z.geb_leb; symmetry; apply Z.leb_gt; lia).
        eapply IH; eauto. lia.
      * pose proof (blocks_in a r Ha k _ off b H) as (B1 & B2 & _).
        replace (off >=? va + psz a k) with true by (rewrite Z.geb_leb; symmetry; apply Z.leb_le; lia).
        eapply IH; eauto. lia.
Qed.
