From Verif Require Import Lib SafeRb_Model SafeRb_Spec.

Section Max.
Variable max : Z.
Hypothesis Hmax : 1 <= max <= 32768.

Definition stat_of (r n : Z) : stat := Stat (r mod max) (n mod max) (n - r =? max).
Lemma stat_eqb_ok a b : stat_eqb a b = true <-> a = b.
Proof.
  destruct a as [a1 a2 a3], b as [b1 b2 b3]. unfold stat_eqb. cbn. rewrite !andb_true_iff, !Z.eqb_eq, Bool.eqb_true_iff. split; [intros ((-> & ->) & ->); reflexivity|intros E; injection E as -> -> ->; auto].
Qed.
Lemma mod_close a b : 0 <= a - b < max -> a mod max = b mod max -> a = b.
Proof.
  intros H E. pose proof (Z.div_mod a max ltac:(lia)). pose proof (Z.div_mod b max ltac:(lia)). assert (X : a - b = max * (a / max - b / max)) by lia. assert (a / max - b / max = 0); [|lia]. clear - H X. nia.
Qed.
Lemma stat_inj r k k' : r <= k <= r + max -> r <= k' <= r + max -> stat_of r k = stat_of r k' -> k = k'.
Proof.
  intros H H' E. unfold stat_of in E. injection E as E F. destruct (Z.eq_dec (Z.abs (k - k')) max) as [X|X].
  - exfalso. destruct (Z.le_gt_cases k k'); [replace (k' - r =? max) with true in F by lia; replace (k - r =? max) with false in F by lia; discriminate|replace (k - r =? max) with true in F by lia; replace (k' - r =? max) with false in F by lia; discriminate].
  - destruct (Z.le_gt_cases k k'); [symmetry; apply mod_close; [lia|congruence]|apply mod_close; [lia|congruence]].
Qed.
Lemma stat_empty_of r n : r <= n <= r + max -> stat_empty (stat_of r n) = (n =? r).
Proof.
  intros H. unfold stat_empty, stat_of. cbn. destruct (n =? r) eqn:E.
  - replace n with r by lia. rewrite Z.eqb_refl. replace (r - r =? max) with false by lia. reflexivity.
  - destruct (n - r =? max) eqn:F; [rewrite andb_false_r; reflexivity|]. rewrite andb_true_r. apply Z.eqb_neq. intros X. assert (n = r); [|lia]. apply mod_close; [lia|congruence].
Qed.
Lemma next_mod a : (a mod max + 1) mod max mod 2 ^ 15 = (a + 1) mod max.
Proof.
  rewrite Zplus_mod_idemp_l. apply Z.mod_small. pose proof (Z.mod_pos_bound (a + 1) max ltac:(lia)). lia.
Qed.
Lemma claim_of r n : r <= n < r + max -> claim max (stat_of r n) = stat_of r (n + 1).
Proof.
  intros H. unfold claim, stat_of. cbn [rp wp full]. rewrite next_mod. f_equal. replace (n - r =? max) with false by lia.
  destruct ((n + 1) mod max =? r mod max) eqn:E; symmetry.
  - apply Z.eqb_eq in E. apply Z.eqb_eq. destruct (Z.eq_dec (n + 1 - r) max) as [X|X]; [exact X|]. assert (n + 1 = r); [|lia]. apply mod_close; [lia|exact E].
  - apply Z.eqb_neq in E. apply Z.eqb_neq. intros X. apply E. replace (n + 1) with (r + 1 * max) by lia. apply Z.mod_add. lia.
Qed.
Lemma consume_of r n : r < n <= r + max -> consume max (stat_of r n) = stat_of (r + 1) n.
Proof.
  intros H. unfold consume, stat_of. cbn [rp wp full]. rewrite next_mod. f_equal. symmetry. apply Z.eqb_neq. lia.
Qed.

Section S.
Variable s : st.
Notation N := (zlen (hist s)).
Notation R := (zlen (got s)).
Definition p_ok (x : ppc) : Prop :=
  match x with
  | PIdle | P0 _ => True
  | P1 _ cs => exists k, R <= k <= N /\ cs = stat_of R k
  | P2 _ cs ns => exists k k2, R <= k <= k2 /\ k2 <= N /\ k < R + max /\ cs = stat_of R k /\ ns = claim max (stat_of R k2)
  | PCopy e cs k => R <= k < N /\ cs = stat_of R k /\ at_ (hist s) k = e
  end.
Definition c_ok (x : cpc) : Prop :=
  match x with
  | CIdle | C0 => True
  | C1 cs em => exists k, R <= k <= N /\ cs = stat_of R k /\ em = (k =? R)
  | C2 cs ns => exists k k2, R < k <= k2 /\ k2 <= N /\ cs = stat_of R k /\ ns = stat_of R k2
  | C3 cs ns v => exists k k2, R < k <= k2 /\ k2 <= N /\ cs = stat_of R k /\ ns = consume max (stat_of R k2) /\ v = at_ (hist s) R
  end.
Definition w_ok (r : wres) : Prop := match r with WOk e k we em => 0 <= k < N /\ at_ (hist s) k = e /\ we = em | WFull b => b = true end.
Record inv : Prop := Inv {
  Icount : R <= N <= R + max;
  Icur : cur s = stat_of R N;
  Igot : got s = firstn (Z.to_nat R) (hist s);
  Idata : forall j, R <= j < N -> buf s (j mod max) = at_ (hist s) j \/ pending s j;
  Iprod : forall p, p_ok (prod s p);
  Icons : c_ok (cons s);
  Iuniq : forall p q e e' cs cs' k, prod s p = PCopy e cs k -> prod s q = PCopy e' cs' k -> p = q;
  Iwlog : Forall w_ok (wlog s);
  Ikeys : NoDup (ok_keys (wlog s));
  Ifresh : forall p e cs k, prod s p = PCopy e cs k -> ~ In k (ok_keys (wlog s));
  Iall : forall k, 0 <= k < N -> In k (ok_keys (wlog s)) \/ pending s k;
  Irlog : Forall (fun r => match r with REmpty b => b = true | _ => True end) (rlog s);
  Ivals : read_values (rlog s) = got s }.
End S.

Lemma at_app l x j : 0 <= j < zlen l -> at_ (l ++ [x]) j = at_ l j.
Proof. intros H. unfold at_. apply app_nth1. unfold zlen in H. lia. Qed.
Lemma at_last l x : at_ (l ++ [x]) (zlen l) = x.
Proof. unfold at_, zlen. rewrite Nat2Z.id. rewrite app_nth2, Nat.sub_diag; [reflexivity|lia]. Qed.
Lemma firstn_snoc l j : 0 <= j < zlen l -> firstn (Z.to_nat j) l ++ [at_ l j] = firstn (Z.to_nat (j + 1)) l.
Proof.
  intros H. unfold at_. replace (Z.to_nat (j + 1)) with (S (Z.to_nat j)) by lia. assert (L : (Z.to_nat j < length l)%nat) by (unfold zlen in H; lia). clear H. revert L. generalize (Z.to_nat j). clear j. intros n. revert l. induction n as [|n IH]; intros l L; destruct l as [|x l]; cbn in *; try lia; [reflexivity|]. f_equal. apply IH. lia.
Qed.
Lemma keys_app l r : ok_keys (l ++ [r]) = ok_keys l ++ match r with WOk _ k _ _ => [k] | _ => [] end.
Proof. unfold ok_keys. rewrite flat_map_app. cbn. rewrite app_nil_r. reflexivity. Qed.
Lemma vals_app l r : read_values (l ++ [r]) = read_values l ++ match r with ROk v => [v] | _ => [] end.
Proof. unfold read_values. rewrite flat_map_app. cbn. rewrite app_nil_r. reflexivity. Qed.
Lemma inv_init b : inv (init b).
Proof.
  assert (Z0 : zlen (@nil Z) = 0) by reflexivity.
  constructor; cbn [init hist got cur buf prod cons wlog rlog]; rewrite ?Z0.
  - lia.
  - unfold stat_of. rewrite Z.mod_0_l by lia. f_equal. symmetry. apply Z.eqb_neq. lia.
  - reflexivity.
  - intros j Hj. lia.
  - intros p. exact Logic.I.
  - exact Logic.I.
  - intros. discriminate.
  - constructor.
  - constructor.
  - intros. discriminate.
  - intros k Hk. lia.
  - constructor.
  - reflexivity.
Qed.
(** a change of the state of one call which has not claimed, to another such *)
Lemma inv_set_prod s p x : inv s -> (forall e cs k, prod s p <> PCopy e cs k) -> (forall e cs k, x <> PCopy e cs k) -> p_ok s x -> inv (set_prod s p x).
Proof.
  intros [A B C D E F G H I J K L M] O Nx P.
  assert (Pe : forall j, pending s j -> pending (set_prod s p x) j) by (intros j (q & cs & Q); exists q, cs; cbn; rewrite fupd_other; [exact Q|intros ->; exact (O _ _ _ Q)]).
  constructor; cbn; auto.
  - intros j Hj. destruct (D j Hj); auto.
  - intros q. unfold fupd. destruct (q =? p); [exact P|apply E].
  - intros q q' e e' cs cs' k. unfold fupd. destruct (q =? p); [intros X; exfalso; exact (Nx _ _ _ X)|]. destruct (q' =? p); [intros _ X; exfalso; exact (Nx _ _ _ X)|]. apply G.
  - intros q e cs k. unfold fupd. destruct (q =? p); [intros X; exfalso; exact (Nx _ _ _ X)|]. apply J.
  - intros k Hk. destruct (K k Hk); auto.
Qed.
Lemma inv_set_cons s x : inv s -> c_ok s x -> inv (set_cons s x).
Proof. intros [A B C D E F G H I J K L M] P. constructor; auto. Qed.
Lemma step_inv s a s' : inv s -> allowed s a -> step max s a = Some s' -> inv s'.
Proof.
  intros V AL E. pose proof V as [A B C D P F G H I J K L M]. destruct a as [p e|p b| |b]; cbn in E.
  - destruct (prod s p) eqn:Q; try discriminate. injection E as <-. apply inv_set_prod; [exact V|rewrite Q; discriminate|discriminate|exact Logic.I].
  - assert (E' : pstep max s p b = s') by (destruct (prod s p); congruence). clear E. subst s'. pose proof (P p) as Pp. unfold pstep. destruct (prod s p) as [|e|e cs|e cs ns|e cs k] eqn:Q; cbn in Pp.
    + exact V.
    + apply inv_set_prod; [exact V|rewrite Q; discriminate|discriminate|]. cbn. exists (zlen (hist s)). split; [lia|exact B].
    + destruct Pp as (k & Hk & ->). destruct (full (stat_of (zlen (got s)) k)) eqn:Fu.
      * cbn in Fu. assert (X : zlen (hist s) - zlen (got s) =? max = true) by lia. rewrite X.
        pose proof (inv_set_prod s p PIdle V ltac:(rewrite Q; discriminate) ltac:(discriminate) Logic.I) as [A' B' C' D' P' F' G' H' I' J' K' L' M']. cbn in *.
        constructor; cbn; auto.
        -- apply Forall_app. split; [exact H'|]. constructor; [reflexivity|constructor].
        -- rewrite keys_app, app_nil_r. exact I'.
        -- intros q e' cs' k' Y. rewrite keys_app, app_nil_r. eapply J'. exact Y.
        -- intros j Hj. rewrite keys_app, app_nil_r. apply K'. exact Hj.
      * cbn in Fu. apply inv_set_prod; [exact V|rewrite Q; discriminate|discriminate|]. cbn. exists k, (zlen (hist s)). rewrite B. split; [lia|]. split; [lia|]. split; [lia|]. auto.
    + destruct Pp as (k & k2 & H1 & H2 & H3 & -> & ->). destruct (negb b && stat_eqb (cur s) (stat_of (zlen (got s)) k)) eqn:X.
      * apply andb_true_iff in X. destruct X as [_ X]. apply stat_eqb_ok in X. rewrite B in X. apply stat_inj in X; [|lia|lia]. assert (k2 = k) by lia. subst k2. rewrite claim_of by lia. subst k.
        set (s1 := St _ _ _ _ _ _ _ _). assert (NN : zlen (hist s1) = zlen (hist s) + 1) by (cbn; rewrite zlen_snoc; reflexivity).
        pose proof (zlen_nonneg (got s)) as R0. assert (Pe : forall j, 0 <= j < zlen (hist s) -> pending s j -> pending s1 j).
        { intros j Hj (q & cs & Y). exists q, cs. cbn. rewrite at_app by exact Hj. rewrite fupd_other; [exact Y|intros ->; congruence]. }
        constructor.
        -- cbn [got s1]. rewrite NN. lia.
        -- cbn [cur got s1]. rewrite NN. reflexivity.
        -- cbn [got hist s1]. rewrite firstn_app. replace (Z.to_nat (zlen (got s)) - length (hist s))%nat with O by (unfold zlen in *; lia). cbn [firstn]. rewrite app_nil_r. exact C.
        -- cbn [got]. rewrite NN. intros j Hj. destruct (Z.eq_dec j (zlen (hist s))) as [->|Y].
           ++ right. exists p, (stat_of (zlen (got s)) (zlen (hist s))). cbn. rewrite at_last, fupd_same. reflexivity.
           ++ change (got s1) with (got s) in Hj. cbn [buf hist s1]. rewrite at_app by lia. destruct (D j ltac:(lia)) as [Z0|Z0]; [left; exact Z0|right; apply Pe; [lia|exact Z0]].
        -- intros q. unfold p_ok. cbn [got]. rewrite NN. change (got s1) with (got s). cbn [prod s1]. unfold fupd. destruct (Z.eqb_spec q p) as [->|Y].
           ++ split; [lia|]. split; [reflexivity|]. cbn. apply at_last.
           ++ specialize (P q). unfold p_ok in P. destruct (prod s q) as [| |e0 cs0|e0 cs0 ns0|e0 cs0 k0]; auto.
              ** destruct P as (k & T1 & T2). exists k. split; [lia|exact T2].
              ** destruct P as (k & k2 & T1 & T2 & T3 & T4). exists k, k2. split; [lia|]. split; [lia|]. auto.
              ** destruct P as (T1 & T2 & T3). split; [lia|]. split; [exact T2|]. cbn. rewrite at_app by lia. exact T3.
        -- unfold c_ok. rewrite NN. change (got s1) with (got s). change (cons s1) with (cons s). unfold c_ok in F. destruct (cons s) as [| |cs0 em|cs0 ns0|cs0 ns0 v]; auto.
           ++ destruct F as (k & T1 & T2). exists k. split; [lia|exact T2].
           ++ destruct F as (k & k2 & T1 & T2 & T3). exists k, k2. split; [lia|]. split; [lia|]. auto.
           ++ destruct F as (k & k2 & T1 & T2 & T3 & T4 & T5). exists k, k2. split; [lia|]. split; [lia|]. split; [exact T3|]. split; [exact T4|]. cbn. rewrite at_app by lia. exact T5.
        -- intros q q' e0 e' cs cs' k Y1 Y2. cbn [prod s1] in Y1, Y2. unfold fupd in Y1, Y2. destruct (Z.eqb_spec q p) as [->|W1]; destruct (Z.eqb_spec q' p) as [->|W2]; auto.
           ++ injection Y1 as <- <- <-. specialize (P q'). rewrite Y2 in P. cbn in P. lia.
           ++ injection Y2 as <- <- <-. specialize (P q). rewrite Y1 in P. cbn in P. lia.
           ++ eapply G; eassumption.
        -- cbn [wlog s1]. refine (Forall_impl _ _ H). intros r. unfold w_ok. rewrite NN. destruct r; auto. intros (T1 & T2 & T3). split; [lia|]. split; [|exact T3]. cbn. rewrite at_app by lia. exact T2.
        -- exact I.
        -- cbn [prod wlog s1]. intros q e0 cs k Y. unfold fupd in Y. destruct (Z.eqb_spec q p) as [->|W]; [|eapply J; exact Y]. injection Y as <- <- <-. intros Y. unfold ok_keys in Y. apply in_flat_map in Y. destruct Y as (r & Y1 & Y2). rewrite Forall_forall in H. specialize (H r Y1). destruct r as [e1 k1 w1 m1|]; [|destruct Y2]. destruct Y2 as [Y2|[]]. cbn in H. lia.
        -- rewrite NN. intros k Hk. cbn [wlog s1]. destruct (Z.eq_dec k (zlen (hist s))) as [->|Y].
           ++ right. exists p, (stat_of (zlen (got s)) (zlen (hist s))). cbn. rewrite at_last, fupd_same. reflexivity.
           ++ destruct (K k ltac:(lia)) as [Z0|Z0]; [left; exact Z0|right; apply Pe; [lia|exact Z0]].
        -- exact L.
        -- exact M.
      * apply inv_set_prod; [exact V|rewrite Q; discriminate|discriminate|exact Logic.I].
    + destruct Pp as (T1 & -> & T3). pose proof (zlen_nonneg (got s)) as R0. set (s1 := log_w _ _).
      assert (Slot : forall j, zlen (got s) <= j < zlen (hist s) -> j <> k -> j mod max <> k mod max).
      { intros j Hj Y W. apply Y. destruct (Z.le_gt_cases k j); [apply mod_close; [lia|exact W]|symmetry; apply mod_close; [lia|congruence]]. }
      assert (Pe : forall j, j <> k -> pending s j -> pending s1 j).
      { intros j Hj (q & cs & Y). exists q, cs. cbn. rewrite fupd_other; [exact Y|]. intros ->. rewrite Q in Y. injection Y as _ _ Y. auto. }
      constructor; cbn; auto.
      * intros j Hj. destruct (Z.eq_dec j k) as [->|Y]; [left; rewrite fupd_same; auto|]. rewrite fupd_other by (apply Slot; assumption). destruct (D j Hj) as [Z0|Z0]; [left; exact Z0|right; apply Pe; assumption].
      * intros q. unfold fupd. destruct (q =? p); [exact Logic.I|apply P].
      * intros q q' e0 e' cs cs' k' Y1 Y2. unfold fupd in Y1, Y2. destruct (q =? p); [discriminate|]. destruct (q' =? p); [discriminate|]. eapply G; eassumption.
      * apply Forall_app. split; [exact H|]. constructor; [|constructor]. cbn. split; [lia|]. split; [exact T3|]. rewrite stat_empty_of by lia. reflexivity.
      * rewrite keys_app. cbn. apply NoDup_rev in I. rewrite <- (rev_involutive (ok_keys (wlog s) ++ [k])). apply NoDup_rev. rewrite rev_app_distr. cbn. constructor; [rewrite <- in_rev; eapply J; exact Q|exact I].
      * intros q e0 cs k' Y. unfold fupd in Y. destruct (Z.eqb_spec q p) as [->|W]; [discriminate|]. rewrite keys_app, in_app_iff. cbn. intros [Z0|[Z0|[]]]; [exact (J _ _ _ _ Y Z0)|]. subst k'. apply W. eapply G; eassumption.
      * intros j Hj. rewrite keys_app, in_app_iff. cbn. destruct (Z.eq_dec k j) as [->|Y]; [auto|]. destruct (K j Hj) as [Z0|Z0]; [auto|right; apply Pe; auto].
  - destruct (cons s) eqn:Q; try discriminate. injection E as <-. apply inv_set_cons; [exact V|exact Logic.I].
  - assert (E' : cstep max s b = s') by (destruct (cons s); congruence). clear E. subst s'. cbn in AL. unfold cstep. destruct (cons s) as [| |cs em|cs ns|cs ns v] eqn:Q; cbn in F.
    + exact V.
    + apply inv_set_cons; [exact V|]. cbn. exists (zlen (hist s)). split; [lia|]. split; [exact B|reflexivity].
    + destruct F as (k & T1 & -> & ->). rewrite stat_empty_of by lia. destruct (k =? zlen (got s)) eqn:X.
      * pose proof (inv_set_cons s CIdle V Logic.I) as [A' B' C' D' P' F' G' H' I' J' K' L' M']. constructor; cbn; auto.
        -- apply Forall_app. split; [exact L|]. constructor; [reflexivity|constructor].
        -- rewrite vals_app, app_nil_r. exact M.
      * apply inv_set_cons; [exact V|]. cbn. exists k, (zlen (hist s)). split; [lia|]. split; [lia|]. auto.
    + destruct F as (k & k2 & T1 & T2 & -> & ->). apply inv_set_cons; [exact V|]. cbn. exists k, k2. split; [lia|]. split; [lia|]. split; [reflexivity|]. split; [reflexivity|].
      destruct (D (zlen (got s)) ltac:(lia)) as [Z0|(q & cs & Z0)]; [exact Z0|]. rewrite AL in Z0. discriminate.
    + destruct F as (k & k2 & T1 & T2 & -> & -> & ->). destruct (negb b && stat_eqb (cur s) (stat_of (zlen (got s)) k)) eqn:X.
      * apply andb_true_iff in X. destruct X as [_ X]. apply stat_eqb_ok in X. rewrite B in X. apply stat_inj in X; [|lia|lia]. assert (k2 = k) by lia. subst k2 k. rewrite consume_of by lia.
        pose proof (zlen_nonneg (got s)) as R0. set (s1 := log_r _ _). assert (RR : zlen (got s1) = zlen (got s) + 1) by (cbn; rewrite zlen_snoc; reflexivity).
        constructor.
        -- rewrite RR. cbn [hist s1 log_r]. lia.
        -- rewrite RR. reflexivity.
        -- rewrite RR. cbn [got hist s1 log_r]. rewrite <- firstn_snoc by lia. rewrite <- C. reflexivity.
        -- rewrite RR. intros j Hj. cbn [hist buf s1 log_r] in *. destruct (D j ltac:(lia)) as [Z0|Z0]; [left; exact Z0|right]. exact Z0.
        -- intros q. change (prod s1) with (prod s). rewrite (AL q). exact Logic.I.
        -- exact Logic.I.
        -- exact G.
        -- exact H.
        -- exact I.
        -- exact J.
        -- exact K.
        -- cbn [rlog s1 log_r]. apply Forall_app. split; [exact L|]. constructor; [exact Logic.I|constructor].
        -- cbn [rlog got s1 log_r]. rewrite vals_app. rewrite M. reflexivity.
      * apply inv_set_cons; [exact V|exact Logic.I].
Qed.
Lemma reach_inv b s : reach max b s -> inv s.
Proof. induction 1 as [|s a s' R IH A E]; [apply inv_init|apply (step_inv s a s' IH A E)]. Qed.

Lemma fifo b s : reach max b s -> read_values (rlog s) = firstn (length (got s)) (hist s) /\ 0 <= zlen (hist s) - zlen (got s) <= max.
Proof. intros R. apply reach_inv in R. split; [rewrite (Ivals s R), (Igot s R) at 1; f_equal; unfold zlen; lia|]. pose proof (Icount s R). lia. Qed.
Lemma exactly_once b s : reach max b s ->
  NoDup (ok_keys (wlog s)) /\
  (forall e k we em, In (WOk e k we em) (wlog s) -> 0 <= k < zlen (hist s) /\ at_ (hist s) k = e) /\
  (forall k, 0 <= k < zlen (hist s) -> In k (ok_keys (wlog s)) \/ pending s k).
Proof.
  intros R. apply reach_inv in R. split; [apply (Ikeys s R)|]. split; [|apply (Iall s R)]. intros e k we em I. pose proof (Iwlog s R) as W. rewrite Forall_forall in W. specialize (W _ I). cbn in W. tauto.
Qed.
Lemma unread b s : reach max b s -> forall j, zlen (got s) <= j < zlen (hist s) -> buf s (j mod max) = at_ (hist s) j \/ pending s j.
Proof. intros R. apply reach_inv in R. apply (Idata s R). Qed.
Lemma truthful b s : reach max b s ->
  (forall e k we em, In (WOk e k we em) (wlog s) -> we = em) /\ (forall r, In (WFull r) (wlog s) -> r = true) /\ (forall r, In (REmpty r) (rlog s) -> r = true) /\
  (is_empty s = true <-> zlen (hist s) = zlen (got s)) /\ (is_full s = true <-> zlen (hist s) - zlen (got s) = max).
Proof.
  intros R. apply reach_inv in R. pose proof (Iwlog s R) as W. rewrite Forall_forall in W. pose proof (Irlog s R) as W2. rewrite Forall_forall in W2. pose proof (Icount s R). split; [|split; [|split; [|split]]].
  - intros e k we em I. specialize (W _ I). cbn in W. tauto.
  - intros r I. exact (W _ I).
  - intros r I. exact (W2 _ I).
  - unfold is_empty. rewrite (Icur s R), stat_empty_of by lia. lia.
  - unfold is_full. rewrite (Icur s R). cbn. lia.
Qed.
End Max.

Definition run (max : Z) (acts : list action) (s : st) : option st := fold_left (fun o a => match o with Some s => step max s a | None => None end) acts (Some s).
Lemma run_reach max b acts s : run max acts (init b) = Some s -> reach_any max b s.
Proof.
  unfold run. assert (G : forall acts s0 s, reach_any max b s0 -> fold_left (fun o a => match o with Some s => step max s a | None => None end) acts (Some s0) = Some s -> reach_any max b s).
  { induction acts0 as [|a l IH]; intros s0 s1 R E; cbn in E; [injection E as <-; exact R|]. destruct (step max s0 a) as [s2|] eqn:Q; [apply (IH s2 s1 (YS max b s0 a s2 R Q) E)|]. exfalso. clear - E. induction l; cbn in E; [discriminate|auto]. }
  apply G. constructor.
Qed.
Lemma reader_interrupts : exists s, reach_any 4 (fun _ => 0) s /\ hist s = [7] /\ read_values (rlog s) = [0].
Proof.
  destruct (run 4 [Write 1 7; Prod 1 false; Prod 1 false; Prod 1 false; Read; Cons false; Cons false; Cons false; Cons false] (init (fun _ => 0))) as [s|] eqn:E; [|vm_compute in E; discriminate]. exists s. split; [apply (run_reach _ _ _ _ E)|]. vm_compute in E. injection E as <-. auto.
Qed.
