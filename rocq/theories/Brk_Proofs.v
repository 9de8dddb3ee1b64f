From Verif Require Import Lib Brk_Model Brk_Spec.

(** the pages [o] are exactly those mapped at the addresses [D], and nowhere else *)
Record H (t : Z -> option Z) (o : list Z) (D : Z -> Prop) : Prop := MkH {
  h_map : forall v, D v -> exists p, t v = Some p /\ In p o;
  h_own : forall p, In p o -> exists v, D v /\ t v = Some p;
  h_nodup : NoDup o;
  h_inj : forall v v' p, D v -> t v = Some p -> t v' = Some p -> v' = v }.
Lemma H_ext : forall t o D D', (forall v, D v <-> D' v) -> H t o D -> H t o D'.
Proof.
  intros t o D D' E [a b c d]. constructor; auto.
  - intros v X. apply a, E, X.
  - intros p X. destruct (b p X) as (v & ? & ?). exists v. split; auto. apply E; auto.
  - intros v v' p X. apply d, E, X.
Qed.
Lemma remove_in : forall p q l, NoDup l -> (In q (remove_page p l) <-> In q l /\ q <> p).
Proof.
  induction l as [|x l IH]; intros N; cbn; [tauto|]. inversion N; subst. destruct (Z.eqb_spec x p) as [->|E].
  - split; [intros I; split; auto; intros ->; tauto|intros [[?|?] ?]; congruence].
  - cbn. rewrite IH by auto. intuition congruence.
Qed.
Lemma remove_nodup : forall p l, NoDup l -> NoDup (remove_page p l).
Proof.
  induction l as [|x l IH]; intros N; cbn; auto. inversion N; subst. destruct (x =? p); auto. constructor; auto. rewrite remove_in by auto. tauto.
Qed.
Lemma H_unmap : forall t o D v t' o', H t o D -> D v -> unmap_page t o v = (t', o') -> H t' o' (fun w => D w /\ w <> v) /\ t' v = None /\ forall w, w <> v -> t' w = t w.
Proof.
  intros t o D v t' o' [a b c d] Dv U. unfold unmap_page in U. destruct (a v Dv) as (p & Tp & Ip). rewrite Tp in U. inversion U; subst; clear U.
  split; [|split; [apply fupd_same | intros; apply fupd_other; auto]]. constructor.
  - intros w [Dw N]. rewrite fupd_other by auto. destruct (a w Dw) as (q & Tq & Iq). exists q. split; auto. apply remove_in; auto. split; auto. intros ->. apply N. eapply d; eauto.
  - intros q I. apply remove_in in I; auto. destruct I as [I N]. destruct (b q I) as (w & Dw & Tw). exists w. assert (w <> v) by congruence. rewrite fupd_other by auto. auto.
  - apply remove_nodup; auto.
  - intros w w' q [Dw N] T1 T2. destruct (Z.eq_dec w' v) as [->|]; [rewrite fupd_same in T2; discriminate|]. rewrite fupd_other in T1, T2 by auto. eauto.
Qed.
Lemma H_map_page : forall t o D v p, H t o D -> ~ D v -> ~ In p o -> (forall w, t w <> Some p) -> t v = None -> H (fupd t v (Some p)) (p :: o) (fun w => D w \/ w = v).
Proof.
  intros t o D v p [a b c d] Nv Np Fr Tv. constructor.
  - intros w [Dw| ->]; [|exists p; rewrite fupd_same; cbn; auto]. assert (w <> v) by congruence. rewrite fupd_other by auto. destruct (a w Dw) as (q & ? & ?). exists q. cbn. auto.
  - intros q [<-|I]; [exists v; rewrite fupd_same; auto|]. destruct (b q I) as (w & ? & ?). exists w. assert (w <> v) by congruence. rewrite fupd_other by auto. auto.
  - constructor; auto.
  - intros w w' q Dw T1 T2. destruct (Z.eq_dec w v) as [->|N1].
    + rewrite fupd_same in T1. inversion T1; subst. destruct (Z.eq_dec w' v); auto. rewrite fupd_other in T2 by auto. exfalso. eapply Fr; eauto.
    + rewrite fupd_other in T1 by auto. destruct (Z.eq_dec w' v) as [->|N2]; [rewrite fupd_same in T2; inversion T2; subst; exfalso; eapply Fr; eauto|].
      rewrite fupd_other in T2 by auto. destruct Dw; [eauto|congruence].
Qed.

Lemma mod_add : forall p, p mod PAGE = 0 -> (p + PAGE) mod PAGE = 0.
Proof. intros p E. unfold PAGE in *. replace (p + 4096) with (p + 1 * 4096) by lia. rewrite Z.mod_add by lia. auto. Qed.
(** aligned addresses: between p and p + PAGE there is only p *)
Lemma al_next : forall p v, aligned p -> aligned v -> p <= v -> v = p \/ p + PAGE <= v.
Proof.
  unfold aligned, PAGE. intros p v Ap Av L. pose proof (Z.div_mod p 4096 ltac:(lia)). pose proof (Z.div_mod v 4096 ltac:(lia)).
  destruct (Z.eq_dec v p); auto. right. assert (p / 4096 < v / 4096) by lia. lia.
Qed.
Lemma shrink_spec : forall k t o D p b t' o', H t o D -> aligned p -> b = p + PAGE * Z.of_nat k -> (forall v, aligned v -> p <= v < b -> D v) ->
  shrink k t o p b = (t', o') -> H t' o' (fun v => D v /\ ~ (aligned v /\ p <= v < b)) /\ (forall v, aligned v -> p <= v < b -> t' v = None) /\ (forall v, ~ (aligned v /\ p <= v < b) -> t' v = t v).
Proof.
  induction k as [|k IH]; intros t o D p b t' o' Hh Ap E Dd S0.
  - cbn in S0. inversion S0; subst. split; [|split; [lia|auto]]. eapply H_ext; [|exact Hh]. intros v. split; [split; auto; lia|tauto].
  - cbn [shrink] in S0. unfold PAGE in E. replace (p <? b) with true in S0 by lia. destruct (unmap_page t o p) as [t1 o1] eqn:U.
    destruct (H_unmap _ _ _ _ _ _ Hh (Dd p Ap ltac:(lia)) U) as (H1 & T1 & T2).
    assert (Ap2 : aligned (p + PAGE)) by (apply mod_add; auto).
    destruct (IH t1 o1 _ (p + PAGE) b t' o' H1 Ap2) as (H2 & T3 & T4); auto.
    { unfold PAGE. lia. }
    { intros v Av Hv. unfold PAGE in Hv. split; [apply Dd; auto; lia|lia]. }
    split; [|split].
    + eapply H_ext; [|exact H2]. cbn. intros v. unfold PAGE. split.
      * intros ((X1 & X2) & X3). split; auto. intros [Av Hv]. destruct (al_next p v Ap Av); [lia|tauto|apply X3; unfold PAGE in *; split; auto; lia].
      * intros (X1 & X2). split; [split; auto; intros ->; apply X2; split; auto; lia|]. intros (Y1 & Y2). apply X2. split; auto. lia.
    + intros v Av Hv. destruct (al_next p v Ap Av ltac:(lia)) as [->|L]; [|apply T3; auto; unfold PAGE in *; lia].
      rewrite T4 by (unfold PAGE; lia). exact T1.
    + intros v Nv. rewrite T4 by (intros [Y1 Y2]; apply Nv; unfold PAGE in *; split; auto; lia). apply T2. intros ->. apply Nv. split; auto. lia.
Qed.
Lemma any_spec : forall k t v new, new = v + PAGE * Z.of_nat k -> aligned v -> (any_mapped k t v new = false <-> forall w, aligned w -> v <= w < new -> t w = None).
Proof.
  induction k as [|k IH]; intros t v new E A; cbn [any_mapped].
  - split; auto. unfold PAGE in E. intros _ w _ Hw. lia.
  - unfold PAGE in E. replace (v <? new) with true by lia. destruct (t v) eqn:T.
    + split; [discriminate|]. intros X. rewrite X in T; auto; [discriminate|lia].
    + rewrite IH by (unfold PAGE; try apply mod_add; auto; lia). split; intros X w Aw Hw.
      * destruct (al_next v w A Aw ltac:(lia)) as [->|L]; auto. apply X; auto. lia.
      * apply X; auto. unfold PAGE in Hw. lia.
Qed.
Lemma grow_spec : forall k t o D v new ans t' o' v' s seen, H t o D -> aligned v -> new = v + PAGE * Z.of_nat k -> (forall w, aligned w -> v <= w < new -> t w = None) ->
  fresh s seen ans -> (forall p, In p o -> In p seen \/ In p (owned s)) -> (forall w p, t w = Some p -> In p seen \/ tab s w = Some p) ->
  grow k t o v new ans = (t', o', v') ->
  v' = v + PAGE * Z.min (Z.of_nat k) (pages ans) /\ H t' o' (fun w => D w \/ (aligned w /\ v <= w < v')) /\ (forall w, ~ (aligned w /\ v <= w < v') -> t' w = t w).
Proof.
  assert (Pp : forall ans, 0 <= pages ans) by (induction ans as [|[]]; cbn; lia).
  induction k as [|k IH]; intros t o D v new ans t' o' v' s seen Hh A E Fr Fs O1 O2 G.
  - cbn in G. inversion G; subst. specialize (Pp ans). split; [unfold PAGE; lia|]. split; [eapply H_ext; [|exact Hh]; intros w; split; [auto|intros [?|?]; auto; lia]|auto].
  - cbn [grow] in G. unfold PAGE in E. replace (v <? new) with true in G by lia.
    assert (Stop : v' = v -> o' = o -> t' = t -> pages ans = 0 ->
        v' = v + PAGE * Z.min (Z.of_nat (S k)) (pages ans) /\ H t' o' (fun w => D w \/ (aligned w /\ v <= w < v')) /\ (forall w, ~ (aligned w /\ v <= w < v') -> t' w = t w)).
    { intros -> -> -> ->. split; [unfold PAGE; lia|]. split; [eapply H_ext; [|exact Hh]; intros w; split; [auto|intros [?|?]; auto; lia]|auto]. }
    destruct ans as [|[|p|p] ans]; [inversion G; subst; apply Stop; auto| | |].
    + inversion G; subst; apply Stop; auto.
    + inversion G; subst. apply Stop; auto. cbn. rewrite Z.eqb_refl. reflexivity.
    + cbn in Fs. destruct Fs as (F1 & F2 & F3 & F4).
      assert (Np : ~ In p o) by (intros I; destruct (O1 p I); tauto).
      assert (Nt : forall w, t w <> Some p) by (intros w T; destruct (O2 w p T) as [?|T2]; [tauto|apply (F3 _ T2)]).
      assert (Tv : t v = None) by (apply Fr; auto; lia).
      assert (Nd : ~ D v) by (intros Dv; destruct (h_map _ _ _ Hh v Dv) as (q & ? & _); congruence).
      assert (A2 : aligned (v + PAGE)) by (apply mod_add; auto).
      destruct (IH _ _ _ (v + PAGE) new ans t' o' v' s (p :: seen) (H_map_page _ _ _ _ _ Hh Nd Np Nt Tv) A2) as (Q1 & Q2 & Q3); auto.
      { unfold PAGE; lia. }
      { intros w Aw Hw. unfold PAGE in Hw. rewrite fupd_other by lia. apply Fr; auto. lia. }
      { intros q [<-|I]; cbn; auto. destruct (O1 q I); auto. }
      { intros w q T. destruct (Z.eq_dec w v) as [->|]; [rewrite fupd_same in T; inversion T; cbn; auto|]. rewrite fupd_other in T by auto. destruct (O2 w q T); cbn; auto. }
      specialize (Pp ans). cbn [pages]. split; [unfold PAGE in *; lia|]. split.
      * eapply H_ext; [|exact Q2]. cbn. intros w. unfold PAGE in *. split.
        -- intros [[?| ->]|[? ?]]; auto; right; split; auto; lia.
        -- intros [?|[Aw Hw]]; auto. destruct (al_next v w A Aw ltac:(lia)) as [->|L]; auto. unfold PAGE in L. right. split; auto. lia.
      * intros w Nw. rewrite Q3 by (intros [? ?]; apply Nw; unfold PAGE in *; split; auto; lia). apply fupd_other. intros ->. apply Nw. split; auto. unfold PAGE in *. lia.
Qed.

Record inv (s : st) : Prop := Inv {
  i_heap : H (tab s) (owned s) (fun v => aligned v /\ heap s v);
  i_al : aligned (initial_brk s) /\ aligned (brk s);
  i_le : 0 < initial_brk s <= brk s;
  i_len : br_len s = brk s - br_vaddr s }.
Lemma al_sub : forall a b, aligned a -> aligned b -> a <= b -> b = a + PAGE * Z.of_nat (Z.to_nat ((b - a) / PAGE)).
Proof.
  unfold aligned, PAGE. intros a b A B L. rewrite Z2Nat.id by (apply Z.div_pos; lia).
  assert ((b - a) mod 4096 = 0) by (rewrite Zminus_mod, A, B; reflexivity). pose proof (Z.div_mod (b - a) 4096 ltac:(lia)). lia.
Qed.
Ltac sp := repeat match goal with |- _ /\ _ => split end.
(** what one call does *)
Lemma brk_spec : forall max s new ans s' r, inv s -> fresh s [] ans -> sys_brk max s new ans = (s', r) ->
  r = brk s' /\ initial_brk s' = initial_brk s /\ br_vaddr s' = br_vaddr s /\ mem s' = mem s /\ inv s' /\
  (forall v, ~ (aligned v /\ Z.min (brk s) (brk s') <= v < Z.max (brk s) (brk s')) -> tab s' v = tab s v) /\
  (~ valid max s new -> s' = s) /\ (valid max s new -> new < brk s -> brk s' = new /\ forall v, aligned v -> new <= v < brk s -> tab s' v = None) /\
  (valid max s new -> brk s <= new -> room s new -> brk s' = Z.min new (brk s + PAGE * pages ans)) /\
  (valid max s new -> brk s <= new -> ~ room s new -> s' = s).
Proof.
  intros max s new ans s' r I Fr E. pose proof I as I'. destruct I as [Ih [Ia1 Ia2] Ile Ilen]. unfold sys_brk in E.
  assert (Same : s' = s -> r = brk s -> (valid max s new -> new = brk s) ->
    r = brk s' /\ initial_brk s' = initial_brk s /\ br_vaddr s' = br_vaddr s /\ mem s' = mem s /\ inv s' /\
    (forall v, ~ (aligned v /\ Z.min (brk s) (brk s') <= v < Z.max (brk s) (brk s')) -> tab s' v = tab s v) /\
    (~ valid max s new -> s' = s) /\ (valid max s new -> new < brk s -> brk s' = new /\ forall v, aligned v -> new <= v < brk s -> tab s' v = None) /\
    (valid max s new -> brk s <= new -> room s new -> brk s' = Z.min new (brk s + PAGE * pages ans)) /\
    (valid max s new -> brk s <= new -> ~ room s new -> s' = s)).
  { intros -> -> V. assert (Pp : 0 <= pages ans) by (clear; induction ans as [|[]]; cbn; lia). sp; auto; try tauto; try (intros Va L; specialize (V Va); lia).
    intros Va _ _. specialize (V Va). unfold PAGE. lia. }
  destruct ((new =? 0) || negb (new mod PAGE =? 0) || (new <? initial_brk s) || (new >=? max) || (new =? brk s)) eqn:Cnd.
  { inversion E; subst. apply Same; auto. intros [V1 V2]. unfold aligned in V1. lia. }
  assert (V : valid max s new) by (unfold valid, aligned; lia). assert (Nb : new <> brk s) by lia. clear Cnd Same.
  destruct V as [Va Vr]. unfold brk_int in E. destruct (new <? brk s) eqn:Lt.
  - assert (Eb : brk s = new + PAGE * Z.of_nat (Z.to_nat (Z.abs (new - brk s) / PAGE))).
    { replace (Z.abs (new - brk s)) with (brk s - new) by lia. apply al_sub; auto. lia. }
    destruct (shrink (Z.to_nat (Z.abs (new - brk s) / PAGE)) (tab s) (owned s) new (brk s)) as [t o] eqn:Sh.
    assert (Hd : forall v, aligned v -> new <= v < brk s -> aligned v /\ heap s v) by (intros v ? ?; split; auto; unfold heap; lia).
    destruct (shrink_spec _ _ _ _ _ _ _ _ Ih Va Eb Hd Sh) as (H1 & T1 & T2).
    inversion E; subst; clear E; cbn. sp; auto; cbn; try lia.
    + constructor; cbn; auto; try lia. eapply H_ext; [|exact H1]. intros v. unfold heap; cbn. intuition lia.
    + intros v Nv. apply T2. intros [? ?]. apply Nv. split; auto. lia.
    + intros Nv. exfalso. apply Nv. split; auto.
  - assert (Eb : new = brk s + PAGE * Z.of_nat (Z.to_nat (Z.abs (new - brk s) / PAGE))).
    { replace (Z.abs (new - brk s)) with (new - brk s) by lia. apply al_sub; auto. lia. }
    pose proof (any_spec _ (tab s) _ _ Eb Ia2) as An. destruct (any_mapped _ (tab s) (brk s) new) eqn:Am.
    + assert (s' = s) as -> by (inversion E; destruct s; cbn in *; subst; f_equal; lia). assert (r = brk s) as -> by (inversion E; auto).
      sp; auto; try tauto; try lia.
      intros _ _ Rm. exfalso. assert (true = false); [|discriminate]. apply An. exact Rm.
    + destruct (grow _ (tab s) (owned s) (brk s) new ans) as [[t o] v'] eqn:Gr.
      destruct (grow_spec _ _ _ _ _ _ _ _ _ _ s [] Ih Ia2 Eb (proj1 An eq_refl) Fr ltac:(auto) ltac:(auto) Gr) as (Q1 & Q2 & Q3).
      assert (Pp : 0 <= pages ans) by (clear; induction ans as [|[]]; cbn; lia).
      assert (Bv : brk s <= v') by (rewrite Q1; unfold PAGE; lia).
      inversion E; subst s' r; clear E; cbn. split; auto. split; auto. split; auto. split; auto. split; [|split; [|split; [|split; [|split]]]].
      * constructor; cbn; try lia.
        -- eapply H_ext; [|exact Q2]. intros v. unfold heap; cbn. split; [intros [[? ?]|[? ?]]; split; auto; lia|].
           intros [? ?]. destruct (Z_lt_le_dec v (brk s)); [left|right]; split; auto; lia.
        -- split; auto. rewrite Q1. unfold aligned. rewrite Z.mul_comm, Z.mod_add by (unfold PAGE; lia). auto.
      * intros v Nv. apply Q3. intros [? ?]. apply Nv. split; auto. lia.
      * intros Nv. exfalso. apply Nv. split; auto.
      * intros. lia.
      * intros _ _ _. rewrite Q1. unfold PAGE in *. lia.
      * intros _ _ Nr. exfalso. apply Nr. red. apply An. reflexivity.
Qed.
Lemma inv_step : forall max s o, inv s -> allowed s o -> inv (step max s o).
Proof.
  intros max s o I A. destruct o as [new ans|a v|t m]; cbn [step allowed] in *.
  - destruct (sys_brk max s new ans) as [s' r] eqn:E. cbn. destruct (brk_spec _ _ _ _ _ _ I A E) as (_ & _ & _ & _ & ? & _). auto.
  - destruct (tab s (page_of a)); auto. destruct I as [Ih Ia Ile Ilen]. constructor; auto.
  - destruct I as [Ih Ia Ile Ilen]. destruct A as (A1 & A2 & A3). constructor; auto. cbn. destruct Ih as [a b c d].
    change (fun v => aligned v /\ heap (St t (brk s) (initial_brk s) (br_vaddr s) (br_len s) m (owned s)) v) with (fun v => aligned v /\ heap s v).
    constructor; auto.
    + intros v Dv. rewrite A1 by tauto. auto.
    + intros p I. destruct (b p I) as (v & ? & ?). exists v. split; auto. rewrite A1 by tauto. auto.
    + intros v v' p Dv T1 T2. rewrite A1 in T1 by tauto. destruct (a v Dv) as (q & Tq & Iq). assert (q = p) by congruence. subst q.
      destruct (Z_lt_le_dec v' (brk s)) as [L1|L1]; [destruct (Z_lt_le_dec v' (initial_brk s)) as [L2|L2]; [|destruct (Z.eq_dec (v' mod PAGE) 0) as [L3|L3]]|].
      1, 3, 4: exfalso; apply (A2 v' p); auto; unfold heap, aligned; tauto || lia.
      rewrite A1 in T2 by (auto; unfold heap; lia). eauto.
Qed.
Lemma reach_inv : forall max s, reach max s -> inv s.
Proof.
  induction 1 as [s (E1 & E2 & E3 & E4 & E5)|s o R IH A]; [|apply inv_step; auto].
  constructor; auto; [|rewrite E1; auto|lia]. rewrite E4. constructor; [| |constructor|].
  - unfold heap. intros v [_ X]. lia.
  - intros p [].
  - unfold heap. intros v v' p [_ X]. lia.
Qed.

Lemma page_heap : forall s a, inv s -> heap s a -> aligned (page_of a) /\ heap s (page_of a).
Proof.
  intros s a [_ [A1 A2] _ _] Ha. unfold heap, aligned, page_of, PAGE in *. split; [apply Z.mod_mul; lia|].
  pose proof (Z.div_mod a 4096 ltac:(lia)). pose proof (Z.mod_pos_bound a 4096 ltac:(lia)). pose proof (Z.div_mod (initial_brk s) 4096 ltac:(lia)). pose proof (Z.div_mod (brk s) 4096 ltac:(lia)).
  assert (initial_brk s / 4096 <= a / 4096) by (apply Z.div_le_mono; lia). lia.
Qed.
Lemma exactly_mapped : forall max s, reach max s ->
  (forall a, heap s a -> read s a <> None) /\ (forall p, In p (owned s) <-> exists v, aligned v /\ heap s v /\ tab s v = Some p) /\ NoDup (owned s) /\
  (forall v v' p, aligned v -> heap s v -> tab s v = Some p -> tab s v' = Some p -> v' = v) /\ br_len s = brk s - br_vaddr s /\ aligned (brk s) /\ initial_brk s <= brk s.
Proof.
  intros max s R. pose proof (reach_inv _ _ R) as I. destruct I as [[a b c d] [A1 A2] L N].
  split; [|split; [|split; [auto|split; [|split; [auto|split; [auto|lia]]]]]].
  - intros x Hx. destruct (a _ (page_heap _ _ (reach_inv _ _ R) Hx)) as (p & T & _). unfold read. rewrite T. discriminate.
  - intros p. split; [intros I; destruct (b p I) as (v & [? ?] & ?); eauto|]. intros (v & Av & Hv & T). destruct (a v (conj Av Hv)) as (q & ? & ?). congruence.
  - intros v v' p Av Hv. apply d; auto.
Qed.
Lemma brk_call : forall max s new ans s' r, reach max s -> fresh s [] ans -> sys_brk max s new ans = (s', r) ->
  r = brk s' /\ initial_brk s' = initial_brk s /\
  (forall v, ~ (aligned v /\ Z.min (brk s) (brk s') <= v < Z.max (brk s) (brk s')) -> tab s' v = tab s v) /\
  (~ valid max s new -> s' = s) /\
  (valid max s new -> new < brk s -> brk s' = new /\ forall v, aligned v -> new <= v < brk s -> tab s' v = None) /\
  (valid max s new -> brk s <= new -> room s new -> brk s' = Z.min new (brk s + PAGE * pages ans)) /\
  (valid max s new -> brk s <= new -> ~ room s new -> s' = s).
Proof. intros max s new ans s' r R F E. destruct (brk_spec _ _ _ _ _ _ (reach_inv _ _ R) F E) as (? & ? & _ & _ & _ & ? & ? & ? & ? & ?). auto 10. Qed.
Lemma contents_kept : forall max s o a, reach max s -> allowed s o -> heap s a -> heap (step max s o) a -> (forall v, o <> Write a v) -> read (step max s o) a = read s a.
Proof.
  intros max s o a R A H1 H2 N. pose proof (reach_inv _ _ R) as I. destruct (page_heap _ _ I H1) as [Pa Ph]. destruct o as [new ans|b v|t m]; cbn [step allowed] in *.
  - destruct (sys_brk max s new ans) as [s' r] eqn:E. cbn in *. destruct (brk_spec _ _ _ _ _ _ I A E) as (_ & Ei & _ & Em & I2 & Et & _).
    destruct (page_heap _ _ I2 H2) as [_ Ph2]. unfold read. rewrite Em, Et; auto. unfold heap in *. intros [_ X]. lia.
  - unfold read. destruct (tab s (page_of b)) as [q|] eqn:Tb; auto; cbn. destruct (tab s (page_of a)) as [p|] eqn:Ta; auto. f_equal.
    destruct ((p =? q) && (a mod PAGE =? b mod PAGE)) eqn:C; auto. exfalso. apply (N v). f_equal.
    assert (page_of b = page_of a). { eapply (h_inj _ _ _ (i_heap _ I) (page_of a)); eauto. rewrite Tb. f_equal. lia. }
    unfold page_of, PAGE in *. pose proof (Z.div_mod a 4096 ltac:(lia)). pose proof (Z.div_mod b 4096 ltac:(lia)). lia.
  - destruct A as (A1 & A2 & A3). unfold read; cbn. rewrite A1 by auto. destruct (tab s (page_of a)) as [p|] eqn:Ta; auto. f_equal. apply A3.
    destruct (h_map _ _ _ (i_heap _ I) _ (conj Pa Ph)) as (q & ? & ?). congruence.
Qed.
Lemma write_read : forall max s a v, reach max s -> heap s a -> read (step max s (Write a v)) a = Some v.
Proof.
  intros max s a v R Ha. pose proof (reach_inv _ _ R) as I. destruct (h_map _ _ _ (i_heap _ I) _ (page_heap _ _ I Ha)) as (q & T & _).
  unfold step, read. rewrite T; cbn. rewrite T. f_equal. rewrite !Z.eqb_refl. reflexivity.
Qed.
(** the new bytes are whatever the physical page contained *)
Lemma not_zeroed : exists max s new ans a, reach max s /\ allowed s (Brk new ans) /\ ~ heap s a /\ read (step max s (Brk new ans)) a = Some 77.
Proof.
  exists 1000000, (St (fun _ => None) 8192 8192 4096 4096 (fun _ _ => 77) []), 12288, [Page 5], 8200.
  repeat split; cbn; auto; try discriminate; try lia; [constructor; repeat split; cbn; auto; lia | unfold heap; cbn; lia].
Qed.
