From Verif Require Import Lib Flock_Model Flock_Spec.

Definition wino (s : st) (t : Z) : option Z :=
  match pc s t with Idle => None | Missing i _ => Some i | Made o | Last o => Some (ino s o) end.
Lemma inside_iff s i : inside s i <-> exists t, wino s t = Some i.
Proof. unfold inside, wino. split; intros [t H]; exists t; destruct (pc s t); try discriminate; try congruence; tauto. Qed.
Record inv (s : st) : Prop := Inv {
  Itree : forall i o, tree s i = Some o -> live s o = true /\ ino s o = i;
  Ilive : forall o, live s o = true -> o < next s;
  Iheld : forall o, 0 <= held s o /\ (0 < held s o -> live s o = true /\ refs s o = held s o /\ tree s (ino s o) = Some o);
  Iin : forall i o, tree s i = Some o -> 0 < held s o \/ exists t, pc s t = Last o;
  Imiss : forall t i u, pc s t = Missing i u -> tree s i = None;
  Imade : forall t o, pc s t = Made o -> live s o = true /\ tree s (ino s o) = None /\ refs s o = 1 /\ held s o = 0;
  Ilast : forall t o, pc s t = Last o -> live s o = true /\ tree s (ino s o) = Some o /\ refs s o = 0 /\ held s o = 0;
  Iwin : forall t1 t2 i, wino s t1 = Some i -> wino s t2 = Some i -> t1 = t2;
  Iuaf : touched s = false }.
Lemma inv_init : inv init.
Proof. constructor; cbn; try discriminate; intros; try (split; [lia|intros; lia]); reflexivity. Qed.
Ltac fu := unfold fupd in *; repeat match goal with
  | |- context [?a =? ?b] => destruct (Z.eqb_spec a b); subst
  | H : context [?a =? ?b] |- _ => destruct (Z.eqb_spec a b); subst
  end.
Lemma add_ref_inv s o : inv s -> 0 < held s o -> inv (add_ref s o).
Proof.
  intros [T L H I M Md La W U] P. destruct (H o) as [_ Ho]. destruct (Ho P) as (A & B & C).
  constructor; cbn; auto.
  - intros x. destruct (H x) as [H0 Hx]. fu; [split; [lia|]; intros _; split; [exact A|]; split; [lia|exact C]|split; assumption].
  - intros i x E. destruct (I i x E) as [Q|Q]; [left; fu; lia|right; exact Q].
  - intros t x E. destruct (Md t x E) as (a & b & c & d). fu; [lia|auto].
  - intros t x E. destruct (La t x E) as (a & b & c & d). fu; [lia|auto].
  - rewrite U, A. reflexivity.
Qed.
Lemma step_inv s a s' : inv s -> alone s a -> step s a = Some s' -> inv s'.
Proof.
  intros V A E. pose proof V as [T L H I M Md La W U]. destruct a as [t i u|t m|t|o|t o|t]; cbn in E.
  - destruct (pc s t) eqn:P; try discriminate. injection E as <-. unfold acq_find. destruct (tree s i) as [o|] eqn:Ti; cbn [fst].
    + destruct (own s o =? u); cbn [fst].
      * apply add_ref_inv; [exact V|]. destruct (I i o Ti) as [Q|(t' & Q)]; [exact Q|]. exfalso. apply A. exists t'. rewrite Q. exact (proj2 (T i o Ti)).
      * constructor; cbn; auto. destruct (T i o Ti) as [-> _]. rewrite U. reflexivity.
    + cbn in A. rewrite inside_iff in A. assert (W2 : forall t', t' <> t -> wino (set_pc s t (Missing i u)) t' = wino s t') by (intros t' X; unfold wino; cbn; rewrite fupd_other by exact X; reflexivity).
      assert (W3 : wino (set_pc s t (Missing i u)) t = Some i) by (unfold wino; cbn; rewrite fupd_same; reflexivity).
      constructor; cbn [set_pc tree own ino refs live next held touched pc]; auto.
      * intros j o E. destruct (I j o E) as [Q|(t' & Q)]; [auto|]. right. exists t'. rewrite fupd_other; [exact Q|congruence].
      * intros t' j v E. fu; [injection E as -> ->; exact Ti|eauto].
      * intros t' o E. fu; [discriminate|eauto].
      * intros t' o E. fu; [discriminate|eauto].
      * intros t1 t2 j E1 E2. destruct (Z.eq_dec t1 t) as [->|X1]; destruct (Z.eq_dec t2 t) as [->|X2]; auto.
        -- rewrite W3 in E1. injection E1 as <-. rewrite W2 in E2 by exact X2. exfalso. apply A. eauto.
        -- rewrite W3 in E2. injection E2 as <-. rewrite W2 in E1 by exact X1. exfalso. apply A. eauto.
        -- rewrite W2 in E1 by exact X1. rewrite W2 in E2 by exact X2. eauto.
  - destruct (pc s t) as [|i u|x|x] eqn:P; try discriminate. injection E as <-. unfold acq_alloc. destruct m; cbn [fst].
    + pose proof (M t i u P) as Ti. assert (F : forall o, live s o = true -> o <> next s) by (intros o X ->; specialize (L _ X); lia).
      assert (FT : forall j o, tree s j = Some o -> o <> next s) by (intros j o X; apply F; apply (T j o X)).
      assert (FH : forall o, 0 < held s o -> o <> next s) by (intros o X; apply F; apply (H o); exact X).
      constructor; cbn [set_pc tree own ino refs live next held touched pc]; auto.
      * intros j o E. destruct (T j o E) as [a b]. rewrite !fupd_other by eauto. auto.
      * intros o E. fu; [lia|]. specialize (L o E). lia.
      * intros o. destruct (H o) as [H0 Ho]. split; [exact H0|]. intros X. rewrite !fupd_other by eauto. auto.
      * intros j o E. destruct (I j o E) as [Q|(t' & Q)]; [auto|]. right. exists t'. rewrite fupd_other; [exact Q|congruence].
      * intros t' j v E. fu; [discriminate|eauto].
      * intros t' o E. fu; try congruence.
        -- rewrite Ti. assert (held s (next s) = 0) by (destruct (H (next s)) as [H0 _]; destruct (Z.eq_dec (held s (next s)) 0) as [X|X]; [exact X|]; exfalso; apply (FH (next s)); [lia|reflexivity]). auto.
        -- exfalso. destruct (Md t' (next s) E) as [X _]. apply (F _ X eq_refl).
        -- eauto.
      * intros t' o E. fu; try congruence.
        -- exfalso. destruct (La t' (next s) E) as [X _]. apply (F _ X eq_refl).
        -- eauto.
      * assert (W4 : forall t', wino (set_pc (St (tree s) (fupd (own s) (next s) u) (fupd (ino s) (next s) i) (fupd (refs s) (next s) 1) (fupd (live s) (next s) true) (next s + 1) (pc s) (held s) (touched s)) t (Made (next s))) t' = wino s t').
        { intros t'. unfold wino. cbn. destruct (Z.eq_dec t' t) as [->|X]; [rewrite fupd_same, P, fupd_same; reflexivity|]. rewrite fupd_other by exact X. destruct (pc s t') as [| |o|o] eqn:Q; auto; f_equal; apply fupd_other; apply F; [apply (Md t' o Q)|apply (La t' o Q)]. }
        intros t1 t2 j. rewrite !W4. apply W.
    + constructor; cbn [set_pc tree own ino refs live next held touched pc]; auto.
      * intros j o E. destruct (I j o E) as [Q|(t' & Q)]; [auto|]. right. exists t'. rewrite fupd_other; [exact Q|congruence].
      * intros t' j v E. fu; [discriminate|eauto].
      * intros t' o E. fu; [discriminate|eauto].
      * intros t' o E. fu; [discriminate|eauto].
      * assert (W4 : forall t' j, wino (set_pc s t Idle) t' = Some j -> wino s t' = Some j) by (intros t' j; unfold wino; cbn; fu; [discriminate|auto]).
        intros t1 t2 j E1 E2. eauto.
  - destruct (pc s t) as [|i u|o|x] eqn:P; try discriminate. injection E as <-. unfold acq_insert. destruct (Md t o P) as (A1 & A2 & A3 & A4). rewrite A2. cbn [fst]. rewrite A1.
    assert (No : forall j, tree s j <> Some o) by (intros j X; destruct (T j o X) as [_ Y]; congruence).
    constructor; cbn [set_pc tree own ino refs live next held touched pc].
    + intros j x E. fu; [injection E as <-; auto|eauto].
    + exact L.
    + intros x. destruct (H x) as [H0 Hx]. split; [fu; lia|]. intros X. destruct (Z.eq_dec x o) as [->|Y].
      * rewrite !fupd_same. split; [exact A1|]. split; [lia|reflexivity].
      * rewrite fupd_other in X by exact Y. rewrite (fupd_other (held s)) by exact Y. destruct (Hx X) as (B1 & B2 & B3). split; [exact B1|]. split; [exact B2|]. rewrite fupd_other; [exact B3|congruence].
    + intros j x E. destruct (Z.eq_dec j (ino s o)) as [->|Y].
      * rewrite fupd_same in E. injection E as <-. left. rewrite fupd_same. lia.
      * rewrite fupd_other in E by exact Y. destruct (I j x E) as [Q|(t' & Q)]; [left; fu; lia|]. right. exists t'. rewrite fupd_other; [exact Q|congruence].
    + intros t' j v E. fu; try discriminate; eauto. exfalso. assert (t' = t); [|congruence]. apply (W t' t (ino s o)); unfold wino; [rewrite E|rewrite P]; reflexivity.
    + intros t' x E. destruct (Z.eq_dec t' t) as [->|Y]; [rewrite fupd_same in E; discriminate|]. rewrite fupd_other in E by exact Y. destruct (Md t' x E) as (B1 & B2 & B3 & B4).
      assert (X : ino s x <> ino s o) by (intros X; apply Y; apply (W t' t (ino s o)); unfold wino; [rewrite E, X|rewrite P]; reflexivity). assert (x <> o) by congruence. rewrite !fupd_other by auto. auto.
    + intros t' x E. destruct (Z.eq_dec t' t) as [->|Y]; [rewrite fupd_same in E; discriminate|]. rewrite fupd_other in E by exact Y. destruct (La t' x E) as (B1 & B2 & B3 & B4).
      assert (X : ino s x <> ino s o) by congruence. assert (x <> o) by congruence. rewrite !fupd_other by auto. auto.
    + assert (W4 : forall t' j, wino (set_pc (St (fupd (tree s) (ino s o) (Some o)) (own s) (ino s) (refs s) (live s) (next s) (pc s) (fupd (held s) o (held s o + 1)) (touched s || negb true)) t Idle) t' = Some j -> wino s t' = Some j) by (intros t' j; unfold wino; cbn; fu; [discriminate|auto]).
      intros t1 t2 j E1 E2. eauto.
    + rewrite U. reflexivity.
  - destruct (0 <? held s o) eqn:P; [|discriminate]. injection E as <-. apply add_ref_inv; [exact V|lia].
  - destruct (pc s t) eqn:P; try discriminate. destruct (0 <? held s o) eqn:Q; [|discriminate]. injection E as <-. cbn in A. rewrite inside_iff in A. destruct (H o) as [_ Ho]. destruct (Ho ltac:(lia)) as (A1 & A2 & A3). unfold rel_dec. cbn [refs]. rewrite fupd_same, A1.
    destruct (0 <? refs s o - 1) eqn:R.
    + constructor; cbn [set_pc tree own ino refs live next held touched pc]; auto.
      * intros x. destruct (H x) as [H0 Hx]. fu; [split; [lia|]; intros _; split; [exact A1|]; split; [lia|exact A3]|split; assumption].
      * intros j x E. destruct (I j x E) as [Y|Y]; [left; fu; lia|right; exact Y].
      * intros t' x E. destruct (Md t' x E) as (B1 & B2 & B3 & B4). fu; [lia|auto].
      * intros t' x E. destruct (La t' x E) as (B1 & B2 & B3 & B4). fu; [lia|auto].
      * rewrite U. reflexivity.
    + assert (W2 : forall t', t' <> t -> forall q w e r z, wino (set_pc (St (tree s) (own s) (ino s) q (live s) w (pc s) e r) t z) t' = wino s t') by (intros t' X q w e r z; unfold wino; cbn; rewrite fupd_other by exact X; reflexivity).
      constructor; cbn [set_pc tree own ino refs live next held touched pc]; auto.
      * intros x. destruct (H x) as [H0 Hx]. fu; [split; [lia|]; intros; lia|split; assumption].
      * intros j x E. destruct (Z.eq_dec x o) as [->|Y]; [right; exists t; apply fupd_same|]. rewrite (fupd_other (held s)) by exact Y. destruct (I j x E) as [Z0|(t' & Z0)]; [left; exact Z0|]. right. exists t'. rewrite fupd_other; [exact Z0|congruence].
      * intros t' j v E. fu; [discriminate|eauto].
      * intros t' x E. destruct (Z.eq_dec t' t) as [->|Y]; [rewrite fupd_same in E; discriminate|]. rewrite fupd_other in E by exact Y. destruct (Md t' x E) as (B1 & B2 & B3 & B4). assert (x <> o) by congruence. rewrite !fupd_other by auto. auto.
      * intros t' x E. destruct (Z.eq_dec t' t) as [->|Y].
        -- rewrite fupd_same in E. injection E as <-. rewrite !fupd_same. split; [exact A1|]. split; [exact A3|]. lia.
        -- rewrite fupd_other in E by exact Y. destruct (La t' x E) as (B1 & B2 & B3 & B4). assert (x <> o) by (intros ->; lia). rewrite !fupd_other by auto. auto.
      * intros t1 t2 j E1 E2. destruct (Z.eq_dec t1 t) as [->|X1]; destruct (Z.eq_dec t2 t) as [->|X2]; auto.
        -- rewrite W2 in E2 by exact X2. unfold wino in E1. cbn in E1. rewrite fupd_same in E1. injection E1 as <-. exfalso. apply A. eauto.
        -- rewrite W2 in E1 by exact X1. unfold wino in E2. cbn in E2. rewrite fupd_same in E2. injection E2 as <-. exfalso. apply A. eauto.
        -- rewrite W2 in E1 by exact X1. rewrite W2 in E2 by exact X2. eauto.
      * rewrite U. reflexivity.
  - destruct (pc s t) as [|i u|x|o] eqn:P; try discriminate. injection E as <-. unfold rel_remove. destruct (La t o P) as (A1 & A2 & A3 & A4). rewrite A1.
    constructor; cbn [set_pc tree own ino refs live next held touched pc].
    + intros j x E. destruct (Z.eq_dec j (ino s o)) as [->|Y]; [rewrite fupd_same in E; discriminate|]. rewrite fupd_other in E by exact Y. destruct (T j x E) as [B1 B2]. rewrite fupd_other; [auto|congruence].
    + intros x E. fu; [discriminate|auto].
    + intros x. destruct (H x) as [H0 Hx]. split; [exact H0|]. intros X. destruct (Hx X) as (B1 & B2 & B3). assert (x <> o) by (intros ->; lia). rewrite (fupd_other (live s)) by auto. split; [exact B1|]. split; [exact B2|]. rewrite fupd_other; [exact B3|]. intros Y. rewrite Y, A2 in B3. congruence.
    + intros j x E. destruct (Z.eq_dec j (ino s o)) as [->|Y]; [rewrite fupd_same in E; discriminate|]. rewrite fupd_other in E by exact Y. destruct (I j x E) as [Q|(t' & Q)]; [auto|]. right. exists t'. rewrite fupd_other; [exact Q|]. intros ->. rewrite P in Q. injection Q as <-. destruct (T j o E). congruence.
    + intros t' j v E. fu; try discriminate; eauto.
    + intros t' x E. destruct (Z.eq_dec t' t) as [->|Y]; [rewrite fupd_same in E; discriminate|]. rewrite fupd_other in E by exact Y. destruct (Md t' x E) as (B1 & B2 & B3 & B4). assert (ino s x <> ino s o) by congruence. assert (x <> o) by congruence. rewrite !fupd_other by auto. auto.
    + intros t' x E. destruct (Z.eq_dec t' t) as [->|Y]; [rewrite fupd_same in E; discriminate|]. rewrite fupd_other in E by exact Y. destruct (La t' x E) as (B1 & B2 & B3 & B4).
      assert (X : ino s x <> ino s o) by (intros X; apply Y; apply (W t' t (ino s o)); unfold wino; [rewrite E, X|rewrite P]; reflexivity). assert (x <> o) by congruence. rewrite !fupd_other by auto. auto.
    + assert (W4 : forall t' j, wino (set_pc (St (fupd (tree s) (ino s o) None) (own s) (ino s) (refs s) (fupd (live s) o false) (next s) (pc s) (held s) (touched s || negb true)) t Idle) t' = Some j -> wino s t' = Some j) by (intros t' j; unfold wino; cbn; fu; [discriminate|auto]).
      intros t1 t2 j E1 E2. eauto.
    + rewrite U. reflexivity.
Qed.
Lemma reach_inv s : reach_alone s -> inv s.
Proof. induction 1 as [|s a s' R IH A E]; [apply inv_init|apply (step_inv s a s' IH A E)]. Qed.

Lemma one_owner s : reach_alone s ->
  (forall o1 o2, 0 < held s o1 -> 0 < held s o2 -> ino s o1 = ino s o2 -> o1 = o2) /\ ~ two_owners s.
Proof.
  intros R. apply reach_inv in R. assert (G : forall o1 o2, 0 < held s o1 -> 0 < held s o2 -> ino s o1 = ino s o2 -> o1 = o2).
  { intros o1 o2 H1 H2 E. destruct (Iheld s R o1) as [_ A]. destruct (Iheld s R o2) as [_ B]. destruct (A H1) as (_ & _ & X). destruct (B H2) as (_ & _ & Y). congruence. }
  split; [exact G|]. intros (o1 & o2 & H1 & H2 & E & X). apply X. rewrite (G o1 o2 H1 H2 E). reflexivity.
Qed.
Lemma counted s : reach_alone s -> touched s = false /\ forall o, 0 < held s o -> live s o = true /\ refs s o = held s o /\ tree s (ino s o) = Some o.
Proof. intros R. apply reach_inv in R. split; [apply (Iuaf s R)|]. intros o. apply (Iheld s R o). Qed.
Lemma disappears s i : reach_alone s -> ~ inside s i -> (tree s i = None <-> forall o, ino s o = i -> held s o = 0) /\ (forall o, live s o = true -> ino s o = i -> 0 < held s o \/ tree s i <> Some o).
Proof.
  intros R N. apply reach_inv in R. assert (G : forall o, tree s i = Some o -> 0 < held s o). { intros o E. destruct (Iin s R i o E) as [Q|(t & Q)]; [exact Q|]. exfalso. apply N. exists t. rewrite Q. apply (Itree s R i o E). }
  split.
  - split.
    + intros E o Io. destruct (Iheld s R o) as [H0 Ho]. destruct (Z.eq_dec (held s o) 0) as [X|X]; [exact X|]. destruct (Ho ltac:(lia)) as (_ & _ & Y). congruence.
    + intros H. destruct (tree s i) as [o|] eqn:E; [|reflexivity]. specialize (G o eq_refl). rewrite (H o) in G; [lia|]. apply (Itree s R i o E).
  - intros o L Io. destruct (Z.eq_dec (held s o) 0) as [X|X]; [right; intros Y; specialize (G o Y); lia|left; destruct (Iheld s R o); lia].
Qed.
(** whole calls *)
Lemma acquire_ok s t i u mem : reach_alone s -> pc s t = Idle -> ~ inside s i ->
  let r := acquire s t i u mem in
  reach_alone (fst r) /\ pc (fst r) t = Idle /\
  match snd r with
  | Got o => ino (fst r) o = i /\ own (fst r) o = u /\ held (fst r) o = held s o + 1
  | Busy => exists o, ino s o = i /\ 0 < held s o /\ own s o <> u
  | NoMem => mem = false
  | More => False
  end /\
  ((exists o, ino s o = i /\ 0 < held s o /\ own s o <> u) <-> snd r = Busy).
Proof.
  intros R P N. cbv zeta. pose proof (reach_inv s R) as V. assert (A : reach_alone (fst (acq_find s t i u))).
  { apply (AS s (Find t i u)); [exact R|exact N|]. cbn. rewrite P. reflexivity. }
  assert (G : forall o, tree s i = Some o -> 0 < held s o /\ ino s o = i). { intros o E. split; [|apply (Itree s V i o E)]. destruct (Iin s V i o E) as [Q|(t' & Q)]; [exact Q|]. exfalso. apply N. exists t'. rewrite Q. apply (Itree s V i o E). }
  unfold acquire. unfold acq_find in *. destruct (tree s i) as [o|] eqn:Ti.
  - destruct (G o eq_refl) as [G1 G2]. destruct (own s o =? u) eqn:Eo; cbn [fst snd] in *.
    + split; [exact A|]. split; [exact P|]. cbn. rewrite fupd_same. split; [split; [exact G2|]; split; [lia|reflexivity]|]. split; [|discriminate]. intros (o' & X1 & X2 & X3). exfalso. destruct (one_owner s R) as [U _]. apply X3. rewrite <- (U o o'); [lia|exact G1|exact X2|congruence].
    + split; [exact A|]. split; [exact P|]. assert (X : exists o0, ino s o0 = i /\ 0 < held s o0 /\ own s o0 <> u) by (exists o; split; [exact G2|]; split; [exact G1|lia]). split; [exact X|]. split; auto.
  - cbn [fst snd] in A. set (s1 := set_pc s t (Missing i u)) in *. assert (P1 : pc s1 t = Missing i u) by (cbn; apply fupd_same).
    assert (NB : forall (r : outcome), r <> Busy -> ((exists o0, ino s o0 = i /\ 0 < held s o0 /\ own s o0 <> u) <-> r = Busy)).
    { intros r Nr. split; [|congruence]. intros (o0 & X1 & X2 & X3). exfalso. destruct (Iheld s V o0) as [_ Ho]. destruct (Ho X2) as (_ & _ & Y). congruence. }
    assert (A2 : reach_alone (fst (acq_alloc s1 t i u mem))) by (apply (AS s1 (Alloc t mem)); [exact A|exact Logic.I|]; cbn -[s1]; rewrite P1; reflexivity).
    unfold acq_alloc in *. destruct mem; cbn [fst snd] in *.
    + set (s2 := set_pc _ t (Made (next s1))) in *. assert (P2 : pc s2 t = Made (next s1)) by (cbn; apply fupd_same). rewrite P2.
      split; [apply (AS s2 (Insert t)); [exact A2|exact Logic.I|]; cbn -[s2]; rewrite P2; reflexivity|]. split; [cbn; apply fupd_same|]. split; [|apply NB; discriminate].
      cbn. rewrite !fupd_same. auto.
    + split; [exact A2|]. split; [cbn; apply fupd_same|]. split; [reflexivity|apply NB; discriminate].
Qed.
Lemma release_ok s t o : reach_alone s -> pc s t = Idle -> 0 < held s o -> ~ inside s (ino s o) ->
  let s' := release s t o in
  reach_alone s' /\ pc s' t = Idle /\ held s' o = held s o - 1 /\ (held s o = 1 -> tree s' (ino s o) = None /\ live s' o = false) /\ (1 < held s o -> tree s' (ino s o) = Some o).
Proof.
  intros R P H N. cbv zeta. pose proof (reach_inv s R) as V. destruct (Iheld s V o) as [_ Ho]. destruct (Ho H) as (A1 & A2 & A3). unfold release.
  assert (A : reach_alone (rel_dec s t o)) by (apply (AS s (Dec t o)); [exact R|exact N|]; cbn; rewrite P; replace (0 <? held s o) with true by lia; reflexivity).
  unfold rel_dec in *. cbn [refs] in *. rewrite fupd_same in *. destruct (0 <? refs s o - 1) eqn:E.
  - cbn [pc]. rewrite P. split; [exact A|]. cbn. rewrite fupd_same. split; [exact P|]. split; [reflexivity|]. split; [lia|]. intros _. exact A3.
  - set (s1 := set_pc _ t (Last o)) in *. assert (P1 : pc s1 t = Last o) by (cbn; apply fupd_same). rewrite P1. split; [apply (AS s1 (Remove t)); [exact A|exact Logic.I|]; cbn -[s1]; rewrite P1; reflexivity|].
    cbn. rewrite !fupd_same. split; [reflexivity|]. split; [reflexivity|]. split; [auto|]. lia.
Qed.

(** races *)
Definition runs (acts : list action) : option st := fold_left (fun o a => match o with Some s => step s a | None => None end) acts (Some init).
Lemma runs_reach acts s : runs acts = Some s -> reach s.
Proof.
  unfold runs. assert (G : forall acts s0 s, reach s0 -> fold_left (fun o a => match o with Some s => step s a | None => None end) acts (Some s0) = Some s -> reach s).
  { induction acts0 as [|a l IH]; intros s0 s1 R E; cbn in E; [injection E as <-; exact R|]. destruct (step s0 a) as [s2|] eqn:Q; [apply (IH s2 s1 (RS s0 a s2 R Q) E)|]. exfalso. clear - E. induction l; cbn in E; [discriminate|auto]. }
  apply G. constructor.
Qed.
Lemma race_two_owners : exists s, reach s /\ two_owners s.
Proof.
  destruct (runs [Find 1 5 1; Find 2 5 2; Alloc 1 true; Insert 1; Alloc 2 true; Insert 2]) as [s|] eqn:E; [|vm_compute in E; discriminate]. exists s. split; [apply (runs_reach _ _ E)|]. vm_compute in E. injection E as <-. exists 1, 2. vm_compute. repeat split; try reflexivity; discriminate.
Qed.
Lemma race_lock_lost : exists s o, reach s /\ 0 < held s o /\ tree s (ino s o) = None /\ forall t, pc s t = Idle.
Proof.
  destruct (runs [Find 1 5 1; Find 2 5 1; Alloc 1 true; Insert 1; Alloc 2 true; Insert 2; Dec 2 2; Remove 2]) as [s|] eqn:E; [|vm_compute in E; discriminate]. exists s, 1. split; [apply (runs_reach _ _ E)|]. unfold runs in E. cbn in E. injection E as <-. cbn. split; [reflexivity|]. split; [reflexivity|]. intros t. destruct t as [|[p|[p|p|]|]|p]; vm_compute; reflexivity.
Qed.
Lemma race_use_after_free : exists s o, reach s /\ 0 < held s o /\ live s o = false.
Proof.
  destruct (runs [Find 1 5 1; Alloc 1 true; Insert 1; Dec 1 1; Find 2 5 1; Remove 1]) as [s|] eqn:E; [|vm_compute in E; discriminate]. exists s, 1. split; [apply (runs_reach _ _ E)|]. vm_compute in E. injection E as <-. vm_compute. auto.
Qed.
(** references dropped on error paths *)
Lemma fresh_acquire s t i u v : u <> v -> reach_alone s -> (forall t, pc s t = Idle) -> (forall o, ino s o = i -> held s o = 0) ->
  exists s1 o, acquire s t i u true = (s1, Got o) /\ ino s1 o = i /\ held s1 o = 1 /\ snd (acquire s1 t i v true) = Busy.
Proof.
  intros UV R P H. assert (N : ~ inside s i) by (intros [t' X]; rewrite P in X; exact X). pose proof (acquire_ok s t i u true R (P t) N) as A. cbv zeta in A. 
  destruct (acquire s t i u true) as [s1 r] eqn:E. cbn [fst snd] in A. destruct A as (A1 & A2 & A3 & A4). destruct r as [o| | |].
  - exists s1, o. split; [reflexivity|]. destruct A3 as (B1 & B2 & B3). split; [exact B1|].
    assert (Ho : held s o = 0).
    { destruct (tree s i) as [o'|] eqn:Ti; [exfalso|].
      - pose proof (reach_inv s R) as V. destruct (Iin s V i o' Ti) as [Q|(t' & Q)]; [|rewrite P in Q; discriminate]. rewrite (H o') in Q; [lia|apply (Itree s V i o' Ti)].
      - unfold acquire, acq_find in E. rewrite Ti in E. cbn in E. rewrite fupd_same in E. unfold acq_insert in E. cbn in E. rewrite fupd_same in E. injection E as _ <-. pose proof (reach_inv s R) as V. destruct (Iheld s V (next s)) as [H0 Hx]. destruct (Z.eq_dec (held s (next s)) 0) as [X|X]; [exact X|]. destruct (Hx ltac:(lia)) as [L _]. apply (Ilive s V) in L. lia. }
    split; [lia|]. assert (Pc : forall t', pc s1 t' = Idle). { intros t'. destruct (Z.eq_dec t' t) as [->|X]; [exact A2|]. pose proof (f_equal (fun p => pc (fst p) t') E) as F. cbn [fst] in F. rewrite <- F. unfold acquire, acq_find. destruct (tree s i) as [o'|]; [destruct (own s o' =? u); cbn; apply P|]. cbn. rewrite fupd_same. unfold acq_insert. cbn. rewrite !fupd_other by exact X. apply P. }
    assert (N1 : ~ inside s1 i) by (intros [t' X]; rewrite Pc in X; exact X).
    apply (acquire_ok s1 t i v true A1 A2 N1). exists o. split; [exact B1|]. split; [lia|]. rewrite B2. exact UV.
  - exfalso. destruct A3 as (o & X1 & X2 & _). rewrite (H o X1) in X2. lia.
  - discriminate.
  - contradiction.
Qed.
Lemma exec_leak s t i rest : reach_alone s -> (forall t, pc s t = Idle) -> (forall o, ino s o = i -> held s o = 0) ->
  let (s', r) := load_elf s t i false rest in r = None /\ exists o, ino s' o = i /\ held s' o = 1 /\ snd (acquire s' t i VFS true) = Busy.
Proof.
  intros R P H. destruct (fresh_acquire s t i PROCMGNT VFS ltac:(discriminate) R P H) as (s1 & o & E & F). unfold load_elf. rewrite E. split; [reflexivity|]. exists o. exact F.
Qed.
Lemma create_leak s t i opened : reach_alone s -> (forall t, pc s t = Idle) -> (forall o, ino s o = i -> held s o = 0) ->
  let (s', r) := create_file s t i false opened in r = None /\ exists o, ino s' o = i /\ held s' o = 1 /\ snd (acquire s' t i PROCMGNT true) = Busy.
Proof.
  intros R P H. destruct (fresh_acquire s t i VFS PROCMGNT ltac:(discriminate) R P H) as (s1 & o & E & F). unfold create_file. rewrite E. split; [reflexivity|]. exists o. exact F.
Qed.
