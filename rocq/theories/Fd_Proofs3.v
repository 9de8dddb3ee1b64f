From Coq Require Import ZArith List Bool Lia Sorted.
From Verif Require Import Lib Fd_Model Fd_Spec Fd_Proofs Fd_Proofs2.
Import ListNotations.
Open Scope Z_scope.

(* ---------- fork: the table as it will be, the child's entries only those done *)
Definition wt (s : st) (t : Z -> Z -> option Z) : st :=
  St (hs s) t (pr s) (ok s) (rf s) (rd s) (wr s) (fr s).

Lemma added_wt c s t y x : added c (wt s t) y x = wt (added c s y x) t.
Proof. unfold added, wt, add_end. cbn. destruct (ok s (h_o x)), (wronly x); reflexivity. Qed.
Lemma closed_wt c s t h x : closed c (wt s t) h x = wt (closed c s h x) t.
Proof.
  unfold closed, wt, add_end. cbn. destruct (ok s (h_o x)), (wronly x); cbn; try reflexivity;
    destruct (_ =? 0); reflexivity.
Qed.
Lemma close_wt c s t h : close c (wt s t) h = bnd s' <- close c s h; Ok (wt s' t).
Proof.
  unfold close, deref. cbn [wt hs]. destruct (hs s h) as [x | ]; [ | reflexivity ]. cbn [bind].
  unfold wt, add_end, get_end. cbn.
  destruct (ok s (h_o x)), (wronly x); cbn; rewrite ?fupd_same;
    repeat (match goal with |- context[?a =? 0] => destruct (a =? 0)
                       | |- context[?a <=? 0] => destruct (a <=? 0) end; cbn; rewrite ?fupd_same);
    reflexivity.
Qed.

Lemma close_real c s t q j h : inv c (wt s t) -> t q j = Some h ->
  exists x, hs s h = Some x /\ close c s h = Ok (closed c s h x).
Proof.
  intros V T. destruct (close_closed c (wt s t) q j h V T) as (x & Hx & E). exists x. split; [ exact Hx | ].
  rewrite close_wt, closed_wt in E. unfold close, deref in *. cbn [wt hs] in Hx. rewrite Hx in *. cbn [bind] in *.
  match goal with |- ?e = _ => destruct e eqn:EE end; cbn [bind] in E; try discriminate.
  injection E as E1. f_equal.
  unfold close, deref in EE. clear -EE. unfold closed.
  revert EE. cbn zeta. destruct (_ && (get_end s x <=? 0)); [ discriminate | ].
  match goal with |- context[if ?b then Afail else _] => destruct b end; [ discriminate | ].
  match goal with |- context[if ?b then Afail else _] => destruct b end; [ discriminate | ].
  intro EE. injection EE as <-. reflexivity.
Qed.

Lemma undo_ok c q l : forall s t, NoDup l -> inv c (wt s t) -> pipes s ->
  (forall j, In j l -> tb s q j = t q j /\ t q j <> None) ->
  exists s' t', fork_undo c s q l = Ok s' /\ inv c (wt s' t') /\ pipes s' /\ pr s' = pr s /\ tb s' = tb s /\
    (forall a i, a <> q -> t' a i = t a i /\ ent (wt s' t') a i = ent (wt s t) a i) /\
    (forall j, In j l -> t' q j = None) /\ (forall j, ~ In j l -> t' q j = t q j).
Proof.
  induction l as [ | j l IH ]; intros s t D V PP K.
  - exists s, t. split; [ reflexivity | ]. repeat (split; auto). intros j [].
  - inversion D as [ | ? ? NI D' ]; subst. cbn [fork_undo].
    destruct (K j (or_introl eq_refl)) as (K1 & K2). rewrite K1.
    destruct (t q j) as [h | ] eqn:T; [ | congruence ].
    destruct (close_real c s t q j h V T) as (x & Hx & ->). cbn [bind].
    set (t1 := fupd t q (fupd (t q) j None)).
    assert (V1 : inv c (wt (closed c s h x) t1)).
    { assert (Q := del_inv c (wt s t) q j h x V T Hx). rewrite closed_wt in Q. exact Q. }
    assert (P1 : pipes (closed c s h x)).
    { assert (Q := del_pipes c (wt s t) q j h x V Hx PP). rewrite closed_wt in Q. exact Q. }
    destruct (del_ent c (wt s t) q j h x V T) as (E1 & E2). rewrite closed_wt in E1, E2.
    change (set_tb (wt (closed c s h x) t) q j None) with (wt (closed c s h x) t1) in E1, E2.
    destruct (IH (closed c s h x) t1 D' V1 P1) as (s' & t' & J1 & J2 & J3 & J4 & J5 & J6 & J7 & J8).
    { intros i HI. rewrite closed_tb. destruct (K i (or_intror HI)) as (A1 & A2). unfold t1.
      rewrite fupd2, Z.eqb_refl. cbn [andb].
      replace (i =? j) with false by (symmetry; apply Z.eqb_neq; intros ->; tauto). auto. }
    exists s', t'. split; [ exact J1 | split; [ exact J2 | split; [ exact J3 | ] ] ].
    split; [ rewrite J4; apply closed_pr | split; [ rewrite J5; apply closed_tb | ] ].
    split; [ | split ].
    + intros a i NA. destruct (J6 a i NA) as (A1 & A2). split.
      * rewrite A1. unfold t1. rewrite fupd2. replace (a =? q) with false by (symmetry; apply Z.eqb_neq; exact NA).
        reflexivity.
      * rewrite A2. apply E1. tauto.
    + intros i [<- | HI]; [ | apply J7; exact HI ]. rewrite J8 by exact NI.
      unfold t1. rewrite fupd2, !Z.eqb_refl. reflexivity.
    + intros i HI. cbn [In] in HI. rewrite J8 by tauto. unfold t1. rewrite fupd2, Z.eqb_refl. cbn [andb].
      replace (i =? j) with false by (symmetry; apply Z.eqb_neq; intros ->; tauto). reflexivity.
Qed.

Definition clr (e : option hnd) : option hnd := option_map dupped e.

Lemma fork_dup_ok c al p q l : al_ok al -> p <> q -> forall d s t,
  StronglySorted Z.lt l -> NoDup d -> (forall i, In i l -> ~ In i d /\ 0 <= i < maxh c) ->
  pr s q = true -> inv c (wt s t) -> pipes s ->
  (forall a i, a <> q -> tb s a i = t a i) ->
  (forall i, In i l -> t q i = None /\ tb s q i = t p i) ->
  (forall i, ~ In i l -> tb s q i = t q i) ->
  ((forall i, In i l -> t p i <> None -> forall j, In j d -> t q j <> None) /\
   (forall i j, In i l -> In j l -> i < j -> t p j <> None -> t p i <> None) \/
   forall s0, al s0 <> None) ->
  exists s' r t', fork_dup c al s q l d = Ok (s', r) /\ inv c (wt s' t') /\ pipes s' /\ pr s' = pr s /\
    (forall a i, a <> q -> tb s' a i = t a i /\ t' a i = t a i /\ ent (wt s' t') a i = ent (wt s t) a i) /\
    (if r : bool then
       (forall i, tb s' q i = t' q i) /\
       (forall i, In i l -> ent (wt s' t') q i = clr (ent (wt s t) p i)) /\
       (forall i, ~ In i l -> ent (wt s' t') q i = ent (wt s t) q i)
     else (exists s0, al s0 = None) /\
       (forall i, In i l \/ In i d -> t' q i = None) /\ (forall i, ~ In i l -> ~ In i d -> t' q i = t q i)).
Proof.
  intros AL NPQ. induction l as [ | i l IH ]; intros d s t SO ND RL PQ V PP HA HB HC HD.
  - exists s, true, t. split; [ reflexivity | ]. split; [ exact V | ]. split; [ exact PP | ].
    split; [ reflexivity | ]. split; [ intros; auto | ]. split; [ intros j; apply HC; tauto | ].
    split; [ intros j [] | reflexivity ].
  - inversion SO as [ | ? ? SO' FO ]; subst. rewrite Forall_forall in FO.
    assert (NI : ~ In i l) by (intro HI; specialize (FO _ HI); lia).
    cbn [fork_dup]. destruct (HB i (or_introl eq_refl)) as (B1 & B2). rewrite B2.
    destruct (t p i) as [h | ] eqn:TP.
    + destruct (ent_some c (wt s t) p i h V TP) as (x & Hx & Ex). cbn [wt hs] in Hx.
      rewrite (dup_eq c al s h x Hx). fold (dupped x). destruct (al s) as [y | ] eqn:EA; cbn [bind].
      * assert (AY := AL s y EA). set (t1 := fupd t q (fupd (t q) i (Some y))).
        set (s1 := set_tb (added c s y (dupped x)) q i (Some y)).
        assert (EQ : set_tb (added c (wt s t) y (dupped x)) q i (Some y) = wt s1 t1).
        { rewrite added_wt. reflexivity. }
        assert (V1 : inv c (wt s1 t1)).
        { rewrite <- EQ. apply add_inv; auto.
          - apply (RL i). left; reflexivity.
          - exact (v_obj _ _ V h x Hx). }
        assert (P1 : pipes s1).
        { exact (add_pipes c (wt s t) q i y (dupped x) PP) || (unfold s1; apply add_pipes; exact PP). }
        destruct (add_ent c (wt s t) q i y (dupped x) V AY) as (E1 & E2). rewrite EQ in E1, E2.
        assert (T1 : forall a j, t1 a j = if (a =? q) && (j =? i) then Some y else t a j)
          by (intros; unfold t1; apply fupd2).
        assert (TS : forall a j, tb s1 a j = if (a =? q) && (j =? i) then Some y else tb s a j).
        { intros a j. unfold s1. cbn [set_tb tb]. rewrite added_tb. apply fupd2. }
        assert (T1p : forall j, t1 p j = t p j).
        { intro j. rewrite T1. replace (p =? q) with false by (symmetry; apply Z.eqb_neq; exact NPQ). reflexivity. }
        assert (T1q : forall j, j <> i -> t1 q j = t q j).
        { intros j NJ. rewrite T1. replace (j =? i) with false by (symmetry; apply Z.eqb_neq; exact NJ).
          rewrite andb_false_r. reflexivity. }
        assert (T1i : t1 q i = Some y) by (rewrite T1, !Z.eqb_refl; reflexivity).
        destruct (IH (i :: d) s1 t1) as (s' & r & t' & J1 & J2 & J3 & J4 & J5 & J6).
        -- exact SO'.
        -- constructor; [ apply (RL i); left; reflexivity | exact ND ].
        -- intros j HJ. split; [ | apply (RL j); right; exact HJ ].
           intros [<- | Q]; [ tauto | ]. exact (proj1 (RL j (or_intror HJ)) Q).
        -- unfold s1. cbn [set_tb pr]. rewrite added_pr. exact PQ.
        -- exact V1.
        -- exact P1.
        -- intros a j NA. rewrite TS, T1. replace (a =? q) with false by (symmetry; apply Z.eqb_neq; exact NA).
           cbn [andb]. apply HA; exact NA.
        -- intros j HJ. assert (NJ : j <> i) by (intros ->; tauto).
           destruct (HB j (or_intror HJ)) as (A1 & A2). rewrite T1q by exact NJ. split; [ exact A1 | ].
           rewrite T1p, TS. replace (j =? i) with false by (symmetry; apply Z.eqb_neq; exact NJ).
           rewrite andb_false_r. exact A2.
        -- intros j HJ. rewrite TS, T1. destruct (Z.eqb_spec j i) as [-> | NJ].
           ++ rewrite Z.eqb_refl. reflexivity.
           ++ rewrite andb_false_r. apply HC. intros [<- | Q]; tauto.
        -- destruct HD as [(D1 & D2) | D1]; [ left | right; exact D1 ]. split.
           ++ intros j HJ NJ k [<- | HK]; [ rewrite T1i; congruence | ].
              rewrite T1p in NJ. rewrite T1q; [ apply (D1 j); [ right; exact HJ | exact NJ | exact HK ] | ].
              intros ->. exact (proj1 (RL i (or_introl eq_refl)) HK).
           ++ intros a b HA' HB' LT NB. rewrite T1p in *. apply (D2 a b); auto; right; assumption.
        -- exists s', r, t'. split; [ exact J1 | split; [ exact J2 | split; [ exact J3 | ] ] ].
           split; [ rewrite J4; unfold s1; cbn [set_tb pr]; apply added_pr | ]. split.
           ++ intros a j NA. destruct (J5 a j NA) as (A1 & A2 & A3).
              assert (TA : t1 a j = t a j).
              { rewrite T1. replace (a =? q) with false by (symmetry; apply Z.eqb_neq; exact NA). reflexivity. }
              rewrite TA in *. split; [ exact A1 | split; [ exact A2 | ] ]. rewrite A3. apply E1; tauto.
           ++ destruct r.
              ** destruct J6 as (J6 & J7 & J8). split; [ exact J6 | split ].
                 --- intros j [<- | HJ].
                     +++ rewrite J8 by exact NI. rewrite E2, Ex. reflexivity.
                     +++ rewrite J7 by exact HJ. rewrite E1 by tauto. reflexivity.
                 --- intros j HJ. cbn [In] in HJ. rewrite J8 by tauto. apply E1. right. intros ->. tauto.
              ** destruct J6 as (J6 & J7 & J8). split; [ exact J6 | split ].
                 --- intros j HJ. cbn [In] in HJ. apply J7. cbn [In]. tauto.
                 --- intros j HJ HJ'. cbn [In] in HJ, J8. assert (NJ : j <> i) by (intros ->; tauto).
                     rewrite J8; [ apply T1q; exact NJ | tauto | intros [Q | Q]; [ congruence | tauto ] ].
      * destruct HD as [(D1 & D2) | D1]; [ | destruct (D1 s EA) ].
        destruct (undo_ok c q (rev d) s t) as (s' & t' & J1 & J2 & J3 & J4 & J5 & J6 & J7 & J8).
        -- apply NoDup_rev. exact ND.
        -- exact V.
        -- exact PP.
        -- intros j HJ. apply in_rev in HJ. split.
           ++ apply HC. intros HI. exact (proj1 (RL j HI) HJ).
           ++ apply (D1 i); [ left; reflexivity | congruence | exact HJ ].
        -- rewrite J1. cbn [bind]. exists s', false, t'. split; [ reflexivity | ].
           split; [ exact J2 | split; [ exact J3 | split; [ exact J4 | ] ] ]. split.
           ++ intros a j NA. destruct (J6 a j NA) as (A1 & A2). rewrite J5. split; [ apply HA; exact NA | auto ].
           ++ split; [ exists s; exact EA | split ].
              ** intros j [HJ | HJ].
                 --- rewrite J8; [ apply (HB j HJ) | ]. intro Q. apply in_rev in Q. exact (proj1 (RL j HJ) Q).
                 --- apply J7. apply in_rev in HJ. exact HJ.
              ** intros j _ HJ. apply J8. intro Q. apply in_rev in Q. tauto.
    + assert (HC' : forall j, ~ In j l -> tb s q j = t q j).
      { intros j HJ. destruct (Z.eq_dec j i) as [-> | NJ]; [ congruence | ].
        apply HC. intros [Q | Q]; [ congruence | tauto ]. }
      destruct (IH (i :: d) s t) as (s' & r & t' & J1 & J2 & J3 & J4 & J5 & J6); auto.
      * constructor; [ apply (RL i); left; reflexivity | exact ND ].
      * intros j HJ. split; [ | apply (RL j); right; exact HJ ].
        intros [<- | Q]; [ tauto | ]. exact (proj1 (RL j (or_intror HJ)) Q).
      * intros j HJ. apply HB. right; exact HJ.
      * destruct HD as [(D1 & D2) | D1]; [ left | right; exact D1 ]. split.
        -- intros j HJ NJ. exfalso. apply (D2 i j); auto; [ left; reflexivity | right; exact HJ ].
        -- intros a b HA' HB' LT NB. apply (D2 a b); auto; right; assumption.
      * exists s', r, t'. split; [ exact J1 | split; [ exact J2 | split; [ exact J3 | split; [ exact J4 | ] ] ] ].
        split; [ exact J5 | ]. destruct r.
        -- destruct J6 as (J6 & J7 & J8). split; [ exact J6 | split ].
           ++ intros j [<- | HJ]; [ | apply J7; exact HJ ]. rewrite J8 by exact NI.
              unfold ent. cbn [wt tb]. rewrite B1, TP. reflexivity.
           ++ intros j HJ. cbn [In] in HJ. apply J8. tauto.
        -- destruct J6 as (J6 & J7 & J8). split; [ exact J6 | split ].
           ++ intros j HJ. cbn [In] in HJ. apply J7. cbn [In]. tauto.
           ++ intros j HJ HJ'. cbn [In] in HJ, J8. apply J8; tauto.
Qed.

Lemma fork_ok c al s p q : good c s -> al_ok al -> pr s p = true -> pr s q = false ->
  (dense s p \/ forall s0, al s0 <> None) ->
  exists s' r, fork c al s p q = Ok (s', r) /\ good c s' /\
    (forall a i, a <> q -> ent s' a i = ent s a i) /\
    ((r = q /\ pr s' = fupd (pr s) q true /\ forall i, ent s' q i = clr (ent s p i)) \/
     (r = ENOMEM /\ (exists s0, al s0 = None) /\ (forall a, pr s' a = pr s a) /\ forall i, ent s' q i = None)).
Proof.
  intros (V & PP) AL Pp Pq HD. assert (NPQ : p <> q) by congruence.
  assert (TQ : forall i, tb s q i = None).
  { intro i. destruct (tb s q i) as [h | ] eqn:E; [ | reflexivity ].
    destruct (v_slot _ _ V _ _ _ E). congruence. }
  unfold fork.
  set (s1 := St (hs s) (fupd (tb s) q (tb s p)) (fupd (pr s) q true) (ok s) (rf s) (rd s) (wr s) (fr s)).
  assert (VW : inv c (wt s1 (tb s))).
  { apply (inv_agree c s); [ exact V | repeat split; reflexivity | reflexivity | ].
    intros a i N. cbn [wt s1 pr]. rewrite fupd1. destruct (a =? q); [ reflexivity | ].
    destruct (tb s a i) as [h | ] eqn:E; [ | congruence ]. apply (v_slot _ _ V _ _ _ E). }
  assert (EW : forall a i, ent (wt s1 (tb s)) a i = ent s a i) by reflexivity.
  destruct (fork_dup_ok c al p q (idx (maxh c)) AL NPQ [] s1 (tb s))
    as (s2 & r & t' & K1 & K2 & K3 & K4 & K5 & K6); auto.
  - apply idx_sorted.
  - constructor.
  - intros i HI. split; [ intros [] | apply idx_in; exact HI ].
  - cbn [s1 pr]. apply fupd_same.
  - intros a i NA. cbn [s1 tb]. rewrite fupd_other by exact NA. reflexivity.
  - intros i HI. split; [ apply TQ | ]. cbn [s1 tb]. rewrite fupd_same. reflexivity.
  - intros i HI. cbn [s1 tb]. rewrite fupd_same. rewrite TQ.
    destruct (tb s p i) as [h | ] eqn:E; [ | reflexivity ]. exfalso. apply HI. apply idx_in.
    apply (v_slot _ _ V _ _ _ E).
  - destruct HD as [HD | HD]; [ left | right; exact HD ]. split; [ intros i _ _ j [] | ].
    intros i j HI HJ LT N. apply idx_in in HI. intro N'. apply (HD i j); [ lia | | ].
    + intro Q. apply N. apply (ent_none c s p j V). exact Q.
    + apply (ent_none c s p i V). exact N'.
  - rewrite K1. cbn [bind]. destruct r.
    + destruct K6 as (K6 & K7 & K8). exists s2, q. split; [ reflexivity | ].
      assert (TT : forall a i, tb s2 a i = t' a i).
      { intros a i. destruct (Z.eq_dec a q) as [-> | NA]; [ apply K6 | ].
        destruct (K5 a i NA) as (A1 & A2 & _). congruence. }
      assert (V2 : inv c s2).
      { apply (inv_agree c (wt s2 t')); [ exact K2 | repeat split; reflexivity | exact TT | ].
        intros a i N. destruct (tb (wt s2 t') a i) as [h | ] eqn:E; [ | congruence ].
        apply (v_slot _ _ K2 _ _ _ E). }
      assert (EE : forall a i, ent s2 a i = ent (wt s2 t') a i).
      { intros a i. unfold ent. cbn [wt tb hs]. rewrite TT. reflexivity. }
      split; [ split; assumption | ]. split.
      * intros a i NA. rewrite EE. destruct (K5 a i NA) as (_ & _ & ->). reflexivity.
      * left. split; [ reflexivity | split; [ exact K4 | ] ]. intro i. rewrite EE.
        destruct (in_dec Z.eq_dec i (idx (maxh c))) as [HI | HI].
        -- rewrite K7 by exact HI. reflexivity.
        -- rewrite K8 by exact HI. rewrite EW. rewrite idx_in in HI. rewrite !(ent_out c s _ i V HI). reflexivity.
    + destruct K6 as (K6 & K7 & K8). eexists _, ENOMEM. split; [ reflexivity | ].
      set (s3 := St (hs s2) (fupd (tb s2) q (fun _ => None)) (fupd (pr s2) q false) (ok s2) (rf s2) (rd s2) (wr s2) (fr s2)).
      assert (TT : forall a i, tb s3 a i = t' a i).
      { intros a i. cbn [s3 tb]. destruct (Z.eq_dec a q) as [-> | NA].
        - rewrite fupd_same. destruct (in_dec Z.eq_dec i (idx (maxh c))) as [HI | HI].
          + symmetry. apply K7. left; exact HI.
          + rewrite K8; [ symmetry; apply TQ | exact HI | intros [] ].
        - rewrite fupd_other by exact NA. destruct (K5 a i NA) as (A1 & A2 & _). congruence. }
      assert (TQ' : forall i, t' q i = None).
      { intro i. rewrite <- TT. cbn [s3 tb]. rewrite fupd_same. reflexivity. }
      assert (PRa : forall a, pr s3 a = pr s a).
      { intro a. cbn [s3 pr]. rewrite K4. cbn [s1 pr]. rewrite !fupd1. destruct (Z.eqb_spec a q) as [-> | NA]; congruence. }
      assert (V2 : inv c s3).
      { apply (inv_agree c (wt s2 t')); [ exact K2 | repeat split; reflexivity | exact TT | ].
        intros a i N. destruct (tb (wt s2 t') a i) as [h | ] eqn:E; [ | congruence ].
        assert (NA : a <> q) by (intros ->; cbn [wt tb] in E; rewrite TQ' in E; discriminate).
        destruct (v_slot _ _ K2 _ _ _ E) as (A & _). cbn [wt pr] in A. cbn [s3 pr].
        rewrite fupd_other by exact NA. exact A. }
      assert (EE : forall a i, ent s3 a i = ent (wt s2 t') a i).
      { intros a i. unfold ent. rewrite TT. reflexivity. }
      split; [ split; [ exact V2 | exact K3 ] | ]. split.
      * intros a i NA. rewrite EE. destruct (K5 a i NA) as (_ & _ & ->). reflexivity.
      * right. split; [ reflexivity | split; [ exact K6 | split; [ exact PRa | ] ] ]. intro i. rewrite EE.
        unfold ent. cbn [wt tb]. rewrite TQ'. reflexivity.
Qed.
