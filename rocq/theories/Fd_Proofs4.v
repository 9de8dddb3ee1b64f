From Coq Require Import ZArith List Bool Lia Sorted.
From Verif Require Import Lib Fd_Model Fd_Spec Fd_Proofs Fd_Proofs2 Fd_Proofs3.
Import ListNotations.
Open Scope Z_scope.

(* ---------- pipe2 *)
Lemma kfs_create_eq c al s o fl : ok s o = OPipe ->
  kfs_create c al s o fl =
  match al s with
  | None => (s, None)
  | Some y => (added c s y (Hnd o fl 0 0), Some y)
  end.
Proof.
  intro E. unfold kfs_create. destruct (al s) as [y | ]; [ | reflexivity ].
  unfold added, add_end. cbn. rewrite E. destruct (wronly _); reflexivity.
Qed.

Lemma kfs_destroy_eq c s h x : hs s h = Some x -> 0 < rf s (h_o x) -> 0 < fr s (fs c (h_o x)) ->
  kfs_destroy c s h =
  Ok (St (fupd (hs s) h None) (tb s) (pr s) (ok s) (fupd (rf s) (h_o x) (rf s (h_o x) + -1)) (rd s) (wr s)
         (fupd (fr s) (fs c (h_o x)) (fr s (fs c (h_o x)) + -1))).
Proof.
  intros H R F. unfold kfs_destroy, deref. rewrite H. cbn [bind].
  replace (rf s (h_o x) <=? 0) with false by (symmetry; apply Z.leb_gt; exact R).
  cbn [set_hs add_rf fr]. replace (fr s (fs c (h_o x)) <=? 0) with false by (symmetry; apply Z.leb_gt; exact F).
  reflexivity.
Qed.

Lemma no_handles c s o : inv c s -> ok s o = ONone -> forall h, ~ hp (hs s) (C_o o) h.
Proof.
  intros V E h (x & Hx & Q). unfold C_o in Q. apply Z.eqb_eq in Q. subst o. exact (v_obj _ _ V _ _ Hx E).
Qed.
Lemma rf_zero c s o : inv c s -> ok s o = ONone -> rf s o = 0.
Proof.
  intros V E. destruct (v_rf _ _ V o) as (L & D & M & EL).
  destruct L as [ | h L ]; [ exact EL | ]. exfalso. apply (no_handles c s o V E h). apply M. left; reflexivity.
Qed.

Lemma piped_inv c s o : inv c s -> ok s o = ONone -> inv c (piped s o).
Proof.
  intros V E. assert (NH := no_handles c s o V E). assert (V' := V). destruct V as [v0 v1 v2 v3 v4 v5 v6 v7 v8].
  constructor; cbn [piped hs tb pr Fd_Model.ok rf rd wr fr]; auto.
  - intros h x Hx. rewrite fupd1. destruct (h_o x =? o); [ discriminate | apply (v4 _ _ Hx) ].
  - intro o'. rewrite fupd1. destruct (Z.eqb_spec o' o) as [-> | N]; [ apply cnt_none; exact NH | apply v5 ].
  - intros o' E'. rewrite fupd1 in E'. rewrite fupd1. destruct (Z.eqb_spec o' o) as [Q0 | N]; [ subst o' | apply v6; exact E' ].
    apply cnt_none. intros h (x & Hx & Q). apply (NH h). exists x. split; [ exact Hx | ].
    unfold C_r in Q. apply andb_true_iff in Q. apply Q.
  - intros o' E'. rewrite fupd1 in E'. rewrite fupd1. destruct (Z.eqb_spec o' o) as [Q0 | N]; [ subst o' | apply v7; exact E' ].
    apply cnt_none. intros h (x & Hx & Q). apply (NH h). exists x. split; [ exact Hx | ].
    unfold C_w in Q. apply andb_true_iff in Q. apply Q.
Qed.

Lemma agree_good c s s' : good c s -> agree s s' -> (forall p fd, tb s' p fd = tb s p fd) -> pr s' = pr s ->
  good c s' /\ same_ents s s'.
Proof.
  intros (V & PP) A T P. split; [ split | ].
  - apply (inv_agree c s); auto. intros p fd N. rewrite P. destruct (tb s p fd) as [h | ] eqn:E; [ | congruence ].
    apply (v_slot _ _ V _ _ _ E).
  - intros o E. destruct A as (_ & A2 & A3 & _). rewrite A2 in E. rewrite A3. apply PP; exact E.
  - intros a i. unfold ent. rewrite T. destruct (tb s a i); [ apply A | reflexivity ].
Qed.

Definition cxb (flags : Z) : Z := if has flags O_CLOEXEC then 1 else 0.

Lemma fr_pos c s f : inv c s -> 0 < fr s f.
Proof. intro V. assert (K := cnt_nonneg _ _ (v_fr _ _ V f)). lia. Qed.

(* what an error leaves behind: nothing *)
Definition restored s s' : Prop := agree s s' /\ (forall p fd, tb s' p fd = tb s p fd) /\ pr s' = pr s.

Lemma restored0 c s o : inv c s -> ok s o = ONone -> restored s (set_ok (piped s o) o ONone).
Proof.
  intros V E. unfold restored, agree. cbn. repeat split; try reflexivity.
  - intro o'. rewrite !fupd1. destruct (Z.eqb_spec o' o); congruence.
  - intro o'. rewrite fupd1. destruct (Z.eqb_spec o' o) as [-> | N]; [ symmetry; apply (rf_zero c); auto | reflexivity ].
  - intros o' E'. rewrite fupd_other by congruence. reflexivity.
  - intros o' E'. rewrite fupd_other by congruence. reflexivity.
Qed.

Lemma fupd_undo {B} (f : Z -> B) y v w h : w = f y -> fupd (fupd f y v) y w h = f h.
Proof. intros ->. rewrite fupd1. destruct (Z.eqb_spec h y) as [-> | N]; [ reflexivity | apply fupd_other; exact N ]. Qed.

Section PIPE.
Variables (c : cfg) (s : st) (p o fd0 r : Z).
Hypothesis V : inv c s.
Hypothesis E : ok s o = ONone.
Hypothesis T0 : tb s p fd0 = None.
Hypothesis Y : hs s r = None.
Let xr := Hnd o 0 0 0.
Let xw := Hnd o 1 0 0.
Let s0 := piped s o.
Let s1 := set_tb (added c s0 r xr) p fd0 (Some r).

Lemma s1_eq : s1 = St (fupd (hs s) r (Some xr)) (fupd (tb s) p (fupd (tb s p) fd0 (Some r))) (pr s)
  (fupd (ok s) o OPipe) (fupd (fupd (rf s) o 0) o 1) (fupd (fupd (rd s) o 0) o 1) (fupd (wr s) o 0)
  (fupd (fr s) (fs c o) (fr s (fs c o) + 1)).
Proof.
  unfold s1, added, s0, piped, xr, add_end. cbn. rewrite !fupd_same. reflexivity.
Qed.

Lemma undo1 : exists s2, kfs_destroy c (set_tb s1 p fd0 None) r = Ok s2 /\ restored s (set_ok s2 o ONone).
Proof.
  rewrite s1_eq. erewrite kfs_destroy_eq with (x := xr).
  2:{ cbn. apply fupd_same. }
  2:{ cbn. rewrite fupd_same. lia. }
  2:{ cbn. rewrite fupd_same. assert (K := fr_pos c s (fs c o) V). lia. }
  eexists. split; [ reflexivity | ]. unfold restored, agree. cbn.
  repeat split; try reflexivity.
  - intro h. apply fupd_undo. auto.
  - intro o'. rewrite !fupd1. destruct (Z.eqb_spec o' o); congruence.
  - intro o'. rewrite !fupd1, Z.eqb_refl. destruct (Z.eqb_spec o' o) as [-> | N]; [ rewrite (rf_zero c s o V E); reflexivity | reflexivity ].
  - intros o' E'. rewrite !fupd_other by congruence. reflexivity.
  - intros o' E'. rewrite !fupd_other by congruence. reflexivity.
  - intro f. rewrite fupd_same. apply fupd_undo. lia.
  - intros a i. rewrite !fupd2. destruct ((a =? p) && (i =? fd0)) eqn:B; [ | reflexivity ].
    apply andb_true_iff in B. rewrite !Z.eqb_eq in B. destruct B; subst. auto.
Qed.

Variables (fd1 w : Z).
Hypothesis T1 : tb s1 p fd1 = None.
Hypothesis W : hs s1 w = None.
Let s2 := set_tb (added c s1 w xw) p fd1 (Some w).

Lemma s2_eq : s2 = St (fupd (fupd (hs s) r (Some xr)) w (Some xw))
  (fupd (fupd (tb s) p (fupd (tb s p) fd0 (Some r))) p (fupd (fupd (tb s p) fd0 (Some r)) fd1 (Some w))) (pr s)
  (fupd (ok s) o OPipe) (fupd (fupd (fupd (rf s) o 0) o 1) o 2) (fupd (fupd (rd s) o 0) o 1) (fupd (fupd (wr s) o 0) o 1)
  (fupd (fupd (fr s) (fs c o) (fr s (fs c o) + 1)) (fs c o) (fr s (fs c o) + 1 + 1)).
Proof.
  unfold s2. rewrite s1_eq. unfold added, xw, add_end. cbn. rewrite !fupd_same. unfold set_tb, add_fr. cbn.
  rewrite !fupd_same. reflexivity.
Qed.

Lemma w_ne_r : w <> r.
Proof. intros ->. rewrite s1_eq in W. cbn in W. rewrite fupd_same in W. discriminate. Qed.
Lemma fd1_ne_fd0 : fd1 <> fd0.
Proof.
  intros ->. rewrite s1_eq in T1. cbn in T1. rewrite !fupd_same in T1. discriminate.
Qed.
Lemma t1 : tb s p fd1 = None.
Proof.
  assert (K := T1). rewrite s1_eq in K. cbn in K. rewrite fupd2 in K.
  assert (N := fd1_ne_fd0). replace (fd1 =? fd0) with false in K by (symmetry; apply Z.eqb_neq; exact N).
  rewrite andb_false_r in K. exact K.
Qed.
Lemma hw : hs s w = None.
Proof.
  assert (K := W). rewrite s1_eq in K. cbn in K. rewrite fupd_other in K by apply w_ne_r. exact K.
Qed.

Lemma undo2 : exists s3 s4, kfs_destroy c (set_tb s2 p fd0 None) r = Ok s3 /\
  kfs_destroy c (set_tb s3 p fd1 None) w = Ok s4 /\ restored s (set_ok s4 o ONone).
Proof.
  assert (NW := w_ne_r). assert (N1 := fd1_ne_fd0). assert (TT := t1). assert (HW := hw).
  assert (FP := fr_pos c s (fs c o) V).
  rewrite s2_eq. erewrite kfs_destroy_eq with (x := xr).
  2:{ cbn. rewrite fupd_other by congruence. apply fupd_same. }
  2:{ cbn. rewrite fupd_same. lia. }
  2:{ cbn. rewrite fupd_same. lia. }
  eexists. eexists. split; [ reflexivity | ]. split.
  { apply kfs_destroy_eq with (x := xw).
    - cbn. rewrite fupd_other by congruence. apply fupd_same.
    - cbn. rewrite !fupd_same. lia.
    - cbn. rewrite !fupd_same. lia. }
  unfold restored, agree. cbn.
  repeat split; try reflexivity.
  - intro h. rewrite !fupd1. destruct (Z.eqb_spec h w) as [-> | A]; [ congruence | ].
    destruct (Z.eqb_spec h r) as [-> | B]; [ congruence | reflexivity ].
  - intro o'. rewrite !fupd1. destruct (Z.eqb_spec o' o); congruence.
  - intro o'. rewrite !fupd1, !Z.eqb_refl. destruct (Z.eqb_spec o' o) as [-> | N]; [ rewrite (rf_zero c s o V E); reflexivity | reflexivity ].
  - intros o' E'. rewrite !fupd_other by congruence. reflexivity.
  - intros o' E'. rewrite !fupd_other by congruence. reflexivity.
  - intro f. rewrite !fupd1, !Z.eqb_refl. destruct (Z.eqb_spec f (fs c o)) as [-> | N]; [ lia | reflexivity ].
  - intros a i. rewrite !fupd1, !Z.eqb_refl.
    destruct (Z.eqb_spec a p) as [-> | NA]; [ | reflexivity ]. rewrite !fupd1.
    destruct (Z.eqb_spec i fd1) as [-> | A]; [ congruence | ].
    destruct (Z.eqb_spec i fd0) as [-> | B]; [ congruence | reflexivity ].
Qed.
End PIPE.

Lemma undo2' c s p o fd0 r : inv c s -> ok s o = ONone -> tb s p fd0 = None -> hs s r = None ->
  forall s1, s1 = set_tb (added c (piped s o) r (Hnd o 0 0 0)) p fd0 (Some r) ->
  forall fd1 w, tb s1 p fd1 = None -> hs s1 w = None ->
  exists s3 s4, kfs_destroy c (set_tb (set_tb (added c s1 w (Hnd o 1 0 0)) p fd1 (Some w)) p fd0 None) r = Ok s3 /\
    kfs_destroy c (set_tb s3 p fd1 None) w = Ok s4 /\ restored s (set_ok s4 o ONone).
Proof. intros A B C D s1 ->. exact (undo2 c s p o fd0 r A B C D). Qed.
Lemma undo1' c s p o fd0 r : inv c s -> ok s o = ONone -> tb s p fd0 = None -> hs s r = None ->
  forall s1, s1 = set_tb (added c (piped s o) r (Hnd o 0 0 0)) p fd0 (Some r) ->
  exists s2, kfs_destroy c (set_tb s1 p fd0 None) r = Ok s2 /\ restored s (set_ok s2 o ONone).
Proof. intros A B C D s1 ->. exact (undo1 c s p o fd0 r A B C D). Qed.

Lemma has_cx flags x : (if has flags O_CLOEXEC then Hnd (h_o x) (h_fl x) (Z.lor (h_fd x) 1) (h_pos x) else x) =
  Hnd (h_o x) (h_fl x) (if has flags O_CLOEXEC then Z.lor (h_fd x) 1 else h_fd x) (h_pos x).
Proof. destruct (has flags O_CLOEXEC); [ reflexivity | destruct x; reflexivity ]. Qed.

Lemma pipe2_ok c al alo s p flags fault : good c s -> al_ok al -> alo_ok alo -> pr s p = true ->
  exists s' e, sys_pipe2 c al alo s p flags fault = Ok (s', e) /\ good c s' /\ pr s' = pr s /\
    ((e = 0 /\ exists o r w, ok s o = ONone /\ ok s' o = OPipe /\ lowest c s p 0 r /\ r < w /\
        w < maxh c /\ ent s p w = None /\ (forall i, r < i < w -> ent s p i <> None) /\
        ent s' p r = Some (Hnd o 0 (cxb flags) 0) /\ ent s' p w = Some (Hnd o 1 (cxb flags) 0) /\
        forall a i, a <> p \/ i <> r /\ i <> w -> ent s' a i = ent s a i) \/
     (e < 0 /\ restored s s' /\ same_ents s s')).
Proof.
  intros G AL ALO P. assert (V := proj1 G). assert (PP := proj2 G). unfold sys_pipe2.
  assert (R0 : restored s s) by (unfold restored, agree; repeat split; reflexivity).
  assert (RR : forall s' e, e < 0 -> restored s s' ->
    exists s'' e', Ok (s', e) = Ok (s'', e') /\ good c s'' /\ pr s'' = pr s /\
    ((e' = 0 /\ exists o r w, ok s o = ONone /\ ok s'' o = OPipe /\ lowest c s p 0 r /\ r < w /\
        w < maxh c /\ ent s p w = None /\ (forall i, r < i < w -> ent s p i <> None) /\
        ent s'' p r = Some (Hnd o 0 (cxb flags) 0) /\ ent s'' p w = Some (Hnd o 1 (cxb flags) 0) /\
        forall a i, a <> p \/ i <> r /\ i <> w -> ent s'' a i = ent s a i) \/
     (e' < 0 /\ restored s s'' /\ same_ents s s''))).
  { intros s' e Le R. assert (R' := R). destruct R as (A & T & PRE).
    destruct (agree_good c s s' G A T PRE) as (G' & SE).
    exists s', e. split; [ reflexivity | split; [ exact G' | split; [ exact PRE | ] ] ]. right. auto. }
  destruct (has flags O_DIRECT); [ apply RR; [ reflexivity | exact R0 ] | ].
  destruct (has flags O_NONBLOCK); [ apply RR; [ reflexivity | exact R0 ] | ].
  destruct (alo s) as [o | ] eqn:EO; [ | apply RR; [ reflexivity | exact R0 ] ].
  specialize (ALO s o EO).
  assert (V0 := piped_inv c s o V ALO).
  destruct (free_ge_ok c (piped s o) p 0 V0 ltac:(lia)) as (fd0 & -> & K0). cbn [bind].
  destruct K0 as [(L0 & T0) | (-> & _)].
  2:{ unfold pipe_err. cbn [bind Z.ltb Z.compare]. apply RR; [ reflexivity | apply (restored0 c); auto ]. }
  change (lowest c (piped s o) p 0 fd0) with (lowest c s p 0 fd0) in L0. cbn [piped tb] in T0.
  replace (fd0 <? 0) with false by (symmetry; apply Z.ltb_ge; destruct L0; lia).
  rewrite (kfs_create_eq c al (piped s o) o 0) by (cbn; apply fupd_same).
  destruct (al (piped s o)) as [r | ] eqn:EA.
  2:{ unfold pipe_err. cbn [bind Z.ltb Z.compare]. apply RR; [ reflexivity | apply (restored0 c); auto ]. }
  assert (Y := AL _ _ EA). cbn [piped hs] in Y.
  set (s1 := set_tb (added c (piped s o) r (Hnd o 0 0 0)) p fd0 (Some r)).
  assert (L0' := L0). destruct L0 as (A1 & A2 & A3).
  assert (V1 : inv c s1).
  { unfold s1. apply add_inv; auto. cbn. rewrite fupd_same. discriminate. }
  destruct (add_ent c (piped s o) p fd0 r (Hnd o 0 0 0) V0 Y) as (E1 & E2). fold s1 in E1, E2.
  destruct (free_ge_ok c s1 p 0 V1 ltac:(lia)) as (fd1 & -> & K1). cbn [bind].
  destruct (undo1' c s p o fd0 r V ALO T0 Y s1 eq_refl) as (u1 & U1 & U2).
  assert (UN2 := undo2' c s p o fd0 r V ALO T0 Y s1 eq_refl).
  assert (O1 : ok s1 o = OPipe) by (unfold s1; cbn [set_tb Fd_Model.ok]; rewrite added_ok; cbn; apply fupd_same).
  assert (PR1 : pr s1 = pr s) by (unfold s1; cbn [set_tb pr]; rewrite added_pr; reflexivity).
  assert (RF1 : forall o', ok s1 o' = OPipe -> o' = o /\ rf s1 o' = 1 \/ ok s o' = OPipe /\ rf s1 o' = rf s o').
  { intros o' E'. unfold s1 in E' |- *. cbn [set_tb Fd_Model.ok rf] in *. rewrite added_ok in E'. rewrite added_rf.
    cbn [piped Fd_Model.ok rf] in *. unfold C_o. cbn [h_o]. rewrite fupd1 in E'. rewrite fupd1.
    rewrite (Z.eqb_sym o o'). destruct (Z.eqb_spec o' o) as [Q | N]; cbn [b2z]; [ left; auto | right; split; [ exact E' | lia ] ]. }
  assert (TR1 : tb s1 p fd0 = Some r).
  { unfold s1. cbn [set_tb tb]. rewrite fupd2, !Z.eqb_refl. reflexivity. }
  clearbody s1. clear EA.
  destruct K1 as [(L1 & T1) | (-> & _)].
  2:{ cbn [Z.ltb Z.compare]. unfold pipe_err. rewrite U1. cbn [bind]. apply RR; [ reflexivity | exact U2 ]. }
  replace (fd1 <? 0) with false by (symmetry; apply Z.ltb_ge; destruct L1; lia).
  rewrite (kfs_create_eq c al s1 o 1) by exact O1.
  destruct (al s1) as [w | ] eqn:EW.
  2:{ unfold pipe_err. rewrite U1. cbn [bind]. apply RR; [ reflexivity | exact U2 ]. }
  assert (W := AL _ _ EW).
  set (s2 := set_tb (added c s1 w (Hnd o 1 0 0)) p fd1 (Some w)).
  destruct (UN2 fd1 w T1 W) as (u3 & u4 & X1 & X2 & X3). fold s2 in X1. clear UN2.
  destruct fault.
  { unfold pipe_err. rewrite X1. cbn [bind]. rewrite X2. cbn [bind]. apply RR; [ reflexivity | exact X3 ]. }
  assert (L1' := L1). destruct L1 as (B1 & B2 & B3).
  assert (V2 : inv c s2).
  { unfold s2. apply add_inv; auto; [ rewrite PR1; exact P | ]. cbn [h_o]. congruence. }
  assert (PP2 : pipes s2).
  { intros o' E'. unfold s2 in E' |- *. cbn [set_tb Fd_Model.ok rf] in *. rewrite added_ok in E'. rewrite added_rf.
    unfold C_o. cbn [h_o]. destruct (RF1 o' E') as [(-> & ->) | (Q & ->)].
    - rewrite Z.eqb_refl. reflexivity.
    - specialize (PP o' Q). destruct (o =? o'); cbn [b2z]; lia. }
  destruct (add_ent c s1 p fd1 w (Hnd o 1 0 0) V1 W) as (F1 & F2). fold s2 in F1, F2.
  assert (N01 : fd1 <> fd0) by (intros ->; rewrite B2 in E2; discriminate).
  assert (G2 : ent s2 p fd0 = Some (Hnd o 0 0 0)) by (rewrite F1 by (right; congruence); exact E2).
  assert (SP : forall a i, ent (piped s o) a i = ent s a i) by reflexivity.
  assert (ESP : ent s p fd1 = None).
  { rewrite <- SP, <- E1; [ exact B2 | right; exact N01 ]. }
  assert (LT : fd0 < fd1).
  { destruct (Z.lt_trichotomy fd0 fd1) as [Q | [Q | Q]]; [ exact Q | congruence | ].
    exfalso. apply (A3 fd1); [ lia | exact ESP ]. }
  assert (BT : forall i, fd0 < i < fd1 -> ent s p i <> None).
  { intros i Ri. rewrite <- SP, <- E1 by (right; lia). apply B3. lia. }
  assert (OT : forall a i, a <> p \/ i <> fd0 /\ i <> fd1 -> ent s2 a i = ent s a i).
  { intros a i N. rewrite F1 by tauto. rewrite E1 by tauto. reflexivity. }
  assert (PR2 : pr s2 = pr s) by (unfold s2; cbn [set_tb pr]; rewrite added_pr; exact PR1).
  assert (O2 : ok s2 o = OPipe) by (unfold s2; cbn [set_tb Fd_Model.ok]; rewrite added_ok; exact O1).
  assert (TW : tb s2 p fd1 = Some w).
  { unfold s2. cbn [set_tb tb]. rewrite !fupd2, !Z.eqb_refl. reflexivity. }
  unfold cxb. destruct (has flags O_CLOEXEC).
  - assert (TR : tb s2 p fd0 = Some r).
    { unfold s2. cbn [set_tb tb]. rewrite added_tb, fupd2.
      replace (fd0 =? fd1) with false by (symmetry; apply Z.eqb_neq; congruence).
      rewrite andb_false_r. exact TR1. }
    clearbody s2.
    assert (HR : hs s2 r = Some (Hnd o 0 0 0)) by (unfold ent in G2; rewrite TR in G2; exact G2).
    assert (HW : hs s2 w = Some (Hnd o 1 0 0)) by (unfold ent in F2; rewrite TW in F2; exact F2).
    assert (NRW : w <> r) by congruence.
    unfold pipe_cx, deref. rewrite HR. cbn [bind h_o h_fl h_fd h_pos].
    destruct (upd_good c s2 p fd0 r _ (Hnd o 0 (Z.lor 0 1) 0) (conj V2 PP2) TR HR eq_refl eq_refl) as (J1 & J2 & J3 & J4).
    set (s3 := set_hs s2 r (Some (Hnd o 0 (Z.lor 0 1) 0))) in *.
    assert (HW3 : hs s3 w = Some (Hnd o 1 0 0)).
    { unfold s3. cbn [set_hs hs]. rewrite fupd_other by exact NRW. exact HW. }
    rewrite HW3. cbn [bind h_o h_fl h_fd h_pos].
    destruct (upd_good c s3 p fd1 w _ (Hnd o 1 (Z.lor 0 1) 0) J1 TW HW3 eq_refl eq_refl) as (M1 & M2 & M3 & M4).
    eexists _, 0. split; [ reflexivity | ]. split; [ exact M1 | ]. split; [ exact (eq_trans M2 (eq_trans J2 PR2)) | ].
    left. split; [ reflexivity | ]. exists o, fd0, fd1. split; [ exact ALO | ]. split; [ exact O2 | ].
    split; [ exact L0' | ]. split; [ exact LT | ]. split; [ lia | ]. split; [ exact ESP | ]. split; [ exact BT | ].
    split; [ rewrite M4 by (right; congruence); exact J3 | ]. split; [ exact M3 | ].
    intros a i N. rewrite M4 by tauto. rewrite J4 by tauto. apply OT; exact N.
  - exists s2, 0. split; [ reflexivity | ]. split; [ split; assumption | ]. split; [ exact PR2 | ].
    left. split; [ reflexivity | ]. exists o, fd0, fd1. split; [ exact ALO | ]. split; [ exact O2 | ].
    split; [ exact L0' | ]. split; [ exact LT | ]. split; [ lia | ]. split; [ exact ESP | ]. split; [ exact BT | ].
    split; [ exact G2 | ]. split; [ exact F2 | ]. exact OT.
Qed.
