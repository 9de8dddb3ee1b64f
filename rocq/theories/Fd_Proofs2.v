From Coq Require Import ZArith List Bool Lia Sorted.
From Verif Require Import Lib Fd_Model Fd_Spec Fd_Proofs.
Import ListNotations.
Open Scope Z_scope.

Definition good c s : Prop := inv c s /\ pipes s.

Ltac triv := repeat (split; auto 9); try (right; repeat split; auto 9; try reflexivity).

Lemma dup_eq c al s h x : hs s h = Some x ->
  dup c al s h = match al s with
                 | None => Ok (s, None)
                 | Some y => Ok (added c s y (Hnd (h_o x) (h_fl x) 0 (h_pos x)), Some y)
                 end.
Proof. intro H. unfold dup, deref. rewrite H. reflexivity. Qed.

Lemma same_refl s : same_ents s s.
Proof. intros a i. reflexivity. Qed.

Lemma open_ok c al s p o flags err : good c s -> al_ok al -> pr s p = true -> ok s o = OFile ->
  exists s' r, sys_open c al s p o flags err = Ok (s', r) /\ good c s' /\ pr s' = pr s /\ ok s' = ok s /\
    ((lowest c s p 0 r /\ ent s' p r = Some (Hnd o flags (if has flags O_CLOEXEC then 1 else 0) 0) /\
      others s s' p r) \/
     (s' = s /\
      (r = EINVAL /\ has flags O_ASYNC = true \/
       r = EOPNOTSUPP /\ Z.land flags O_TMPFILE = O_TMPFILE \/
       r = EMFILE /\ all_open c s p 0 \/ r = err /\ err < 0 \/ r = ENOMEM /\ al s = None))).
Proof.
  intros (V & PP) AL P F. unfold sys_open.
  destruct (has flags O_ASYNC) eqn:B1. { exists s, EINVAL. triv. }
  destruct (Z.land flags O_TMPFILE =? O_TMPFILE) eqn:B2.
  { exists s, EOPNOTSUPP. apply Z.eqb_eq in B2. triv. }
  destruct (free_ge_ok c s p 0 V ltac:(lia)) as (r & -> & K). cbn [bind].
  destruct K as [(L & T) | (-> & A)].
  2:{ exists s, EMFILE. cbn. triv. }
  replace (r <? 0) with false by (symmetry; apply Z.ltb_ge; destruct L; lia).
  destruct (Z.ltb_spec err 0). { exists s, err. triv. }
  destruct (al s) as [y | ] eqn:EA.
  2:{ exists s, ENOMEM. triv. }
  specialize (AL s y EA).
  set (x := Hnd o flags (if has flags O_CLOEXEC then 1 else 0) 0).
  replace (add_fr (add_rf (set_hs s y (Some x)) o 1) (fs c o) 1) with (added c s y x).
  2:{ unfold added, x. cbn. rewrite F. reflexivity. }
  exists (set_tb (added c s y x) p r (Some y)), r. split; [ reflexivity | ].
  destruct L as (L1 & L2 & L3).
  split; [ split; [ apply add_inv; auto; unfold x; cbn; congruence | apply add_pipes; exact PP ] | ].
  split; [ cbn [set_tb pr]; apply added_pr | ]. split; [ cbn [set_tb Fd_Model.ok]; apply added_ok | ].
  left. split; [ split; auto | ].
  destruct (add_ent c s p r y x V AL) as (E1 & E2). split; [ exact E2 | exact E1 ].
Qed.

Lemma close_ok c s p fd : good c s ->
  (ent s p fd = None /\ sys_close c s p fd = Ok (s, EBADF)) \/
  (exists s' x, ent s p fd = Some x /\ sys_close c s p fd = Ok (s', 0) /\ good c s' /\ pr s' = pr s /\
     ent s' p fd = None /\ others s s' p fd).
Proof.
  intros (V & PP). unfold sys_close. rewrite (get_h_tb c) by exact V.
  destruct (tb s p fd) as [h | ] eqn:T.
  - right. destruct (close_closed c s p fd h V T) as (x & Hx & ->). cbn [bind].
    exists (set_tb (closed c s h x) p fd None), x.
    split; [ unfold ent; rewrite T; exact Hx | ]. split; [ reflexivity | ].
    split; [ split; [ apply del_inv; auto | apply del_pipes; auto ] | ].
    split; [ cbn [set_tb pr]; apply closed_pr | ].
    destruct (del_ent c s p fd h x V T) as (E1 & E2). split; [ exact E2 | exact E1 ].
  - left. split; [ | reflexivity ]. apply (ent_none c); assumption.
Qed.

Definition dupped (x : hnd) : hnd := Hnd (h_o x) (h_fl x) 0 (h_pos x).

(* sys_dup2 on valid descriptors *)
Lemma dup2_free c al s p fd fd' : good c s -> al_ok al -> pr s p = true ->
  ent s p fd' = None -> fd_ok c fd' ->
  (ent s p fd = None /\ exists e, sys_dup2 c al s p fd fd' = Ok (s, e) /\ e < 0) \/
  (exists x, ent s p fd = Some x /\
    ((al s = None /\ sys_dup2 c al s p fd fd' = Ok (s, ENOMEM)) \/
     (exists s', sys_dup2 c al s p fd fd' = Ok (s', fd') /\ good c s' /\ pr s' = pr s /\
        ent s' p fd' = Some (dupped x) /\ others s s' p fd'))).
Proof.
  intros (V & PP) AL P E' R. unfold sys_dup2. rewrite !(get_h_tb c) by exact V.
  assert (T' : tb s p fd' = None) by (apply (ent_none c s p fd' V); exact E').
  rewrite T'. unfold fd_ok in R.
  replace ((0 <=? fd') && (fd' <? maxh c)) with true
    by (symmetry; apply andb_true_iff; rewrite Z.leb_le, Z.ltb_lt; lia). cbn [negb].
  destruct (tb s p fd) as [h | ] eqn:T.
  - right. destruct (ent_some c s p fd h V T) as (x & Hx & Ex). exists x. split; [ exact Ex | ].
    destruct (v_slot _ _ V _ _ _ T) as (_ & R0 & _).
    replace ((0 <=? fd) && (fd <? maxh c)) with true
      by (symmetry; apply andb_true_iff; rewrite Z.leb_le, Z.ltb_lt; lia). cbn [negb].
    replace (fd' =? fd) with false by (symmetry; apply Z.eqb_neq; congruence).
    cbn [bind]. rewrite (dup_eq c al s h x Hx). destruct (al s) as [y | ] eqn:EA; cbn [bind].
    + right. specialize (AL s y EA). exists (set_tb (added c s y (dupped x)) p fd' (Some y)).
      split; [ reflexivity | ].
      split; [ split; [ apply add_inv; auto; apply (v_obj _ _ V _ _ Hx) | apply add_pipes; exact PP ] | ].
      split; [ cbn [set_tb pr]; apply added_pr | ].
      destruct (add_ent c s p fd' y (dupped x) V AL) as (E1 & E2). split; [ exact E2 | exact E1 ].
    + left. split; reflexivity.
  - left. split; [ apply (ent_none c); assumption | ].
    destruct ((0 <=? fd) && (fd <? maxh c)); cbn [negb]; [ | exists EBADF; split; [ reflexivity | reflexivity ] ].
    destruct (fd' =? fd); [ exists EINVAL | exists EBADF ]; (split; [ reflexivity | reflexivity ]).
Qed.

Lemma agree_tb c s y x p fd q fd' v w z :
  agree (set_tb (added c (set_tb s q fd' w) y x) p fd v) (set_tb (added c s y x) p fd z).
Proof.
  unfold agree, added, add_end. cbn. destruct (ok s (h_o x)), (wronly x); repeat split; reflexivity.
Qed.

Lemma dup2_ok c al s p fd fd' : good c s -> al_ok al -> pr s p = true ->
  (ent s p fd' = None \/ forall s', al s' <> None) ->
  exists s' r, sys_dup2 c al s p fd fd' = Ok (s', r) /\ good c s' /\ pr s' = pr s /\
    ((exists x, r = fd' /\ fd_ok c fd' /\ fd <> fd' /\ ent s p fd = Some x /\
        ent s' p fd' = Some (dupped x) /\ others s s' p fd') \/
     (s' = s /\ (r = EBADF /\ (ent s p fd = None \/ ~ fd_ok c fd') \/ r = EINVAL /\ fd = fd' \/
                 r = ENOMEM /\ al s = None))).
Proof.
  intros (V & PP) AL P C. unfold sys_dup2. rewrite !(get_h_tb c) by exact V.
  destruct ((0 <=? fd) && (fd <? maxh c)) eqn:B1; cbn [negb].
  2:{ exists s, EBADF. repeat (split; auto). right. split; [ reflexivity | left ]. split; [ reflexivity | left ].
      apply (ent_out c); [ exact V | ]. apply andb_false_iff in B1. rewrite Z.leb_gt, Z.ltb_ge in B1. lia. }
  apply andb_true_iff in B1. rewrite Z.leb_le, Z.ltb_lt in B1.
  destruct ((0 <=? fd') && (fd' <? maxh c)) eqn:B2; cbn [negb].
  2:{ exists s, EBADF. repeat (split; auto). right. split; [ reflexivity | left ]. split; [ reflexivity | right ].
      apply andb_false_iff in B2. rewrite Z.leb_gt, Z.ltb_ge in B2. unfold fd_ok. lia. }
  apply andb_true_iff in B2. rewrite Z.leb_le, Z.ltb_lt in B2.
  destruct (Z.eqb_spec fd' fd) as [-> | NE].
  { exists s, EINVAL. triv. }
  destruct (tb s p fd) as [h | ] eqn:T.
  2:{ exists s, EBADF. repeat (split; auto). right. split; [ reflexivity | left ]. split; [ reflexivity | left ].
      apply (ent_none c); assumption. }
  destruct (ent_some c s p fd h V T) as (x & Hx & Ex).
  destruct (tb s p fd') as [h' | ] eqn:T'.
  - destruct C as [C | C]; [ exfalso; apply (ent_none c s p fd' V) in C; congruence | ].
    destruct (close_closed c s p fd' h' V T') as (x' & Hx' & ->). cbn [bind].
    set (s1 := closed c s h' x').
    assert (NH : h <> h') by (intros ->; destruct (v_inj _ _ V _ _ _ _ _ T T'); congruence).
    assert (H1 : hs s1 h = Some x).
    { unfold s1. rewrite closed_hs. rewrite fupd_other by exact NH. exact Hx. }
    rewrite (dup_eq c al s1 h x H1). destruct (al s1) as [y | ] eqn:EA; [ | destruct (C s1 EA) ]. cbn [bind].
    specialize (AL s1 y EA).
    set (s2 := set_tb s1 p fd' None).
    assert (V2 : inv c s2) by (apply del_inv; assumption).
    assert (P2 : pipes s2) by (apply del_pipes; assumption).
    destruct (del_ent c s p fd' h' x' V T') as (E1 & E2). fold s1 s2 in E1, E2.
    assert (T2 : tb s2 p fd' = None) by (apply (ent_none c s2 p fd' V2); exact E2).
    assert (Q : agree (set_tb (added c s2 y (dupped x)) p fd' (Some y))
                      (set_tb (added c s1 y (dupped x)) p fd' (Some y)) /\
                forall a i, tb (set_tb (added c s1 y (dupped x)) p fd' (Some y)) a i =
                            tb (set_tb (added c s2 y (dupped x)) p fd' (Some y)) a i).
    { split.
      - apply agree_tb.
      - intros a i. cbn [set_tb tb]. rewrite !added_tb. unfold s2. cbn [set_tb tb]. rewrite !fupd2.
        destruct ((a =? p) && (i =? fd')); reflexivity. }
    destruct Q as (Q1 & Q2).
    assert (OX : ok s2 (h_o (dupped x)) <> ONone).
    { exact (v_obj _ _ V2 h x H1). }
    assert (PR2 : pr s2 p = true) by (unfold s2, s1; cbn [set_tb pr]; rewrite closed_pr; exact P).
    assert (V3 : inv c (set_tb (added c s2 y (dupped x)) p fd' (Some y)))
      by (apply add_inv; auto).
    assert (P3 : pipes (set_tb (added c s2 y (dupped x)) p fd' (Some y))) by (apply add_pipes; exact P2).
    destruct (add_ent c s2 p fd' y (dupped x) V2 AL) as (F1 & F2).
    assert (EE : forall a i, ent (set_tb (added c s1 y (dupped x)) p fd' (Some y)) a i =
                             ent (set_tb (added c s2 y (dupped x)) p fd' (Some y)) a i).
    { intros a i. unfold ent. rewrite Q2. destruct Q1 as (Q1 & _).
      match goal with |- match ?t with _ => _ end = _ => destruct t end; [ apply Q1 | reflexivity ]. }
    exists (set_tb (added c s1 y (dupped x)) p fd' (Some y)), fd'. split; [ reflexivity | ].
    assert (PE : pr (set_tb (added c s1 y (dupped x)) p fd' (Some y)) = pr s).
    { cbn [set_tb pr]. rewrite added_pr. unfold s1. apply closed_pr. }
    split; [ split | split; [ exact PE | ] ].
    + apply (inv_agree c _ _ V3 Q1 Q2). intros a i N.
      destruct (tb (set_tb (added c s2 y (dupped x)) p fd' (Some y)) a i) as [k | ] eqn:TK; [ | congruence ].
      destruct (v_slot _ _ V3 _ _ _ TK) as (PK & _). cbn [set_tb pr] in *. rewrite added_pr in *. exact PK.
    + intros o E. destruct Q1 as (_ & A2 & A3 & _). rewrite A2 in E. rewrite A3. apply P3; exact E.
    + left. exists x. repeat (split; [ auto; unfold fd_ok; lia | ]). split; [ rewrite EE; exact F2 | ].
      intros a i N. rewrite EE, (F1 a i N). apply E1; exact N.
  - cbn [bind]. destruct (dup2_free c al s p fd fd' (conj V PP) AL P) as [(K & _) | K].
    + apply (ent_none c); assumption.
    + exact B2.
    + congruence.
    + destruct K as (x0 & K0 & K). replace x0 with x in * by congruence.
      unfold sys_dup2 in K. rewrite !(get_h_tb c) in K by exact V. rewrite T, T' in K.
      replace ((0 <=? fd') && (fd' <? maxh c)) with true in K
        by (symmetry; apply andb_true_iff; rewrite Z.leb_le, Z.ltb_lt; lia).
      replace ((0 <=? fd) && (fd <? maxh c)) with true in K
        by (symmetry; apply andb_true_iff; rewrite Z.leb_le, Z.ltb_lt; lia). cbn [negb] in K.
      replace (fd' =? fd) with false in K by (symmetry; apply Z.eqb_neq; congruence).
      cbn [bind] in K. destruct K as [(K1 & K2) | (s' & K1 & K2 & K3 & K4 & K5)].
      * exists s, ENOMEM. split; [ exact K2 | ]. triv.
      * exists s', fd'. split; [ exact K1 | ]. split; [ exact K2 | split; [ exact K3 | ] ]. left. exists x. auto 8.
Qed.

Lemma dup_ok c al s p fd : good c s -> al_ok al -> pr s p = true ->
  exists s' r, sys_dup c al s p fd = Ok (s', r) /\ good c s' /\ pr s' = pr s /\
    ((exists x, lowest c s p 0 r /\ ent s p fd = Some x /\ ent s' p r = Some (dupped x) /\ others s s' p r) \/
     (s' = s /\ r < 0 /\ (ent s p fd = None \/ r = EMFILE /\ all_open c s p 0 \/ r = ENOMEM /\ al s = None))).
Proof.
  intros (V & PP) AL P. unfold sys_dup.
  destruct (free_ge_ok c s p 0 V ltac:(lia)) as (n & -> & K). cbn [bind].
  destruct K as [(L & T) | (-> & A)].
  2:{ exists s, EMFILE. cbn. triv. }
  assert (L' := L). destruct L as (L1 & L2 & L3).
  replace ((0 <=? n) && (n <? maxh c)) with true
    by (symmetry; apply andb_true_iff; rewrite Z.leb_le, Z.ltb_lt; lia).
  destruct (dup2_free c al s p fd n (conj V PP) AL P L2 L1) as [(K & e & -> & Le) | (x & Ex & [(K & ->) | K])].
  - exists s, e. triv.
  - exists s, ENOMEM. triv.
  - destruct K as (s' & -> & K2 & K3 & K4 & K5). exists s', n. split; [ reflexivity | ].
    split; [ exact K2 | split; [ exact K3 | ] ]. left. exists x. auto.
Qed.

Lemma dupfd_ok c al s p fd arg : good c s -> al_ok al -> pr s p = true -> 0 <= arg ->
  exists s' r, dupfd c al s p fd arg = Ok (s', r) /\ good c s' /\ pr s' = pr s /\
    ((exists x, lowest c s p arg r /\ ent s p fd = Some x /\ ent s' p r = Some (dupped x) /\ others s s' p r) \/
     (s' = s /\ r < 0 /\ (ent s p fd = None \/ r = EBADF /\ all_open c s p arg \/ r = ENOMEM /\ al s = None))).
Proof.
  intros (V & PP) AL P RA. unfold dupfd. rewrite (get_h_tb c) by exact V.
  destruct (tb s p fd) as [h | ] eqn:T0.
  2:{ exists s, EBADF. repeat (split; auto). right. split; [ reflexivity | split; [ reflexivity | ] ]. left. apply (ent_none c); assumption. }
  destruct (free_ge_ok c s p arg V RA) as (n & -> & K). cbn [bind].
  destruct K as [(L & T) | (-> & A)].
  2:{ exists s, EBADF. split.
      - unfold sys_dup2. destruct ((0 <=? fd) && (fd <? maxh c)); reflexivity.
      - triv. }
  assert (L' := L). destruct L as (L1 & L2 & L3).
  assert (LO : fd_ok c n) by (unfold fd_ok; lia).
  destruct (dup2_free c al s p fd n (conj V PP) AL P L2 LO) as [(K & e & -> & Le) | (x & Ex & [(K & ->) | K])].
  - exists s, e. triv.
  - exists s, ENOMEM. triv.
  - destruct K as (s' & -> & K2 & K3 & K4 & K5). exists s', n. split; [ reflexivity | ].
    split; [ exact K2 | split; [ exact K3 | ] ]. left. exists x. auto.
Qed.

Lemma dupfd_cloexec_ok c al s p fd arg : good c s -> al_ok al -> pr s p = true -> 0 <= arg ->
  exists s' r, dupfd_cloexec c al s p fd arg = Ok (s', r) /\ good c s' /\ pr s' = pr s /\
    ((exists x, lowest c s p arg r /\ ent s p fd = Some x /\
        ent s' p r = Some (Hnd (h_o x) (h_fl x) (if r =? 0 then 1 else 0) (h_pos x)) /\ others s s' p r) \/
     (s' = s /\ r < 0 /\ (ent s p fd = None \/ r = EBADF /\ all_open c s p arg \/ r = ENOMEM /\ al s = None))).
Proof.
  intros G AL P RA. assert (K := dupfd_ok c al s p fd arg G AL P RA).
  assert (V := proj1 G). unfold dupfd_cloexec. unfold dupfd in K. rewrite (get_h_tb c s) in * by exact V.
  destruct (tb s p fd) as [h | ] eqn:T0.
  2:{ exists s, EBADF. destruct K as (s' & r & K1 & K2 & K3 & K4). injection K1 as <- <-.
      split; [ reflexivity | split; [ exact G | split; [ reflexivity | ] ] ].
      destruct K4 as [(x & (K4 & _) & _) | K4]; [ unfold EBADF in K4; lia | right; exact K4 ]. }
  destruct (free_ge_ok c s p arg V RA) as (n & EN & KN). rewrite EN in *. cbn [bind] in *.
  destruct K as (s' & r & K1 & K2 & K3 & K4). rewrite K1. cbn [bind].
  destruct K4 as [(x & L & Ex & E' & OT) | (-> & RN & K4)].
  2:{ replace (r =? 0) with false by (symmetry; apply Z.eqb_neq; lia).
      exists s, r. split; [ reflexivity | ]. split; [ exact G | split; [ reflexivity | ] ]. right. auto. }
  destruct (Z.eqb_spec r 0) as [R0 | NR].
  2:{ exists s', r. split; [ reflexivity | ]. split; [ exact K2 | split; [ exact K3 | ] ]. left. exists x.
      replace (r =? 0) with false by (symmetry; apply Z.eqb_neq; lia). auto. }
  assert (V' := proj1 K2).
  assert (NR : n = r).
  { destruct KN as [(LN & _) | (-> & A)].
    - destruct LN as (N1 & N2 & N3), L as (M1 & M2 & M3).
      destruct (Z.lt_trichotomy n r) as [Q | [Q | Q]]; [ | exact Q | ].
      + exfalso. apply (M3 n); [ lia | exact N2 ].
      + exfalso. apply (N3 r); [ lia | exact M2 ].
    - exfalso. destruct L as (M1 & M2 & M3). apply (A r M1 M2). }
  subst n. rewrite (get_h_tb c s') by exact V'.
  destruct (tb s' p r) as [h2 | ] eqn:T2; [ | unfold ent in E'; rewrite T2 in E'; discriminate ].
  destruct (ent_some c s' p r h2 V' T2) as (z & Hz & Ez). assert (z = dupped x) by congruence. subst z.
  unfold deref. rewrite Hz. cbn [bind dupped h_o h_fl h_fd h_pos].
  set (x2 := Hnd (h_o x) (h_fl x) (Z.lor 0 1) (h_pos x)).
  exists (set_hs s' h2 (Some x2)), r. split; [ reflexivity | ].
  split; [ split; [ apply (upd_inv c s' h2 (dupped x)); auto | exact (proj2 K2) ] | ].
  split; [ exact K3 | ]. left. exists x. split; [ exact L | split; [ exact Ex | ] ].
  rewrite R0 at 2. cbn [Z.eqb].
  destruct (upd_ent c s' p r h2 x2 V' T2) as (U1 & U2). split.
  - rewrite U2. reflexivity.
  - intros a i N. rewrite (U1 a i N). apply OT; exact N.
Qed.

Lemma upd_good c s p fd h x x' : good c s -> tb s p fd = Some h -> hs s h = Some x ->
  h_o x' = h_o x -> wronly x' = wronly x ->
  good c (set_hs s h (Some x')) /\ pr (set_hs s h (Some x')) = pr s /\
  ent (set_hs s h (Some x')) p fd = Some x' /\ others s (set_hs s h (Some x')) p fd.
Proof.
  intros (V & PP) T Hx A B. split; [ split; [ apply (upd_inv c s h x); auto | exact PP ] | ].
  split; [ reflexivity | ]. destruct (upd_ent c s p fd h x' V T). auto.
Qed.

Lemma setfd_ok c s p fd arg : good c s ->
  (ent s p fd = None /\ setfd c s p fd arg = Ok (s, EBADF)) \/
  (exists s' x, ent s p fd = Some x /\ setfd c s p fd arg = Ok (s', 0) /\ good c s' /\ pr s' = pr s /\
     ent s' p fd = Some (Hnd (h_o x) (h_fl x) (Z.land arg 65535) (h_pos x)) /\ others s s' p fd).
Proof.
  intro G. assert (V := proj1 G). unfold setfd. rewrite (get_h_tb c) by exact V.
  destruct (tb s p fd) as [h | ] eqn:T; [ right | left; split; [ apply (ent_none c); assumption | reflexivity ] ].
  destruct (ent_some c s p fd h V T) as (x & Hx & Ex). unfold deref. rewrite Hx. cbn [bind].
  eexists _, x. split; [ exact Ex | split; [ reflexivity | ] ].
  apply (upd_good c s p fd h x); auto.
Qed.

Lemma advance_ok c s p fd n : good c s ->
  (ent s p fd = None /\ advance c s p fd n = Ok (s, EBADF)) \/
  (exists s' x, ent s p fd = Some x /\ advance c s p fd n = Ok (s', n) /\ good c s' /\ pr s' = pr s /\
     ent s' p fd = Some (Hnd (h_o x) (h_fl x) (h_fd x) (h_pos x + n)) /\ others s s' p fd).
Proof.
  intro G. assert (V := proj1 G). unfold advance. rewrite (get_h_tb c) by exact V.
  destruct (tb s p fd) as [h | ] eqn:T; [ right | left; split; [ apply (ent_none c); assumption | reflexivity ] ].
  destruct (ent_some c s p fd h V T) as (x & Hx & Ex). unfold deref. rewrite Hx. cbn [bind].
  eexists _, x. split; [ exact Ex | split; [ reflexivity | ] ].
  apply (upd_good c s p fd h x); auto.
Qed.

Definition newfl (fl arg : Z) : Z := Z.lor (Z.land arg CHANGEABLE) (Z.land fl (Z.lnot CHANGEABLE)).
Lemma newfl_odd fl arg : Z.odd (newfl fl arg) = Z.odd fl.
Proof.
  rewrite <- !Z.bit0_odd. unfold newfl. rewrite Z.lor_spec, !Z.land_spec, Z.lnot_spec by lia.
  replace (Z.testbit CHANGEABLE 0) with false by reflexivity. cbn [negb]. rewrite andb_false_r, andb_true_r. reflexivity.
Qed.
Lemma setfl_ok c s p fd arg : good c s -> has arg (Z.lor O_ASYNC O_DIRECT) = false ->
  (ent s p fd = None /\ setfl c s p fd arg = Ok (s, EBADF)) \/
  (exists s' x, ent s p fd = Some x /\ setfl c s p fd arg = Ok (s', 0) /\ good c s' /\ pr s' = pr s /\
     ent s' p fd = Some (Hnd (h_o x) (newfl (h_fl x) arg) (h_fd x) (h_pos x)) /\ others s s' p fd).
Proof.
  intros G HA. assert (V := proj1 G). unfold setfl. rewrite (get_h_tb c) by exact V.
  destruct (tb s p fd) as [h | ] eqn:T; [ right | left; split; [ apply (ent_none c); assumption | reflexivity ] ].
  destruct (ent_some c s p fd h V T) as (x & Hx & Ex). unfold deref. rewrite Hx. cbn [bind]. rewrite HA.
  eexists _, x. split; [ exact Ex | split; [ reflexivity | ] ].
  apply (upd_good c s p fd h x); auto. apply newfl_odd.
Qed.

(* ---------- loops *)
Definition only (b : bool) (e : option hnd) : option hnd := if b then e else None.
Definition keep (which : hnd -> bool) (e : option hnd) : option hnd :=
  match e with Some x => if which x then None else Some x | None => None end.

Lemma close_those_ok which c p l : forall s, NoDup l -> good c s ->
  exists s', close_those which c s p l = Ok s' /\ good c s' /\ pr s' = pr s /\
    (forall i, In i l -> ent s' p i = keep which (ent s p i)) /\
    (forall a i, a <> p \/ ~ In i l -> ent s' a i = ent s a i).
Proof.
  induction l as [ | i l IH ]; intros s D G.
  - exists s. split; [ reflexivity | ]. repeat (split; auto). intros i [].
  - inversion D as [ | ? ? NI D' ]; subst. cbn [close_those]. assert (V := proj1 G).
    destruct (tb s p i) as [h | ] eqn:T.
    + destruct (close_closed c s p i h V T) as (x & Hx & EC). unfold deref. rewrite Hx. cbn [bind].
      assert (Ex : ent s p i = Some x) by (unfold ent; rewrite T; exact Hx).
      destruct (which x) eqn:W.
      * rewrite EC. cbn [bind]. set (s1 := set_tb (closed c s h x) p i None).
        assert (G1 : good c s1) by (split; [ apply del_inv; auto | apply del_pipes; auto; exact (proj2 G) ]).
        destruct (del_ent c s p i h x V T) as (E1 & E2). fold s1 in E1, E2.
        destruct (IH s1 D' G1) as (s' & -> & G' & PR & K1 & K2). exists s'. split; [ reflexivity | ].
        split; [ exact G' | ]. split; [ rewrite PR; unfold s1; cbn [set_tb pr]; apply closed_pr | ]. split.
        -- intros j [<- | IJ].
           ++ rewrite K2 by tauto. rewrite E2, Ex. cbn [keep]. rewrite W. reflexivity.
           ++ rewrite K1 by exact IJ. rewrite E1; [ reflexivity | right; intros ->; tauto ].
        -- intros a j N. cbn [In] in N. rewrite K2 by tauto. apply E1. destruct N as [N | N]; [ tauto | right; intros ->; tauto ].
      * destruct (IH s D' G) as (s' & -> & G' & PR & K1 & K2). exists s'. split; [ reflexivity | ].
        split; [ exact G' | split; [ exact PR | ] ]. split.
        -- intros j [<- | IJ]; [ | apply K1; exact IJ ].
           rewrite K2 by tauto. rewrite Ex. cbn [keep]. rewrite W. reflexivity.
        -- intros a j N. cbn [In] in N. apply K2. tauto.
    + destruct (IH s D' G) as (s' & -> & G' & PR & K1 & K2). exists s'. split; [ reflexivity | ].
      split; [ exact G' | split; [ exact PR | ] ]. split.
      * intros j [<- | IJ]; [ | apply K1; exact IJ ].
        rewrite K2 by tauto. unfold ent. rewrite T. reflexivity.
      * intros a j N. cbn [In] in N. apply K2. tauto.
Qed.

Lemma idx_in n i : In i (idx n) <-> 0 <= i < n.
Proof.
  unfold idx. rewrite in_map_iff. split.
  - intros (k & <- & K). apply in_seq in K. lia.
  - intro R. exists (Z.to_nat i). split; [ lia | apply in_seq; lia ].
Qed.
Lemma idx_sorted n : StronglySorted Z.lt (idx n).
Proof.
  unfold idx. generalize (Z.to_nat n) as k. generalize 0%nat as a.
  intros a k. revert a. induction k as [ | k IH ]; intro a; cbn [seq map]; constructor.
  - apply IH.
  - apply Forall_forall. intros x Hx. apply in_map_iff in Hx. destruct Hx as (m & <- & Hm).
    apply in_seq in Hm. lia.
Qed.
Lemma sorted_nodup l : StronglySorted Z.lt l -> NoDup l.
Proof.
  induction 1 as [ | a l _ IH F ]; constructor; [ | exact IH ].
  intro HI. rewrite Forall_forall in F. specialize (F _ HI). lia.
Qed.

Lemma exec_ok c s p : good c s ->
  exists s', exec c s p = Ok s' /\ good c s' /\ pr s' = pr s /\
    (forall i, ent s' p i = keep cloexec (ent s p i)) /\
    (forall a i, a <> p -> ent s' a i = ent s a i).
Proof.
  intro G. destruct (close_those_ok cloexec c p (idx (maxh c)) s) as (s' & K1 & K2 & K3 & K4 & K5); auto.
  { apply sorted_nodup, idx_sorted. }
  exists s'. split; [ exact K1 | split; [ exact K2 | split; [ exact K3 | ] ] ]. split; [ | intros; apply K5; tauto ].
  intro i. destruct (in_dec Z.eq_dec i (idx (maxh c))) as [HI | HI]; [ apply K4; exact HI | ].
  rewrite K5 by tauto. rewrite idx_in in HI. rewrite (ent_out c s p i (proj1 G) HI). reflexivity.
Qed.

Lemma exit_ok c s p : good c s ->
  exists s', exit c s p = Ok s' /\ good c s' /\ pr s' = fupd (pr s) p false /\
    (forall i, ent s' p i = None) /\ (forall a i, a <> p -> ent s' a i = ent s a i).
Proof.
  intro G. unfold exit.
  destruct (close_those_ok (fun _ => true) c p (idx (maxh c)) s) as (s1 & -> & K2 & K3 & K4 & K5); auto.
  { apply sorted_nodup, idx_sorted. }
  cbn [bind]. eexists. split; [ reflexivity | ]. cbn [pr]. rewrite K3.
  assert (EN : forall i, ent s1 p i = None).
  { intro i. destruct (in_dec Z.eq_dec i (idx (maxh c))) as [HI | HI].
    - rewrite K4 by exact HI. destruct (ent s p i); reflexivity.
    - rewrite K5 by tauto. rewrite idx_in in HI. apply (ent_out c s p i (proj1 G) HI). }
  split; [ split | split; [ reflexivity | split; [ exact EN | intros; apply K5; tauto ] ] ].
  - apply (inv_agree c s1); [ exact (proj1 K2) | repeat split; reflexivity | reflexivity | ].
    intros a i N. cbn [pr]. destruct (Z.eq_dec a p) as [-> | NE].
    + exfalso. apply N. apply (ent_none c s1 p i (proj1 K2)). apply EN.
    + rewrite fupd_other by exact NE. destruct (tb s1 a i) as [h | ] eqn:E; [ | congruence ].
      rewrite <- K3. apply (v_slot _ _ (proj1 K2) _ _ _ E).
  - exact (proj2 K2).
Qed.
