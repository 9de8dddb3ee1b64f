From Coq Require Import ZArith List Bool Lia Sorted.
From Verif Require Import Lib Fd_Model Fd_Spec Fd_Proofs Fd_Proofs2 Fd_Proofs3 Fd_Proofs4.
Import ListNotations.
Open Scope Z_scope.

Lemma init_good c s : init c s -> good c s.
Proof.
  intros [n1 n2 n3 n4 n5 n6]. split.
  - constructor; auto.
    + intros p fd h E. rewrite n2 in E. discriminate.
    + intros p fd p' fd' h E. rewrite n2 in E. discriminate.
    + intros h x E. rewrite n1 in E. discriminate.
    + intros h x E. rewrite n1 in E. discriminate.
    + intro o. rewrite n4. apply cnt_none. intros h (x & Hx & _). rewrite n1 in Hx. discriminate.
    + intros o E. destruct (n3 o E).
    + intros o E. destruct (n3 o E).
    + intro f. rewrite n5. apply cnt_none. intros h (x & Hx & _). rewrite n1 in Hx. discriminate.
  - intros o E. destruct (n3 o E).
Qed.

Lemma step_good c al alo s o : good c s -> al_ok al -> alo_ok alo -> allowed al s o ->
  exists s', step c al alo s o = Ok s' /\ good c s'.
Proof.
  intros G AL ALO AW. destruct o; cbn [step]; cbn [allowed] in AW.
  - destruct AW as (A1 & A2). destruct (open_ok c al s p o flags err G AL A1 A2) as (s' & r & E & G' & _).
    rewrite E. cbn. eauto.
  - destruct (close_ok c s p fd G) as [(_ & E) | (s' & x & _ & E & G' & _)]; rewrite E; cbn; eauto.
  - destruct (dup_ok c al s p fd G AL AW) as (s' & r & E & G' & _). rewrite E. cbn. eauto.
  - destruct AW as (A1 & A2). destruct (dup2_ok c al s p fd fd' G AL A1 A2) as (s' & r & E & G' & _).
    rewrite E. cbn. eauto.
  - destruct AW as (A1 & A2). destruct (dupfd_ok c al s p fd arg G AL A1 A2) as (s' & r & E & G' & _).
    rewrite E. cbn. eauto.
  - destruct AW as (A1 & A2). destruct (dupfd_cloexec_ok c al s p fd arg G AL A1 A2) as (s' & r & E & G' & _).
    rewrite E. cbn. eauto.
  - destruct (setfd_ok c s p fd arg G) as [(_ & E) | (s' & x & _ & E & G' & _)]; rewrite E; cbn; eauto.
  - destruct AW as (A1 & A2).
    destruct (setfl_ok c s p fd arg G A2) as [(_ & E) | (s' & x & _ & E & G' & _)]; rewrite E; cbn; eauto.
  - destruct (advance_ok c s p fd n G) as [(_ & E) | (s' & x & _ & E & G' & _)]; rewrite E; cbn; eauto.
  - destruct (pipe2_ok c al alo s p flags fault G AL ALO AW) as (s' & r & E & G' & _). rewrite E. cbn. eauto.
  - destruct (exec_ok c s p G) as (s' & E & G' & _). eauto.
  - destruct AW as (A1 & A2 & A3). destruct (fork_ok c al s p q G AL A1 A2 A3) as (s' & r & E & G' & _).
    rewrite E. cbn. eauto.
  - destruct (exit_ok c s p G) as (s' & E & G' & _). eauto.
Qed.

Lemma runs_good c l : forall s s', good c s -> runs c l s s' -> good c s'.
Proof.
  induction l as [ | o l IH ]; intros s s' G R; inversion R; subst; [ exact G | ].
  destruct (step_good c al alo s o G) as (s1' & E & G1); auto.
  apply (IH s1); [ | assumption ]. congruence.
Qed.
Lemma reach_good c s : reach c s -> good c s.
Proof. intros (s0 & l & N & R). exact (runs_good c l s0 s (init_good c s0 N) R). Qed.

Lemma reach_no_error c al alo s o : reach c s -> al_ok al -> alo_ok alo -> allowed al s o ->
  exists s', step c al alo s o = Ok s' /\ reach c s'.
Proof.
  intros RE AL ALO AW. destruct (step_good c al alo s o (reach_good c s RE) AL ALO AW) as (s' & E & _).
  exists s'. split; [ exact E | ]. destruct RE as (s0 & l & N & R). exists s0, (l ++ [o]). split; [ exact N | ].
  clear N. induction R.
  - cbn. apply (runs_cons c o [] al alo s s' s'); auto. constructor.
  - cbn. apply (runs_cons c o0 _ al0 alo0 s s1); auto.
Qed.

(* ---------- handles and descriptors are one to one *)
Lemma slots_of c s (V : inv c s) : forall L, NoDup L -> (forall h, In h L -> exists x, hs s h = Some x) ->
  exists M, NoDup M /\ (forall p fd, In (p, fd) M <-> exists h, In h L /\ tb s p fd = Some h) /\ zlen M = zlen L.
Proof.
  induction L as [ | h L IH ]; intros D K.
  - exists []. split; [ constructor | split; [ | reflexivity ] ]. intros p fd. cbn. split; [ tauto | intros (h & [] & _) ].
  - inversion D as [ | ? ? NI D' ]; subst. destruct IH as (M & DM & MM & LM); auto.
    { intros k HK. apply K. right; exact HK. }
    destruct (K h (or_introl eq_refl)) as (x & Hx). destruct (v_own _ _ V _ _ Hx) as (p & fd & T).
    exists ((p, fd) :: M). split; [ | split ].
    + constructor; [ | exact DM ]. rewrite MM. intros (k & HK & TK). assert (k = h) by congruence. subst. tauto.
    + intros p' fd'. cbn [In]. rewrite MM. split.
      * intros [Q | (k & HK & TK)]; [ injection Q as <- <-; exists h; auto | exists k; auto ].
      * intros (k & [<- | HK] & TK); [ left | right; exists k; auto ].
        destruct (v_inj _ _ V _ _ _ _ _ T TK); congruence.
    + rewrite !zlen_cons. lia.
Qed.

Lemma opens_of c s C n : inv c s -> cnt (hp (hs s) C) n -> opens C s n.
Proof.
  intros V (L & D & M & E). destruct (slots_of c s V L D) as (K & DK & MK & LK).
  { intros h HI. apply M in HI. destruct HI as (x & Hx & _). eauto. }
  exists K. split; [ exact DK | split; [ | lia ] ].
  intros p fd. rewrite MK. unfold ent. split.
  - intros (h & HI & T). rewrite T. apply M in HI. exact HI.
  - intros (x & Hx & Cx). destruct (tb s p fd) as [h | ]; [ | discriminate ].
    exists h. split; [ | reflexivity ]. apply M. exists x. auto.
Qed.

Lemma reach_counts c s : reach c s ->
  (forall o, opens (fun x => h_o x =? o) s (rf s o)) /\
  (forall o, ok s o = OPipe ->
     opens (fun x => (h_o x =? o) && negb (wronly x)) s (rd s o) /\
     opens (fun x => (h_o x =? o) && wronly x) s (wr s o)) /\
  (forall f, opens (fun x => fs c (h_o x) =? f) s (fr s f - 1)).
Proof.
  intro RE. destruct (reach_good c s RE) as (V & PP). repeat split.
  - intro o. apply (opens_of c s (C_o o) _ V). apply (v_rf _ _ V).
  - apply (opens_of c s (C_r o) _ V). apply (v_rd _ _ V); assumption.
  - apply (opens_of c s (C_w o) _ V). apply (v_wr _ _ V); assumption.
  - intro f. apply (opens_of c s (C_f c f) _ V). apply (v_fr _ _ V).
Qed.

Lemma reach_pipe_ends c s o : reach c s -> ok s o = OPipe ->
  (rd s o = 0 <-> forall p fd x, ent s p fd = Some x -> h_o x = o -> wronly x = true) /\
  (wr s o = 0 <-> forall p fd x, ent s p fd = Some x -> h_o x = o -> wronly x = false).
Proof.
  intros RE E. destruct (reach_counts c s RE) as (_ & K & _). destruct (K o E) as ((L & D & M & N) & (L' & D' & M' & N')).
  split.
  - rewrite N. split.
    + intros Z0 p fd x Ex Eo. destruct (wronly x) eqn:W; [ reflexivity | exfalso ].
      assert (HI : In (p, fd) L) by (apply M; exists x; rewrite W, Eo, Z.eqb_refl; auto).
      destruct L; [ destruct HI | ]. rewrite zlen_cons in Z0. unfold zlen in Z0. lia.
    + intro H. destruct L as [ | (p, fd) L ]; [ reflexivity | exfalso ].
      destruct (proj1 (M p fd) (or_introl eq_refl)) as (x & Ex & Q). apply andb_true_iff in Q.
      destruct Q as (Q1 & Q2). apply Z.eqb_eq in Q1. rewrite (H p fd x Ex Q1) in Q2. discriminate.
  - rewrite N'. split.
    + intros Z0 p fd x Ex Eo. destruct (wronly x) eqn:W; [ exfalso | reflexivity ].
      assert (HI : In (p, fd) L') by (apply M'; exists x; rewrite W, Eo, Z.eqb_refl; auto).
      destruct L'; [ destruct HI | ]. rewrite zlen_cons in Z0. unfold zlen in Z0. lia.
    + intro H. destruct L' as [ | (p, fd) L' ]; [ reflexivity | exfalso ].
      destruct (proj1 (M' p fd) (or_introl eq_refl)) as (x & Ex & Q). apply andb_true_iff in Q.
      destruct Q as (Q1 & Q2). apply Z.eqb_eq in Q1. rewrite (H p fd x Ex Q1) in Q2. discriminate.
Qed.

Lemma reach_alive c s : reach c s ->
  (forall p fd h, tb s p fd = Some h -> pr s p = true /\ fd_ok c fd /\ exists x, hs s h = Some x /\ ok s (h_o x) <> ONone) /\
  (forall h x, hs s h = Some x -> exists p fd, tb s p fd = Some h /\
     forall p' fd', tb s p' fd' = Some h -> p' = p /\ fd' = fd) /\
  (forall o, ok s o = OPipe -> exists p fd x, ent s p fd = Some x /\ h_o x = o).
Proof.
  intro RE. destruct (reach_good c s RE) as (V & PP). split; [ | split ].
  - intros p fd h T. destruct (v_slot _ _ V _ _ _ T) as (A & B & x & Hx). split; [ exact A | split; [ exact B | ] ].
    exists x. split; [ exact Hx | apply (v_obj _ _ V _ _ Hx) ].
  - intros h x Hx. destruct (v_own _ _ V _ _ Hx) as (p & fd & T). exists p, fd. split; [ exact T | ].
    intros p' fd' T'. destruct (v_inj _ _ V _ _ _ _ _ T T'). auto.
  - intros o E. assert (P0 := PP o E). destruct (v_rf _ _ V o) as (L & D & M & EL).
    destruct L as [ | h L ]; [ cbn in EL; unfold zlen in EL; cbn in EL; lia | ].
    destruct (proj1 (M h) (or_introl eq_refl)) as (x & Hx & Q). apply Z.eqb_eq in Q.
    destruct (v_own _ _ V _ _ Hx) as (p & fd & T). exists p, fd, x. unfold ent. rewrite T. auto.
Qed.

Lemma reach_no_leak c s : reach c s -> (forall p, pr s p = false) ->
  (forall h, hs s h = None) /\ (forall o, ok s o <> OPipe) /\ (forall o, rf s o = 0) /\ (forall f, fr s f = 1).
Proof.
  intros RE NP. destruct (reach_alive c s RE) as (A & B & C).
  assert (NH : forall h, hs s h = None).
  { intro h. destruct (hs s h) as [x | ] eqn:Hx; [ exfalso | reflexivity ].
    destruct (B h x Hx) as (p & fd & T & _). destruct (A p fd h T) as (P & _). rewrite NP in P. discriminate. }
  split; [ exact NH | split; [ | split ] ].
  - intros o E. destruct (C o E) as (p & fd & x & Ex & _). unfold ent in Ex.
    destruct (tb s p fd) as [h | ]; [ | discriminate ]. rewrite NH in Ex. discriminate.
  - intro o. destruct (reach_good c s RE) as (V & _). destruct (v_rf _ _ V o) as (L & D & M & EL).
    destruct L as [ | h L ]; [ exact EL | ]. destruct (proj1 (M h) (or_introl eq_refl)) as (x & Hx & _).
    rewrite NH in Hx. discriminate.
  - intro f. destruct (reach_good c s RE) as (V & _). destruct (v_fr _ _ V f) as (L & D & M & EL).
    destruct L as [ | h L ]; [ unfold zlen in EL; cbn in EL; lia | ].
    destruct (proj1 (M h) (or_introl eq_refl)) as (x & Hx & _). rewrite NH in Hx. discriminate.
Qed.

(* ---------- the system calls *)
Lemma r_open c al s p o flags err : reach c s -> al_ok al -> pr s p = true -> ok s o = OFile ->
  exists s' r, sys_open c al s p o flags err = Ok (s', r) /\
    ((lowest c s p 0 r /\ ent s' p r = Some (Hnd o flags (if has flags O_CLOEXEC then 1 else 0) 0) /\
      others s s' p r) \/
     (s' = s /\
      (r = EINVAL /\ has flags O_ASYNC = true \/
       r = EOPNOTSUPP /\ Z.land flags O_TMPFILE = O_TMPFILE \/
       r = EMFILE /\ all_open c s p 0 \/ r = err /\ err < 0 \/ r = ENOMEM /\ al s = None))).
Proof.
  intros RE A B C. destruct (open_ok c al s p o flags err (reach_good c s RE) A B C) as (s' & r & E & _ & _ & _ & K).
  exists s', r. auto.
Qed.
Lemma r_close c s p fd : reach c s ->
  (ent s p fd = None /\ sys_close c s p fd = Ok (s, EBADF)) \/
  (exists s' x, ent s p fd = Some x /\ sys_close c s p fd = Ok (s', 0) /\
     ent s' p fd = None /\ others s s' p fd).
Proof.
  intro RE. destruct (close_ok c s p fd (reach_good c s RE)) as [K | (s' & x & A & B & _ & _ & K)]; [ auto | ].
  right. exists s', x. auto.
Qed.
Lemma r_dup2 c al s p fd fd' : reach c s -> al_ok al -> pr s p = true ->
  (ent s p fd' = None \/ forall s', al s' <> None) ->
  exists s' r, sys_dup2 c al s p fd fd' = Ok (s', r) /\
    ((exists x, r = fd' /\ fd_ok c fd' /\ fd <> fd' /\ ent s p fd = Some x /\
        ent s' p fd' = Some (Hnd (h_o x) (h_fl x) 0 (h_pos x)) /\ others s s' p fd') \/
     (s' = s /\ (r = EBADF /\ (ent s p fd = None \/ ~ fd_ok c fd') \/ r = EINVAL /\ fd = fd' \/
                 r = ENOMEM /\ al s = None))).
Proof.
  intros RE A B C. destruct (dup2_ok c al s p fd fd' (reach_good c s RE) A B C) as (s' & r & E & _ & _ & K).
  exists s', r. auto.
Qed.
Lemma r_dup c al s p fd : reach c s -> al_ok al -> pr s p = true ->
  exists s' r, sys_dup c al s p fd = Ok (s', r) /\
    ((exists x, lowest c s p 0 r /\ ent s p fd = Some x /\
        ent s' p r = Some (Hnd (h_o x) (h_fl x) 0 (h_pos x)) /\ others s s' p r) \/
     (s' = s /\ r < 0 /\ (ent s p fd = None \/ r = EMFILE /\ all_open c s p 0 \/ r = ENOMEM /\ al s = None))).
Proof.
  intros RE A B. destruct (dup_ok c al s p fd (reach_good c s RE) A B) as (s' & r & E & _ & _ & K).
  exists s', r. auto.
Qed.
Lemma r_dupfd c al s p fd arg : reach c s -> al_ok al -> pr s p = true -> 0 <= arg ->
  exists s' r, dupfd c al s p fd arg = Ok (s', r) /\
    ((exists x, lowest c s p arg r /\ ent s p fd = Some x /\
        ent s' p r = Some (Hnd (h_o x) (h_fl x) 0 (h_pos x)) /\ others s s' p r) \/
     (s' = s /\ r < 0 /\ (ent s p fd = None \/ r = EBADF /\ all_open c s p arg \/ r = ENOMEM /\ al s = None))).
Proof.
  intros RE A B C. destruct (dupfd_ok c al s p fd arg (reach_good c s RE) A B C) as (s' & r & E & _ & _ & K).
  exists s', r. auto.
Qed.
Lemma r_dupfd_cloexec c al s p fd arg : reach c s -> al_ok al -> pr s p = true -> 0 <= arg ->
  exists s' r, dupfd_cloexec c al s p fd arg = Ok (s', r) /\
    ((exists x, lowest c s p arg r /\ ent s p fd = Some x /\
        ent s' p r = Some (Hnd (h_o x) (h_fl x) (if r =? 0 then 1 else 0) (h_pos x)) /\ others s s' p r) \/
     (s' = s /\ r < 0 /\ (ent s p fd = None \/ r = EBADF /\ all_open c s p arg \/ r = ENOMEM /\ al s = None))).
Proof.
  intros RE A B C. destruct (dupfd_cloexec_ok c al s p fd arg (reach_good c s RE) A B C) as (s' & r & E & _ & _ & K).
  exists s', r. auto.
Qed.
Lemma r_flags c s p fd x arg : reach c s -> ent s p fd = Some x ->
  getfd c s p fd = Ok (h_fd x) /\ getfl c s p fd = Ok (h_fl x) /\
  (exists s', setfd c s p fd arg = Ok (s', 0) /\
     ent s' p fd = Some (Hnd (h_o x) (h_fl x) (Z.land arg 65535) (h_pos x)) /\ others s s' p fd) /\
  (has arg (Z.lor O_ASYNC O_DIRECT) = false -> exists s' fl, setfl c s p fd arg = Ok (s', 0) /\
     ent s' p fd = Some (Hnd (h_o x) fl (h_fd x) (h_pos x)) /\ others s s' p fd /\
     forall b, Z.testbit fl b =
       if existsb (Z.eqb b) [10; 11; 13; 14; 18] then Z.testbit arg b else Z.testbit (h_fl x) b) /\
  (exists s', advance c s p fd arg = Ok (s', arg) /\
     ent s' p fd = Some (Hnd (h_o x) (h_fl x) (h_fd x) (h_pos x + arg)) /\ others s s' p fd).
Proof.
  intros RE Ex. assert (G := reach_good c s RE). assert (V := proj1 G).
  split; [ | split; [ | split; [ | split ] ] ].
  - unfold getfd, deref. rewrite (get_h_tb c) by exact V. unfold ent in Ex.
    destruct (tb s p fd); [ rewrite Ex; reflexivity | discriminate ].
  - unfold getfl, deref. rewrite (get_h_tb c) by exact V. unfold ent in Ex.
    destruct (tb s p fd); [ rewrite Ex; reflexivity | discriminate ].
  - destruct (setfd_ok c s p fd arg G) as [(N & _) | (s' & x' & A & B & _ & _ & C & D)]; [ congruence | ].
    exists s'. replace x with x' by congruence. auto.
  - intro HA. destruct (setfl_ok c s p fd arg G HA) as [(N & _) | (s' & x' & A & B & _ & _ & C & D)]; [ congruence | ].
    exists s', (newfl (h_fl x) arg). replace x' with x in C by congruence.
    split; [ exact B | split; [ exact C | split; [ exact D | ] ] ].
    intro b. destruct (Z.ltb_spec b 0) as [NB | NB].
    { rewrite !Z.testbit_neg_r by exact NB. destruct (existsb _ _); reflexivity. }
    unfold newfl. rewrite Z.lor_spec, !Z.land_spec, Z.lnot_spec by exact NB.
    assert (TC : Z.testbit CHANGEABLE b = existsb (Z.eqb b) [10; 11; 13; 14; 18]).
    { cbn [existsb]. destruct (Z.ltb_spec b 19) as [LB | LB].
      - assert (CS : b = 0 \/ b = 1 \/ b = 2 \/ b = 3 \/ b = 4 \/ b = 5 \/ b = 6 \/ b = 7 \/ b = 8 \/ b = 9 \/
          b = 10 \/ b = 11 \/ b = 12 \/ b = 13 \/ b = 14 \/ b = 15 \/ b = 16 \/ b = 17 \/ b = 18) by lia.
        repeat destruct CS as [-> | CS]; try reflexivity. subst b. reflexivity.
      - rewrite Z.bits_above_log2; [ | unfold CHANGEABLE; lia | unfold CHANGEABLE; cbn; lia ].
        repeat match goal with |- context[b =? ?k] =>
          replace (b =? k) with false by (symmetry; apply Z.eqb_neq; lia) end. reflexivity. }
    rewrite TC. destruct (existsb _ _); cbn [negb]; rewrite ?andb_true_r, ?andb_false_r, ?orb_false_r; reflexivity.
  - destruct (advance_ok c s p fd arg G) as [(N & _) | (s' & x' & A & B & _ & _ & C & D)]; [ congruence | ].
    exists s'. replace x with x' by congruence. auto.
Qed.
Lemma r_pipe2 c al alo s p flags fault : reach c s -> al_ok al -> alo_ok alo -> pr s p = true ->
  exists s' e, sys_pipe2 c al alo s p flags fault = Ok (s', e) /\
    ((e = 0 /\ exists o r w, ok s o = ONone /\ ok s' o = OPipe /\ lowest c s p 0 r /\ r < w /\
        w < maxh c /\ ent s p w = None /\ (forall i, r < i < w -> ent s p i <> None) /\
        (let cx := if has flags O_CLOEXEC then 1 else 0 in
         ent s' p r = Some (Hnd o 0 cx 0) /\ ent s' p w = Some (Hnd o 1 cx 0)) /\
        forall a i, a <> p \/ i <> r /\ i <> w -> ent s' a i = ent s a i) \/
     (e < 0 /\ same_ents s s' /\ (forall h, hs s' h = hs s h) /\ (forall o, ok s' o = ok s o) /\
      (forall o, rf s' o = rf s o) /\ (forall f, fr s' f = fr s f))).
Proof.
  intros RE A B C.
  destruct (pipe2_ok c al alo s p flags fault (reach_good c s RE) A B C) as (s' & e & E & _ & _ & K).
  exists s', e. split; [ exact E | ]. destruct K as [(K0 & o & r & w & K) | (K0 & ((K1 & K2 & K3 & _ & _ & K4) & _) & K5)].
  - left. split; [ exact K0 | ]. exists o, r, w. cbv zeta. unfold cxb in K. tauto.
  - right. auto 6.
Qed.
Lemma r_exec c s p : reach c s ->
  exists s', exec c s p = Ok s' /\
    (forall i, ent s' p i = match ent s p i with
                            | Some x => if cloexec x then None else Some x
                            | None => None
                            end) /\
    (forall a i, a <> p -> ent s' a i = ent s a i).
Proof. intro RE. destruct (exec_ok c s p (reach_good c s RE)) as (s' & E & _ & _ & K). exists s'. auto. Qed.
Lemma r_exit c s p : reach c s ->
  exists s', exit c s p = Ok s' /\ (forall i, ent s' p i = None) /\ (forall a i, a <> p -> ent s' a i = ent s a i).
Proof. intro RE. destruct (exit_ok c s p (reach_good c s RE)) as (s' & E & _ & _ & K). exists s'. auto. Qed.
Lemma r_fork c al s p q : reach c s -> al_ok al -> pr s p = true -> pr s q = false ->
  (dense s p \/ forall s0, al s0 <> None) ->
  exists s' r, fork c al s p q = Ok (s', r) /\
    (forall a i, a <> q -> ent s' a i = ent s a i) /\
    ((r = q /\ forall i, ent s' q i = match ent s p i with
                                      | Some x => Some (Hnd (h_o x) (h_fl x) 0 (h_pos x))
                                      | None => None
                                      end) \/
     (r = ENOMEM /\ (exists s0, al s0 = None) /\ forall i, ent s' q i = None)).
Proof.
  intros RE A B C D. destruct (fork_ok c al s p q (reach_good c s RE) A B C D) as (s' & r & E & _ & O & K).
  exists s', r. split; [ exact E | split; [ exact O | ] ].
  destruct K as [(K1 & _ & K2) | (K1 & K2 & _ & K3)]; [ left | right ]; auto.
Qed.
