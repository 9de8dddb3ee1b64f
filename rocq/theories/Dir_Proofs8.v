(** The property theorems about directories *)
From Verif Require Import Lib Dir_Model Dir_Spec Dir_Proofs Dir_Proofs2 Dir_Proofs3 Dir_Proofs4 Dir_Proofs5 Dir_Proofs6 Dir_Proofs7.

Lemma gd_reclen_aux DSZ s l : 0 <= DSZ -> forall bufsz lim offset pos out rc dp p o,
  (forall q, In q out -> 0 < d_reclen q) ->
  gd DSZ s l bufsz lim offset pos out = GOk rc dp p o -> forall q, In q o -> 0 < d_reclen q.
Proof.
  intros HD. induction l as [|e l IH]; intros bufsz lim offset pos out rc dp p o HO E; cbn in E.
  - injection E as _ _ _ <-. exact HO.
  - destruct (ino s (e_tgt e)); [|discriminate]. destruct (_ >? bufsz); [injection E as _ _ _ <-; exact HO|].
    destruct (_ || _); [injection E as _ _ _ <-; exact HO|]. eapply IH; [|exact E].
    intros q Hq. apply in_app_or in Hq as [Hq | [<- | []]]; [auto|]. cbn. pose proof (zlen_nonneg (e_name e)). lia.
Qed.

Lemma gd_reclen DSZ s h b l s' rc out : 0 <= DSZ -> do_getdents DSZ s h b l = Ok s' rc out ->
  forall q, In q out -> 0 < d_reclen q.
Proof.
  intros HD E q Hq. unfold do_getdents, ok in E. destruct (find_h s h) as [H|]; [|discriminate].
  destruct (ino s (h_ino H)); [|discriminate]. destruct (negb _); [injection E as _ _ <-; contradiction|].
  destruct (negb _); [injection E as _ _ <-; contradiction|]. destruct (match h_dpos H with None => _ | _ => _ end); [|discriminate].
  destruct (gd _ _ _ _ _ _ _ _) eqn:EG; [|discriminate]. injection E as _ _ <-. eapply gd_reclen_aux; eauto. intros ? [].
Qed.

Section P.
  Variables (dbg : bool) (NAMEMAX DSZ : Z).
  Hypothesis NM : 3 <= NAMEMAX.
  Notation wf := (wf NAMEMAX).
  Notation reach := (reach dbg NAMEMAX DSZ).
  Notation allowed := (allowed NAMEMAX).
  Notation step := (step dbg NAMEMAX DSZ).

  Lemma reach_wf' s : reach s -> wf s.
  Proof. apply reach_wf. exact NM. Qed.

  Lemma no_error s o : reach s -> allowed s o -> exists s' rc out, step s o = Ok s' rc out /\ reach s'.
  Proof.
    intros R A. destruct (step_ok dbg NAMEMAX DSZ NM s o (reach_wf' s R) A) as (s' & rc & out & E & _).
    exists s', rc, out. split; [exact E|]. econstructor; eauto.
  Qed.

  Lemma names_unique s e f : reach s -> In e (ents s) -> In f (ents s) -> e_dir e = e_dir f ->
    e_name e = e_name f -> e = f.
  Proof.
    intros R HE HF D N. destruct (reach_wf' s R) as [C _]. eapply (NoDup_key _ _ _ _ (c_names _ _ C)); auto. cbn. congruence.
  Qed.

  Lemma counts_exact s i x : reach s -> ino s i = Some x ->
    i_nlink x = count (fun e => e_tgt e =? i) (ents s) /\
    (i_type x = FDir -> i_num x = count (fun e => e_dir e =? i) (ents s)) /\
    i_refs x = count (fun h => h_ino h =? i) (hnds s) + count (fun p => p =? i) (pins s).
  Proof.
    intros R EX. destruct (reach_wf' s R) as [C _]. split; [apply (c_nlink _ _ C _ _ EX)|].
    split; [apply (c_num _ _ C _ _ EX)|apply (c_refs _ _ C _ _ EX)].
  Qed.

  Lemma allocated_iff_used s i : reach s -> (ino s i <> None <-> used s i).
  Proof.
    intros R. destruct (reach_wf' s R) as [C T]. split.
    - intros NN. destruct (ino s i) as [x|] eqn:EX; [|congruence]. destruct (t_live _ T _ _ EX) as [L | L]; [left; exact L|].
      rewrite (c_refs _ _ C _ _ EX) in L. pose proof (count_nonneg (fun h => h_ino h =? i) (hnds s)).
      pose proof (count_nonneg (fun p => p =? i) (pins s)). right.
      destruct (Z.eq_dec (count (fun h => h_ino h =? i) (hnds s)) 0) as [Z0 | NZ].
      + right. assert (0 < count (fun p => p =? i) (pins s)) by lia. apply count_pos in H1 as (y & Y1 & Y2).
        replace i with y by lia. exact Y1.
      + left. assert (0 < count (fun h => h_ino h =? i) (hnds s)) by lia. apply count_pos in H1 as (y & Y1 & Y2).
        exists y. split; [exact Y1|lia].
    - intros [(e & E1 & E2) | [(h & H1 & H2) | HP]].
      + destruct (c_tgt _ _ C _ E1) as (x & EX). congruence.
      + destruct (c_hino _ _ C _ H1) as (x & EX & _). congruence.
      + destruct (c_pins _ _ C _ HP) as (x & EX & _). congruence.
  Qed.

  Lemma is_tree s : reach s -> tree s.
  Proof. intros R. apply (reach_wf' s R). Qed.

  Lemma handles_point s h y : reach s -> In h (hnds s) -> h_dpos h = Some y ->
    exists e, In e (ents s) /\ e_id e = y /\ e_dir e = h_ino h.
  Proof. intros R HI HP. destruct (reach_wf' s R) as [C _]. eapply (c_hpos _ _ C); eauto. Qed.

  (** ** The effects of the calls *)
  Lemma with_path_inv s d n sl f s' rc out : wf s -> okarg NAMEMAX s (PEnt d n sl) ->
    with_path NAMEMAX s (PEnt d n sl) f = Ok s' rc out ->
    (s' = s /\ rc = ENOTDIR /\ out = []) \/
    exists p, okp NAMEMAX s d n p /\ p_last p = (if sl then n ++ [SLASH] else n) /\ f p = Ok s' rc out.
  Proof.
    intros W OA. unfold with_path. destruct (mkpath_ok NAMEMAX s d n sl W OA) as [-> | (p & -> & OP & OL)].
    - unfold ok. intros E. injection E as -> -> ->. auto.
    - intros E. right. eauto.
  Qed.

  Lemma same_obj x y : same x y -> same_object x y.
  Proof. unfold same, same_object. tauto. Qed.

  Lemma others_of s s' i : (forall j, j <> i -> match ino s j, ino s' j with
          | Some x, Some y => same x y | None, None => True | _, _ => False end) -> others_kept s s' i.
  Proof.
    intros H j NE. specialize (H j NE). destruct (ino s j), (ino s' j); auto. apply same_obj. exact H.
  Qed.

  Lemma rmdir_effect s d n sl s' rc out : reach s -> allowed s (ORmdir (PEnt d n sl)) ->
    step s (ORmdir (PEnt d n sl)) = Ok s' rc out ->
    (rc <> 0 /\ s' = s) \/
    (rc = 0 /\ exists i, leads s d n i /\ is_dir s i /\ i <> ROOT /\
       (forall f, In f (ents s) -> e_dir f = i -> dots (e_name f)) /\
       (forall h, In h (hnds s) -> h_ino h <> i) /\ ~ In i (pins s) /\
       (forall f, In f (ents s') <-> In f (ents s) /\ e_dir f <> i /\ ~ named s d n f) /\
       ino s' i = None /\ others_kept s s' i).
  Proof.
    intros R [A ADOT] E. pose proof (reach_wf' s R) as W. cbn [Dir_Model.step] in E.
    destruct (with_path_inv s d n sl _ _ _ _ W A E) as [(-> & -> & _) | (p & OP & OL & EP)]; [left; split; [discriminate|reflexivity]|].
    destruct A as (HD & N1 & N2 & N3 & N4).
    destruct (rmdir_ok dbg NAMEMAX s d n p W HD OP N4) as (s1 & rc1 & E1 & W1 & _ & F0 & F1).
    { intros ND. rewrite OL, (ADOT ND). reflexivity. }
    rewrite E1 in EP. injection EP as -> -> _. destruct (Z.eq_dec rc 0) as [Z0 | NZ]; [right|left; auto].
    split; [exact Z0|]. destruct (F1 Z0) as (i & PI & ND & NR & DI & ID & LD & EMP & HN & PN & OTH & INX & INI & SH & _).
    exists i. split; [exact LD|]. split; [exact ID|]. split; [exact NR|]. split; [exact EMP|]. split; [exact HN|].
    split; [exact PN|]. split; [|split; [exact INI|apply others_of; exact SH]].
    intros f. rewrite INX. split; intros (B1 & B2 & B3); (split; [exact B1|]); (split; [exact B2|]).
    - intros NF. destruct LD as (e & LE & <-). destruct W as [C _]. apply B3. f_equal. eapply named_uniq; eauto.
    - intros EQ. apply B3. apply OTH; auto.
  Qed.

  Lemma rmdir_succeeds s d n i D : reach s -> allowed s (ORmdir (PEnt d n false)) -> leads s d n i ->
    ~ dots n -> is_dir s i -> (forall f, In f (ents s) -> e_dir f = i -> dots (e_name f)) ->
    (forall h, In h (hnds s) -> h_ino h <> i) -> ~ In i (pins s) ->
    ino s d = Some D -> Z.land (i_mode D) 128 = 128 ->
    exists s', step s (ORmdir (PEnt d n false)) = Ok s' 0 [].
  Proof.
    intros R A LD ND (Ix & EI & TI) EMP HN PN ED WR. pose proof (reach_wf' s R) as W. pose proof W as [C T].
    destruct (step_ok dbg NAMEMAX DSZ NM s _ W A) as (s' & rc & out & E & W' & _).
    cbn [Dir_Model.step] in E |- *. destruct A as [A _]. unfold with_path in *.
    destruct LD as (e & (E1 & E2 & E3) & <-).
    assert (MK : mkpath NAMEMAX s (PEnt d n false) = POk (mkP (Some (e_tgt e)) d (Some (e_id e)) n)).
    { cbn in A. destruct A as (HD & N1 & N2 & N3 & N4). cbn. destruct (zlen n + 1 >? NAMEMAX) eqn:Q; [lia|]. rewrite ED.
      destruct HD as (D' & ED' & TD). assert (D' = D) by congruence. subst D'. rewrite TD. cbn.
      rewrite (find_name_in s d n e (c_names _ _ C)) by (split; auto). rewrite EI. reflexivity. }
    rewrite MK in *. unfold do_rmdir in *. cbn [p_ino p_dir p_ent p_last] in *. rewrite EI, ED, TI in *. cbn [ftype_eqb negb] in *.
    unfold has in *. rewrite WR in *. change (128 =? 128) with true in *. cbn [negb] in *.
    assert (ISD : is_dot n = false).
    { destruct (is_dot n) eqn:Q; [|reflexivity]. exfalso. apply ND. left. destruct n as [|c [|]]; try discriminate. cbn in Q.
      unfold DOT. f_equal. lia. }
    rewrite ISD in *.
    assert (NUM : i_num Ix <= 2).
    { rewrite (c_num _ _ C _ _ EI TI). unfold count.
      assert (NDM : NoDup (filter (fun f => e_dir f =? e_tgt e) (ents s))) by (apply NoDup_filter; eapply NoDup_map_inv; apply (c_ids _ _ C)).
      destruct (t_dot _ T _ _ EI TI) as (a & Ax & _). destruct (t_dotdot _ T _ _ EI TI) as (b & Bx & _).
      assert (IN : incl (filter (fun f => e_dir f =? e_tgt e) (ents s)) [a; b]).
      { intros f HF. apply filter_In in HF as [F1 F2]. assert (F3 : e_dir f = e_tgt e) by lia.
        destruct (EMP f F1 F3) as [F4 | F4]; [left|right; left]; symmetry.
        - eapply named_uniq; [exact C| |exact Ax]. split; auto.
        - eapply named_uniq; [exact C| |exact Bx]. split; auto. }
      pose proof (NoDup_incl_length NDM IN) as L. unfold zlen. cbn in L. lia. }
    destruct (i_num Ix >? 2) eqn:Q1; [lia|].
    assert (RF : i_refs Ix = 0).
    { rewrite (c_refs _ _ C _ _ EI). rewrite !count_zero; [reflexivity| |].
      - intros y HY. apply Z.eqb_neq. intros ->. contradiction.
      - intros h HH. apply Z.eqb_neq. auto. }
    rewrite RF in *. cbn [Z.gtb Z.compare] in *.
    match type of E with ?r = _ => exists s'; rewrite E end. f_equal.
    - assert (RC : forall r f, (forall s1 rc1 o1, r = Ok s1 rc1 o1 -> forall s2 rc2 o2, f s1 rc1 = Ok s2 rc2 o2 -> rc2 = 0 /\ o2 = []) ->
                forall s2 rc2 o2, bind r f = Ok s2 rc2 o2 -> rc2 = 0 /\ o2 = []).
      { intros r f H s2 rc2 o2 HB. destruct r as [s1 rc1 o1|w]; cbn in HB; [|discriminate]. eapply H; eauto. }
      revert E. intros E. eapply proj1.
      refine (RC _ _ _ _ _ _ E). intros ? ? ? _. refine (RC _ _ _). intros ? ? ? _. refine (RC _ _ _). intros ? ? ? _. refine (RC _ _ _).
      intros ? ? ? _ ? ? ? H. unfold ok in H. injection H as _ <- <-. auto.
    - assert (RC : forall r f, (forall s1 rc1 o1, r = Ok s1 rc1 o1 -> forall s2 rc2 o2, f s1 rc1 = Ok s2 rc2 o2 -> rc2 = 0 /\ o2 = []) ->
                forall s2 rc2 o2, bind r f = Ok s2 rc2 o2 -> rc2 = 0 /\ o2 = []).
      { intros r f H s2 rc2 o2 HB. destruct r as [s1 rc1 o1|w]; cbn in HB; [|discriminate]. eapply H; eauto. }
      revert E. intros E. eapply proj2.
      refine (RC _ _ _ _ _ _ E). intros ? ? ? _. refine (RC _ _ _). intros ? ? ? _. refine (RC _ _ _). intros ? ? ? _. refine (RC _ _ _).
      intros ? ? ? _ ? ? ? H. unfold ok in H. injection H as _ <- <-. auto.
  Qed.

  Lemma unlink_effect s d n sl s' rc out : reach s -> allowed s (OUnlink (PEnt d n sl)) ->
    step s (OUnlink (PEnt d n sl)) = Ok s' rc out ->
    (rc <> 0 /\ s' = s) \/
    (rc = 0 /\ exists i, leads s d n i /\ ~ is_dir s i /\
       (forall f, In f (ents s') <-> In f (ents s) /\ ~ named s d n f) /\
       (ino s' i = None <-> ~ used s' i) /\ others_kept s s' i).
  Proof.
    intros R A E. pose proof (reach_wf' s R) as W. pose proof E as E0. cbn [Dir_Model.step] in E.
    destruct (with_path_inv s d n sl _ _ _ _ W A E) as [(-> & -> & _) | (p & OP & OL & EP)]; [left; split; [discriminate|reflexivity]|].
    pose proof A as (HD & N1 & N2 & N3 & N4).
    destruct (do_unlink_ok dbg NAMEMAX s d n p W HD OP) as (s1 & rc1 & E1 & W1 & _ & F0 & F1).
    rewrite E1 in EP. injection EP as -> -> _. destruct (Z.eq_dec rc 0) as [Z0 | NZ]; [right|left; auto].
    split; [exact Z0|]. destruct (F1 Z0) as (e & x & PI & NE & EX & TX & INX & FR & SX & SH & _).
    exists (e_tgt e). split; [exists e; auto|]. split; [intros (y & Ey & Ty); congruence|]. split.
    - intros f. rewrite INX. split; intros (B1 & B2); (split; [exact B1|]).
      + intros NF. destruct W as [C _]. apply B2. eapply named_uniq; eauto.
      + intros ->. contradiction.
    - split; [|apply others_of; exact SH].
      assert (R' : reach s') by (econstructor; eauto). pose proof (allocated_iff_used s' (e_tgt e) R') as AU. destruct (ino s' (e_tgt e)).
      + split; [discriminate|]. intros NU. exfalso. apply NU. apply AU. discriminate.
      + split; [|reflexivity]. intros _ U. apply AU in U. congruence.
  Qed.

  Lemma unlink_succeeds s d n i D : reach s -> allowed s (OUnlink (PEnt d n false)) -> leads s d n i ->
    ~ is_dir s i -> ino s d = Some D -> Z.land (i_mode D) 128 = 128 ->
    exists s', step s (OUnlink (PEnt d n false)) = Ok s' 0 [].
  Proof.
    intros R A LD ND ED WR. pose proof (reach_wf' s R) as W. pose proof W as [C T].
    destruct (step_ok dbg NAMEMAX DSZ NM s _ W A) as (s' & rc & out & E & W' & _).
    cbn [Dir_Model.step] in E |- *. unfold with_path in *.
    destruct LD as (e & (E1 & E2 & E3) & <-). destruct (c_tgt _ _ C _ E1) as (x & EX).
    assert (MK : mkpath NAMEMAX s (PEnt d n false) = POk (mkP (Some (e_tgt e)) d (Some (e_id e)) n)).
    { cbn in A. destruct A as (HD & N1 & N2 & N3 & N4). cbn. destruct (zlen n + 1 >? NAMEMAX) eqn:Q; [lia|]. rewrite ED.
      destruct HD as (D' & ED' & TD). assert (D' = D) by congruence. subst D'. rewrite TD. cbn.
      rewrite (find_name_in s d n e (c_names _ _ C)) by (split; auto). rewrite EX. reflexivity. }
    rewrite MK in *. unfold do_unlink in *. cbn [p_ino p_dir p_ent p_last] in *. rewrite EX, ED in *.
    destruct (ftype_eqb (i_type x) FDir) eqn:TX; [exfalso; apply ftype_eqb_iff in TX; apply ND; exists x; auto|].
    unfold has in *. rewrite WR in *. change (128 =? 128) with true in *. cbn [negb] in *.
    destruct (remove_entry dbg s d (Some (e_id e))) as [s1 rc1 o1|w]; cbn [bind] in *; [|discriminate].
    destruct (ino s1 (e_tgt e)) as [y|]; [|discriminate]. destruct (_ && _); [|unfold ok; eauto].
    destruct (destroy dbg s1 (e_tgt e)) as [s2 rc2 o2|w]; cbn [bind] in *; [|discriminate]. unfold ok. eauto.
  Qed.

  Lemma mkdir_effect s al m d n sl s' rc out : reach s -> allowed s (OMkdir al m (PEnt d n sl)) ->
    step s (OMkdir al m (PEnt d n sl)) = Ok s' rc out ->
    (rc <> 0 /\ ents s' = ents s /\ hnds s' = hnds s /\ pins s' = pins s /\ forall i, ino s i = None <-> ino s' i = None) \/
    (rc = 0 /\ (forall f, ~ named s d n f) /\ exists i x, ino s i = None /\ ino s' i = Some x /\ i_type x = FDir /\
       i_mode x = Z.land m 511 /\ i_parent x = d /\
       leads s' d n i /\ leads s' i DOT i /\ leads s' i DOTDOT d /\
       (forall f, In f (ents s') -> e_dir f = i -> dots (e_name f)) /\
       (forall f, In f (ents s) -> In f (ents s')) /\
       (forall f, In f (ents s') -> In f (ents s) \/ e_dir f = i \/ named s' d n f) /\ others_kept s s' i).
  Proof.
    intros R [A A3] E. pose proof (reach_wf' s R) as W. cbn [Dir_Model.step] in E.
    destruct (with_path_inv s d n sl _ _ _ _ W A E) as [(-> & -> & _) | (p & OP & OL & EP)].
    { left. split; [discriminate|]. do 3 (split; [reflexivity|]). tauto. }
    pose proof A as (HD & N1 & N2 & N3 & N4).
    destruct (p_ino p) as [i0|] eqn:PI.
    { unfold do_mkdir in EP. rewrite PI in EP. unfold ok in EP. injection EP as -> <- _. left. split; [discriminate|].
      do 3 (split; [reflexivity|]). tauto. }
    destruct (mkdir_ok dbg NAMEMAX NM s al m d n p W HD N1 N2 OP PI A3) as (s1 & rc1 & E1 & W1 & _ & F0 & F1).
    rewrite E1 in EP. injection EP as -> -> _. destruct (Z.eq_dec rc 0) as [Z0 | NZ].
    2:{ left. split; [exact NZ|]. destruct (F0 NZ) as (U1 & U2 & U3 & U4). do 3 (split; [assumption|]).
        intros i. specialize (U4 i). destruct (ino s i), (ino s' i); try contradiction; split; congruence. }
    right. split; [exact Z0|].
    destruct OP as (_ & _ & _ & [(_ & _ & FR) | (e & _ & Q & _)]); [|congruence]. split; [exact FR|].
    destruct (F1 Z0) as (NX & EN & (x & EX & TX & PX & MX) & SH & _).
    assert (DN : d <> nexti s) by (intros ->; destruct HD as (D & ED & _); congruence).
    exists (nexti s), x. split; [exact NX|]. split; [exact EX|]. split; [exact TX|]. split; [exact MX|]. split; [exact PX|].
    assert (IN : forall f, In f (ents s') <-> In f (ents s) \/ f = mkE (nexte s) (nexti s) DOT (nexti s) \/
       f = mkE (nexte s + 1) (nexti s) DOTDOT d \/ f = mkE (nexte s + 2) d n (nexti s)).
    { intros f. rewrite EN, in_app_iff. cbn. intuition. }
    assert (NOE : forall e, In e (ents s) -> e_dir e <> nexti s).
    { intros e HI. destruct W as [C _]. destruct (c_dir _ _ C _ HI) as (x' & Ex & _). congruence. }
    split; [eexists; split; [split; [apply IN; right; right; right; reflexivity|auto]|reflexivity]|].
    split; [eexists; split; [split; [apply IN; right; left; reflexivity|auto]|reflexivity]|].
    split; [eexists; split; [split; [apply IN; right; right; left; reflexivity|auto]|reflexivity]|].
    split.
    { intros f HF DF. apply IN in HF as [HF | [-> | [-> | ->]]]; [exfalso; eapply NOE; eauto|left; reflexivity|right; reflexivity|].
      cbn in DF. congruence. }
    split; [intros f HF; apply IN; auto|]. split; [|apply others_of; exact SH].
    intros f HF. pose proof HF as HF'. apply IN in HF as [HF | [-> | [-> | ->]]]; auto. right. right. split; auto.
  Qed.

  Lemma link_effect s al a d n sl s' rc out : reach s -> allowed s (OLink al a (PEnt d n sl)) ->
    step s (OLink al a (PEnt d n sl)) = Ok s' rc out ->
    (rc <> 0 /\ s' = s) \/
    (rc = 0 /\ (forall f, ~ named s d n f) /\ exists d0 n0 sl0 i x, a = PEnt d0 n0 sl0 /\ leads s d0 n0 i /\
       ino s i = Some x /\ i_type x = FFile /\ leads s' d n i /\
       (forall f, In f (ents s) -> In f (ents s')) /\ (forall f, In f (ents s') -> In f (ents s) \/ named s' d n f)).
  Proof.
    intros R [A B] E. pose proof (reach_wf' s R) as W. pose proof W as [C T]. cbn [Dir_Model.step] in E.
    assert (GO : forall p, (p = mkP (Some ROOT) ROOT None [SLASH] \/ exists d0 n0 sl0, a = PEnt d0 n0 sl0 /\ okp NAMEMAX s d0 n0 p) ->
      with_path NAMEMAX s (PEnt d n sl) (fun q => do_link NAMEMAX s al p q) = Ok s' rc out ->
      (rc <> 0 /\ s' = s) \/
      (rc = 0 /\ (forall f, ~ named s d n f) /\ exists d0 n0 sl0 i x, a = PEnt d0 n0 sl0 /\ leads s d0 n0 i /\
       ino s i = Some x /\ i_type x = FFile /\ leads s' d n i /\
       (forall f, In f (ents s) -> In f (ents s')) /\ (forall f, In f (ents s') -> In f (ents s) \/ named s' d n f))).
    { intros p HP EQ. destruct (with_path_inv s d n sl _ _ _ _ W B EQ) as [(-> & -> & _) | (q & OQ & OL & EP)]; [left; split; [discriminate|reflexivity]|].
      pose proof B as (HD & N1 & N2 & N3 & N4).
      destruct (link_ok NAMEMAX s al p d n q W HD N1 N2 OQ) as (s1 & rc1 & E1 & W1 & _ & F0 & F1).
      { intros i PI. destruct HP as [-> | (d0 & n0 & sl0 & -> & OP)]; [|eapply okp_ino; [exact W|exact OP|exact PI]].
        cbn in PI. injection PI as <-. destruct (t_root _ T) as (Rx & ER & _). eauto. }
      rewrite E1 in EP. injection EP as -> -> _. destruct (Z.eq_dec rc 0) as [Z0 | NZ]; [right|left; auto].
      destruct (F1 Z0) as (i & PI & (x & EX & TX) & FR & EN). split; [exact Z0|]. split; [exact FR|].
      destruct HP as [-> | (d0 & n0 & sl0 & -> & (_ & _ & _ & [(Q & _) | (e & NE & Q & _)]))].
      - cbn in PI. injection PI as <-. destruct (t_root _ T) as (Rx & ER & TR & _). congruence.
      - congruence.
      - exists d0, n0, sl0, i, x. split; [reflexivity|]. split; [exists e; split; [exact NE|congruence]|]. split; [exact EX|]. split; [exact TX|].
        assert (HIN : In (mkE (nexte s) d n i) (ents s')) by (rewrite EN; apply in_or_app; right; left; reflexivity).
        split; [eexists; split; [split; [exact HIN|auto]|reflexivity]|].
        split; [intros f HF; rewrite EN; apply in_or_app; auto|].
        intros f HF. pose proof HF as HF'. rewrite EN in HF. apply in_app_or in HF as [HF | [<- | []]]; [auto|]. right. split; auto. }
    destruct a as [|d0 n0 sl0].
    - cbn in E. eapply GO; eauto.
    - destruct (with_path_inv s d0 n0 sl0 _ _ _ _ W A E) as [(-> & -> & _) | (p & OP & OL & EP)]; [left; split; [discriminate|reflexivity]|].
      eapply GO; [|exact EP]. right. eauto.
  Qed.

  Lemma symlink_effect s al t d n sl s' rc out : reach s -> allowed s (OSymlink al t (PEnt d n sl)) ->
    step s (OSymlink al t (PEnt d n sl)) = Ok s' rc out ->
    (rc <> 0 /\ ents s' = ents s) \/
    (rc = 0 /\ (forall f, ~ named s d n f) /\ exists i x, ino s i = None /\ ino s' i = Some x /\ i_type x = FLink /\ i_path x = t /\
       leads s' d n i /\
       (forall f, In f (ents s) -> In f (ents s')) /\ (forall f, In f (ents s') -> In f (ents s) \/ named s' d n f)).
  Proof.
    intros R [A A3] E. pose proof (reach_wf' s R) as W. cbn [Dir_Model.step] in E.
    destruct (with_path_inv s d n sl _ _ _ _ W A E) as [(-> & -> & _) | (p & OP & OL & EP)]; [left; split; [discriminate|reflexivity]|].
    pose proof A as (HD & N1 & N2 & N3 & N4).
    destruct (symlink_ok dbg NAMEMAX s al t d n p W HD N1 N2 OP A3) as (s1 & rc1 & E1 & W1 & _ & F0 & F1).
    assert (FR : rc1 = 0 -> forall f, ~ named s d n f).
    { intros ->. destruct OP as (_ & _ & _ & [(_ & _ & FR) | (e & _ & Q & _)]); [exact FR|].
      unfold do_symlink in E1. rewrite Q in E1. discriminate. }
    rewrite E1 in EP. injection EP as -> -> _. destruct (Z.eq_dec rc 0) as [Z0 | NZ].
    2:{ left. split; [exact NZ|]. apply (F0 NZ). }
    right. split; [exact Z0|]. split; [auto|]. destruct (F1 Z0) as (NX & EN & (x & EX & TX & PX)).
    exists (nexti s), x. do 4 (split; [assumption|]).
    assert (HIN : In (mkE (nexte s) d n (nexti s)) (ents s')) by (rewrite EN; apply in_or_app; right; left; reflexivity).
    split; [eexists; split; [split; [exact HIN|auto]|reflexivity]|].
    split; [intros f HF; rewrite EN; apply in_or_app; auto|].
    intros f HF. pose proof HF as HF'. rewrite EN in HF. apply in_app_or in HF as [HF | [<- | []]]; [auto|]. right. split; auto.
  Qed.

  Lemma open_effect s al f m d n sl s' rc out : reach s -> allowed s (OOpen al f m (PEnt d n sl)) ->
    step s (OOpen al f m (PEnt d n sl)) = Ok s' rc out ->
    (rc < 0 /\ hnds s' = hnds s /\ (al 4%nat = true -> ents s' = ents s)) \/
    exists g, hnds s' = hnds s ++ [g] /\ h_id g = rc /\ (forall h, In h (hnds s) -> h_id h <> rc) /\ h_pos g = 0 /\
      leads s' d n (h_ino g) /\
      ((leads s d n (h_ino g) /\ ents s' = ents s) \/
       ((forall e, ~ named s d n e) /\ f_creat f = true /\ ino s (h_ino g) = None /\
        (exists x, ino s' (h_ino g) = Some x /\ i_type x = FFile /\ i_mode x = Z.land m 511) /\
        (forall e, In e (ents s) -> In e (ents s')) /\ (forall e, In e (ents s') -> In e (ents s) \/ named s' d n e))).
  Proof.
    intros R A E. pose proof (reach_wf' s R) as W. cbn [Dir_Model.step] in E.
    destruct (with_path_inv s d n sl _ _ _ _ W A E) as [(-> & -> & _) | (p & OP & OL & EP)]; [left; split; [reflexivity|auto]|].
    pose proof A as (HD & N1 & N2 & N3 & N4).
    destruct (do_open_ok dbg NAMEMAX s al f m d n p W HD N1 N2 OP) as (s1 & rc1 & E1 & W1 & _ & F).
    rewrite E1 in EP. injection EP as -> -> _. destruct F as [F | (L & EH & _ & EE)].
    2:{ left. split; [exact L|]. split; [exact EH|]. intros A4. apply EE. auto. }
    right. destruct F as (g & x & EH & GI & GN & EX & GP & _ & F). exists g. do 4 (split; [assumption|]).
    destruct OP as (_ & _ & _ & [(Q & _ & FR) | (e & NE & Q & _)]); rewrite Q in F.
    - destruct F as (FC & NX & TX & MX & EN).
      assert (HIN : In (mkE (nexte s) d n (h_ino g)) (ents s')) by (rewrite EN; apply in_or_app; right; left; reflexivity).
      split; [eexists; split; [split; [exact HIN|auto]|reflexivity]|]. right. do 3 (split; [assumption|]). split; [eauto|].
      split; [intros f0 HF; rewrite EN; apply in_or_app; auto|].
      intros f0 HF. pose proof HF as HF'. rewrite EN in HF. apply in_app_or in HF as [HF | [<- | []]]; [auto|]. right. split; auto.
    - destruct F as (GT & EN). assert (LD : leads s d n (h_ino g)) by (exists e; auto).
      split; [|left; auto]. destruct NE as (Q1 & Q2 & Q3). exists e. split; [split; [rewrite EN; exact Q1|auto]|congruence].
  Qed.

  Lemma close_effect s h s' rc out : reach s -> allowed s (OClose h) -> step s (OClose h) = Ok s' rc out ->
    rc = 0 /\ ents s' = ents s /\ hnds s' = filter (fun k => negb (h_id k =? h)) (hnds s) /\
    forall g, In g (hnds s) -> h_id g = h ->
      (ino s' (h_ino g) = None <-> ~ used s' (h_ino g)) /\ others_kept s s' (h_ino g).
  Proof.
    intros R A E. pose proof (reach_wf' s R) as W. pose proof A as A0. pose proof E as E0. cbn [Dir_Model.step] in E. destruct A as (k & K1 & <-).
    destruct (do_close_ok dbg NAMEMAX s k W K1) as (s1 & x & E1 & W1 & _ & EX & EN & EP & EH & FR & SX & OT).
    rewrite E1 in E. injection E as -> <- _. do 3 (split; [assumption || reflexivity|]).
    intros g G1 G2. assert (g = k) by (destruct W as [C _]; eapply (NoDup_key _ _ _ _ (c_hids _ _ C)); auto). subst g.
    split.
    - assert (R' : reach s') by (econstructor; eauto). pose proof (allocated_iff_used s' (h_ino k) R') as AU. destruct (ino s' (h_ino k)).
      + split; [discriminate|]. intros NU. exfalso. apply NU. apply AU. discriminate.
      + split; [|reflexivity]. intros _ U. apply AU in U. congruence.
    - intros j NE. rewrite (OT j NE). destruct (ino s j); [unfold same_object; auto|exact I].
  Qed.

  (** ** rename *)
  Lemma rename_effect s al d n sl d' n' sl' s' rc out : reach s ->
    allowed s (ORename al (PEnt d n sl) (PEnt d' n' sl')) ->
    step s (ORename al (PEnt d n sl) (PEnt d' n' sl')) = Ok s' rc out ->
    rc = 0 ->
    exists i x y, leads s d n i /\ leads s' d' n' i /\ (forall f, ~ named s' d n f) /\
      ino s i = Some x /\ ino s' i = Some y /\ same_object x y /\ i_refs x = i_refs y /\
      (forall f, In f (ents s') -> In f (ents s) \/ named s' d' n' f) /\
      (forall f, In f (ents s) -> ~ named s d n f -> ~ named s d' n' f ->
         (forall r, leads s d' n' r -> is_dir s r -> e_dir f <> r) -> In f (ents s')) /\
      (forall r, leads s d' n' r -> is_dir s r ->
         is_dir s i /\ (forall f, In f (ents s) -> e_dir f = r -> dots (e_name f)) /\
         (forall h, In h (hnds s) -> h_ino h <> r) /\ ~ In r (pins s)) /\
      (forall j z, ino s j = Some z -> ~ leads s d' n' j -> exists w, ino s' j = Some w /\ same_object z w).
  Proof.
    intros R A E Z0. pose proof (reach_wf' s R) as W. cbn [Dir_Model.step] in E.
    pose proof A as (OA & OB & D1 & D2 & D3 & D4). pose proof OA as (HD & N1 & N2 & N3 & N4). pose proof OB as (HD' & N1' & N2' & N3' & N4').
    destruct (with_path_inv s d n sl _ _ _ _ W OA E) as [(_ & Q & _) | (p & OP & OL & EP)]; [rewrite Z0 in Q; discriminate|].
    destruct (with_path_inv s d' n' sl' _ _ _ _ W OB EP) as [(_ & Q & _) | (q & OQ & OL' & EQ)]; [rewrite Z0 in Q; discriminate|].
    destruct (rename_ok dbg NAMEMAX s al d n d' n' p q W HD HD' OP OQ D1 D2 N1' N2' D3 D4) as (s1 & rc1 & E1 & W1 & EV & F1 & F0).
    rewrite E1 in EQ. injection EQ as -> -> _. destruct (F1 Z0) as (e & NE & INX & KP & (x & y & EX & EY & SXY) & OLD & REP).
    exists (e_tgt e), x, y. split; [exists e; auto|].
    assert (HIN : In (mkE (nexte s) d' n' (e_tgt e)) (ents s')) by (apply INX; auto).
    split; [eexists; split; [split; [exact HIN|auto]|reflexivity]|]. split.
    { intros f (F2 & F3 & F4). apply INX in F2 as [-> | (F5 & F6 & _)].
      - cbn in F3, F4. apply D3. auto.
      - apply F6. destruct W as [C _]. eapply named_uniq; [exact C| |exact NE]. split; auto. }
    split; [exact EX|]. split; [exact EY|]. split; [apply same_obj; exact SXY|]. split; [unfold same in SXY; tauto|].
    split. { intros f HF. pose proof HF as HF'. apply INX in HF as [-> | (F5 & _)]; [right; split; auto|auto]. }
    split.
    { intros f H1 H2 H3 H4. apply INX. right. split; [exact H1|]. split; [intros ->; contradiction|]. split; [exact H3|].
      intros r Hr Dr. apply H4; [exists r; auto|exact Dr]. }
    split.
    { intros r (er & NR & <-) DR. destruct (REP er NR DR) as (B1 & B2 & B3 & B4). auto. }
    intros j z Ez NL. destruct (KP j z Ez) as (w & Ew & Sw).
    { intros r Hr Tr. apply NL. exists r. auto. }
    exists w. split; [exact Ew|apply same_obj; exact Sw].
  Qed.

  (** What it returns at last is missing: see the refuted claims *)
  Lemma rename_failed s al d n sl d' n' sl' s' rc out : reach s ->
    allowed s (ORename al (PEnt d n sl) (PEnt d' n' sl')) ->
    step s (ORename al (PEnt d n sl) (PEnt d' n' sl')) = Ok s' rc out ->
    rc <> 0 -> al 3%nat = true \/ (forall f, ~ named s d' n' f) -> s' = s.
  Proof.
    intros R A E NZ CS. pose proof (reach_wf' s R) as W. cbn [Dir_Model.step] in E.
    pose proof A as (OA & OB & D1 & D2 & D3 & D4). pose proof OA as (HD & N1 & N2 & N3 & N4). pose proof OB as (HD' & N1' & N2' & N3' & N4').
    destruct (with_path_inv s d n sl _ _ _ _ W OA E) as [(Q & _) | (p & OP & OL & EP)]; [exact Q|].
    destruct (with_path_inv s d' n' sl' _ _ _ _ W OB EP) as [(Q & _) | (q & OQ & OL' & EQ)]; [exact Q|].
    destruct (rename_ok dbg NAMEMAX s al d n d' n' p q W HD HD' OP OQ D1 D2 N1' N2' D3 D4) as (s1 & rc1 & E1 & W1 & EV & F1 & F0).
    rewrite E1 in EQ. injection EQ as -> -> _. apply (F0 NZ). destruct CS as [CS | CS]; [auto|right].
    destruct OQ as (_ & _ & _ & [(Q & _) | (e & NE & _)]); [exact Q|]. exfalso. eapply CS; eauto.
  Qed.

  (** ** Listing *)
  Lemma getdents_effect s h bufsz lim s' rc out g : reach s -> In g (hnds s) -> h_id g = h ->
    step s (OGetdents h bufsz lim) = Ok s' rc out ->
    ents s' = ents s /\ ino s' = ino s /\
    (forall r, In r out -> exists e, In e (ents s) /\ e_dir e = h_ino g /\ describes s r e) /\
    (19 <= DSZ -> DSZ + NAMEMAX < 2147483648 -> 0 <= bufsz < 2147483648 ->
       bytes out <= bufsz /\ (0 <= rc -> rc = bytes out) /\
       (rc < 0 -> rc = EINVAL \/ rc = EFAULT \/ ~ readable s (h_ino g)) /\
       (rc = EINVAL -> out = [] /\ bufsz < DSZ + NAMEMAX) /\ (rc = EFAULT -> lim < bufsz)).
  Proof.
    intros R HI HID E. pose proof (reach_wf' s R) as W. subst h. cbn [Dir_Model.step] in E.
    destruct (getdents_ok NAMEMAX DSZ s g bufsz lim W HI) as (s1 & rc1 & out1 & E1 & W1 & EN & _ & _ & EI & _ & _ & g' & l1 & l2 & _ & _ & _ & RS & _ & FA & NUM).
    rewrite E1 in E. injection E as -> -> ->. split; [exact EN|]. split; [exact EI|].
    assert (INR : forall e, In e (rest s g) -> In e (ents s) /\ e_dir e = h_ino g).
    { intros e He. destruct (rest_in s g e He) as [B1 B2]. auto. }
    split.
    - intros r Hr. destruct (forall2_in s out l1 r FA Hr) as (e & E2 & DS). destruct (INR e) as [B1 B2].
      { rewrite RS. apply in_or_app. auto. }
      eauto.
    - intros H1 H2 H3. destruct (NUM H1 H2 H3) as (B1 & B2 & B3 & B4 & B5). split; [exact B1|]. split; [intros P; apply (B2 P)|].
      split; [exact B5|]. split; [|exact B4]. intros EQ. destruct (B3 EQ) as (B6 & e & E2 & E3). split; [exact B6|].
      destruct (INR e) as [E4 _]; [rewrite RS; apply in_or_app; auto|]. destruct W as [C _]. destruct (c_nm _ _ C _ E4) as (_ & _ & L). lia.
  Qed.

  Notation at_start := (at_start dbg NAMEMAX DSZ).
  Notation listing := (listing dbg NAMEMAX DSZ).

  Lemma start_rest s0 g : at_start s0 g -> wf s0 /\ In g (hnds s0) /\ rest s0 g = dents s0 (h_ino g).
  Proof.
    intros (s & o & h & out & R & A & E & HG & (D & ED & TD) & HO). pose proof (reach_wf' s R) as W.
    assert (W0 : wf s0) by (apply reach_wf'; econstructor; eauto). split; [exact W0|]. split; [exact HG|].
    destruct o; try contradiction.
    - destruct HO as [HP HID]. cbn [Dir_Model.step] in E.
      assert (GO : forall oi d n, opened s s0 (f_creat f) mode d n oi h -> rest s0 g = dents s0 (h_ino g)).
      { intros oi d n (g0 & x & EH & GI & GN & EX & GP & RS & _).
        assert (g = g0). { rewrite EH in HG. apply in_app_or in HG as [HG | [HG | []]]; [|auto]. exfalso. eapply GN; eauto. }
        subst g0. apply RS. congruence. }
      destruct a as [|d n sl].
      + cbn in E. destruct (do_open_root dbg NAMEMAX s al f mode W) as (s1 & rc & E1 & _ & _ & [F | (L & _)]);
          rewrite E1 in E; injection E as -> -> _; [eauto|lia].
      + destruct (with_path_inv s d n sl _ _ _ _ W A E) as [(_ & -> & _) | (p & OP & OL & EP)]; [exfalso; unfold ENOTDIR in HP; lia|].
        pose proof A as (HD & N1 & N2 & N3 & N4).
        destruct (do_open_ok dbg NAMEMAX s al f mode d n p W HD N1 N2 OP) as (s1 & rc1 & E1 & W1 & _ & [F | (L & _)]);
          rewrite E1 in EP; injection EP as -> -> _; [eauto|lia].
    - destruct HO as [-> HID]. cbn [Dir_Model.step] in E. destruct A as (g0 & HG0 & HI0). subst h0.
      unfold do_seek in E. pose proof W as [C T]. rewrite (find_h_in s g0 (c_hids _ _ C) HG0) in E.
      destruct (c_hino _ _ C _ HG0) as (x & EX & _). rewrite EX in E.
      assert (G0 : forall x', In g (hnds s0) -> hnds s0 = map x' (hnds s) -> (forall k, In k (hnds s) -> h_id (x' k) = h_id k) -> g = x' g0).
      { intros f _ EH HK. rewrite EH in HG. apply in_map_iff in HG as (k & <- & HK1). f_equal.
        eapply (NoDup_key _ _ _ _ (c_hids _ _ C)); auto. rewrite <- (HK k HK1). congruence. }
      assert (SAME : s0 = s -> g = g0).
      { intros ->. rewrite (G0 (fun k => k)); auto. symmetry. apply map_id. }
      destruct (ftype_eqb (i_type x) FDir) eqn:TX; cbn [negb] in E.
      2:{ unfold ok in E. injection E as -> _ _. rewrite (SAME eq_refl) in ED. rewrite EX in ED. injection ED as ->. rewrite TD in TX. discriminate. }
      change (0 <? 0) with false in E. cbv iota in E.
      destruct (aget (dents s (h_ino g0)) 0) as [e|] eqn:AG; unfold ok in E; injection E as <- _ _.
      + rewrite (G0 (fun k => if h_id k =? h_id g0 then mkH (h_id k) (h_ino k) (h_reg k) (Some (e_id e)) 0 else k));
          [|exact HG|reflexivity|intros k _; destruct (h_id k =? h_id g0); reflexivity].
        rewrite Z.eqb_refl. unfold rest, dents in *. cbn [h_dpos h_ino ents set_h set_hnds].
        unfold aget in AG. change (0 <=? 0) with true in AG. cbv iota in AG. change (Z.to_nat 0) with O in AG. cbn [nth_error] in AG.
        destruct (filter _ (ents s)) as [|e0 l]; [discriminate|]. injection AG as ->. cbn [from_eid]. rewrite Z.eqb_refl. reflexivity.
      + rewrite (SAME eq_refl). apply ftype_eqb_iff in TX. destruct (t_dot _ T _ _ EX TX) as (a & (A1 & A2 & A3) & _).
        exfalso. unfold aget in AG. change (0 <=? 0) with true in AG. cbv iota in AG. change (Z.to_nat 0) with O in AG.
        assert (HI : In a (dents s (h_ino g0))) by (apply filter_In; split; [exact A1|lia]).
        destruct (dents s (h_ino g0)); [contradiction|discriminate].
  Qed.

  Lemma listing_reach s0 h : reach s0 -> forall s log, listing h s0 s log -> reach s.
  Proof. intros R s log L. induction L; [exact R|]. econstructor; eauto. Qed.

  Lemma start_reach s0 g : at_start s0 g -> reach s0.
  Proof. intros (s & o & h & out & R & A & E & _). econstructor; eauto. Qed.

  Lemma listing_once s0 g s log : at_start s0 g -> listing (h_id g) s0 s log ->
    NoDup (map d_eid log) /\
    forall r e, In r log -> In e (ents s0) -> d_eid r = e_id e -> e_dir e = h_ino g /\ d_name r = e_name e /\ d_ino r = e_tgt e.
  Proof.
    intros A L. destruct (start_rest s0 g A) as (W0 & HG & RS).
    destruct (J_listing dbg NAMEMAX DSZ NM s0 (h_id g) g W0 HG eq_refl RS s log L) as [J1 J2 J3 J4 J5 J6 J7].
    split; [exact J4|]. intros r e Hr He EQ. apply (J6 r e Hr He). congruence.
  Qed.

  Lemma listing_complete s0 g s log b l s' out : at_start s0 g -> listing (h_id g) s0 s log ->
    19 <= DSZ -> DSZ + NAMEMAX < 2147483648 -> 0 <= b < 2147483648 -> b <= l ->
    step s (OGetdents (h_id g) b l) = Ok s' 0 out ->
    out = [] /\
    forall e, In e (ents s0) -> e_dir e = h_ino g -> In e (ents s) ->
      count (fun r => d_eid r =? e_id e) log = 1 /\ exists r, In r log /\ d_eid r = e_id e /\ d_name r = e_name e /\ d_ino r = e_tgt e.
  Proof.
    intros A L H1 H2 H3 H4 E. destruct (start_rest s0 g A) as (W0 & HG & RS).
    destruct (J_listing dbg NAMEMAX DSZ NM s0 (h_id g) g W0 HG eq_refl RS s log L) as [J1 J2 J3 J4 J5 J6 J7].
    destruct J7 as (g' & G1 & G2 & G3 & G4 & G5). cbn [Dir_Model.step] in E. rewrite <- G2 in E.
    destruct (getdents_ok NAMEMAX DSZ s g' b l J1 G1) as (s1 & rc1 & out1 & E1 & W1 & EN & _ & _ & EI & _ & _ & g'' & l1 & l2 & _ & _ & _ & RS' & _ & FA & NUM).
    rewrite E1 in E. injection E as -> -> ->. destruct (NUM H1 H2 H3) as (B1 & B2 & _). destruct (B2 ltac:(lia)) as [B3 B4].
    assert (O0 : out = []).
    { destruct out as [|r out]; [reflexivity|]. exfalso.
      (* every record takes bytes *)
      assert (POS : forall q, In q (r :: out) -> 0 < d_reclen q).
      { intros q Hq. eapply gd_reclen; [|exact E1|exact Hq]. lia. }
      assert (NN : 0 <= bytes out).
      { assert (POS' : forall q, In q out -> 0 < d_reclen q) by (intros; apply POS; right; auto). clear - POS'.
        induction out as [|q out IH]; cbn; [lia|]. specialize (IH (fun q H => POS' q (or_intror H))).
        specialize (POS' q (or_introl eq_refl)). unfold bytes in IH. lia. }
      specialize (POS r (or_introl eq_refl)). cbn in B3. unfold bytes in NN. lia. }
    split; [exact O0|]. subst out. inversion FA; subst l1. rewrite (B4 eq_refl) in RS'. cbn in RS'.
    intros e He De Hin. destruct (G5 e He De Hin) as [G6 | G6]; [|rewrite RS' in G6; contradiction].
    split.
    - unfold count. clear - G6 J4. induction log as [|r log IH]; [contradiction|]. cbn in *. apply NoDup_cons_iff in J4 as [H1 J4].
      destruct (d_eid r =? e_id e) eqn:Q.
      + rewrite zlen_cons. assert (F : filter (fun r0 => d_eid r0 =? e_id e) log = []).
        { destruct (filter _ log) as [|q l] eqn:QF; [reflexivity|]. exfalso. assert (HI : In q (filter (fun r0 => d_eid r0 =? e_id e) log)) by (rewrite QF; left; reflexivity).
          apply filter_In in HI as [Q1 Q2]. apply H1. replace (d_eid r) with (d_eid q) by lia. apply in_map. exact Q1. }
        rewrite F. reflexivity.
      + apply IH; [exact J4|]. destruct G6 as [G6 | G6]; [lia|exact G6].
    - apply in_map_iff in G6 as (r & R1 & R2). exists r. split; [exact R2|]. split; [exact R1|].
      destruct (J6 r e R2 He) as (_ & B5 & B6); auto.
  Qed.

  (** It comes to an end: a call with enough space either ends the listing or
      delivers something *)
  Lemma listing_progress s h g : reach s -> In g (hnds s) -> h_id g = h -> readable s (h_ino g) ->
    19 <= DSZ -> DSZ + NAMEMAX < 2147483648 -> forall b l, DSZ + NAMEMAX <= b < 2147483648 -> b <= l ->
    exists s' rc out, step s (OGetdents h b l) = Ok s' rc out /\ 0 <= rc /\ (out = [] -> rc = 0).
  Proof.
    intros R HG HID RD H1 H2 b l H3 H4. subst h. cbn [Dir_Model.step].
    pose proof (reach_wf' s R) as W. pose proof W as [C _].
    destruct (getdents_ok NAMEMAX DSZ s g b l W HG) as (s1 & rc1 & out1 & E1 & W1 & EN & _ & _ & EI & _ & _ & g'' & l1 & l2 & _ & _ & _ & RS' & _ & FA & NUM).
    exists s1, rc1, out1. split; [exact E1|].
    assert (H5 : 0 <= b < 2147483648) by lia.
    destruct (NUM H1 H2 H5) as (B1 & B2 & B3 & B4 & B5).
    assert (NN : 0 <= rc1).
    { destruct (Z_lt_ge_dec rc1 0) as [N | N]; [|lia]. destruct (B5 N) as [Q | [Q | Q]].
      - destruct (B3 Q) as (_ & e & E2 & E3). assert (E4 : In e (rest s g)) by (rewrite RS'; apply in_or_app; auto).
        apply rest_in in E4 as [E4 _]. destruct (c_nm _ _ C _ E4) as (_ & _ & L). lia.
      - specialize (B4 Q). lia.
      - contradiction. }
    split; [exact NN|]. intros ->. apply (B2 NN).
  Qed.
End P.
