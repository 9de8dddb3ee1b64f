(** The remaining calls, and the invariant of all reachable states *)
From Verif Require Import Lib Dir_Model Dir_Spec Dir_Proofs Dir_Proofs2 Dir_Proofs3 Dir_Proofs4.

Section P.
  Variables (dbg : bool) (NAMEMAX : Z).
  Notation core := (core NAMEMAX).
  Notation wf := (wf NAMEMAX).
  Notation okp := (okp NAMEMAX).

  (** An inode's reference count or mode, the handles and the retained inodes change *)
  Lemma core_refs s i x x' hs ps nh : core s -> ino s i = Some x ->
    i_type x' = i_type x -> i_nlink x' = i_nlink x -> i_num x' = i_num x ->
    i_refs x' = count (fun h => h_ino h =? i) hs + count (fun p => p =? i) ps ->
    (forall j, j <> i -> count (fun h => h_ino h =? j) hs + count (fun p => p =? j) ps =
                         count (fun h => h_ino h =? j) (hnds s) + count (fun p => p =? j) (pins s)) ->
    NoDup (map h_id hs) -> (forall h, In h hs -> h_id h < nh) ->
    (forall h, In h hs -> exists y, ino s (h_ino h) = Some y /\
       (i_type y = FDir -> h_reg h = true) /\
       (i_type y <> FDir -> h_reg h = false /\ h_dpos h = None)) ->
    (forall h y, In h hs -> h_dpos h = Some y -> exists e, In e (ents s) /\ e_id e = y /\ e_dir e = h_ino h) ->
    (forall j, In j ps -> is_dir s j) ->
    core (mkS (fupd (ino s) i (Some x')) (ents s) hs ps (nexti s) (nexte s) nh).
  Proof.
    intros C EX T1 T2 T3 RF RO ND LT HI HP PS.
    assert (GET : forall j y, fupd (ino s) i (Some x') j = Some y ->
        (j = i /\ y = x') \/ (j <> i /\ ino s j = Some y)).
    { intros j y. unfold fupd. destruct (j =? i) eqn:Q; intros H; [left|right]; (split; [lia|congruence]). }
    assert (PUT : forall j y, ino s j = Some y -> exists z, fupd (ino s) i (Some x') j = Some z /\ i_type z = i_type y).
    { intros j y H. unfold fupd. destruct (j =? i) eqn:Q; [|eauto]. assert (j = i) by lia. subst j.
      exists x'. split; [reflexivity|congruence]. }
    assert (DIR : forall j, is_dir s j -> exists D, fupd (ino s) i (Some x') j = Some D /\ i_type D = FDir).
    { intros j (D & ED & TD). destruct (PUT _ _ ED) as (z & Ez & Tz). exists z. split; [exact Ez|congruence]. }
    destruct C. constructor; cbn; auto.
    - intros e HE. apply DIR. auto.
    - intros e HE. destruct (c_tgt _ HE) as (y & Ey). destruct (PUT _ _ Ey) as (z & Ez & _). eauto.
    - intros j y Ey. destruct (GET _ _ Ey) as [[-> ->] | [NE Ey']]; [rewrite T2|]; auto.
    - intros j y Ey Ty. destruct (GET _ _ Ey) as [[-> ->] | [NE Ey']]; [rewrite T3; apply c_num; congruence|]; auto.
    - intros j y Ey. destruct (GET _ _ Ey) as [[-> ->] | [NE Ey']]; [exact RF|]. rewrite RO by assumption. auto.
    - intros h HH. destruct (HI _ HH) as (y & Ey & A1 & A2). destruct (PUT _ _ Ey) as (z & Ez & Tz).
      exists z. rewrite Tz. auto.
    - intros j HJ. apply DIR. auto.
    - intros j y Ey. destruct (GET _ _ Ey) as [[-> ->] | [NE Ey']]; eauto.
  Qed.

  Lemma tree_refs s i x x' hs ps nh : tree s -> ino s i = Some x ->
    i_type x' = i_type x -> i_parent x' = i_parent x ->
    ((exists e, In e (ents s) /\ e_tgt e = i) \/ 0 < i_refs x') ->
    tree (mkS (fupd (ino s) i (Some x')) (ents s) hs ps (nexti s) (nexte s) nh).
  Proof.
    intros T EX T1 T2 LV.
    assert (GET : forall j y, fupd (ino s) i (Some x') j = Some y ->
        (j = i /\ y = x') \/ (j <> i /\ ino s j = Some y)).
    { intros j y. unfold fupd. destruct (j =? i) eqn:Q; intros H; [left|right]; (split; [lia|congruence]). }
    apply (tree_keep s); auto.
    - split; intros j y Ey Ty.
      + cbn. unfold fupd. destruct (j =? i) eqn:Q; [|eauto]. assert (j = i) by lia. subst j.
        exists x'. split; [reflexivity|]. assert (y = x) by congruence. subst y. split; congruence.
      + cbn in Ey. destruct (GET _ _ Ey) as [[-> ->] | [NE Ey']]; [exists x|exists y]; auto. split; [exact EX|]. split; congruence.
    - reflexivity.
    - cbn. intros j y Ey. destruct (GET _ _ Ey) as [[-> ->] | [NE Ey']]; [exact LV|]. apply (t_live _ T _ _ Ey').
  Qed.

  (** ** open *)
  Lemma open_int_ok s al i x : wf s -> ino s i = Some x ->
    exists s' rc, open_int s al i = Ok s' rc [] /\ wf s' /\ ev s s' /\ ents s' = ents s /\
      (al 4%nat = false -> rc = ENOMEM /\ s' = s) /\
      (al 4%nat = true -> rc = nexth s /\ nexth s' = nexth s + 1 /\
         shape s (mkS (fupd (ino s') i (Some x)) (ents s') (hnds s') (pins s') (nexti s') (nexte s') (nexth s')) /\
         (exists x', ino s' i = Some x' /\ i_refs x' = i_refs x + 1 /\ i_type x' = i_type x /\ i_mode x' = i_mode x) /\
         exists g, hnds s' = hnds s ++ [g] /\ h_id g = rc /\ h_ino g = i /\ h_pos g = 0 /\
                   (i_type x = FDir -> rest s' g = dents s' i)).
  Proof.
    intros W EX. pose proof W as [C T]. unfold open_int, ok. destruct (al 4%nat); cbn [negb].
    2:{ exists s, ENOMEM. split; [reflexivity|]. split; [exact W|]. split; [apply ev_same; auto; lia|].
        split; [reflexivity|]. split; [auto|discriminate]. }
    rewrite EX. unfold upd. rewrite EX. cbn [ino ents hnds pins nexti nexte nexth set_ino].
    set (g := mkH _ _ _ _ _). eexists _, _. split; [reflexivity|].
    assert (HG : forall y, h_dpos g = Some y -> exists e, In e (ents s) /\ e_id e = y /\ e_dir e = h_ino g).
    { intros y. cbn. destruct (ftype_eqb (i_type x) FDir); [|discriminate]. destruct (dents s i) as [|e l] eqn:DE; [discriminate|].
      intros H. injection H as <-. assert (HI : In e (dents s i)) by (rewrite DE; left; reflexivity).
      apply dents_in in HI. exists e. tauto. }
    split.
    { split.
      - apply core_refs with (x := x); auto.
        + cbn. rewrite (c_refs _ _ C _ _ EX), count_app, count_cons, count_nil. cbn. rewrite Z.eqb_refl. lia.
        + intros j NE. rewrite count_app, count_cons, count_nil. cbn. replace (i =? j) with false by lia. lia.
        + rewrite map_app. apply NoDup_snoc; [apply (c_hids _ _ C)|]. cbn. intros HI. apply in_map_iff in HI as (h & H1 & H2).
          apply (c_hlt _ _ C) in H2. lia.
        + intros h HI. apply in_app_or in HI as [HI | [<- | []]]; [apply (c_hlt _ _ C) in HI; lia|cbn; lia].
        + intros h HI. apply in_app_or in HI as [HI | [<- | []]]; [apply (c_hino _ _ C _ HI)|].
          exists x. split; [exact EX|]. cbn. split.
          * intros Q. rewrite Q. reflexivity.
          * intros Q. destruct (ftype_eqb (i_type x) FDir) eqn:Q2; [apply ftype_eqb_iff in Q2; congruence|auto].
        + intros h y HI. apply in_app_or in HI as [HI | [<- | []]]; [apply (c_hpos _ _ C _ _ HI)|apply HG].
        + apply (c_pins _ _ C).
      - apply tree_refs with (x := x); auto. right. cbn.
        pose proof (c_refs _ _ C _ _ EX). pose proof (count_nonneg (fun h => h_ino h =? i) (hnds s)).
        pose proof (count_nonneg (fun p => p =? i) (pins s)). lia. }
    split.
    { apply ev_same; auto; cbn; [lia|]. intros h HI L. apply in_app_or in HI as [HI | [<- | []]]; [exact HI|]. cbn in L. lia. }
    split; [reflexivity|]. split; [discriminate|]. intros _. split; [reflexivity|]. split; [reflexivity|]. split.
    { intros j. cbn. unfold fupd. destruct (j =? i) eqn:Q.
      - assert (j = i) by lia. subst j. rewrite EX. apply same_refl.
      - destruct (ino s j); [apply same_refl|exact I]. }
    split; [eexists; split; [apply fupd_same|auto]|].
    exists g. split; [reflexivity|]. split; [reflexivity|]. split; [reflexivity|]. split; [reflexivity|].
    intros TD. unfold rest. subst g. cbn. rewrite TD. cbn. change (filter (fun e => e_dir e =? i) (ents s)) with (dents s i).
    destruct (dents s i) as [|e l] eqn:DE; [reflexivity|]. cbn. rewrite Z.eqb_refl. reflexivity.
  Qed.

  (** What a successful open did *)
  Definition opened (s s' : st) (creat : bool) (mode d : Z) (n : list Z) (oi : option Z) (rc : Z) : Prop :=
    exists g x, hnds s' = hnds s ++ [g] /\ h_id g = rc /\ (forall h, In h (hnds s) -> h_id h <> rc) /\
      ino s' (h_ino g) = Some x /\ h_pos g = 0 /\
      (i_type x = FDir -> rest s' g = dents s' (h_ino g)) /\
      match oi with
      | Some i => h_ino g = i /\ ents s' = ents s
      | None => creat = true /\ ino s (h_ino g) = None /\ i_type x = FFile /\
                i_mode x = Z.land mode 511 /\
                ents s' = ents s ++ [mkE (nexte s) d n (h_ino g)]
      end.

  Lemma do_open_ok s al f mode d n p : wf s -> is_dir s d -> n <> [] -> ~ In SLASH n -> okp s d n p ->
    exists s' rc, do_open dbg NAMEMAX s al f mode p = Ok s' rc [] /\ wf s' /\ ev s s' /\
      (opened s s' (f_creat f) mode d n (p_ino p) rc \/
       (rc < 0 /\ hnds s' = hnds s /\ pins s' = pins s /\
        (p_ino p <> None \/ al 4%nat = true -> ents s' = ents s /\ shape s s'))).
  Proof.
    intros W HD N1 N2 (P1 & P2 & P3 & P4). pose proof W as [C T].
    assert (SAME : forall rc, rc < 0 -> exists s' rc', Ok s rc [] = Ok s' rc' [] /\ wf s' /\ ev s s' /\
      (opened s s' (f_creat f) mode d n (p_ino p) rc' \/
       (rc' < 0 /\ hnds s' = hnds s /\ pins s' = pins s /\
        (p_ino p <> None \/ al 4%nat = true -> ents s' = ents s /\ shape s s')))).
    { intros rc NZ. exists s, rc. split; [reflexivity|]. split; [exact W|]. split; [apply ev_same; auto; lia|].
      right. split; [exact NZ|]. auto using shape_refl. }
    unfold do_open, ok. destruct (f_dir f && _); [apply SAME; reflexivity|].
    destruct P4 as [(PI & PE & FR) | (e & (Q1 & Q2 & Q3) & PI & PE)]; rewrite PI in *.
    - destruct (f_creat f) eqn:FC; cbn [negb]; [|apply SAME; reflexivity]. rewrite P1.
      destruct HD as (D & ED & TD). rewrite ED. destruct (has (i_mode D) 192); cbn [negb]; [|apply SAME; reflexivity].
      destruct (al 0%nat); cbn [negb]; [|apply SAME; reflexivity].
      assert (HD : is_dir s d) by (exists D; auto).
      destruct (new_file_core NAMEMAX s FFile mode d [] W) as (C1 & E1 & E2 & E3 & E4 & E5 & E6 & NX & EX & EO).
      destruct (new_file dbg NAMEMAX s (al 3%nat) FFile mode [] d (p_last p) n W) as (s2 & rc & A & AT & AF); auto; [discriminate|].
      destruct (new_inode s FFile mode d []) as [s1 i] eqn:NI.
      assert (i = nexti s) by (unfold new_inode in NI; congruence). subst i. cbn [fst] in *.
      assert (KF : destroy dbg s1 (nexti s) = Ok (kfree s1 (nexti s)) 0 [] /\ wf (kfree s1 (nexti s))).
      { split.
        - unfold destroy. rewrite EX. cbn. rewrite !andb_false_r. reflexivity.
        - apply kfree_new; auto. intros j y NE. rewrite EO by assumption. reflexivity. }
      assert (UN : ev s (kfree s1 (nexti s)) /\ hnds (kfree s1 (nexti s)) = hnds s /\
                   pins (kfree s1 (nexti s)) = pins s /\ ents (kfree s1 (nexti s)) = ents s /\ shape s (kfree s1 (nexti s))).
      { split; [apply ev_same; auto; cbn; rewrite ?E5, ?E2; auto; lia|]. split; [exact E2|].
        split; [exact E3|]. split; [exact E1|]. apply kfree_shape; [|exact NX]. intros j NE. rewrite EO by assumption.
        destruct (ino s j); [apply same_refl|exact I]. }
      destruct KF as [KF WK]. destruct UN as (EVK & UN1 & UN2 & UN3).
      destruct (al 6%nat); cbn [negb].
      2:{ rewrite KF. cbn [bind]. eexists _, _. split; [reflexivity|]. split; [exact WK|]. split; [exact EVK|].
          right. split; [reflexivity|]. auto. }
      rewrite A. cbn [bind]. destruct (al 3%nat).
      + destruct (AT eq_refl) as (-> & W2 & EV2 & EN2 & EH2 & EP2 & EI2 & (x & IX & TX & _ & MX) & OLD).
        change (negb (0 =? 0)) with false. cbv iota.
        destruct (open_int_ok s2 al (nexti s) x W2 IX) as (s3 & rc3 & OP & W3 & EV3 & EN3 & OF & OT).
        rewrite OP. eexists _, _. split; [reflexivity|]. split; [exact W3|].
        split; [eapply ev_trans; [apply (c_idlt _ _ C)|exact EV2|exact EV3]|].
        destruct (al 4%nat) eqn:A4.
        * left. destruct (OT eq_refl) as (-> & NH3 & SH3 & (x3 & EX3 & RX3 & TX3 & MX3) & g & EH3 & G1 & G2 & G3 & G4).
          assert (TM : i_type x3 = FFile /\ i_mode x3 = Z.land mode 511).
          { split; congruence. }
          exists g, x3. split; [congruence|]. split; [exact G1|]. split.
          { intros h HI. rewrite <- EH2 in HI. destruct W2 as [C2 _]. apply (c_hlt _ _ C2) in HI. lia. }
          split; [congruence|]. split; [exact G3|]. split; [intros; destruct TM; congruence|].
          split; [reflexivity|]. split; [congruence|]. split; [apply TM|]. split; [apply TM|]. congruence.
        * right. destruct (OF eq_refl) as (-> & ->). split; [reflexivity|]. split; [exact EH2|]. split; [exact EP2|].
          intros [B | B]; [contradiction|discriminate].
      + destruct (AF eq_refl) as (-> & -> & _). change (negb (ENOSPC =? 0)) with true. cbv iota.
        rewrite KF. cbn [bind]. eexists _, _. split; [reflexivity|]. split; [exact WK|]. split; [exact EVK|].
        right. split; [reflexivity|]. auto.
    - destruct HD as (D & ED & TD). rewrite P1, ED. destruct (c_tgt _ _ C _ Q1) as (x & EX). rewrite EX.
      destruct (has (i_mode D) 320); cbn [negb]; [|apply SAME; reflexivity].
      destruct (open_checks f x =? 0) eqn:OC; cbn [negb].
      2:{ apply SAME. clear - OC. unfold open_checks in *.
          repeat match goal with |- context[if ?b then _ else _] => destruct b; [reflexivity|] end. discriminate. }
      destruct (_ && negb (al 6%nat)); [apply SAME; reflexivity|].
      destruct (open_int_ok s al (e_tgt e) x W EX) as (s3 & rc3 & OP & W3 & EV3 & EN3 & OF & OT).
      rewrite OP. eexists _, _. split; [reflexivity|]. split; [exact W3|]. split; [exact EV3|].
      destruct (al 4%nat) eqn:A4.
      + left. destruct (OT eq_refl) as (-> & NH3 & SH3 & (x3 & EX3 & RX3 & TX3 & MX3) & g & EH3 & G1 & G2 & G3 & G4).
        exists g, x3. split; [exact EH3|]. split; [exact G1|].
        split; [intros h HI; apply (c_hlt _ _ C) in HI; lia|]. split; [congruence|]. split; [exact G3|].
        assert (TM : i_type x3 = i_type x) by exact TX3.
        split; [intros TX; rewrite G2; apply G4; congruence|]. split; [exact G2|exact EN3].
      + right. destruct (OF eq_refl) as (-> & ->). split; [reflexivity|]. auto using shape_refl.
  Qed.

  Lemma do_open_root s al f mode : wf s ->
    exists s' rc, do_open dbg NAMEMAX s al f mode (mkP (Some ROOT) ROOT None [SLASH]) = Ok s' rc [] /\ wf s' /\ ev s s' /\
      (opened s s' (f_creat f) mode ROOT [] (Some ROOT) rc \/ (rc < 0 /\ s' = s)).
  Proof.
    intros W. pose proof W as [C T]. destruct (t_root _ T) as (R & ER & TR & PR).
    assert (SAME : forall rc, rc < 0 -> exists s' rc', Ok s rc [] = Ok s' rc' [] /\ wf s' /\ ev s s' /\
      (opened s s' (f_creat f) mode ROOT [] (Some ROOT) rc' \/ (rc' < 0 /\ s' = s))).
    { intros rc NZ. exists s, rc. split; [reflexivity|]. split; [exact W|]. split; [apply ev_same; auto; lia|]. auto. }
    unfold do_open, ok. cbn [p_ino p_dir]. destruct (f_dir f && _); [apply SAME; reflexivity|]. rewrite ER.
    destruct (has (i_mode R) 320); cbn [negb]; [|apply SAME; reflexivity].
    destruct (open_checks f R =? 0) eqn:OC; cbn [negb].
    2:{ apply SAME. clear - OC. unfold open_checks in *.
        repeat match goal with |- context[if ?b then _ else _] => destruct b; [reflexivity|] end. discriminate. }
    destruct (_ && negb (al 6%nat)); [apply SAME; reflexivity|].
    destruct (open_int_ok s al ROOT R W ER) as (s3 & rc3 & OP & W3 & EV3 & EN3 & OF & OT).
    rewrite OP. eexists _, _. split; [reflexivity|]. split; [exact W3|]. split; [exact EV3|].
    destruct (al 4%nat) eqn:A4.
    + left. destruct (OT eq_refl) as (-> & NH3 & SH3 & (x3 & EX3 & RX3 & TX3 & MX3) & g & EH3 & G1 & G2 & G3 & G4).
      exists g, x3. split; [exact EH3|]. split; [exact G1|].
      split; [intros h HI; apply (c_hlt _ _ C) in HI; lia|]. split; [congruence|]. split; [exact G3|].
      split; [intros TX; rewrite G2; apply G4; congruence|]. split; [exact G2|exact EN3].
    + right. destruct (OF eq_refl) as (-> & ->). split; [reflexivity|]. auto.
  Qed.

  Lemma in_filter_h (h : Z) l g : In g (filter (fun g => negb (h_id g =? h)) l) <-> In g l /\ h_id g <> h.
  Proof. apply in_remove. Qed.

  Lemma same_count (A : Type) (f : A -> bool) l x : In x l -> f x = true -> 1 <= count f l.
  Proof. intros H1 H2. assert (0 < count f l); [|lia]. apply count_pos. eauto. Qed.

  (** ** close *)
  Lemma do_close_ok s g : wf s -> In g (hnds s) ->
    exists s' x, do_close dbg s (h_id g) = Ok s' 0 [] /\ wf s' /\ ev s s' /\
      ino s (h_ino g) = Some x /\
      ents s' = ents s /\ pins s' = pins s /\ hnds s' = filter (fun k => negb (h_id k =? h_id g)) (hnds s) /\
      (ino s' (h_ino g) = None <-> i_refs x = 1 /\ forall e, In e (ents s) -> e_tgt e <> h_ino g) /\
      (forall y, ino s' (h_ino g) = Some y -> y = with_refs x (i_refs x - 1)) /\
      (forall j, j <> h_ino g -> ino s' j = ino s j).
  Proof.
    intros W HI. pose proof W as [C T]. destruct (c_hino _ _ C _ HI) as (x & EX & H1 & H2).
    unfold do_close, close_a. rewrite (find_h_in s g (c_hids _ _ C) HI), EX.
    assert (Q0 : ftype_eqb (i_type x) FDir && negb (h_reg g) = false).
    { destruct (ftype_eqb (i_type x) FDir) eqn:Q; [|reflexivity]. apply ftype_eqb_iff in Q. rewrite (H1 Q). reflexivity. }
    rewrite Q0. unfold upd. rewrite EX. cbn [bind ok].
    set (x' := with_refs x (i_refs x - 1)).
    set (hs := filter (fun k => negb (h_id k =? h_id g)) (hnds s)).
    set (s1 := set_hnds _ _). change (hnds (set_ino s (fupd (ino s) (h_ino g) (Some x')))) with (hnds s) in s1. fold hs in s1.
    assert (ES1 : s1 = mkS (fupd (ino s) (h_ino g) (Some x')) (ents s) hs (pins s) (nexti s) (nexte s) (nexth s)) by reflexivity.
    assert (CN : forall j, count (fun h => h_ino h =? j) hs =
               count (fun h => h_ino h =? j) (hnds s) - (if h_ino g =? j then 1 else 0)).
    { intros j. apply (count_remove h_id). apply (c_hids _ _ C). exact HI. }
    assert (RX : i_refs x = count (fun h => h_ino h =? h_ino g) (hnds s) + count (fun p => p =? h_ino g) (pins s))
      by apply (c_refs _ _ C _ _ EX).
    assert (C1 : core s1).
    { rewrite ES1. apply core_refs with (x := x); auto.
      - cbn. rewrite CN, Z.eqb_refl. lia.
      - intros j NE. rewrite CN. replace (h_ino g =? j) with false by lia. lia.
      - apply NoDup_map_filter. apply (c_hids _ _ C).
      - intros h HH. apply in_filter_h in HH. apply (c_hlt _ _ C). tauto.
      - intros h HH. apply in_filter_h in HH. apply (c_hino _ _ C). tauto.
      - intros h y HH. apply in_filter_h in HH. apply (c_hpos _ _ C). tauto.
      - apply (c_pins _ _ C). }
    assert (EV1 : ev s s1).
    { apply ev_same; auto; [cbn; lia|]. cbn. intros k HK _. apply in_filter_h in HK. tauto. }
    assert (EX1 : ino s1 (h_ino g) = Some x') by (cbn; apply fupd_same).
    assert (OT : forall j, j <> h_ino g -> ino s1 j = ino s j) by (intros; cbn; apply fupd_other; auto).
    assert (NLK : i_nlink x' = 0 <-> forall e, In e (ents s) -> e_tgt e <> h_ino g).
    { rewrite (c_nlink _ _ C1 _ _ EX1). change (ents s1) with (ents s). split.
      - intros Z0 e HE EQ. pose proof (same_count _ (fun e => e_tgt e =? h_ino g) (ents s) e HE). cbn in H. lia.
      - intros H. apply count_zero. intros e HE. specialize (H e HE). lia. }
    assert (TR : ((exists e, In e (ents s) /\ e_tgt e = h_ino g) \/ 0 < i_refs x') -> wf s1).
    { intros LV. split; [exact C1|]. rewrite ES1. apply tree_refs with (x := x); auto. }
    destruct (i_refs x - 1 =? 0) eqn:R1.
    - unfold close_b. rewrite EX1. destruct (i_nlink x' =? 0) eqn:NL.
      + assert (NT : forall e, In e (ents s) -> e_tgt e <> h_ino g) by (apply NLK; lia).
        assert (TX : i_type x <> FDir).
        { intros TD. destruct (t_dot _ T _ _ EX TD) as (e & (E1 & E2 & E3) & E4). eapply NT; eauto. }
        destruct (destroy_ok dbg NAMEMAX s1 (h_ino g) x' C1 EX1) as [DS CK]; [lia|cbn; lia|intros; contradiction|].
        rewrite DS. cbn [bind ok]. exists (kfree s1 (h_ino g)), x. split; [reflexivity|].
        split.
        { split; [exact CK|]. apply (tree_keep s); auto.
          - split; intros j y Ey Ty.
            + assert (NE : j <> h_ino g) by congruence. exists y. cbn. rewrite !fupd_other by auto. auto.
            + assert (NE : j <> h_ino g) by (intros ->; cbn in Ey; rewrite fupd_same in Ey; discriminate).
              cbn in Ey. rewrite !fupd_other in Ey by auto. exists y. auto.
          - reflexivity.
          - intros j y Ey.
            assert (NE : j <> h_ino g) by (intros ->; cbn in Ey; rewrite fupd_same in Ey; discriminate).
            cbn in Ey. rewrite !fupd_other in Ey by auto. apply (t_live _ T _ _ Ey). }
        split; [eapply ev_trans; [apply (c_idlt _ _ C)|exact EV1|apply ev_same; auto; cbn; lia]|].
        split; [reflexivity|]. split; [reflexivity|]. split; [reflexivity|]. split; [reflexivity|].
        assert (NN : ino (kfree s1 (h_ino g)) (h_ino g) = None) by (unfold kfree; cbn; apply fupd_same).
        split; [split; [intros _; split; [lia|exact NT]|auto]|]. split; [intros y Ey; congruence|].
        intros j NE. unfold kfree. cbn. rewrite !fupd_other by auto. reflexivity.
      + exists s1, x. split; [reflexivity|]. split.
        { apply TR. left. assert (P : 0 < i_nlink x').
          { rewrite (c_nlink _ _ C1 _ _ EX1) in *. pose proof (count_nonneg (fun e => e_tgt e =? h_ino g) (ents s1)). lia. }
          rewrite (c_nlink _ _ C1 _ _ EX1) in P. apply count_pos in P as (e & P1 & P2). exists e. split; [exact P1|lia]. }
        split; [exact EV1|]. split; [reflexivity|]. split; [reflexivity|]. split; [reflexivity|]. split; [reflexivity|].
        split; [split; [congruence|intros [_ A]; apply NLK in A; lia]|]. split; [intros y Ey; rewrite EX1 in Ey; injection Ey as <-; reflexivity|exact OT].
    - exists s1, x. split; [reflexivity|]. split.
      { apply TR. right. cbn. pose proof (same_count _ (fun h => h_ino h =? h_ino g) (hnds s) g HI) as P. cbn in P.
        pose proof (count_nonneg (fun p => p =? h_ino g) (pins s)). lia. }
      split; [exact EV1|]. split; [reflexivity|]. split; [reflexivity|]. split; [reflexivity|]. split; [reflexivity|].
      split; [split; [congruence|intros [A _]; lia]|]. split; [intros y Ey; rewrite EX1 in Ey; injection Ey as <-; reflexivity|exact OT].
  Qed.

  (** ** dup of a file's handle *)
  Lemma do_dup_ok s a g x : wf s -> In g (hnds s) -> ino s (h_ino g) = Some x -> i_type x <> FDir ->
    exists s' rc, do_dup s a (h_id g) = Ok s' rc [] /\ wf s' /\ ev s s' /\ ents s' = ents s.
  Proof.
    intros W HI EX TX. pose proof W as [C T]. unfold do_dup. rewrite (find_h_in s g (c_hids _ _ C) HI).
    destruct a; cbn [negb].
    2:{ exists s, ENOMEM. split; [reflexivity|]. split; [exact W|]. split; [apply ev_same; auto; lia|reflexivity]. }
    unfold upd. rewrite EX. eexists _, _. split; [reflexivity|]. cbn [ino ents hnds pins nexti nexte nexth set_ino].
    destruct (c_hino _ _ C _ HI) as (x0 & EX0 & _ & H2). assert (x0 = x) by congruence. subst x0.
    destruct (H2 TX) as [HR HP]. split.
    { split.
      - apply core_refs with (x := x); auto.
        + cbn. rewrite (c_refs _ _ C _ _ EX), count_app, count_cons, count_nil. cbn. rewrite Z.eqb_refl. lia.
        + intros j NE. rewrite count_app, count_cons, count_nil. cbn. replace (h_ino g =? j) with false by lia. lia.
        + rewrite map_app. apply NoDup_snoc; [apply (c_hids _ _ C)|]. cbn. intros HN. apply in_map_iff in HN as (h & H1' & H2').
          apply (c_hlt _ _ C) in H2'. lia.
        + intros h HN. apply in_app_or in HN as [HN | [<- | []]]; [apply (c_hlt _ _ C) in HN; lia|cbn; lia].
        + intros h HN. apply in_app_or in HN as [HN | [<- | []]]; [apply (c_hino _ _ C _ HN)|].
          exists x. split; [exact EX|]. cbn. split; [contradiction|auto].
        + intros h y HN. apply in_app_or in HN as [HN | [<- | []]]; [apply (c_hpos _ _ C _ _ HN)|]. cbn. rewrite HP. discriminate.
        + apply (c_pins _ _ C).
      - apply tree_refs with (x := x); auto. right. cbn.
        pose proof (c_refs _ _ C _ _ EX). pose proof (count_nonneg (fun h => h_ino h =? h_ino g) (hnds s)).
        pose proof (count_nonneg (fun p => p =? h_ino g) (pins s)). lia. }
    split; [|reflexivity].
    apply ev_same; auto; cbn; [lia|]. intros h HN L. apply in_app_or in HN as [HN | [<- | []]]; [exact HN|]. cbn in L. lia.
  Qed.

  (** ** chmod, chdir *)
  Lemma do_chmod_ok s mode p i x : wf s -> p_ino p = Some i -> ino s i = Some x ->
    exists s' rc, do_chmod s mode p = Ok s' rc [] /\ wf s' /\ ev s s' /\ ents s' = ents s /\ hnds s' = hnds s.
  Proof.
    intros W PI EX. pose proof W as [C T]. unfold do_chmod. rewrite PI, EX. destruct (_ || _).
    2:{ exists s, EPERM. split; [reflexivity|]. split; [exact W|]. split; [apply ev_same; auto; lia|auto]. }
    unfold upd. rewrite EX. eexists _, _. split; [reflexivity|]. unfold set_ino. split.
    { split.
      - apply core_refs with (x := x); auto; try apply (c_hids _ _ C); try apply (c_hlt _ _ C); try apply (c_hino _ _ C); try apply (c_hpos _ _ C); try apply (c_pins _ _ C). cbn. apply (c_refs _ _ C _ _ EX).
      - apply tree_refs with (x := x); auto. apply (t_live _ T _ _ EX). }
    split; [|auto]. apply ev_same; auto; cbn; lia.
  Qed.

  Lemma do_pin_ok s p i x : wf s -> p_ino p = Some i -> ino s i = Some x ->
    exists s' rc, do_pin s p = Ok s' rc [] /\ wf s' /\ ev s s' /\ ents s' = ents s /\ hnds s' = hnds s.
  Proof.
    intros W PI EX. pose proof W as [C T]. unfold do_pin. rewrite PI, EX. destruct (ftype_eqb (i_type x) FDir) eqn:TX; cbn [negb].
    2:{ exists s, ENOTDIR. split; [reflexivity|]. split; [exact W|]. split; [apply ev_same; auto; lia|auto]. }
    apply ftype_eqb_iff in TX.
    unfold upd. rewrite EX. eexists _, _. split; [reflexivity|]. unfold set_ino, set_pins. cbn. split.
    { split.
      - apply core_refs with (x := x); auto; try apply (c_hids _ _ C); try apply (c_hlt _ _ C); try apply (c_hino _ _ C); try apply (c_hpos _ _ C); try apply (c_pins _ _ C).
        + cbn. rewrite (c_refs _ _ C _ _ EX), count_cons, Z.eqb_refl. lia.
        + intros j NE. rewrite count_cons. replace (i =? j) with false by lia. lia.
        + intros j [<- | HJ]; [exists x; auto|apply (c_pins _ _ C _ HJ)].
      - apply tree_refs with (x := x); auto. left. destruct (t_dot _ T _ _ EX TX) as (e & (E1 & E2 & E3) & E4). eauto. }
    split; [|auto]. apply ev_same; auto; cbn; lia.
  Qed.

  Lemma count_remove1 i j l : In i l -> count (fun p => p =? j) (remove1 i l) = count (fun p => p =? j) l - (if i =? j then 1 else 0).
  Proof.
    induction l as [|y l IH]; [intros []|]. intros HI. cbn [remove1]. destruct (y =? i) eqn:Q.
    - assert (y = i) by lia. subst y. rewrite count_cons. lia.
    - rewrite !count_cons. destruct HI as [-> | HI]; [lia|]. rewrite IH by assumption. lia.
  Qed.

  Lemma in_remove1 i j l : In j (remove1 i l) -> In j l.
  Proof. induction l as [|y l IH]; [intros []|]. cbn. destruct (y =? i); [auto|]. intros [-> | H]; auto. Qed.

  Lemma do_unpin_ok s i : wf s -> In i (pins s) ->
    exists s' rc, do_unpin s i = Ok s' rc [] /\ wf s' /\ ev s s' /\ ents s' = ents s /\ hnds s' = hnds s.
  Proof.
    intros W HP. pose proof W as [C T]. unfold do_unpin, upd. destruct (c_pins _ _ C _ HP) as (x & EX & TX). rewrite EX.
    eexists _, _. split; [reflexivity|]. unfold set_ino, set_pins. cbn. split.
    { split.
      - apply core_refs with (x := x); auto; try apply (c_hids _ _ C); try apply (c_hlt _ _ C); try apply (c_hino _ _ C); try apply (c_hpos _ _ C); try apply (c_pins _ _ C).
        + cbn. rewrite (c_refs _ _ C _ _ EX), count_remove1, Z.eqb_refl by assumption. lia.
        + intros j NE. rewrite count_remove1 by assumption. replace (i =? j) with false by lia. lia.
        + intros j HJ. apply (c_pins _ _ C). eapply in_remove1; eauto.
      - apply tree_refs with (x := x); auto. left. destruct (t_dot _ T _ _ EX TX) as (e & (E1 & E2 & E3) & E4). eauto. }
    split; [|auto]. apply ev_same; auto; cbn; lia.
  Qed.

  (** ** getdents, seekdir *)
  Lemma set_h_ok s g0 x f : wf s -> In g0 (hnds s) -> ino s (h_ino g0) = Some x -> i_type x = FDir ->
    h_id (f g0) = h_id g0 -> h_ino (f g0) = h_ino g0 -> h_reg (f g0) = h_reg g0 ->
    (forall y, h_dpos (f g0) = Some y -> exists e, In e (ents s) /\ e_id e = y /\ e_dir e = h_ino g0) ->
    wf (set_h s (h_id g0) f).
  Proof.
    intros W HI EX TX F1 F2 F3 F4. pose proof W as [C T]. split.
    - assert (GG : forall h, In h (hnds s) -> h_id h = h_id g0 -> h = g0)
        by (intros; eapply (NoDup_key _ _ _ _ (c_hids _ _ C)); auto).
      set (m := fun g => if h_id g =? h_id g0 then f g else g).
      assert (MF : forall h, In h (hnds s) -> h_id (m h) = h_id h /\ h_ino (m h) = h_ino h /\ h_reg (m h) = h_reg h).
      { intros h HH. unfold m. destruct (h_id h =? h_id g0) eqn:Q; [|auto]. rewrite (GG h HH) by lia. auto. }
      destruct C. constructor; cbn; fold m; auto.
      + intros i y Ey. rewrite (c_refs _ _ Ey), count_map. f_equal. apply count_ext. intros h HH.
        destruct (MF h HH) as (_ & -> & _). reflexivity.
      + rewrite map_map. rewrite (map_ext_in _ h_id) by (intros h HH; apply MF; exact HH). exact c_hids.
      + intros h HH. apply in_map_iff in HH as (k & <- & HK). destruct (MF k HK) as (-> & _). auto.
      + intros h HH. apply in_map_iff in HH as (k & <- & HK). destruct (MF k HK) as (M1 & M2 & M3).
        destruct (c_hino k HK) as (y & Ey & A1 & A2). exists y. rewrite M2, M3. split; [exact Ey|]. split; [exact A1|].
        intros NT. split; [apply A2; exact NT|]. unfold m. destruct (h_id k =? h_id g0) eqn:Q; [|apply A2; exact NT].
        rewrite (GG k HK) in Ey by lia. congruence.
      + intros h y HH. apply in_map_iff in HH as (k & <- & HK). destruct (MF k HK) as (M1 & M2 & M3). rewrite M2.
        unfold m. destruct (h_id k =? h_id g0) eqn:Q; [|apply c_hpos; exact HK].
        rewrite (GG k HK) by lia. apply F4.
    - destruct T. constructor; auto.
  Qed.
End P.
