(** mkdir, rmdir and rename keep the invariant *)
From Verif Require Import Lib Dir_Model Dir_Spec Dir_Proofs Dir_Proofs2.

Section P.
  Variables (dbg : bool) (NAMEMAX : Z).
  Hypothesis NM : 3 <= NAMEMAX.
  Notation core := (core NAMEMAX).
  Notation wf := (wf NAMEMAX).
  Notation add_entry := (add_entry NAMEMAX).
  Notation remove_entry := (remove_entry dbg).
  Notation okarg := (okarg NAMEMAX).

  (** The state a failed call leaves: only the counters may differ *)
  Definition unchanged (s s' : st) : Prop :=
    ents s' = ents s /\ hnds s' = hnds s /\ pins s' = pins s /\ shape s s'.

  Lemma unchanged_refl s : unchanged s s.
  Proof. unfold unchanged. auto using shape_refl. Qed.

  Lemma kfree_shape s s1 : (forall i, i <> nexti s -> match ino s i, ino s1 i with
       | Some x, Some y => same x y | None, None => True | _, _ => False end) ->
    ino s (nexti s) = None -> shape s (kfree s1 (nexti s)).
  Proof.
    intros H N i. unfold kfree. cbn. unfold fupd. destruct (i =? nexti s) eqn:Q.
    - assert (i = nexti s) by lia. subst i. rewrite N. exact I.
    - apply H. lia.
  Qed.

  Lemma moved_none s d x : (forall h, In h (hnds s) -> h_ino h <> d) -> moved s d x = hnds s.
  Proof.
    intros H. unfold moved. rewrite <- (map_id (hnds s)) at 2. apply map_ext_in. intros h HI.
    unfold move_dpos. replace (h_ino h =? d) with false by (symmetry; apply Z.eqb_neq; auto).
    rewrite andb_false_r. reflexivity.
  Qed.

  (** ** mkdir *)
  Lemma create_dir_ok s al mode d : wf s -> is_dir s d ->
    (exists s1, create_dir dbg NAMEMAX s al mode (Some d) = Ok s1 0 [] /\ wf s1 /\ ev s s1 /\ unchanged s s1) \/
    (exists s1, create_dir dbg NAMEMAX s al mode (Some d) = Ok s1 (nexti s) [] /\ core s1 /\ ev s s1 /\
       ents s1 = ents s ++ [mkE (nexte s) (nexti s) DOT (nexti s); mkE (nexte s + 1) (nexti s) DOTDOT d] /\
       hnds s1 = hnds s /\ pins s1 = pins s /\ nexth s1 = nexth s /\ nexti s1 = nexti s + 1 /\
       nexte s1 = nexte s + 2 /\
       ino s (nexti s) = None /\
       (exists x, ino s1 (nexti s) = Some x /\ i_type x = FDir /\ i_parent x = d /\ i_refs x = 0 /\
                  i_mode x = Z.land mode 511) /\
       (forall i, i <> nexti s -> match ino s i, ino s1 i with
          | Some x, Some y => same x y | None, None => True | _, _ => False end)).
  Proof.
    intros W HD. unfold create_dir. destruct (al 0%nat); cbn [negb].
    2:{ left. exists s. split; [reflexivity|]. split; [exact W|]. split; [apply ev_same; auto; lia|apply unchanged_refl]. }
    destruct (new_file_core NAMEMAX s FDir mode d [] W) as (C1 & E1 & E2 & E3 & E4 & E5 & E6 & NX & EX & EO).
    destruct (new_inode s FDir mode d []) as [s1 n] eqn:NI.
    assert (n = nexti s) by (unfold new_inode in NI; congruence). subst n.
    cbn [fst] in *.
    assert (HN1 : is_dir s1 (nexti s)) by (eexists; split; [exact EX|reflexivity]).
    assert (HD1 : is_dir s1 d).
    { destruct HD as (D & ED & TD). exists D. split; [|exact TD]. rewrite EO; [exact ED|congruence]. }
    pose proof W as [C T].
    assert (NOE : forall e, In e (ents s) -> e_dir e <> nexti s /\ e_tgt e <> nexti s).
    { intros e HI. destruct (c_dir _ _ C _ HI) as (x & Ex & _). destruct (c_tgt _ _ C _ HI) as (y & Ey). split; congruence. }
    assert (NOH : forall h, In h (hnds s) -> h_ino h <> nexti s).
    { intros h HI. destruct (c_hino _ _ C _ HI) as (x & Ex & _). congruence. }
    assert (SH0 : forall i, i <> nexti s -> match ino s i, ino s1 i with
          | Some x, Some y => same x y | None, None => True | _, _ => False end).
    { intros i NE. rewrite EO by assumption. destruct (ino s i); [apply same_refl|exact I]. }
    assert (EV0 : ev s s1) by (apply ev_same; auto; rewrite ?E5, ?E2; auto; lia).
    destruct (al 1%nat).
    2:{ rewrite add_fail; [|exact HN1|discriminate|cbn; change (zlen DOT) with 1; lia]. cbn.
        left. eexists. split; [reflexivity|].
        split; [apply kfree_new; auto; intros i x NE; rewrite EO by assumption; reflexivity|].
        split; [apply ev_same; auto; cbn; rewrite ?E5, ?E2; auto; lia|].
        split; [exact E1|]. split; [exact E2|]. split; [exact E3|]. apply kfree_shape; assumption. }
    destruct (add_ok NAMEMAX s1 (nexti s) DOT DOT (nexti s) C1 HN1)
      as (s2 & A2 & C2 & SH2 & EN2 & F1 & F2 & F3 & F4 & F5 & EV2); eauto; try discriminate.
    { cbn. unfold SLASH. lia. }
    { change (zlen DOT) with 1. lia. }
    { intros e (Q1 & Q2 & _). rewrite E1 in Q1. apply NOE in Q1. tauto. }
    rewrite A2. cbn [bind].
    change (0 <? 0) with false. cbv iota.
    assert (EV02 : ev s s2) by (eapply ev_trans; [apply (c_idlt _ _ C)|exact EV0|exact EV2]).
    assert (SH02 : forall i, i <> nexti s -> match ino s i, ino s2 i with
          | Some x, Some y => same x y | None, None => True | _, _ => False end).
    { intros i NE. specialize (SH0 i NE). specialize (SH2 i).
      destruct (ino s i), (ino s1 i), (ino s2 i); try contradiction; auto. eapply same_trans; eauto. }
    assert (EN2' : ents s2 = ents s ++ [mkE (nexte s) (nexti s) DOT (nexti s)]) by (rewrite EN2, E1, E4; reflexivity).
    assert (HN2 : is_dir s2 (nexti s)) by (eapply shape_dir; eauto).
    assert (HD2 : is_dir s2 d) by (eapply shape_dir; eauto).
    destruct (al 2%nat).
    2:{ rewrite add_fail; [|exact HN2|discriminate|change (zlen DOTDOT) with 2; lia]. cbn [bind].
        change (ENOSPC <? 0) with true. cbv iota.
        assert (DD : dents s2 (nexti s) = [mkE (nexte s) (nexti s) DOT (nexti s)]).
        { unfold dents. rewrite EN2', filter_app. cbn. rewrite Z.eqb_refl.
          replace (filter (fun e => e_dir e =? nexti s) (ents s)) with (@nil entry); [reflexivity|].
          symmetry. clear - NOE. induction (ents s) as [|f l IH]; [reflexivity|]. cbn.
          replace (e_dir f =? nexti s) with false by (symmetry; apply Z.eqb_neq, NOE; left; reflexivity).
          apply IH. intros e HI. apply NOE. right. exact HI. }
        rewrite DD. cbn [e_id].
        destruct (remove_ok dbg NAMEMAX s2 (mkE (nexte s) (nexti s) DOT (nexti s)) C2)
          as (s3 & A3 & C3 & SH3 & EN3 & G1 & G2 & G3 & G4 & G5 & EV3).
        { rewrite EN2'. apply in_or_app. right. left. reflexivity. }
        cbn [e_dir e_id] in *. rewrite A3. cbn [bind]. left. eexists. split; [reflexivity|].
        assert (EN3' : ents s3 = ents s).
        { rewrite EN3, EN2', filter_app. cbn. rewrite Z.eqb_refl. cbn. rewrite app_nil_r. apply filter_id.
          intros e HI. apply negb_true_iff, Z.eqb_neq. apply (c_idlt _ _ C) in HI. lia. }
        assert (EH3 : hnds s3 = hnds s).
        { rewrite G1, moved_none by (rewrite F1, E2; exact NOH). congruence. }
        assert (SH03 : forall i, i <> nexti s -> match ino s i, ino s3 i with
          | Some x, Some y => same x y | None, None => True | _, _ => False end).
        { intros i NE. specialize (SH02 i NE). specialize (SH3 i).
          destruct (ino s i), (ino s2 i), (ino s3 i); try contradiction; auto. eapply same_trans; eauto. }
        assert (SHK : shape s (kfree s3 (nexti s))) by (apply kfree_shape; assumption).
        split.
        - split.
          + apply kfree_ok; auto.
            * rewrite EN3'. exact NOE.
            * rewrite EH3. exact NOH.
            * rewrite G2, F2, E3. intros HI. destruct (c_pins _ _ C _ HI) as (x & Ex & _). congruence.
          + apply (tree_keep s); auto using shape_dirs.
            * intros e _. cbn. rewrite EN3'. reflexivity.
            * intros i x Ex. destruct (shape_some' _ _ _ _ SHK Ex) as (y & Ey & S1). cbn. rewrite EN3'.
              destruct (t_live _ T _ _ Ey) as [A | A]; [left; exact A|right]. unfold same in S1. intuition congruence.
        - split.
          + eapply ev_trans; [apply (c_idlt _ _ C)|exact EV02|].
            eapply ev_trans; [apply (c_idlt _ _ C2)|exact EV3|]. apply ev_same; auto. cbn. lia.
          + split; [exact EN3'|]. split; [exact EH3|]. split; [cbn; congruence|exact SHK]. }
    destruct (add_ok NAMEMAX s2 (nexti s) DOTDOT DOTDOT d C2 HN2)
      as (s3 & A3 & C3 & SH3 & EN3 & G1 & G2 & G3 & G4 & G5 & EV3); eauto; try discriminate.
    { destruct HD2 as (x & Ex & _). eauto. }
    { cbn. unfold SLASH. lia. }
    { intros e (Q1 & Q2 & Q3). rewrite EN2' in Q1. apply in_app_or in Q1 as [Q1 | [<- | []]].
      - apply NOE in Q1. tauto.
      - discriminate. }
    rewrite A3. cbn [bind]. change (0 <? 0) with false. cbv iota. right.
    eexists. split; [reflexivity|]. split; [exact C3|].
    split; [eapply ev_trans; [apply (c_idlt _ _ C)|exact EV02|exact EV3]|].
    split; [rewrite EN3, EN2', F5, E4, <- app_assoc; reflexivity|].
    split; [congruence|]. split; [congruence|]. split; [congruence|]. split; [congruence|]. split; [lia|].
    split; [exact NX|]. split.
    - destruct (shape_some _ _ _ _ SH2 EX) as (y & Ey & S1). destruct (shape_some _ _ _ _ SH3 Ey) as (z & Ez & S2).
      exists z. unfold same in S1, S2. cbn in S1. intuition congruence.
    - intros i NE. specialize (SH02 i NE). specialize (SH3 i).
      destruct (ino s i), (ino s2 i), (ino s3 i); try contradiction; auto. eapply same_trans; eauto.
  Qed.

  Lemma fresh_not_dots s d n : wf s -> is_dir s d -> (forall e, ~ named s d n e) -> ~ dots n.
  Proof.
    intros [C T] (D & ED & TD) FR [-> | ->].
    - destruct (t_dot _ T _ _ ED TD) as (e & H & _). eapply FR; eauto.
    - destruct (t_dotdot _ T _ _ ED TD) as (e & H & _). eapply FR; eauto.
  Qed.

  Lemma mkdir_ok s al mode d n p : wf s -> is_dir s d -> n <> [] -> ~ In SLASH n ->
    okp NAMEMAX s d n p -> p_ino p = None -> al 3%nat = true ->
    exists s' rc, do_mkdir dbg NAMEMAX s al mode p = Ok s' rc [] /\ wf s' /\ ev s s' /\
      (rc <> 0 -> unchanged s s') /\
      (rc = 0 -> ino s (nexti s) = None /\
         ents s' = ents s ++ [mkE (nexte s) (nexti s) DOT (nexti s); mkE (nexte s + 1) (nexti s) DOTDOT d;
                              mkE (nexte s + 2) d n (nexti s)] /\
         (exists x, ino s' (nexti s) = Some x /\ i_type x = FDir /\ i_parent x = d /\ i_mode x = Z.land mode 511) /\
         (forall i, i <> nexti s -> match ino s i, ino s' i with
          | Some x, Some y => same x y | None, None => True | _, _ => False end) /\
         hnds s' = hnds s /\ pins s' = pins s).
  Proof.
    intros W HD N1 N2 (P1 & P2 & P3 & P4) PI A3. pose proof W as [C T]. unfold do_mkdir. rewrite PI, P1.
    destruct P4 as [(_ & _ & FR) | (e & _ & Q & _)]; [|congruence].
    destruct HD as (D & ED & TD). rewrite ED. destruct (has (i_mode D) 192); cbn [negb].
    2:{ exists s, EACCES. split; [reflexivity|]. split; [exact W|]. split; [apply ev_same; auto; lia|].
        split; [intros; apply unchanged_refl|discriminate]. }
    assert (HD : is_dir s d) by (exists D; auto).
    assert (ND : ~ dots n) by (eapply fresh_not_dots; eauto).
    assert (NP : 0 < nexti s) by (eapply wf_nexti; exact W).
    destruct (create_dir_ok s al mode d W HD) as
      [(s1 & E & W1 & EV1 & U) | (s1 & E & C1 & EV1 & EN & EH & EP & EX & EI & EE & NX & (x & IX & TX & PX & RX & MX) & SH)].
    { rewrite E. cbn. exists s1, ENOSPC. split; [reflexivity|]. split; [exact W1|]. split; [exact EV1|].
      split; [intros _; exact U|discriminate]. }
    rewrite E. cbn [bind]. destruct (nexti s =? 0) eqn:Q; [lia|].
    assert (HD1 : is_dir s1 d).
    { assert (NE : d <> nexti s) by congruence. specialize (SH d NE). rewrite ED in SH.
      destruct (ino s1 d) as [D1|] eqn:ED1; [|contradiction]. exists D1. split; [exact ED1|].
      destruct SH as (SH & _). congruence. }
    rewrite A3.
    destruct (add_ok NAMEMAX s1 d (p_last p) n (nexti s) C1 HD1)
      as (s2 & A2 & C2 & SH2 & EN2 & F1 & F2 & F3 & F4 & F5 & EV2); eauto.
    { intros f (Q1 & Q2 & Q3). rewrite EN in Q1. apply in_app_or in Q1 as [Q1 | [<- | [<- | []]]].
      - apply (FR f). split; auto.
      - cbn in Q3. apply ND. left. auto.
      - cbn in Q3. apply ND. right. auto. }
    rewrite A2. cbn [bind]. change (negb (0 =? 0)) with false. cbv iota.
    exists s2, 0. split; [reflexivity|].
    assert (EN2' : ents s2 = ents s ++ [mkE (nexte s) (nexti s) DOT (nexti s); mkE (nexte s + 1) (nexti s) DOTDOT d;
                              mkE (nexte s + 2) d n (nexti s)]).
    { rewrite EN2, EN, EE, <- app_assoc. reflexivity. }
    assert (SH' : forall i, i <> nexti s -> match ino s i, ino s2 i with
          | Some x, Some y => same x y | None, None => True | _, _ => False end).
    { intros i NE. specialize (SH i NE). specialize (SH2 i).
      destruct (ino s i), (ino s1 i), (ino s2 i); try contradiction; auto. eapply same_trans; eauto. }
    destruct (shape_some _ _ _ _ SH2 IX) as (y & IY & SY).
    assert (TY : i_type y = FDir /\ i_parent y = d /\ i_mode y = Z.land mode 511).
    { unfold same in SY. intuition congruence. }
    destruct TY as (TY & PY & MY).
    assert (OLD : forall i z, i <> nexti s -> ino s2 i = Some z -> exists w, ino s i = Some w /\ same w z).
    { intros i z NE Ez. specialize (SH' i NE). rewrite Ez in SH'. destruct (ino s i); [eauto|contradiction]. }
    assert (NEW : forall i w, ino s i = Some w -> exists z, ino s2 i = Some z /\ same w z /\ i <> nexti s).
    { intros i w Ew. assert (NE : i <> nexti s) by congruence. specialize (SH' i NE). rewrite Ew in SH'.
      destruct (ino s2 i) as [z|]; [eauto|contradiction]. }
    assert (IN0 : forall f, In f (ents s) -> In f (ents s2)) by (intros f HF; rewrite EN2'; apply in_or_app; auto).
    assert (NOE : forall e, In e (ents s) -> e_dir e <> nexti s /\ e_tgt e <> nexti s).
    { intros e HI. destruct (c_dir _ _ C _ HI) as (x' & Ex & _). destruct (c_tgt _ _ C _ HI) as (y' & Ey). split; congruence. }
    split; [|split; [eapply ev_trans; [apply (c_idlt _ _ C)|exact EV1|exact EV2]|]; split; [congruence|];
             intros _; split; [exact NX|]; split; [exact EN2'|]; split; [exists y; auto|]; split; [exact SH'|];
             split; congruence].
    split; [exact C2|]. constructor.
    - destruct (t_root _ T) as (R & ER & TR & PR). destruct (NEW _ _ ER) as (z & Ez & Sz & _). exists z.
      unfold same in Sz. intuition congruence.
    - intros i z Ez Tz. destruct (Z.eq_dec i (nexti s)) as [-> | NE].
      + exists (mkE (nexte s) (nexti s) DOT (nexti s)). split; [|reflexivity]. split; [|auto].
        rewrite EN2'. apply in_or_app. right. left. reflexivity.
      + destruct (OLD _ _ NE Ez) as (w & Ew & Sw). destruct (t_dot _ T i w Ew) as (f & (B1 & B2 & B3) & B4);
          [unfold same in Sw; intuition congruence|]. exists f. split; [|exact B4]. split; auto.
    - intros i z Ez Tz. destruct (Z.eq_dec i (nexti s)) as [-> | NE].
      + assert (z = y) by congruence. subst z.
        exists (mkE (nexte s + 1) (nexti s) DOTDOT d). split; [|cbn; congruence]. split; [|auto].
        rewrite EN2'. apply in_or_app. right. right. left. reflexivity.
      + destruct (OLD _ _ NE Ez) as (w & Ew & Sw). destruct (t_dotdot _ T i w Ew) as (f & (B1 & B2 & B3) & B4);
          [unfold same in Sw; intuition congruence|]. exists f. split; [split; auto|].
        unfold same in Sw. intuition congruence.
    - intros i z Ez Tz NR. destruct (Z.eq_dec i (nexti s)) as [-> | NE].
      + assert (z = y) by congruence. subst z. rewrite PY. split.
        * destruct (NEW _ _ ED) as (z & Ez' & Sz & _). exists z. unfold same in Sz. intuition congruence.
        * apply (c_inolt _ _ C) in ED. lia.
      + destruct (OLD _ _ NE Ez) as (w & Ew & Sw). assert (Tw : i_type w = FDir) by (unfold same in Sw; intuition congruence).
        destruct (t_parent _ T i w Ew Tw NR) as [(v & Ev & Tv) B].
        assert (PW : i_parent w = i_parent z) by (unfold same in Sw; intuition congruence). rewrite <- PW.
        split; [|exact B]. destruct (NEW _ _ Ev) as (u & Eu & Su & _). exists u. unfold same in Su. intuition congruence.
    - intros i z Ez Tz NR. destruct (Z.eq_dec i (nexti s)) as [-> | NE].
      + assert (z = y) by congruence. subst z.
        exists (mkE (nexte s + 2) d n (nexti s)). split; [rewrite EN2'; apply in_or_app; right; right; right; left; reflexivity|].
        cbn. auto.
      + destruct (OLD _ _ NE Ez) as (w & Ew & Sw). assert (Tw : i_type w = FDir) by (unfold same in Sw; intuition congruence).
        destruct (t_name _ T i w Ew Tw NR) as (f & B1 & B2 & B3 & B4). exists f. split; [auto|].
        unfold same in Sw. intuition congruence.
    - intros f z HF Ez Tz NDf. rewrite EN2' in HF. apply in_app_or in HF as [HF | [<- | [<- | [<- | []]]]].
      + destruct (NOE _ HF) as [_ B]. destruct (OLD _ _ B Ez) as (w & Ew & Sw).
        destruct (t_only _ T f w HF Ew) as [B1 B2]; auto; unfold same in Sw; intuition congruence.
      + exfalso. apply NDf. left. reflexivity.
      + exfalso. apply NDf. right. reflexivity.
      + cbn in *. assert (z = y) by congruence. subst z. split; [congruence|].
        destruct (t_root _ T) as (R & ER & _). congruence.
    - intros f g z HF HG EQ Ez Tz Nf Ng. rewrite EN2' in HF, HG.
      apply in_app_or in HF as [HF | [<- | [<- | [<- | []]]]]; [|exfalso; apply Nf; left; reflexivity|exfalso; apply Nf; right; reflexivity|].
      + destruct (NOE _ HF) as [_ B].
        apply in_app_or in HG as [HG | [<- | [<- | [<- | []]]]]; [|exfalso; apply Ng; left; reflexivity|exfalso; apply Ng; right; reflexivity|].
        * destruct (OLD _ _ B Ez) as (w & Ew & Sw).
          apply (t_uniq _ T f g w); auto. unfold same in Sw. intuition congruence.
        * cbn in EQ. congruence.
      + apply in_app_or in HG as [HG | [<- | [<- | [<- | []]]]]; [|exfalso; apply Ng; left; reflexivity|exfalso; apply Ng; right; reflexivity|reflexivity].
        destruct (NOE _ HG) as [_ B]. cbn in EQ. congruence.
    - intros i z Ez. destruct (Z.eq_dec i (nexti s)) as [-> | NE].
      + left. exists (mkE (nexte s + 2) d n (nexti s)). split; [|reflexivity].
        rewrite EN2'. apply in_or_app. right. right. right. left. reflexivity.
      + destruct (OLD _ _ NE Ez) as (w & Ew & Sw). destruct (t_live _ T _ _ Ew) as [(f & B1 & B2) | B].
        * left. exists f. auto.
        * right. unfold same in Sw. intuition congruence.
  Qed.
End P.
