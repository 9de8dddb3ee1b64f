(** The directory operations keep the invariant and never reach a bad outcome *)
From Verif Require Import Lib Dir_Model Dir_Spec Dir_Proofs.

(** Same directories with the same parents *)
Definition dirs_eq (s s' : st) : Prop :=
  (forall i x, ino s i = Some x -> i_type x = FDir ->
     exists y, ino s' i = Some y /\ i_type y = FDir /\ i_parent y = i_parent x) /\
  (forall i y, ino s' i = Some y -> i_type y = FDir ->
     exists x, ino s i = Some x /\ i_type x = FDir /\ i_parent x = i_parent y).

Lemma shape_dirs s s' : shape s s' -> dirs_eq s s'.
Proof.
  intros SH. split; intros i x E T.
  - destruct (shape_some _ _ _ _ SH E) as (y & Ey & S1). exists y. unfold same in S1. intuition congruence.
  - destruct (shape_some' _ _ _ _ SH E) as (y & Ey & S1). exists y. unfold same in S1. intuition congruence.
Qed.

Lemma dirs_trans s1 s2 s3 : dirs_eq s1 s2 -> dirs_eq s2 s3 -> dirs_eq s1 s3.
Proof.
  intros [A1 A2] [B1 B2]. split; intros i x E T.
  - destruct (A1 _ _ E T) as (y & E1 & T1 & P1). destruct (B1 _ _ E1 T1) as (z & E2 & T2 & P2).
    exists z. intuition congruence.
  - destruct (B2 _ _ E T) as (y & E1 & T1 & P1). destruct (A2 _ _ E1 T1) as (z & E2 & T2 & P2).
    exists z. intuition congruence.
Qed.

Lemma dirs_isdir s s' d : dirs_eq s s' -> is_dir s d -> is_dir s' d.
Proof. intros [A _] (D & E & T). destruct (A _ _ E T) as (y & E' & T' & _). exists y. auto. Qed.

(** Changes that do not touch the directories keep the tree *)
Lemma tree_keep s s' : tree s -> dirs_eq s s' ->
  (forall e, is_dir s (e_tgt e) -> (In e (ents s) <-> In e (ents s'))) ->
  (forall i x, ino s' i = Some x -> (exists e, In e (ents s') /\ e_tgt e = i) \/ 0 < i_refs x) ->
  tree s'.
Proof.
  intros T [DA DB] HE HL. pose proof T as T0. destruct T. constructor.
  - destruct t_root as (R & E & TR & P). destruct (DA _ _ E TR) as (y & Ey & Ty & Py). exists y. intuition congruence.
  - intros d D E TD. destruct (DB _ _ E TD) as (x & Ex & Tx & Px).
    destruct (t_dot _ _ Ex Tx) as (e & (N1 & N2 & N3) & Q). exists e. split; [|exact Q].
    split; [|auto]. apply HE; [|exact N1]. rewrite Q. exists x. auto.
  - intros d D E TD. destruct (DB _ _ E TD) as (x & Ex & Tx & Px).
    destruct (t_dotdot _ _ Ex Tx) as (e & (N1 & N2 & N3) & Q). exists e. split; [|congruence].
    split; [|auto]. apply HE; [|exact N1]. rewrite Q. destruct (Z.eq_dec d ROOT) as [-> | NR].
    + destruct t_root as (R & E' & TR & P). assert (x = R) by congruence. subst x. rewrite P. exists R. auto.
    + destruct (t_parent _ _ Ex Tx NR). assumption.
  - intros d D E TD NR. destruct (DB _ _ E TD) as (x & Ex & Tx & Px).
    destruct (t_parent _ _ Ex Tx NR) as [A B]. rewrite <- Px. split; [|exact B].
    eapply dirs_isdir; [|exact A]. split; assumption.
  - intros d D E TD NR. destruct (DB _ _ E TD) as (x & Ex & Tx & Px).
    destruct (t_name _ _ Ex Tx NR) as (e & A1 & A2 & A3 & A4). exists e. split; [|intuition congruence].
    apply HE; [|exact A1]. rewrite A4. exists x. auto.
  - intros e Tg HI E TD ND. destruct (DB _ _ E TD) as (x & Ex & Tx & Px).
    destruct (t_only e x) as [A B]; auto.
    + apply HE; [exists x; auto|exact HI].
    + split; [congruence|exact B].
  - intros e e' Tg HI HI' EQ E TD N1 N2. destruct (DB _ _ E TD) as (x & Ex & Tx & Px).
    apply (t_uniq e e' x); auto.
    + apply HE; [exists x; auto|exact HI].
    + apply HE; [rewrite <- EQ; exists x; auto|exact HI'].
  - exact HL.
Qed.

Section P.
  Variables (dbg : bool) (NAMEMAX : Z).
  Notation core := (core NAMEMAX).
  Notation wf := (wf NAMEMAX).
  Notation add_entry := (add_entry NAMEMAX).
  Notation remove_entry := (remove_entry dbg).
  Notation okarg := (okarg NAMEMAX).

  Lemma wf_root s : wf s -> exists R, ino s ROOT = Some R /\ i_type R = FDir.
  Proof. intros [_ T]. destruct (t_root _ T) as (R & E & TR & _). eauto. Qed.

  Lemma wf_nexti s : wf s -> 0 < nexti s.
  Proof. intros W. destruct (wf_root s W) as (R & E & _). destruct W as [C _]. apply (c_inolt _ _ C) in E. unfold ROOT in E. lia. Qed.

  (** What the last step of the resolution gives *)
  Definition okp (s : st) (d : Z) (n : list Z) (p : path) : Prop :=
    p_dir p = d /\ (p_last p = n \/ p_last p = n ++ [SLASH]) /\ zlen (p_last p) + 1 <= NAMEMAX /\
    ((p_ino p = None /\ p_ent p = None /\ forall e, ~ named s d n e) \/
     (exists e, named s d n e /\ p_ino p = Some (e_tgt e) /\ p_ent p = Some (e_id e))).

  Lemma mkpath_ok s d n sl : wf s -> okarg s (PEnt d n sl) ->
    mkpath NAMEMAX s (PEnt d n sl) = PErr ENOTDIR \/
    exists p, mkpath NAMEMAX s (PEnt d n sl) = POk p /\ okp s d n p /\
              p_last p = (if sl then n ++ [SLASH] else n).
  Proof.
    intros [C T] ((D & ED & TD) & N1 & N2 & N3 & N4). unfold mkpath.
    destruct (zlen n + 1 >? NAMEMAX) eqn:Q; [destruct sl; lia|]. rewrite ED, TD. cbn [ftype_eqb negb].
    assert (L1 : (if sl then n ++ [SLASH] else n) = n \/ (if sl then n ++ [SLASH] else n) = n ++ [SLASH])
      by (destruct sl; auto).
    assert (L2 : zlen (if sl then n ++ [SLASH] else n) + 1 <= NAMEMAX)
      by (destruct sl; rewrite ?zlen_snoc; lia).
    destruct (find_name s d n) as [e|] eqn:F.
    - apply find_name_some in F. pose proof F as (F1 & _). destruct (c_tgt _ _ C _ F1) as (Tg & ET). rewrite ET.
      destruct (sl && negb (ftype_eqb (i_type Tg) FDir)); [left; reflexivity|]. right.
      eexists. split; [reflexivity|]. cbn. split; [|reflexivity]. unfold okp. cbn.
      split; [reflexivity|]. split; [exact L1|]. split; [exact L2|]. right. exists e. auto.
    - right. eexists. split; [reflexivity|]. cbn. split; [|reflexivity]. unfold okp. cbn.
      split; [reflexivity|]. split; [exact L1|]. split; [exact L2|]. left.
      split; [reflexivity|]. split; [reflexivity|]. intros e. apply find_name_none. exact F.
  Qed.

  Lemma add_fail s d iname ie : is_dir s d -> iname <> [] -> zlen iname + 1 <= NAMEMAX ->
    add_entry s false d iname ie = Ok s ENOSPC [].
  Proof.
    intros (D & ED & TD) N1 N2. unfold Dir_Model.add_entry. rewrite ED, TD. cbn.
    destruct (zlen iname + 1 =? 1) eqn:Q.
    - destruct iname; [congruence|]. rewrite zlen_cons in Q. pose proof (zlen_nonneg iname). lia.
    - destruct (zlen iname + 1 >? NAMEMAX) eqn:Q2; [lia|]. reflexivity.
  Qed.

  Lemma last_nonempty n l : n <> [] -> (l = n \/ l = n ++ [SLASH]) -> l <> [].
  Proof. intros H [-> | ->]; [assumption|]. destruct n; discriminate. Qed.

  (** Adding an entry for something that is not a directory *)
  Lemma add_file s a d iname n ie x : wf s -> is_dir s d -> ino s ie = Some x -> i_type x <> FDir ->
    (iname = n \/ iname = n ++ [SLASH]) -> n <> [] -> ~ In SLASH n -> zlen iname + 1 <= NAMEMAX ->
    (forall e, ~ named s d n e) ->
    exists s' rc, add_entry s a d iname ie = Ok s' rc [] /\ wf s' /\ shape s s' /\
      nexti s' = nexti s /\ nexth s' = nexth s /\ hnds s' = hnds s /\ pins s' = pins s /\ ev s s' /\
      (a = true -> rc = 0 /\ ents s' = ents s ++ [mkE (nexte s) d n ie]) /\
      (a = false -> rc = ENOSPC /\ s' = s).
  Proof.
    intros W HD HX TX HN N1 N2 N3 FR. destruct a.
    - destruct W as [C T].
      destruct (add_ok NAMEMAX s d iname n ie C HD) as (s' & E & C' & SH & EN & E1 & E2 & E3 & E4 & E5 & EV); eauto.
      exists s', 0. split; [exact E|]. split; [split; [exact C'|]|intuition congruence].
      apply (tree_keep s); auto using shape_dirs.
      + intros e (y & Ey & Ty). rewrite EN, in_app_iff. cbn. split; [auto|]. intros [H | [H | []]]; [exact H|].
        subst e. cbn in Ey. congruence.
      + intros i y Ey. destruct (shape_some' _ _ _ _ SH Ey) as (z & Ez & S1).
        destruct (t_live _ T _ _ Ez) as [(e & A & B) | A].
        * left. exists e. split; [rewrite EN; apply in_or_app; auto|exact B].
        * right. unfold same in S1. intuition congruence.
    - exists s, ENOSPC. split; [apply add_fail; auto; eapply last_nonempty; eauto|]. split; [exact W|].
      split; [apply shape_refl; reflexivity|]. repeat (split; [reflexivity|]).
      split; [apply ev_same; auto; lia|]. intuition congruence.
  Qed.

  (** A new inode that is not a directory, before it has a name *)
  Lemma new_file_core s t mode par path : wf s ->
    let s1 := fst (new_inode s t mode par path) in
    core s1 /\ ents s1 = ents s /\ hnds s1 = hnds s /\ pins s1 = pins s /\
    nexte s1 = nexte s /\ nexth s1 = nexth s /\ nexti s1 = nexti s + 1 /\
    ino s (nexti s) = None /\
    ino s1 (nexti s) = Some (mkI t (Z.land mode 511) 0 0 0 par path) /\
    (forall i, i <> nexti s -> ino s1 i = ino s i).
  Proof.
    intros W s1. pose proof (wf_nexti s W). destruct W as [C T].
    assert (NX : ino s (nexti s) = None).
    { destruct (ino s (nexti s)) as [x|] eqn:E; [|reflexivity]. apply (c_inolt _ _ C) in E. lia. }
    split; [apply new_ok; assumption|]. unfold s1. cbn.
    repeat match goal with |- _ /\ _ => split end; auto.
    - apply fupd_same.
    - intros i NE. apply fupd_other. exact NE.
  Qed.

  Lemma kfree_new s s1 : wf s -> core s1 -> ents s1 = ents s -> hnds s1 = hnds s -> pins s1 = pins s ->
    (forall i x, i <> nexti s -> (ino s1 i = Some x <-> ino s i = Some x)) ->
    core (kfree s1 (nexti s)) /\ tree (kfree s1 (nexti s)).
  Proof.
    intros W C1 E1 E2 E3 EI. pose proof W as W0. destruct W as [C T].
    assert (NX : ino s (nexti s) = None).
    { destruct (ino s (nexti s)) as [x|] eqn:E; [|reflexivity]. apply (c_inolt _ _ C) in E. lia. }
    assert (IK : forall i x, ino (kfree s1 (nexti s)) i = Some x <-> ino s i = Some x).
    { intros i x. unfold kfree. cbn. unfold fupd. destruct (i =? nexti s) eqn:Q.
      - assert (i = nexti s) by lia. subst i. rewrite NX. split; discriminate.
      - apply EI. lia. }
    split.
    - apply kfree_ok; auto.
      + rewrite E1. intros e HI. destruct (c_dir _ _ C _ HI) as (D & ED & _). destruct (c_tgt _ _ C _ HI) as (Tg & ET).
        split; congruence.
      + rewrite E2. intros h HI. destruct (c_hino _ _ C _ HI) as (x & Ex & _). congruence.
      + rewrite E3. intros HI. destruct (c_pins _ _ C _ HI) as (x & Ex & _). congruence.
    - apply (tree_keep s); auto.
      + split; intros i x E TX; exists x; split; auto; apply IK; exact E.
      + intros e _. unfold kfree. cbn. rewrite E1. reflexivity.
      + intros i x E. apply IK in E. unfold kfree. cbn. rewrite E1. exact (t_live _ T _ _ E).
  Qed.

  (** A new inode with a name *)
  Lemma new_file s a t mode path d iname n : wf s -> t <> FDir -> is_dir s d ->
    (iname = n \/ iname = n ++ [SLASH]) -> n <> [] -> ~ In SLASH n -> zlen iname + 1 <= NAMEMAX ->
    (forall e, ~ named s d n e) ->
    let s1 := fst (new_inode s t mode d path) in
    exists s' rc, add_entry s1 a d iname (nexti s) = Ok s' rc [] /\
      (a = true -> rc = 0 /\ wf s' /\ ev s s' /\ ents s' = ents s ++ [mkE (nexte s) d n (nexti s)] /\
         hnds s' = hnds s /\ pins s' = pins s /\ nexti s' = nexti s + 1 /\
         (exists x, ino s' (nexti s) = Some x /\ i_type x = t /\ i_path x = path /\ i_mode x = Z.land mode 511) /\
         (forall i x, ino s i = Some x -> exists y, ino s' i = Some y /\ same x y)) /\
      (a = false -> rc = ENOSPC /\ s' = s1 /\ destroy dbg s1 (nexti s) = Ok (kfree s1 (nexti s)) 0 [] /\
         wf (kfree s1 (nexti s)) /\ ev s (kfree s1 (nexti s))).
  Proof.
    intros W TT HD HN N1 N2 N3 FR s1.
    destruct (new_file_core s t mode d path W) as (C1 & E1 & E2 & E3 & E4 & E5 & E6 & NX & EX & EO). fold s1 in C1, E1, E2, E3, E4, E5, E6, EX, EO.
    assert (HD1 : is_dir s1 d).
    { destruct HD as (D & ED & TD). exists D. split; [|exact TD]. rewrite EO; [exact ED|congruence]. }
    assert (FR1 : forall e, ~ named s1 d n e).
    { intros e. unfold named. rewrite E1. apply FR. }
    destruct a.
    - destruct (add_ok NAMEMAX s1 d iname n (nexti s) C1 HD1) as (s' & E & C' & SH & EN & F1 & F2 & F3 & F4 & F5 & EV); eauto.
      exists s', 0. split; [exact E|]. split; [|discriminate]. intros _. split; [reflexivity|].
      assert (EN' : ents s' = ents s ++ [mkE (nexte s) d n (nexti s)]) by (rewrite EN, E1, E4; reflexivity).
      assert (IS : forall i x, ino s i = Some x -> exists y, ino s' i = Some y /\ same x y).
      { intros i x Ex. eapply shape_some; [exact SH|]. rewrite EO; [exact Ex|congruence]. }
      assert (IN : exists x, ino s' (nexti s) = Some x /\ i_type x = t /\ i_path x = path /\ i_mode x = Z.land mode 511).
      { destruct (shape_some _ _ _ _ SH EX) as (y & Ey & S1). exists y. unfold same in S1. cbn in S1.
        intuition congruence. }
      split; [|split; [|split; [exact EN'|]; split; [congruence|]; split; [congruence|]; split; [congruence|]; split; [exact IN|exact IS]]].
      2:{ destruct W as [C T]. eapply ev_trans; [apply (c_idlt _ _ C)| |exact EV].
          apply ev_same; auto; rewrite ?E5, ?E2; auto; lia. }
      split; [exact C'|]. destruct W as [C T]. apply (tree_keep s); auto.
      + split.
        * intros i x Ex TX. destruct (IS _ _ Ex) as (y & Ey & S1). exists y. unfold same in S1. intuition congruence.
        * intros i y Ey TY. destruct (Z.eq_dec i (nexti s)) as [-> | NE].
          { destruct IN as (z & Ez & Tz & _). congruence. }
          destruct (shape_some' _ _ _ _ SH Ey) as (x & Ex & S1). rewrite EO in Ex by assumption.
          exists x. unfold same in S1. intuition congruence.
      + intros e (y & Ey & Ty). rewrite EN', in_app_iff. cbn. split; [auto|]. intros [H | [H | []]]; [exact H|].
        subst e. cbn in Ey. congruence.
      + intros i y Ey. destruct (Z.eq_dec i (nexti s)) as [-> | NE].
        { left. exists (mkE (nexte s) d n (nexti s)). split; [|reflexivity]. rewrite EN'. apply in_or_app. right. left. reflexivity. }
        destruct (shape_some' _ _ _ _ SH Ey) as (x & Ex & S1). rewrite EO in Ex by assumption.
        destruct (t_live _ T _ _ Ex) as [(e & A & B) | A].
        * left. exists e. split; [rewrite EN'; apply in_or_app; auto|exact B].
        * right. unfold same in S1. intuition congruence.
    - exists s1, ENOSPC. split; [apply add_fail; auto; eapply last_nonempty; eauto|]. split; [discriminate|].
      intros _. split; [reflexivity|]. split; [reflexivity|]. split.
      + unfold destroy. rewrite EX. cbn. rewrite andb_false_r. destruct t; cbn; rewrite ?andb_false_r; try reflexivity.
        congruence.
      + split; [apply kfree_new; auto; intros i x NE; rewrite EO by assumption; reflexivity|].
        apply ev_same; auto. cbn. lia.
  Qed.

  (** ** unlink *)
  Lemma unlink_ok s e x : wf s -> In e (ents s) -> ino s (e_tgt e) = Some x -> i_type x <> FDir ->
    exists s1, remove_entry s (e_dir e) (Some (e_id e)) = Ok s1 0 [] /\ core s1 /\ shape s s1 /\
      ents s1 = filter (fun f => negb (e_id f =? e_id e)) (ents s) /\
      hnds s1 = moved s (e_dir e) (e_id e) /\ pins s1 = pins s /\ nexti s1 = nexti s /\ nexth s1 = nexth s /\
      ev s s1 /\
      exists y, ino s1 (e_tgt e) = Some y /\ same x y /\
        (i_nlink y = 0 -> i_refs y = 0 ->
           destroy dbg s1 (e_tgt e) = Ok (kfree s1 (e_tgt e)) 0 [] /\ wf (kfree s1 (e_tgt e))) /\
        (~ (i_nlink y = 0 /\ i_refs y = 0) -> wf s1).
  Proof.
    intros W HE HX TX. pose proof W as W0. destruct W as [C T].
    destruct (remove_ok dbg NAMEMAX s e C HE) as (s1 & E & C1 & SH & EN & E1 & E2 & E3 & E4 & E5 & EV).
    exists s1. repeat (split; [assumption|]).
    destruct (shape_some _ _ _ _ SH HX) as (y & Ey & S1). exists y. split; [exact Ey|]. split; [exact S1|].
    assert (IE : forall f, In f (ents s1) <-> In f (ents s) /\ e_id f <> e_id e).
    { intros f. rewrite EN. apply in_remove. }
    assert (KE : forall f, is_dir s (e_tgt f) -> (In f (ents s) <-> In f (ents s1))).
    { intros f (z & Ez & Tz). rewrite IE. split; [|tauto]. intros HI. split; [exact HI|]. intros Q.
      assert (f = e) by (eapply (NoDup_key e_id); eauto using (c_ids _ _ C)). subst f. congruence. }
    assert (LV : forall i z, ino s1 i = Some z -> i <> e_tgt e ->
                 (exists f, In f (ents s1) /\ e_tgt f = i) \/ 0 < i_refs z).
    { intros i z Ez NE. destruct (shape_some' _ _ _ _ SH Ez) as (w & Ew & S2).
      destruct (t_live _ T _ _ Ew) as [(f & A & B) | A].
      - left. exists f. split; [|exact B]. apply IE. split; [exact A|]. intros Q.
        assert (f = e) by (eapply (NoDup_key e_id); eauto using (c_ids _ _ C)). congruence.
      - right. unfold same in S2. intuition congruence. }
    assert (TY : i_type y <> FDir) by (unfold same in S1; intuition congruence).
    split.
    - intros NL RF. destruct (destroy_ok dbg NAMEMAX s1 (e_tgt e) y C1 Ey NL RF) as [D1 D2]; [congruence|].
      split; [exact D1|]. split; [exact D2|]. apply (tree_keep s); auto.
      + split.
        * intros i z Ez Tz. destruct (shape_dirs _ _ SH) as [A _]. destruct (A _ _ Ez Tz) as (w & Ew & Tw & Pw).
          exists w. split; [|auto]. unfold kfree. cbn. rewrite fupd_other; [exact Ew|]. congruence.
        * intros i z Ez Tz. unfold kfree in Ez. cbn in Ez. unfold fupd in Ez.
          destruct (i =? e_tgt e) eqn:Q; [discriminate|]. destruct (shape_dirs _ _ SH) as [_ A]. eapply A; eauto.
      + intros i z Ez. unfold kfree in Ez. cbn in Ez. unfold fupd in Ez.
        destruct (i =? e_tgt e) eqn:Q; [discriminate|]. apply (LV i z Ez). lia.
    - intros NB. split; [exact C1|]. apply (tree_keep s); auto using shape_dirs.
      intros i z Ez. destruct (Z.eq_dec i (e_tgt e)) as [-> | NE]; [|auto].
      assert (z = y) by congruence. subst z.
      pose proof (c_nlink _ _ C1 _ _ Ey) as NLK. pose proof (c_refs _ _ C1 _ _ Ey) as RFK.
      pose proof (count_nonneg (fun e0 => e_tgt e0 =? e_tgt e) (ents s1)).
      pose proof (count_nonneg (fun h => h_ino h =? e_tgt e) (hnds s1)).
      pose proof (count_nonneg (fun h => h =? e_tgt e) (pins s1)).
      destruct (Z.eq_dec (i_nlink y) 0) as [Z1 | Z1].
      + right. lia.
      + left. destruct (proj1 (count_pos (fun e0 => e_tgt e0 =? e_tgt e) (ents s1))) as (f & A & B); [lia|].
        exists f. split; [exact A|lia].
  Qed.
End P.
