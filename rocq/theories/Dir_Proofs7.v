(** The invariant of all reachable states; listings *)
From Verif Require Import Lib Dir_Model Dir_Spec Dir_Proofs Dir_Proofs2 Dir_Proofs3 Dir_Proofs4 Dir_Proofs5 Dir_Proofs6.

Section P.
  Variables (dbg : bool) (NAMEMAX DSZ : Z).
  Hypothesis NM : 3 <= NAMEMAX.
  Notation core := (core NAMEMAX).
  Notation wf := (wf NAMEMAX).
  Notation okp := (okp NAMEMAX).
  Notation okarg := (okarg NAMEMAX).
  Notation allowed := (allowed NAMEMAX).
  Notation step := (step dbg NAMEMAX DSZ).

  Lemma ev_refl s : ev s s.
  Proof. apply ev_same; auto; lia. Qed.

  Lemma seek_ok s g off : wf s -> In g (hnds s) ->
    exists s' rc, do_seek s (h_id g) off = Ok s' rc [] /\ wf s' /\ ents s' = ents s /\
      nexte s' = nexte s /\ nexth s' = nexth s /\
      (forall k, In k (hnds s') -> h_id k <> h_id g -> In k (hnds s)) /\
      (forall k, In k (hnds s) -> h_id k <> h_id g -> In k (hnds s')).
  Proof.
    intros W HI. pose proof W as [C T]. unfold do_seek. rewrite (find_h_in s g (c_hids _ _ C) HI).
    destruct (c_hino _ _ C _ HI) as (x & EX & _). rewrite EX.
    assert (SAME : forall rc, exists s' rc', Ok s rc [] = Ok s' rc' [] /\ wf s' /\ ents s' = ents s /\
      nexte s' = nexte s /\ nexth s' = nexth s /\
      (forall k, In k (hnds s') -> h_id k <> h_id g -> In k (hnds s)) /\
      (forall k, In k (hnds s) -> h_id k <> h_id g -> In k (hnds s'))).
    { intros rc. exists s, rc. do 6 (split; [auto|]). auto. }
    destruct (ftype_eqb (i_type x) FDir) eqn:TX; cbn [negb]; [|apply SAME]. apply ftype_eqb_iff in TX.
    destruct (off <? 0); [apply SAME|]. destruct (aget (dents s (h_ino g)) off) as [e|] eqn:AG; [|apply SAME].
    assert (HE : In e (dents s (h_ino g))).
    { clear - AG. unfold aget in AG. destruct (0 <=? off); [|discriminate].
      eapply nth_error_In; eauto. }
    apply dents_in in HE. eexists _, _. split; [reflexivity|]. split.
    { apply (set_h_ok NAMEMAX s g x); auto. cbn. intros y H. injection H as <-. exists e. tauto. }
    do 3 (split; [reflexivity|]). split.
    { intros k HK NE. cbn in HK. apply in_map_iff in HK as (k0 & K1 & K2). destruct (h_id k0 =? h_id g) eqn:Q; [|congruence].
      subst k. cbn in NE. lia. }
    intros k HK NE. cbn. apply in_map_iff. exists k. split; [|exact HK]. replace (h_id k =? h_id g) with false by lia. reflexivity.
  Qed.

  Lemma symlink_ok s al t d n p : wf s -> is_dir s d -> n <> [] -> ~ In SLASH n -> okp s d n p -> al 3%nat = true ->
    exists s' rc, do_symlink NAMEMAX s al t p = Ok s' rc [] /\ wf s' /\ ev s s' /\
      (rc <> 0 -> unchanged s s') /\
      (rc = 0 -> ino s (nexti s) = None /\ ents s' = ents s ++ [mkE (nexte s) d n (nexti s)] /\
         exists x, ino s' (nexti s) = Some x /\ i_type x = FLink /\ i_path x = t).
  Proof.
    intros W HD N1 N2 (P1 & P2 & P3 & P4) A3. pose proof W as [C T].
    assert (SAME : forall rc, rc <> 0 -> exists s' rc', Ok s rc [] = Ok s' rc' [] /\ wf s' /\ ev s s' /\
      (rc' <> 0 -> unchanged s s') /\
      (rc' = 0 -> ino s (nexti s) = None /\ ents s' = ents s ++ [mkE (nexte s) d n (nexti s)] /\
         exists x, ino s' (nexti s) = Some x /\ i_type x = FLink /\ i_path x = t)).
    { intros rc NZ. exists s, rc. split; [reflexivity|]. split; [exact W|]. split; [apply ev_refl|].
      split; [intros; apply unchanged_refl|contradiction]. }
    unfold do_symlink, ok. destruct P4 as [(PI & PE & FR) | (e & _ & PI & PE)]; rewrite PI; [|apply SAME; discriminate].
    destruct (al 0%nat); cbn [negb]; [|apply SAME; discriminate].
    destruct (new_file_core NAMEMAX s FLink 511 d t W) as (C1 & E1 & E2 & E3 & E4 & E5 & E6 & NX & EX & EO).
    destruct (new_file dbg NAMEMAX s true FLink 511 t d (p_last p) n W) as (s2 & rc & A & AT & AF); auto; [discriminate|].
    rewrite P1, A3. destruct (new_inode s FLink 511 d t) as [s1 i] eqn:NI.
    assert (i = nexti s) by (unfold new_inode in NI; congruence). subst i. cbn [fst] in *.
    destruct (al 5%nat); cbn [negb].
    2:{ eexists _, _. split; [reflexivity|]. split; [apply kfree_new; auto; intros j y NE; rewrite EO by assumption; reflexivity|].
        split; [apply ev_same; auto; cbn; rewrite ?E5, ?E2; auto; lia|]. split; [|discriminate].
        intros _. split; [exact E1|]. split; [exact E2|]. split; [exact E3|]. apply kfree_shape; [|exact NX].
        intros j NE. rewrite EO by assumption. destruct (ino s j); [apply same_refl|exact I]. }
    rewrite A. destruct (AT eq_refl) as (-> & W2 & EV2 & EN2 & EH2 & EP2 & EI2 & (x & IX & TX & PX & MX) & OLD).
    exists s2, 0. split; [reflexivity|]. split; [exact W2|]. split; [exact EV2|]. split; [congruence|]. intros _.
    split; [exact NX|]. split; [exact EN2|]. eauto.
  Qed.

  Lemma link_ok s al p d' n' q : wf s -> is_dir s d' -> n' <> [] -> ~ In SLASH n' -> okp s d' n' q ->
    (forall i, p_ino p = Some i -> exists x, ino s i = Some x) ->
    exists s' rc, do_link NAMEMAX s al p q = Ok s' rc [] /\ wf s' /\ ev s s' /\
      (rc <> 0 -> s' = s) /\
      (rc = 0 -> exists i, p_ino p = Some i /\ (exists x, ino s i = Some x /\ i_type x = FFile) /\
                   (forall e, ~ named s d' n' e) /\ ents s' = ents s ++ [mkE (nexte s) d' n' i]).
  Proof.
    intros W HD N1 N2 (P1 & P2 & P3 & P4) HP. pose proof W as [C T].
    assert (SAME : forall rc, rc <> 0 -> exists s' rc', Ok s rc [] = Ok s' rc' [] /\ wf s' /\ ev s s' /\
      (rc' <> 0 -> s' = s) /\
      (rc' = 0 -> exists i, p_ino p = Some i /\ (exists x, ino s i = Some x /\ i_type x = FFile) /\
                   (forall e, ~ named s d' n' e) /\ ents s' = ents s ++ [mkE (nexte s) d' n' i])).
    { intros rc NZ. exists s, rc. split; [reflexivity|]. split; [exact W|]. split; [apply ev_refl|].
      split; [auto|contradiction]. }
    unfold do_link, ok. destruct (p_ino p) as [i|] eqn:PI; [|apply SAME; discriminate].
    destruct (HP i eq_refl) as (x & EX). rewrite EX. destruct (ftype_eqb (i_type x) FFile) eqn:TX; cbn [negb]; [|apply SAME; discriminate].
    apply ftype_eqb_iff in TX.
    destruct P4 as [(QI & QE & FR) | (e & _ & QI & QE)]; rewrite QI; [|apply SAME; discriminate]. rewrite P1.
    destruct (add_file NAMEMAX s (al 3%nat) d' (p_last q) n' i x W) as (s2 & rc & A & W2 & _ & _ & _ & _ & _ & EV2 & AT & AF); auto; [congruence|].
    rewrite A. exists s2, rc. split; [reflexivity|]. split; [exact W2|]. split; [exact EV2|]. destruct (al 3%nat).
    - destruct (AT eq_refl) as (-> & EN). split; [congruence|]. intros _. exists i. split; [reflexivity|].
      split; [eauto|]. split; [exact FR|exact EN].
    - destruct (AF eq_refl) as (-> & ->). split; [reflexivity|discriminate].
  Qed.

  Lemma okp_ino s d n p : wf s -> okp s d n p -> forall i, p_ino p = Some i -> exists x, ino s i = Some x.
  Proof.
    intros [C _] (_ & _ & _ & [(Q & _) | (e & (E1 & _) & Q & _)]) i PI; [congruence|].
    destruct (c_tgt _ _ C _ E1) as (x & EX). exists x. congruence.
  Qed.

  Definition own_pos (o : op) : Prop := match o with OGetdents _ _ _ | OSeek _ _ => True | _ => False end.

  (** Every allowed call is executed without an error and keeps the invariant *)
  Lemma step_ok s o : wf s -> allowed s o ->
    exists s' rc out, step s o = Ok s' rc out /\ wf s' /\ (own_pos o \/ ev s s').
  Proof.
    intros W A. pose proof W as [C T].
    destruct (t_root _ T) as (R & ER & TR & PR).
    assert (SAME : forall o rc, exists s' rc' out, Ok s rc [] = Ok s' rc' out /\ wf s' /\ (own_pos o \/ ev s s')).
    { intros o0 rc. exists s, rc, []. split; [reflexivity|]. split; [exact W|]. right. apply ev_refl. }
    assert (FIN : forall o r, (exists s' rc, r = Ok s' rc [] /\ wf s' /\ ev s s') ->
               exists s' rc out, r = Ok s' rc out /\ wf s' /\ (own_pos o \/ ev s s')).
    { intros o0 r (s' & rc & E & W' & EV). exists s', rc, []. auto. }
    assert (MK : forall o a f, okarg s a ->
       (forall p, (p = mkP (Some ROOT) ROOT None [SLASH] /\ a = PRoot \/
                  exists d n sl, a = PEnt d n sl /\ okp s d n p /\ is_dir s d /\ n <> [] /\ ~ In SLASH n /\
                              ~ (d = ROOT /\ n = DOTDOT) /\ p_last p = if sl then n ++ [SLASH] else n) ->
          exists s' rc out, f p = Ok s' rc out /\ wf s' /\ (own_pos o \/ ev s s')) ->
       exists s' rc out, with_path NAMEMAX s a f = Ok s' rc out /\ wf s' /\ (own_pos o \/ ev s s')).
    { intros o0 a f OA HF. unfold with_path. destruct a as [|d n sl].
      - cbn. apply HF. auto.
      - destruct (mkpath_ok NAMEMAX s d n sl W OA) as [-> | (p & -> & OP & OL)]; [apply SAME|].
        apply HF. right. exists d, n, sl. cbn in OA. intuition. }
    destruct o; cbn [Dir_Model.step Dir_Spec.allowed] in *.
    - apply MK; [exact A|]. intros p [[-> ->] | (d & n & sl & -> & OP & HD & N1 & N2 & N3 & N4)].
      + eapply FIN. destruct (do_open_root dbg NAMEMAX s al f mode W) as (s' & rc & E & W' & EV & Q). exists s', rc. auto.
      + eapply FIN. destruct (do_open_ok dbg NAMEMAX s al f mode d n p W HD N1 N2 OP) as (s' & rc & E & W' & EV & Q). exists s', rc. auto.
    - destruct A as (g & HG & <-). destruct (do_close_ok dbg NAMEMAX s g W HG) as (s' & x & E & W' & EV & _).
      exists s', 0, []. auto.
    - destruct A as [A A3]. apply MK; [exact A|]. intros p [[-> ->] | (d & n & sl & -> & OP & HD & N1 & N2 & N3 & N4)].
      + unfold do_mkdir. cbn [p_ino]. apply SAME.
      + destruct (p_ino p) as [i|] eqn:PI; [unfold do_mkdir; rewrite PI; apply SAME|].
        eapply FIN. destruct (mkdir_ok dbg NAMEMAX NM s al mode d n p W HD N1 N2 OP PI A3) as (s' & rc & E & W' & EV & Q). exists s', rc. auto.
    - destruct A as [A ADOT]. apply MK; [exact A|]. intros p [[-> ->] | (d & n & sl & -> & OP & HD & N1 & N2 & N3 & N4)].
      + unfold do_rmdir. cbn [p_ino p_dir p_ent]. rewrite ER, TR. cbn [ftype_eqb negb]. destruct (has (i_mode R) 128); apply SAME.
      + eapply FIN. destruct (rmdir_ok dbg NAMEMAX s d n p W HD OP N3) as (s' & rc & E & W' & EV & Q).
        { intros ND. rewrite N4, (ADOT ND). reflexivity. }
        exists s', rc. auto.
    - apply MK; [exact A|]. intros p [[-> ->] | (d & n & sl & -> & OP & HD & N1 & N2 & N3 & N4)].
      + unfold do_unlink. cbn [p_ino p_dir p_ent]. rewrite ER, TR. cbn [ftype_eqb]. apply SAME.
      + eapply FIN. destruct (do_unlink_ok dbg NAMEMAX s d n p W HD OP) as (s' & rc & E & W' & EV & Q). exists s', rc. auto.
    - destruct A as [A A3]. apply MK; [exact A|]. intros p [[-> ->] | (d & n & sl & -> & OP & HD & N1 & N2 & N3 & N4)].
      + unfold do_symlink. cbn [p_ino]. apply SAME.
      + eapply FIN. destruct (symlink_ok s al target d n p W HD N1 N2 OP A3) as (s' & rc & E & W' & EV & Q). exists s', rc. auto.
    - destruct A as [A B]. apply MK; [exact A|]. intros p HP. apply MK; [exact B|]. intros q HQ.
      assert (HPI : forall i, p_ino p = Some i -> exists x, ino s i = Some x).
      { destruct HP as [[-> ->] | (d & n & sl & -> & OP & _)]; [cbn; intros i H; injection H as <-; eauto|].
        eapply okp_ino; eauto. }
      destruct HQ as [[-> ->] | (d & n & sl & -> & OP & HD & N1 & N2 & N3 & N4)].
      + unfold do_link. destruct (p_ino p) as [i|]; [|apply SAME]. destruct (HPI i eq_refl) as (x & ->).
        destruct (ftype_eqb (i_type x) FFile); apply SAME.
      + eapply FIN. destruct (link_ok s al p d n q W HD N1 N2 OP HPI) as (s' & rc & E & W' & EV & Q). exists s', rc. auto.
    - destruct A as (A & B & CND). apply MK; [exact A|]. intros p HP. apply MK; [exact B|]. intros q HQ.
      destruct HP as [[-> ->] | (d & n & sl & -> & OP & HD & N1 & N2 & N3 & N4)]; [contradiction|].
      destruct HQ as [[-> ->] | (d' & n' & sl' & -> & OP' & HD' & N1' & N2' & N3' & N4')]; [contradiction|].
      destruct CND as (D1 & D2 & D3 & D4).
      eapply FIN. destruct (rename_ok dbg NAMEMAX s al d n d' n' p q W HD HD' OP OP' D1 D2 N1' N2' D3 D4) as (s' & rc & E & W' & EV & Q). exists s', rc. auto.
    - apply MK; [exact A|]. intros p HP.
      assert (HPI : forall i, p_ino p = Some i -> exists x, ino s i = Some x).
      { destruct HP as [[-> ->] | (d & n & sl & -> & OP & _)]; [cbn; intros i H; injection H as <-; eauto|].
        eapply okp_ino; eauto. }
      destruct (p_ino p) as [i|] eqn:PI; [|unfold do_chmod; rewrite PI; apply SAME].
      destruct (HPI i eq_refl) as (x & EX). eapply FIN.
      destruct (do_chmod_ok NAMEMAX s mode p i x W PI EX) as (s' & rc & E & W' & EV & Q). exists s', rc. auto.
    - apply MK; [exact A|]. intros p HP.
      assert (HPI : forall i, p_ino p = Some i -> exists x, ino s i = Some x).
      { destruct HP as [[-> ->] | (d & n & sl & -> & OP & _)]; [cbn; intros i H; injection H as <-; eauto|].
        eapply okp_ino; eauto. }
      destruct (p_ino p) as [i|] eqn:PI; [|unfold do_pin; rewrite PI; apply SAME].
      destruct (HPI i eq_refl) as (x & EX). eapply FIN.
      destruct (do_pin_ok NAMEMAX s p i x W PI EX) as (s' & rc & E & W' & EV & Q). exists s', rc. auto.
    - eapply FIN. destruct (do_unpin_ok NAMEMAX s i W A) as (s' & rc & E & W' & EV & Q). exists s', rc. auto.
    - destruct A as (g & HG & <-). destruct (getdents_ok NAMEMAX DSZ s g bufsz lim W HG) as (s' & rc & out & E & W' & _).
      exists s', rc, out. cbn. auto.
    - destruct A as (g & HG & <-). destruct (seek_ok s g off W HG) as (s' & rc & E & W' & _).
      exists s', rc, []. cbn. auto.
    - destruct A as (g & x & HG & <- & EX & TX). destruct (do_dup_ok NAMEMAX s a g x W HG EX TX) as (s' & rc & E & W' & EV & _).
      exists s', rc, []. auto.
  Qed.

  Lemma wf_init : wf (init dbg NAMEMAX).
  Proof.
    assert (E : exists m, init dbg NAMEMAX = mkS m [mkE 0 1 DOT 1; mkE 1 1 DOTDOT 1] [] [] 2 2 0 /\
      (forall i, m i = if i =? 1 then Some (mkI FDir 511 2 0 2 1 []) else None)).
    { unfold init, create_dir. cbn [negb new_inode nexti]. unfold add_entry at 1. cbn [ino set_ino ents hnds pins nexti nexte nexth].
      change (zlen DOT + 1) with 2. unfold ROOT. rewrite fupd_same. cbn [i_type ftype_eqb negb].
      change (2 =? 1) with false. replace (2 >? NAMEMAX) with false by lia. cbv iota.
      change (last DOT 0 =? SLASH) with false. cbv iota. cbn [find_name find ents].
      unfold upd. cbn [ino set_ino]. rewrite fupd_same. cbn [ino set_ino]. rewrite fupd_same. cbn [bind ok].
      change (0 <? 0) with false. cbv iota.
      unfold add_entry. cbn [ino set_ino ents hnds pins nexti nexte nexth].
      rewrite fupd_same. cbn [i_type with_nlink with_num ftype_eqb negb].
      change (zlen DOTDOT + 1) with 3. change (3 =? 1) with false. replace (3 >? NAMEMAX) with false by lia. cbv iota.
      change (last DOTDOT 0 =? SLASH) with false. cbv iota. unfold find_name. cbn [find ents set_ino].
      change ((e_dir (mkE 0 1 DOT 1) =? 1) && name_eqb (e_name (mkE 0 1 DOT 1)) DOTDOT) with false. cbv iota.
      unfold upd. cbn [ino set_ino]. rewrite fupd_same. cbn [ino set_ino]. rewrite fupd_same. cbn [bind ok].
      change (0 <? 0) with false. cbv iota. eexists. split; [unfold set_ino; cbn; reflexivity|].
      intros i. unfold fupd. destruct (i =? 1); reflexivity. }
    destruct E as (m & -> & M).
    assert (M1 : m 1 = Some (mkI FDir 511 2 0 2 1 [])) by (rewrite M; reflexivity).
    assert (MX : forall i x, m i = Some x -> i = 1 /\ x = mkI FDir 511 2 0 2 1 []).
    { intros i x. rewrite M. destruct (i =? 1) eqn:Q; [|discriminate]. intros H. injection H as <-. split; [lia|reflexivity]. }
    assert (D1 : forall s, ino s = m -> is_dir s 1) by (intros s <-; eexists; split; [exact M1|reflexivity]).
    assert (NDOT : DOT <> DOTDOT) by discriminate.
    split; constructor; cbn.
    - constructor; [cbn; intros [H | []]; discriminate|]. constructor; [intros []|constructor].
    - intros e [<- | [<- | []]]; cbn; lia.
    - constructor; [cbn; intros [H | []]; discriminate|]. constructor; [intros []|constructor].
    - intros e [<- | [<- | []]]; apply D1; reflexivity.
    - intros e [<- | [<- | []]]; cbn; eauto.
    - intros e [<- | [<- | []]]; unfold okname; cbn; (split; [discriminate|]); (split; [unfold SLASH; lia|]).
      + change (zlen DOT) with 1. lia.
      + change (zlen DOTDOT) with 2. lia.
    - intros i x H. apply MX in H as [-> ->]. reflexivity.
    - intros i x H _. apply MX in H as [-> ->]. reflexivity.
    - intros i x H. apply MX in H as [-> ->]. reflexivity.
    - constructor.
    - intros h [].
    - intros h [].
    - intros h x [].
    - intros i [].
    - intros i x H. apply MX in H as [-> ->]. lia.
    - eauto.
    - intros d D H _. apply MX in H as [-> ->]. exists (mkE 0 1 DOT 1). split; [split; cbn; auto|reflexivity].
    - intros d D H _. apply MX in H as [-> ->]. exists (mkE 1 1 DOTDOT 1). split; [split; cbn; auto|reflexivity].
    - intros d D H _ N. apply MX in H as [-> ->]. contradiction.
    - intros d D H _ N. apply MX in H as [-> ->]. contradiction.
    - intros e T [<- | [<- | []]] _ _ N; exfalso; apply N; [left|right]; reflexivity.
    - intros e e' T [<- | [<- | []]] _ _ _ _ N _; exfalso; apply N; [left|right]; reflexivity.
    - intros i x H. apply MX in H as [-> ->]. left. exists (mkE 0 1 DOT 1). cbn. auto.
  Qed.

  Lemma reach_wf s : reach dbg NAMEMAX DSZ s -> wf s.
  Proof.
    induction 1 as [|s o s' rc out R IH A E]; [exact wf_init|].
    destruct (step_ok s o IH A) as (s1 & rc1 & out1 & E1 & W1 & _). rewrite E1 in E. congruence.
  Qed.

  (** ** No handle is lost by another call *)
  Definition keeps (s : st) (r : res) : Prop :=
    match r with Ok s' _ _ => incl (map h_id (hnds s)) (map h_id (hnds s')) | Bad _ => True end.

  Lemma keeps_bind s r f : keeps s r -> (forall s1 rc out, r = Ok s1 rc out -> keeps s1 (f s1 rc)) -> keeps s (bind r f).
  Proof.
    intros H1 H2. destruct r as [s1 rc out|w]; cbn; [|exact I]. specialize (H2 s1 rc out eq_refl).
    destruct (f s1 rc) as [s2 rc2 out2|w]; cbn in *; [|exact I]. intros x Hx. auto.
  Qed.

  Lemma keeps_ok s s' rc out : map h_id (hnds s') = map h_id (hnds s) -> keeps s (Ok s' rc out).
  Proof. intros H. cbn. rewrite H. apply incl_refl. Qed.

  Lemma upd_hnds s i f s' : upd s i f = Some s' -> hnds s' = hnds s.
  Proof. intros H. apply upd_some in H as (x & _ & ->). reflexivity. Qed.

  Ltac brk := repeat (cbv zeta; unfold ok; match goal with
    | |- keeps _ (Bad _) => exact I
    | |- keeps _ (Ok _ _ _) => apply keeps_ok; cbn; reflexivity
    | |- keeps _ (if ?b then _ else _) => destruct b eqn:?
    | |- keeps _ (match upd ?s ?i ?f with _ => _ end) =>
        let E := fresh "U" in destruct (upd s i f) eqn:E; [apply upd_hnds in E|]
    | |- keeps _ (match ?x with _ => _ end) => destruct x eqn:?
    end).

  Lemma keeps_add s a d n i : keeps s (add_entry NAMEMAX s a d n i).
  Proof.
    unfold add_entry. brk. all: apply keeps_ok; cbn in *; congruence.
  Qed.

  Lemma keeps_remove s d x : keeps s (remove_entry dbg s d x).
  Proof.
    unfold remove_entry. brk.
    all: apply keeps_ok; cbn in *; rewrite U0, U; cbn; rewrite map_map; apply map_ext; intros h; apply move_fields.
  Qed.

  Lemma keeps_destroy s i : keeps s (destroy dbg s i).
  Proof. unfold destroy. brk. Qed.

  Lemma keeps_create s al m p : keeps s (create_dir dbg NAMEMAX s al m p).
  Proof.
    unfold create_dir. brk.
    assert (EQ : hnds s0 = hnds s) by (unfold new_inode in Heqp0; injection Heqp0 as <- _; reflexivity).
    unfold keeps. rewrite <- EQ. apply keeps_bind; [apply keeps_add|]. intros s1 rc out _. brk.
    apply keeps_bind; [apply keeps_add|]. intros s2 rc2 out2 _. brk.
    apply keeps_bind; [apply keeps_remove|]. intros. brk.
  Qed.

  Lemma keeps_open_int s al i : keeps s (open_int s al i).
  Proof.
    unfold open_int. brk. all: cbn; rewrite U; rewrite map_app; apply incl_appl, incl_refl.
  Qed.

  Lemma keeps_eq s s' r : hnds s' = hnds s -> keeps s' r -> keeps s r.
  Proof. unfold keeps. intros ->. auto. Qed.

  Lemma keeps_open s al f m p : keeps s (do_open dbg NAMEMAX s al f m p).
  Proof.
    unfold do_open. brk; try apply keeps_open_int.
    - apply (keeps_eq _ s0); [unfold new_inode in Heqp0; injection Heqp0 as <- _; reflexivity|].
      apply keeps_bind; [apply keeps_destroy|]. intros. brk.
    - apply (keeps_eq _ s0); [unfold new_inode in Heqp0; injection Heqp0 as <- _; reflexivity|].
      apply keeps_bind; [apply keeps_add|]. intros. brk; [|apply keeps_open_int].
      apply keeps_bind; [apply keeps_destroy|]. intros. brk.
  Qed.

  Lemma keeps_mkdir s al m p : keeps s (do_mkdir dbg NAMEMAX s al m p).
  Proof.
    unfold do_mkdir. brk. apply keeps_bind; [apply keeps_create|]. intros. brk.
    apply keeps_bind; [apply keeps_add|]. intros. brk. apply keeps_bind; [apply keeps_destroy|]. intros. brk.
  Qed.

  Lemma keeps_rmdir s p : keeps s (do_rmdir dbg s p).
  Proof.
    unfold do_rmdir. brk. repeat (apply keeps_bind; [first [apply keeps_remove|apply keeps_destroy]|intros]). brk.
  Qed.

  Lemma keeps_unlink s p : keeps s (do_unlink dbg s p).
  Proof.
    unfold do_unlink. brk. apply keeps_bind; [apply keeps_remove|intros]. brk.
    apply keeps_bind; [apply keeps_destroy|intros]. brk.
  Qed.

  Lemma keeps_symlink s al t p : keeps s (do_symlink NAMEMAX s al t p).
  Proof.
    unfold do_symlink. brk.
    - apply keeps_ok. cbn. unfold new_inode in Heqp0; injection Heqp0 as <- _; reflexivity.
    - apply (keeps_eq _ s0); [unfold new_inode in Heqp0; injection Heqp0 as <- _; reflexivity|]. apply keeps_add.
  Qed.

  Lemma keeps_link s al p q : keeps s (do_link NAMEMAX s al p q).
  Proof. unfold do_link. brk. apply keeps_add. Qed.

  Lemma keeps_rename s al p q : keeps s (do_rename dbg NAMEMAX s al p q).
  Proof.
    assert (FIN : forall s1 o, keeps s1 (bind (add_entry NAMEMAX s1 (al 3%nat) (p_dir q) (p_last q) o) (fun s2 rc =>
          if negb (rc =? 0) then Ok s2 rc []
          else bind (remove_entry dbg s2 (p_dir p) (p_ent p)) (fun s3 _ => Ok s3 0 [])))).
    { intros s1 o. apply keeps_bind; [apply keeps_add|intros]. brk. apply keeps_bind; [apply keeps_remove|intros]. brk. }
    unfold do_rename. brk; try apply FIN.
    - apply keeps_bind; [apply keeps_rmdir|intros]. brk. apply FIN.
    - apply keeps_bind; [apply keeps_unlink|intros]. brk. apply FIN.
  Qed.

  Lemma keeps_set_h s h f rc out : (forall g, h_id (f g) = h_id g) -> keeps s (Ok (set_h s h f) rc out).
  Proof.
    intros F. apply keeps_ok. cbn. rewrite map_map. apply map_ext. intros g. destruct (h_id g =? h); auto.
  Qed.

  Lemma keeps_path s a f : (forall p, keeps s (f p)) -> keeps s (with_path NAMEMAX s a f).
  Proof. intros H. unfold with_path. brk. apply H. Qed.

  Lemma keeps_step s o : match o with OClose _ => False | _ => True end -> keeps s (step s o).
  Proof.
    destruct o; cbn [Dir_Model.step]; intros NC; try contradiction; try apply keeps_path; intros.
    - apply keeps_open.
    - apply keeps_mkdir.
    - apply keeps_rmdir.
    - apply keeps_unlink.
    - apply keeps_symlink.
    - apply keeps_path. intros. apply keeps_link.
    - apply keeps_path. intros. apply keeps_rename.
    - unfold do_chmod. brk. apply keeps_ok. congruence.
    - unfold do_pin. brk. apply keeps_ok. cbn. congruence.
    - unfold do_unpin. brk. apply keeps_ok. cbn. congruence.
    - unfold do_getdents. brk; apply keeps_set_h; reflexivity.
    - unfold do_seek. brk. apply keeps_set_h; reflexivity.
    - unfold do_dup. brk. cbn. rewrite U. rewrite map_app; apply incl_appl, incl_refl.
  Qed.

  (** ** Listings *)
  Record J (s0 : st) (h d : Z) (s : st) (log : list dent) : Prop := {
    j_wf : wf s;
    j_e : nexte s0 <= nexte s;
    j_old : forall e, In e (ents s) -> In e (ents s0) \/ nexte s0 <= e_id e;
    j_log : NoDup (map d_eid log);
    j_lt : forall r, In r log -> d_eid r < nexte s;
    j_desc : forall r e, In r log -> In e (ents s0) -> e_id e = d_eid r -> e_dir e = d /\ d_name r = e_name e /\ d_ino r = e_tgt e;
    j_h : exists g, In g (hnds s) /\ h_id g = h /\ h_ino g = d /\
      (forall e, In e (rest s g) -> ~ In (e_id e) (map d_eid log)) /\
      (forall e, In e (ents s0) -> e_dir e = d -> In e (ents s) -> In (e_id e) (map d_eid log) \/ In e (rest s g))
  }.

  Lemma rest_nodup s g : wf s -> NoDup (map e_id (rest s g)).
  Proof.
    intros [C _]. unfold rest. destruct (h_dpos g) as [x|]; [|constructor].
    assert (ND : NoDup (map e_id (dents s (h_ino g)))) by (unfold dents; apply NoDup_map_filter; apply (c_ids _ _ C)).
    induction (dents s (h_ino g)) as [|e l IH]; [constructor|]. cbn. destruct (e_id e =? x); [exact ND|].
    apply IH. inversion ND; assumption.
  Qed.

  Lemma NoDup_app_intro {A} (a b : list A) : NoDup a -> NoDup b -> (forall x, In x a -> In x b -> False) -> NoDup (a ++ b).
  Proof.
    intros Ha Hb D. induction a as [|x a IH]; [exact Hb|]. inversion Ha as [|? ? N1 N2]; subst. cbn. constructor.
    - intros HI. apply in_app_or in HI as [HI | HI]; [contradiction|]. apply (D x); [left; reflexivity|exact HI].
    - apply IH; auto. intros y Hy1 Hy2. apply (D y); [right; exact Hy1|exact Hy2].
  Qed.

  Lemma NoDup_app_parts {A} (a b : list A) : NoDup (a ++ b) -> NoDup a /\ NoDup b /\ forall x, In x a -> In x b -> False.
  Proof.
    induction a as [|x a IH]; cbn; intros H; [split; [constructor|split; [exact H|intros y []]]|].
    inversion H as [|? ? N1 N2]; subst. destruct (IH N2) as (A1 & A2 & A3). split.
    - constructor; [intros HI; apply N1; apply in_or_app; auto|exact A1].
    - split; [exact A2|]. intros y [-> | Hy] Hb; [apply N1; apply in_or_app; auto|eapply A3; eauto].
  Qed.

  Lemma forall2_eids s out l1 : Forall2 (describes s) out l1 -> map d_eid out = map e_id l1.
  Proof. induction 1 as [|r e out l1 (H & _) FA IH]; [reflexivity|]. cbn. congruence. Qed.

  Lemma forall2_in s out l1 r : Forall2 (describes s) out l1 -> In r out -> exists e, In e l1 /\ describes s r e.
  Proof.
    induction 1 as [|r' e out l1 H FA IH]; [intros []|]. intros [-> | HI]; [exists e; split; [left; reflexivity|exact H]|].
    destruct (IH HI) as (e' & A & B). exists e'. split; [right; exact A|exact B].
  Qed.

  Lemma J_listing s0 h g0 : wf s0 -> In g0 (hnds s0) -> h_id g0 = h -> rest s0 g0 = dents s0 (h_ino g0) ->
    forall s log, listing dbg NAMEMAX DSZ h s0 s log -> J s0 h (h_ino g0) s log.
  Proof.
    intros W0 HG0 HI0 FULL s log L. induction L as [|s log o s' rc out L IH A OKO E].
    - constructor; auto; try lia.
      + constructor.
      + intros r [].
      + intros r e [].
      + exists g0. split; [exact HG0|]. split; [exact HI0|]. split; [reflexivity|]. split; [intros e _ []|].
        intros e H1 H2 _. right. rewrite FULL. apply dents_in. auto.
    - destruct IH as [JW JE JO JL JT JD (g & G1 & G2 & G3 & G4 & G5)].
      destruct (step_ok s o JW A) as (s1 & rc1 & out1 & E1 & W1 & EV). rewrite E1 in E. injection E as -> -> ->.
      assert (HLT : h < nexth s) by (destruct JW as [C _]; rewrite <- G2; apply (c_hlt _ _ C); exact G1).
      (* calls that do not move the position *)
      assert (GEN : ev s s' -> match o with OClose x => x <> h | _ => True end -> J s0 h (h_ino g0) s' log).
      { intros (V1 & V2 & V3 & V4) NC. constructor; auto; try lia.
        - intros e HE. destruct (V3 e HE) as [HE' | HE']; [apply JO; exact HE'|right; lia].
        - assert (KH : exists g', In g' (hnds s') /\ h_id g' = h).
          { assert (IN : In h (map h_id (hnds s'))).
            { assert (KS : match o with OClose _ => False | _ => True end -> incl (map h_id (hnds s)) (map h_id (hnds s')))
                by (intros N; pose proof (keeps_step s o N) as K; rewrite E1 in K; exact K).
              destruct o; try (apply (KS I); rewrite <- G2; apply in_map; exact G1).
              cbn in E1, A. destruct A as (k & K1 & <-). destruct (do_close_ok dbg NAMEMAX s k JW K1) as (s2 & x & EC & _ & _ & _ & _ & _ & EH & _).
              rewrite EC in E1. injection E1 as -> _ _. rewrite EH. apply in_map_iff. exists g. split; [exact G2|].
              apply in_remove. split; [exact G1|congruence]. }
            apply in_map_iff in IN as (g' & I1 & I2). eauto. }
          destruct KH as (g' & K1 & K2). exists g'. split; [exact K1|]. split; [exact K2|].
          destruct (V4 g' K1) as (gg & B1 & B2 & B3 & B4 & B5); [lia|].
          assert (gg = g) by (destruct JW as [C _]; eapply (NoDup_key _ _ _ _ (c_hids _ _ C)); auto; congruence). subst gg.
          split; [congruence|]. split.
          + intros e HE. destruct (B4 e HE) as [HE' | HE']; [apply G4; exact HE'|].
            intros HL. apply in_map_iff in HL as (r & R1 & R2). apply JT in R2. lia.
          + intros e H1 H2 H3. assert (H4 : In e (ents s)).
            { destruct (V3 e H3) as [H4 | H4]; [exact H4|]. destruct W0 as [C0 _]. apply (c_idlt _ _ C0) in H1. lia. }
            destruct (G5 e H1 H2 H4) as [H5 | H5]; [left; exact H5|]. right. apply B5; auto. }
      destruct o; try (rewrite app_nil_r; destruct EV as [[] | EV]; apply GEN; [exact EV|exact I || exact OKO]).
      + (* getdents *)
        cbn in A, E1. destruct A as (k & K1 & <-).
        destruct (getdents_ok NAMEMAX DSZ s k bufsz lim JW K1) as
          (s2 & rc2 & out2 & E2 & W2 & EE & NE & NH & EI & OLD & NEW & k' & l1 & l2 & M1 & M2 & M3 & M4 & M5 & FA & _).
        rewrite E2 in E1. injection E1 as -> -> ->.
        destruct (h_id k =? h) eqn:Q.
        * assert (k = g) by (destruct JW as [C _]; eapply (NoDup_key _ _ _ _ (c_hids _ _ C)); auto; lia). subst k.
          assert (RIN : forall e, In e (rest s g) -> In e (ents s) /\ e_dir e = h_ino g0) by (intros e HE; apply rest_in in HE; rewrite <- G3; exact HE).
          assert (ND : NoDup (map e_id (l1 ++ l2))) by (rewrite <- M4; apply rest_nodup; exact JW).
          rewrite map_app in ND. apply NoDup_app_parts in ND as (ND1 & ND2 & ND3).
          assert (IDS : map d_eid out = map e_id l1) by (eapply forall2_eids; eauto).
          assert (L1R : forall e, In e l1 -> In e (rest s g)) by (intros e HE; rewrite M4; apply in_or_app; auto).
          assert (L2R : forall e, In e l2 -> In e (rest s g)) by (intros e HE; rewrite M4; apply in_or_app; auto).
          constructor.
          -- exact W1.
          -- lia.
          -- rewrite EE. exact JO.
          -- rewrite map_app, IDS. apply NoDup_app_intro; auto. intros x X1 X2. apply in_map_iff in X2 as (e & <- & X2).
             apply (G4 e); auto.
          -- intros r HR. rewrite NE. apply in_app_or in HR as [HR | HR]; [auto|].
             destruct (forall2_in _ _ _ _ FA HR) as (e & F1 & (F2 & _)). rewrite F2. destruct JW as [C _].
             apply (c_idlt _ _ C). apply RIN. auto.
          -- intros r e HR HE EQ. apply in_app_or in HR as [HR | HR]; [eauto|].
             destruct (forall2_in _ _ _ _ FA HR) as (e' & F1 & (F2 & F3 & F4 & _)). destruct (RIN e' (L1R _ F1)) as [R1 R2].
             assert (e = e').
             { destruct (JO e' R1) as [R3 | R3].
               - destruct W0 as [C0 _]. eapply (NoDup_key _ _ _ _ (c_ids _ _ C0)); auto. congruence.
               - destruct W0 as [C0 _]. apply (c_idlt _ _ C0) in HE. lia. }
             subst e'. auto.
          -- exists k'. split; [exact M1|]. split; [lia|]. split; [congruence|]. split.
             ++ rewrite M5. intros e HE HL. rewrite map_app in HL. apply in_app_or in HL as [HL | HL].
                ** apply (G4 e); auto.
                ** rewrite IDS in HL. apply (ND3 (e_id e)); [exact HL|apply in_map; exact HE].
             ++ rewrite M5, EE. intros e H1 H2 H3. rewrite map_app. destruct (G5 e H1 H2 H3) as [H4 | H4].
                ** left. apply in_or_app. auto.
                ** rewrite M4 in H4. apply in_app_or in H4 as [H4 | H4]; [left|right; exact H4].
                   apply in_or_app. right. rewrite IDS. apply in_map. exact H4.
        * rewrite app_nil_r. constructor; auto.
          -- lia.
          -- rewrite EE. exact JO.
          -- rewrite NE. exact JT.
          -- exists g. split; [apply NEW; [exact G1|lia]|]. split; [exact G2|]. split; [exact G3|].
             assert (RE : rest s' g = rest s g) by (unfold rest, dents; rewrite EE; reflexivity). rewrite RE, EE. auto.
      + (* seek *)
        cbn in A, E1. destruct A as (k & K1 & <-). cbn in OKO.
        destruct (seek_ok s k off JW K1) as (s2 & rc2 & E2 & W2 & EE & NE & NH & OLD & NEW).
        rewrite E2 in E1. injection E1 as -> _ _. rewrite app_nil_r. constructor; auto.
        * lia.
        * rewrite EE. exact JO.
        * rewrite NE. exact JT.
        * exists g. split; [apply NEW; [exact G1|congruence]|]. split; [exact G2|]. split; [exact G3|].
          assert (RE : rest s' g = rest s g) by (unfold rest, dents; rewrite EE; reflexivity). rewrite RE, EE. auto.
  Qed.
End P.
