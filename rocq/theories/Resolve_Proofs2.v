From Verif Require Import Lib Resolve_Model Resolve_Spec Resolve_Proofs.

Section Walk2.
  Variables (dbg : bool) (NAMEMAX : Z) (W : world).
  Hypothesis GW : good W.

  Lemma resolve_ok : forall k p path top fo log, path <> [] -> at_dir top p -> okv W top -> v_lc top = O ->
    good_res NAMEMAX W k p path fo (resolve dbg NAMEMAX W k path top fo log).
  Proof.
    induction k; intros [f d] path top fo log NE [A1 A2] OV LC; cbn [fst snd] in *;
      (destruct path as [|x path0] eqn:EP; [tauto|]; rewrite <- EP in *; clear NE).
    - pose proof (loop_ok dbg NAMEMAX W GW 0 None eq_refl path [] path top d VDir fo log) as H.
      cbn [length app] in H. rewrite LC in H. cbn [Nat.add] in H.
      destruct H as [H _]; [constructor|reflexivity|rewrite EP; discriminate|exact A2|exact OV|].
      rewrite A1 in H. specialize (H eq_refl). rewrite EP in *. exact H.
    - pose proof (loop_ok dbg NAMEMAX W GW (S k) (Some (fun p t l => resolve dbg NAMEMAX W k p t true l))) as H.
      specialize (H ltac:(eexists; split; [reflexivity|]; split; [intros; now destruct k|intros; now apply IHk])).
      specialize (H path [] path top d VDir fo log).
      cbn [length app] in H. rewrite LC in H. cbn [Nat.add] in H.
      destruct H as [H _]; [constructor|reflexivity|rewrite EP; discriminate|exact A2|exact OV|].
      rewrite A1 in H. specialize (H eq_refl). rewrite EP in *. exact H.
  Qed.

  (** Entry, name, walk have one result *)
  Lemma cover_det : forall p t q u q' u', cover W p t q u -> cover W p t q' u' -> q = q' /\ u = u'.
  Proof.
    intros p t q u q' u' A B. inversion A as [? ? ? (m & M1 & M2 & M3)|? ? U]; subst; 
    inversion B as [? ? ? (m' & M1' & M2' & M3')|? ? U']; subst; try tauto.
    - assert (m = m') as ->; [|tauto]. pose proof (g_host W GW) as ND. clear -M1 M1' M2' ND.
      induction (mnts W) as [|x l IH]; cbn in *; [tauto|]. apply NoDup_cons_iff in ND. destruct ND as [N1 N2].
      assert (Q: forall a b, In b l -> (m_host b, m_hino b) = (m_host a, m_hino a) -> a = x -> False).
      { intros a b I1 E ->. apply N1. rewrite <- E. now apply (in_map (fun m => (m_host m, m_hino m))). }
      destruct M1 as [->|M1], M1' as [->|M1']; [reflexivity| | |apply IH; auto].
      + exfalso. eapply (Q m m'); eauto.
      + exfalso. eapply (Q m' m); eauto.
    - exfalso. eapply U'; eauto.
    - exfalso. eapply U; eauto.
  Qed.

  Lemma target_inj : forall m m', In m (mnts W) -> In m' (mnts W) -> m_target m = m_target m' -> m = m'.
  Proof.
    pose proof (g_target W GW) as ND. induction (mnts W) as [|x l IH]; cbn; intros m m' M M' E; [tauto|].
    cbn in ND. apply NoDup_cons_iff in ND. destruct ND as [N1 N2].
    destruct M as [->|M], M' as [->|M']; [reflexivity| | |now apply IH].
    - exfalso. apply N1. rewrite E. now apply in_map.
    - exfalso. apply N1. rewrite <- E. now apply in_map.
  Qed.

  Lemma entry_det : forall p n e e', entry W p n e -> entry W p n e' -> e = e'.
  Proof.
    intros p n e e' A B. inversion A; subst; inversion B; subst; try tauto; try congruence.
    - assert (m = m0) as <- by (apply target_inj; congruence).
      match goal with G : get _ _ _ _ = Some (?a, ?b), G' : get _ _ _ _ = Some (?c, ?e) |- _ => rewrite G in G'; injection G' as <- <- end.
      match goal with C : cover _ _ _ _ _, C' : cover _ _ _ _ _ |- _ => destruct (cover_det _ _ _ _ _ _ C C') as [-> ->] end. reflexivity.
    - match goal with G : get _ _ _ _ = Some (?a, ?b), G' : get _ _ _ _ = Some (?c, ?e) |- _ => rewrite G in G'; injection G' as <- <- end.
      match goal with C : cover _ _ _ _ _, C' : cover _ _ _ _ _ |- _ => destruct (cover_det _ _ _ _ _ _ C C') as [-> ->] end. reflexivity.
  Qed.

  Lemma start_det : forall c l s s', start W c l s -> start W c l s' -> s = s'.
  Proof. intros c l s s' [[A ->]|[A ->]] [[B ->]|[B ->]]; tauto. Qed.
End Walk2.

Scheme walk_mind := Minimality for walk Sort Prop with name_mind := Minimality for name Sort Prop.
Combined Scheme walk_name_ind from walk_mind, name_mind.

Section Det.
  Variable (W : world).
  Hypothesis GW : good W.

  Ltac useIH := match goal with
    | IH : forall o', name W ?k ?p ?n ?b o' -> _ = o', H : name W ?k ?p ?n ?b ?o |- _ =>
        pose proof (IH _ H); clear H
    | IH : forall o', walk W ?k ?p ?n ?b ?c o' -> _ = o', H : walk W ?k ?p ?n ?b ?c ?o |- _ =>
        pose proof (IH _ H); clear H
    end.
  Lemma det : (forall k p ns tr fo o, walk W k p ns tr fo o -> forall o', walk W k p ns tr fo o' -> o = o') /\
              (forall k p n fo o, name W k p n fo o -> forall o', name W k p n fo o' -> o = o').
  Proof.
    apply walk_name_ind; intros.
    - inversion H; reflexivity.
    - inversion H2; subst; cbn [orb] in *; [auto|]. 
      match goal with X : name _ _ _ _ _ (Obj ?q ?t) |- _ => specialize (H0 _ X); subst o; specialize (H1 eq_refl q t eq_refl) end. tauto.
    - inversion H2; subst; cbn [orb] in *; [|reflexivity].
      match goal with X : name _ _ _ _ _ o' |- _ => specialize (H0 _ X); subst o' end.
      exfalso. eauto.
    - inversion H3; subst; useIH; try congruence. injection H4 as <-. auto.
    - inversion H2; subst; useIH; congruence.
    - inversion H1; subst; useIH; congruence.
    - inversion H1; subst; useIH; congruence.
    - inversion H0; subst; try reflexivity;
      match goal with X : entry W p n _, Y : entry W p n _ |- _ => pose proof (entry_det W GW _ _ _ _ X Y); discriminate end.
    - inversion H1; subst; try (match goal with X : entry W p n _, Y : entry W p n _ |- _ => pose proof (entry_det W GW _ _ _ _ X Y) as E; try discriminate E; injection E; intros; subst end);
      try reflexivity; destruct H0; congruence.
    - inversion H0; subst; try reflexivity;
      match goal with X : entry W p n _, Y : entry W p n _ |- _ => pose proof (entry_det W GW _ _ _ _ X Y) as E; try discriminate E end.
      injection E as <- <-. match goal with X : _ \/ _ |- _ => destruct X; congruence end.
    - inversion H5; subst;
      match goal with X : entry W p n _, Y : entry W p n _ |- _ => pose proof (entry_det W GW _ _ _ _ X Y) as E; try discriminate E; injection E; intros; subst end.
      + match goal with X : _ \/ _ |- _ => destruct X; congruence end.
      + match goal with X : start W p _ s, Y : start W p _ ?s' |- _ => pose proof (start_det W _ _ _ _ X Y); subst end. auto.
      + tauto.
    - inversion H1; subst;
      match goal with X : entry W p n _, Y : entry W p n _ |- _ => pose proof (entry_det W GW _ _ _ _ X Y) as E; try discriminate E; injection E; intros; subst end.
      + match goal with X : _ \/ _ |- _ => destruct X; congruence end.
      + congruence.
      + reflexivity.
  Qed.

  Lemma resolves_det : forall cwd path fo o o', resolves W cwd path fo o -> resolves W cwd path fo o' -> o = o'.
  Proof.
    intros cwd path fo o o' A B. inversion A; subst; inversion B; subst; try tauto.
    match goal with X : start W cwd path s, Y : start W cwd path ?s' |- _ => pose proof (start_det W _ _ _ _ X Y); subst end.
    eapply (proj1 det); eauto.
  Qed.
End Det.

Section Top.
  Variables (dbg : bool) (NAMEMAX : Z) (W : world).
  Hypothesis GW : good W.

  Lemma resolve_spec : forall path cwd d fo, in_tree W (v_fs cwd) -> v_obj cwd = Some (d, VDir) -> 
    match vfs_resolve dbg NAMEMAX W path cwd fo with
    | Done rc v _ => exists o, resolves W (v_fs cwd, d) path fo o /\
        (agrees rc v o \/ (~ tidy path /\ rc = ENOENT /\ exists q n, o = Missing q n))
    | Crash NotDir => resolves W (v_fs cwd, d) path fo (Fail ENOTDIR)
    | Crash TooLong => long_name NAMEMAX W path
    | Crash _ => False
    end.
  Proof.
    intros path cwd d fo T V. unfold vfs_resolve.
    destruct path as [|x path].
    - cbn. exists (Fail ENOENT). split; [constructor|]. left. unfold agrees, ENOENT. lia.
    - set (st := if x =? SLASH then root_entry W (rootfs W) cwd else cwd).
      assert (ST: exists s, start W (v_fs cwd, d) (x :: path) s /\ at_dir (with_lc st 0) s /\ okv W st).
      { subst st. destruct (x =? SLASH) eqn:X.
        - eexists. split; [left; split; [exists path; f_equal; lia|reflexivity]|]. split; [split; reflexivity|]. apply okv_root.
        - exists (v_fs cwd, d). split; [right; split; [|reflexivity]|split; [split; [reflexivity|exact V]|]].
          + intros [s' E]. injection E as -> _. discriminate X.
          + split; [exact T|]. intros i t E _. congruence. }
      destruct ST as (s & ST & AT & OS).
      match goal with |- context[resolve _ _ _ 3 ?P ?T fo ?L] =>
        pose proof (resolve_ok dbg NAMEMAX W GW 3 s P T fo L ltac:(discriminate) AT (okv_lc W _ _ OS) eq_refl) as G;
        destruct (resolve dbg NAMEMAX W 3 P T fo L) as [rc v lg|w] end.
      + destruct G as (_ & o & WK & A).
        assert (R: resolves W (v_fs cwd, d) (x :: path) fo o) by (econstructor; [discriminate|exact ST|exact WK]).
        destruct (rc =? 0) eqn:RC.
        * exists o. split; [exact R|]. destruct A as [A|(_ & -> & _)]; [|discriminate RC]. left.
          apply Z.eqb_eq in RC. subst rc.
          destruct (nth_error _ _) as [z|]; [destruct (z =? SLASH)|]; try exact A.
        * exists o. split; [exact R|]. exact A.
      + destruct w; cbn [good_res] in G; try exact G. econstructor; [discriminate|exact ST|exact G].
  Qed.
End Top.
