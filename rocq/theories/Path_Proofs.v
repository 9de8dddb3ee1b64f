From Verif Require Import Lib Path_Model Path_Spec.

Lemma components_cons p : exists h t, components p = h :: t.
Proof.
  induction p as [|c r (h & t & E)]; [eexists; eexists; reflexivity|].
  simpl. destruct (c =? 47); eauto. rewrite E. eauto.
Qed.

Lemma components_app c p h t : ~ In 47 c -> components p = h :: t ->
  components (c ++ p) = (c ++ h) :: t.
Proof.
  intros HN E. induction c as [|x c IH]; [exact E|].
  cbn [app components]. destruct (x =? 47) eqn:Ex.
  - exfalso. apply HN. left. lia.
  - rewrite IH; [reflexivity|]. intros H; apply HN; right; exact H.
Qed.

Lemma dir_text_snoc st c : dir_text (st ++ [c]) = dir_text st ++ c ++ [47].
Proof.
  unfold dir_text. rewrite map_app, concat_app. cbn [map concat app].
  rewrite app_nil_r. reflexivity.
Qed.

Lemma dir_text_last st : exists r, dir_text st = r ++ [47].
Proof.
  destruct st as [|c st _] using rev_ind.
  - exists []. reflexivity.
  - rewrite dir_text_snoc. exists (dir_text st ++ c). rewrite <- app_assoc. reflexivity.
Qed.

Lemma rev_dir_hd st : exists r, rev (dir_text st) = 47 :: r.
Proof. destruct (dir_text_last st) as [r ->]. rewrite rev_app_distr. eexists; reflexivity. Qed.

Lemma step_name st c : name c -> step st c = st ++ [c].
Proof.
  intros (H1 & H2 & H3 & _). unfold step.
  destruct (list_eq_dec Z.eq_dec c []); [congruence|].
  destruct (list_eq_dec Z.eq_dec c [46]); [congruence|].
  destruct (list_eq_dec Z.eq_dec c [46; 46]); [congruence|]. reflexivity.
Qed.

Lemma zlen_rev {A} (l : list A) : zlen (rev l) = zlen l.
Proof. unfold zlen. rewrite rev_length. reflexivity. Qed.

Lemma zlen_dir st : 1 <= zlen (dir_text st).
Proof. unfold dir_text. rewrite zlen_cons. pose proof (zlen_nonneg (concat (map (fun c => c ++ [47]) st))). lia. Qed.

(** drop_last_component removes one name *)
Lemma drop_loop_cons2 x y rest : drop_loop (x :: y :: rest) =
  if 1 <? zlen (y :: rest) then if y =? 47 then y :: rest else drop_loop (y :: rest)
  else y :: rest.
Proof. reflexivity. Qed.

Lemma drop_loop_name : forall c x r, ~ In 47 c -> (r = [] \/ 0 < zlen r) ->
  drop_loop (x :: rev c ++ 47 :: r) = 47 :: r.
Proof.
  intros c. induction c as [|y c IH] using rev_ind; intros x r Hn Hr.
  - cbn [rev app]. rewrite drop_loop_cons2. rewrite zlen_cons.
    destruct (1 <? 1 + zlen r); reflexivity.
  - rewrite rev_app_distr. cbn [rev app]. rewrite drop_loop_cons2, zlen_cons, zlen_app, zlen_cons.
    pose proof (zlen_nonneg (rev c)). pose proof (zlen_nonneg r).
    destruct (1 <? 1 + (zlen (rev c) + (1 + zlen r))) eqn:E; [|lia].
    destruct (y =? 47) eqn:Ey.
    + exfalso. apply Hn. rewrite in_app_iff. right. left. lia.
    + apply IH; [|assumption]. intros Hin; apply Hn; rewrite in_app_iff; left; exact Hin.
Qed.

Lemma drop_last_ok st c : ~ In 47 c ->
  drop_last_component (rev (dir_text (st ++ [c]))) = Some (rev (dir_text st)).
Proof.
  intros Hn. rewrite dir_text_snoc. rewrite rev_app_distr, rev_app_distr.
  cbn [rev app]. unfold drop_last_component. change (47 =? SLASH) with true. cbv iota. f_equal.
  destruct (rev_dir_hd st) as [r ->].
  apply drop_loop_name; [assumption|].
  destruct r; [left; reflexivity|right]. rewrite zlen_cons. pose proof (zlen_nonneg r). lia.
Qed.

Definition at_start (a : list Z) := a = [] \/ exists a', a = a' ++ [47].

Lemma ndds_suffix a q : at_start a -> no_dots_before_double_slash (a ++ q) ->
  no_dots_before_double_slash q.
Proof.
  intros HA H a2 c b E H2. apply (H (a ++ a2) c b).
  - rewrite E, <- !app_assoc. reflexivity.
  - destruct H2 as [->|(a' & ->)].
    + rewrite app_nil_r. exact HA.
    + right. exists (a ++ a'). rewrite app_assoc. reflexivity.
Qed.

(** Result of the loop *)
Definition loop_end (S : list (list Z)) (ro : list Z) (lastc : Z) : Prop :=
  ro = rev (dir_text S) \/
  exists S' c, S = S' ++ [c] /\ ro = rev (dir_text S' ++ c) /\ lastc <> 47.

Lemma last_nonslash c x : ~ In 47 (c ++ [x]) -> last (c ++ [x]) 0 <> 47.
Proof. intros H. rewrite last_last. intros ->. apply H. rewrite in_app_iff. right; left; reflexivity. Qed.

Lemma last_app_r {A} (l m : list A) d : m <> [] -> last (l ++ m) d = last m d.
Proof.
  intros H. induction l as [|x l IH]; [reflexivity|].
  cbn [app last]. destruct (l ++ m) eqn:E; [|exact IH].
  destruct l; destruct m; simpl in E; congruence.
Qed.

Lemma Forall_names_removelast st : Forall name st -> Forall name (removelast st).
Proof.
  intros F. induction F as [|c st Hc F IH]; [constructor|].
  cbn [removelast]. destruct st; [constructor|]. constructor; assumption.
Qed.

Lemma zlen_removelast_dir st : Forall name st ->
  zlen (dir_text (removelast st)) <= zlen (dir_text st).
Proof.
  intros _. destruct st as [|c st _] using rev_ind; [cbn; lia|].
  rewrite removelast_last, dir_text_snoc, zlen_app. pose proof (zlen_nonneg (c ++ [47])). lia.
Qed.

Lemma abs_loop_ok cap : forall fuel,
  (forall p st, (length p < fuel)%nat -> Forall name st ->
     no_dots_before_double_slash p -> hd 0 p <> 47 -> ~ In 0 p ->
     zlen (dir_text st) + zlen p < cap ->
     exists ro, abs_loop fuel cap (rev (dir_text st)) p = Some ro /\
       loop_end (walk st (components p)) ro (last (47 :: p) 0) /\
       Forall name (walk st (components p)) /\ zlen ro <= zlen (dir_text st) + zlen p) /\
  (forall p a st c, (length p < fuel)%nat -> Forall name st ->
     no_dots_before_double_slash (a ++ p) ->
     c <> [] -> ~ In 47 c -> ~ In 0 c -> ~ In 0 p ->
     name (hd [] (components (c ++ p))) ->
     zlen (dir_text st ++ c) + zlen p < cap ->
     exists ro, abs_loop fuel cap (rev (dir_text st ++ c)) p = Some ro /\
       loop_end (walk st (components (c ++ p))) ro (last (c ++ p) 0) /\
       Forall name (walk st (components (c ++ p))) /\
       zlen ro <= zlen (dir_text st ++ c) + zlen p).
Proof.
  induction fuel as [|f [IHA IHB]]; [split; intros; lia|].
  split.
  - (* at the start of a component *)
    intros p st HF HS HG Hhd H0 HC.
    destruct p as [|x p].
    { exists (rev (dir_text st)). cbn [abs_loop components walk fold_left].
      unfold step. destruct (list_eq_dec Z.eq_dec [] []); [|congruence].
      split; [reflexivity|]. split; [left; reflexivity|]. split; [assumption|].
      rewrite zlen_rev. change (zlen (@nil Z)) with 0. lia. }
    cbn [hd] in Hhd. cbn [length] in HF. rewrite zlen_cons in HC.
    assert (Hx0 : x <> 0) by (intros ->; apply H0; left; reflexivity).
    assert (H0p : ~ In 0 p) by (intros H; apply H0; right; exact H).
    cbn [abs_loop]. change SLASH with 47. change DOT with 46.
    destruct (x =? 47) eqn:E47; [lia|]. cbn [andb].
    (* plain copy *)
    assert (HCOPY : name (hd [] (components (x :: p))) ->
      exists ro, (if zlen (rev (dir_text st)) <? cap
                  then abs_loop f cap (x :: rev (dir_text st)) p else None) = Some ro /\
       loop_end (walk st (components (x :: p))) ro (last (47 :: x :: p) 0) /\
       Forall name (walk st (components (x :: p))) /\
       zlen ro <= zlen (dir_text st) + zlen (x :: p)).
    { intros HN. rewrite zlen_rev. pose proof (zlen_nonneg p).
      destruct (zlen (dir_text st) <? cap) eqn:Ec; [|lia].
      destruct (IHB p [x] st [x]) as (ro & E & HE & HNm & HL); auto; try lia.
      - discriminate.
      - intros [H1|[]]. lia.
      - intros [H1|[]]. lia.
      - rewrite zlen_snoc. lia.
      - rewrite rev_app_distr in E. cbn [rev app] in E.
        exists ro. split; [exact E|]. split; [exact HE|]. split; [exact HNm|].
        rewrite zlen_snoc in HL. rewrite zlen_cons. lia. }
    destruct (components_cons p) as (h & t & Ep).
    destruct (x =? 46) eqn:E46; cbn [negb].
    2:{ apply HCOPY. cbn [components]. rewrite E47, Ep. cbn [hd].
        repeat split; try discriminate; try (intros [=]; lia).
        - intros [H1|H1]; [lia|].
          clear - H1 Ep. revert h t Ep H1. induction p as [|y p IH]; intros h t Ep H1.
          + inversion Ep; subst; destruct H1.
          + cbn [components] in Ep. destruct (y =? 47) eqn:Ey.
            * inversion Ep; subst. destruct H1.
            * destruct (components_cons p) as (h' & t' & E'). rewrite E' in Ep.
              inversion Ep; subst. destruct H1 as [H1|H1]; [lia|]. eapply IH; eauto.
        - intros [H1|H1]; [lia|].
          clear - H1 Ep H0p. revert h t Ep H1. induction p as [|y p IH]; intros h t Ep H1.
          + inversion Ep; subst; destruct H1.
          + cbn [components] in Ep. destruct (y =? 47) eqn:Ey.
            * inversion Ep; subst. destruct H1.
            * destruct (components_cons p) as (h' & t' & E'). rewrite E' in Ep.
              inversion Ep; subst. destruct H1 as [H1|H1]; [apply H0p; left; lia|].
              eapply IH; eauto. intros H; apply H0p; right; exact H. }
    assert (x = 46) by lia; subst x.
    rewrite zlen_rev. rewrite zlen_rev in HCOPY.
    assert (Hh : hd 0 (rev (dir_text st)) = 47) by (destruct (rev_dir_hd st) as [rr ->]; reflexivity).
    rewrite Hh. change (47 =? 47) with true. cbn [negb]. rewrite andb_false_r.
    (* "." *)
    destruct p as [|y p].
    { cbn [hd]. change (0 =? 0) with true. rewrite orb_true_r. cbn [tl].
      destruct f as [|f]; [lia|]. cbn [abs_loop].
      exists (rev (dir_text st)). split; [reflexivity|].
      assert (walk st (components [46]) = st) as ->.
      { reflexivity. }
      split; [left; reflexivity|]. split; [assumption|].
      rewrite zlen_rev. change (zlen [46]) with 1. lia. }
    cbn [hd tl]. cbn [length] in HF. rewrite zlen_cons in HC.
    assert (Hy0 : y <> 0) by (intros ->; apply H0p; left; reflexivity).
    assert (H0q : ~ In 0 p) by (intros H; apply H0p; right; exact H).
    destruct (y =? 47) eqn:Ey.
    { assert (y = 47) by lia; subst y. cbn [orb].
      destruct (IHA p st) as (ro & E & HE & HNm & HL); auto; try lia.
      - apply (ndds_suffix [46; 47]); [right; exists [46]; reflexivity|exact HG].
      - destruct p as [|z p]; [discriminate|]. cbn [hd]. intros ->.
        destruct (HG [] [46] p eq_refl (or_introl eq_refl)). congruence.
      - exists ro. split; [exact E|].
        assert (walk st (components (46 :: 47 :: p)) = walk st (components p)) as ->.
        { cbn [components]. change (46 =? 47) with false. change (47 =? 47) with true. cbv iota.
          unfold walk. cbn [fold_left]. f_equal. }
        split; [|split; [exact HNm|rewrite !zlen_cons; lia]].
        exact HE. }
    destruct (y =? 0) eqn:Ey0; [lia|]. cbn [orb].
    destruct (y =? 46) eqn:Ey46; cbn [andb].
    2:{ apply HCOPY. cbn [components]. rewrite Ey. destruct (components_cons p) as (h' & t' & Eq).
        rewrite Eq. change (46 =? 47) with false. cbv iota. cbn [hd].
        cbn [components] in Ep. rewrite Ey, Eq in Ep. inversion Ep; subst h t. clear Ep.
        assert (HNI : ~ In 47 h' /\ ~ In 0 h').
        { clear - Eq H0q. revert h' t' Eq. induction p as [|z p IH]; intros h' t' Eq.
          - inversion Eq; subst; split; intros [].
          - cbn [components] in Eq. destruct (z =? 47) eqn:Ez.
            + inversion Eq; subst; split; intros [].
            + destruct (components_cons p) as (h'' & t'' & E''). rewrite E'' in Eq.
              inversion Eq; subst. destruct (IH ltac:(intros H; apply H0q; right; exact H) _ _ E'').
              split; intros [H1|H1]; try lia; auto. apply H0q; left; lia. }
        destruct HNI. repeat split; try discriminate; try (intros [=]; lia);
          intros [K|[K|K]]; try lia; auto. }
    assert (y = 46) by lia; subst y.
    (* ".." or "..x" *)
    assert (HDD : (hd 0 p =? 47) || (hd 0 p =? 0) = true ->
       exists st' p', tl p = p' /\ st' = removelast st /\
         walk st (components (46 :: 46 :: p)) = walk st' (components p') /\
         hd 0 p' <> 47 /\ last (47 :: 46 :: 46 :: p) 0 = (if p then 46 else last (47 :: p') 0)).
    { intros H. destruct p as [|z p].
      - exists (removelast st), []. repeat split; try reflexivity. cbn; lia.
      - cbn [hd] in H. assert (z = 47).
        { destruct (z =? 0) eqn:Ez0; [exfalso; apply H0q; left; lia|]. lia. }
        subst z. exists (removelast st), p. cbn [tl]. repeat split; try reflexivity.
        destruct p as [|w p]; [discriminate|]. cbn [hd]. intros ->.
        destruct (HG [] [46; 46] p eq_refl (or_introl eq_refl)). congruence. }
    destruct ((hd 0 p =? 47) || (hd 0 p =? 0)) eqn:Ez.
    { destruct (HDD eq_refl) as (st' & p' & Etl & Est & Ew & Eh & Elast).
      assert (HRO : (if 0 <? zlen (dir_text st)
              then if 1 <? zlen (dir_text st)
                   then match drop_last_component (rev (dir_text st)) with
                        | Some ro' => abs_loop f cap ro' (tl p) | None => None end
                   else abs_loop f cap (rev (dir_text st)) (tl p)
              else None) = abs_loop f cap (rev (dir_text st')) p').
      { rewrite Etl, Est. pose proof (zlen_dir st). destruct (0 <? zlen (dir_text st)) eqn:E0; [|lia].
        destruct st as [|c st _] using rev_ind.
        - cbn [removelast]. change (zlen (dir_text [])) with 1. reflexivity.
        - rewrite removelast_last. rewrite drop_last_ok.
          2:{ apply Forall_app in HS. destruct HS as [_ HS]. inversion HS as [|? ? (_ & _ & _ & H1 & _)].
              exact H1. }
          destruct (1 <? zlen (dir_text (st ++ [c]))) eqn:E1; [reflexivity|].
          rewrite dir_text_snoc, !zlen_app in E1. change (zlen [47]) with 1 in E1.
          pose proof (zlen_dir st). pose proof (zlen_nonneg c). lia. }
      rewrite HRO. pose proof (zlen_removelast_dir st HS) as HRL.
      assert (HP' : (length p' <= length p)%nat /\ zlen p' <= zlen p).
      { rewrite <- Etl. destruct p; cbn [tl length]; [|rewrite zlen_cons]; lia. }
      destruct (IHA p' st') as (ro & E & HE & HNm & HL); auto; try lia.
      - rewrite Est. apply Forall_names_removelast; assumption.
      - destruct p as [|z p].
        + cbn [tl] in Etl. subst p'. intros a c b E. destruct a, c; discriminate.
        + cbn [tl] in Etl. subst p'. apply (ndds_suffix [46; 46; z]); [|exact HG].
          right. exists [46; 46]. cbn [hd] in Ez.
          assert (z = 47); [|subst; reflexivity].
          destruct (z =? 0) eqn:Ez0; [exfalso; apply H0q; left; lia|lia].
      - rewrite <- Etl. destruct p; [intros []|]. cbn [tl]. intros H; apply H0q; right; exact H.
      - rewrite Est. lia.
      - exists ro. split; [exact E|]. rewrite Ew. split.
        + rewrite Elast. destruct p as [|z p]; [|exact HE].
          cbn [tl] in Etl. subst p'. destruct HE as [HE|(S' & c & HE1 & HE2 & HE3)].
          * left; exact HE.
          * cbn in HE3. congruence.
        + split; [exact HNm|]. rewrite !zlen_cons. rewrite Est in HL. lia. }
    apply HCOPY. cbn [components]. destruct (components_cons p) as (h' & t' & Eq).
    rewrite Eq. change (46 =? 47) with false. cbv iota. cbn [hd].
    assert (HNI : ~ In 47 h' /\ ~ In 0 h').
    { clear - Eq H0q. revert h' t' Eq. induction p as [|z p IH]; intros h' t' Eq.
      - inversion Eq; subst; split; intros [].
      - cbn [components] in Eq. destruct (z =? 47) eqn:Ez.
        + inversion Eq; subst; split; intros [].
        + destruct (components_cons p) as (h'' & t'' & E''). rewrite E'' in Eq.
          inversion Eq; subst. destruct (IH ltac:(intros H; apply H0q; right; exact H) _ _ E'').
          split; intros [H1|H1]; try lia; auto. apply H0q; left; lia. }
    destruct HNI as [HN1 HN2].
    assert (h' <> []).
    { intros ->. destruct p as [|z p]; [cbn in Ez; discriminate|].
      cbn [components] in Eq. destruct (z =? 47) eqn:Ez47.
      - cbn [hd] in Ez. rewrite Ez47 in Ez. discriminate.
      - destruct (components_cons p) as (h'' & t'' & E''). rewrite E'' in Eq. discriminate. }
    repeat split; try discriminate.
    + intros [=]. congruence.
    + intros [K|[K|K]]; try lia; auto.
    + intros [K|[K|K]]; try lia; auto.
  - (* inside a component *)
    intros p a st c HF HS HG Hc H47 H0c H0 HN HC.
    destruct p as [|x p].
    { exists (rev (dir_text st ++ c)). cbn [abs_loop]. split; [reflexivity|].
      rewrite app_nil_r. rewrite app_nil_r in HN.
      assert (Ec : components c = [c]).
      { pose proof (components_app c [] [] [] H47 eq_refl) as E. rewrite !app_nil_r in E. exact E. }
      rewrite Ec in *. cbn [hd] in HN.
      unfold walk. cbn [fold_left]. rewrite step_name by assumption.
      split.
      - right. exists st, c. split; [reflexivity|]. split; [reflexivity|].
        destruct c as [|y c _] using rev_ind; [congruence|]. apply last_nonslash; assumption.
      - split; [apply Forall_app; split; [assumption|constructor; [assumption|constructor]]|].
        rewrite zlen_rev. change (zlen (@nil Z)) with 0. lia. }
    cbn [length] in HF. rewrite zlen_cons in HC.
    assert (Hx0 : x <> 0) by (intros ->; apply H0; left; reflexivity).
    assert (H0p : ~ In 0 p) by (intros H; apply H0; right; exact H).
    cbn [abs_loop]. change SLASH with 47. change DOT with 46.
    destruct (x =? 47) eqn:E47; cbn [andb].
    + assert (x = 47) by lia; subst x.
      assert (Ecp : components (c ++ 47 :: p) = c :: components p).
      { rewrite (components_app c (47 :: p) [] (components p) H47 eq_refl), app_nil_r. reflexivity. }
      rewrite Ecp in HN |- *. cbn [hd] in HN.
      destruct (hd 0 p =? 47) eqn:E2.
      * destruct p as [|y p]; [discriminate|]. cbn [hd] in E2. assert (y = 47) by lia; subst y.
        assert (Ecq : components (c ++ 47 :: p) = c :: components p).
        { rewrite (components_app c (47 :: p) [] (components p) H47 eq_refl), app_nil_r. reflexivity. }
        destruct (IHB (47 :: p) (a ++ [47]) st c) as (ro & E & HE & HNm & HL); auto; try lia.
        { rewrite <- app_assoc. exact HG. }
        { rewrite Ecq. exact HN. }
        rewrite Ecq in HE, HNm.
        exists ro. split; [exact E|].
        assert (walk st (c :: components (47 :: p)) = walk st (c :: components p)) as ->.
        { cbn [components]. change (47 =? 47) with true. cbv iota. unfold walk. cbn [fold_left].
          f_equal. }
        split.
        -- destruct HE as [HE|(S' & c' & HE1 & HE2 & HE3)]; [left; exact HE|right].
           exists S', c'. repeat split; auto.
           rewrite last_app_r in HE3 |- * by discriminate.
           cbn [last] in HE3 |- *. exact HE3.
        -- split; [exact HNm|]. rewrite (zlen_cons 47 (47 :: p)). lia.
      * cbn [negb]. rewrite zlen_rev. pose proof (zlen_nonneg p).
        destruct (zlen (dir_text st ++ c) <? cap) eqn:Ec; [|lia]. cbn [Z.eqb Pos.eqb negb].
        assert (Er : 47 :: rev (dir_text st ++ c) = rev (dir_text (st ++ [c]))).
        { rewrite dir_text_snoc, app_assoc, (rev_app_distr _ [47]). reflexivity. }
        rewrite Er.
        assert (Ez : zlen (dir_text (st ++ [c])) = zlen (dir_text st ++ c) + 1).
        { rewrite dir_text_snoc, app_assoc, zlen_snoc. reflexivity. }
        destruct (IHA p (st ++ [c])) as (ro & E & HE & HNm & HL); auto; try lia.
        { apply Forall_app; split; [assumption|constructor; [assumption|constructor]]. }
        { apply (ndds_suffix (a ++ [47])); [right; exists a; reflexivity|].
          rewrite <- app_assoc. exact HG. }
        assert (Ew : walk st (c :: components p) = walk (st ++ [c]) (components p)).
        { unfold walk. cbn [fold_left]. rewrite step_name by assumption. reflexivity. }
        exists ro. split; [exact E|]. rewrite Ew. split.
        { rewrite last_app_r by discriminate. exact HE. }
        split; [exact HNm|]. rewrite zlen_cons. lia.
    + assert (HH : hd 0 (rev (dir_text st ++ c)) =? 47 = false).
      { destruct c as [|y c _] using rev_ind; [congruence|].
        rewrite app_assoc, rev_app_distr. cbn [rev app hd].
        apply Z.eqb_neq. intros ->. apply H47. rewrite in_app_iff; right; left; reflexivity. }
      rewrite HH. rewrite zlen_rev. cbn [negb]. rewrite andb_true_r.
      assert (HZ : 0 <? zlen (dir_text st ++ c) = true).
      { rewrite zlen_app. pose proof (zlen_dir st). pose proof (zlen_nonneg c). lia. }
      rewrite HZ. pose proof (zlen_nonneg p).
      destruct (zlen (dir_text st ++ c) <? cap) eqn:Ec; [|lia].
      assert (Heq : (if negb (x =? 46)
        then abs_loop f cap (x :: rev (dir_text st ++ c)) p
        else abs_loop f cap (x :: rev (dir_text st ++ c)) p) =
          abs_loop f cap (rev (dir_text st ++ (c ++ [x]))) p).
      { rewrite (app_assoc (dir_text st)), (rev_app_distr _ [x]).
        destruct (negb (x =? 46)); reflexivity. }
      rewrite Heq.
      destruct (IHB p (a ++ [x]) st (c ++ [x])) as (ro & E & HE & HNm & HL); auto; try lia.
      * rewrite <- app_assoc. exact HG.
      * destruct c; discriminate.
      * rewrite in_app_iff. intros [H1|[H1|[]]]; [auto|lia].
      * rewrite in_app_iff. intros [H1|[H1|[]]]; [auto|lia].
      * rewrite <- app_assoc. exact HN.
      * rewrite app_assoc, zlen_snoc. lia.
      * rewrite <- !app_assoc in HE, HNm. cbn [app] in HE, HNm.
        exists ro. split; [exact E|]. split; [exact HE|]. split; [exact HNm|].
        rewrite app_assoc, zlen_snoc in HL. rewrite zlen_cons. lia.
Qed.

(** Leading slashes of an absolute path *)
Lemma abs_loop_root cap : forall p a fuel,
  (length p < fuel)%nat -> hd 0 p = 47 -> no_dots_before_double_slash (a ++ p) -> ~ In 0 p ->
  zlen p < cap ->
  exists ro, abs_loop fuel cap [] p = Some ro /\
    loop_end (walk [] (components p)) ro (last p 0) /\
    Forall name (walk [] (components p)) /\ zlen ro <= zlen p.
Proof.
  induction p as [|x p IH]; intros a fuel HF Hhd HG H0 HC; [discriminate|].
  cbn [hd] in Hhd. subst x. destruct fuel as [|f]; [cbn [length] in HF; lia|].
  cbn [length] in HF. rewrite zlen_cons in HC. cbn [abs_loop].
  change SLASH with 47. change DOT with 46. change (47 =? 47) with true. cbn [andb].
  assert (H0p : ~ In 0 p) by (intros H; apply H0; right; exact H).
  assert (Ew : walk [] (components (47 :: p)) = walk [] (components p)).
  { cbn [components]. change (47 =? 47) with true. cbv iota. reflexivity. }
  rewrite Ew.
  destruct (hd 0 p =? 47) eqn:E.
  - destruct (IH (a ++ [47]) f) as (ro & E1 & HE & HN & HL); try lia; auto.
    { rewrite <- app_assoc. exact HG. }
    exists ro. split; [exact E1|]. split.
    + destruct p as [|y p]; [discriminate|]. exact HE.
    + split; [exact HN|]. rewrite zlen_cons. lia.
  - change (47 =? 46) with false. cbn [negb]. change (zlen (@nil Z)) with 0.
    pose proof (zlen_nonneg p). destruct (0 <? cap) eqn:E0; [|lia].
    destruct (abs_loop_ok cap f) as [HA _].
    destruct (HA p []) as (ro & E1 & HE & HN & HL); auto; try lia.
    { apply (ndds_suffix (a ++ [47])); [right; exists a; reflexivity|].
      rewrite <- app_assoc. exact HG. }
    exists ro. split; [exact E1|]. split; [exact HE|]. split; [exact HN|].
    change (zlen (dir_text [])) with 1 in HL. rewrite zlen_cons. lia.
Qed.

Lemma zlen_name c : name c -> 1 <= zlen c.
Proof.
  intros (H & _). destruct c; [congruence|]. rewrite zlen_cons. pose proof (zlen_nonneg c). lia.
Qed.

Lemma finish_ok cap lastc S ro : loop_end S ro lastc -> Forall name S -> zlen ro < cap ->
  abs_finish cap lastc ro = Some (PathOk (path_text S (lastc =? 47))).
Proof.
  intros HE HN HC. unfold abs_finish. destruct HE as [->|(S' & c & -> & -> & Hl)].
  - rewrite zlen_rev in *. pose proof (zlen_dir S). destruct (0 <? zlen (dir_text S)) eqn:E; [|lia].
    destruct S as [|c S _] using rev_ind.
    + change (zlen (dir_text [])) with 1 in *. change (1 <? 1) with false. cbn [andb].
      rewrite zlen_rev. change (zlen (dir_text [])) with 1.
      destruct ((0 <? 1) && (1 <? cap)) eqn:E2; [|lia].
      rewrite rev_involutive. reflexivity.
    + apply Forall_app in HN. destruct HN as [_ HN]. inversion HN as [|? ? Hc _]; subst.
      pose proof (zlen_name c Hc). clear HN.
      assert (Ez : zlen (dir_text (S ++ [c])) = zlen (dir_text S ++ c) + 1)
        by (rewrite dir_text_snoc, app_assoc, zlen_snoc; reflexivity).
      assert (Er : rev (dir_text (S ++ [c])) = 47 :: rev (dir_text S ++ c))
        by (rewrite dir_text_snoc, app_assoc, (rev_app_distr _ [47]); reflexivity).
      assert (El : removelast (dir_text (S ++ [c])) = dir_text S ++ c)
        by (rewrite dir_text_snoc, app_assoc, removelast_last; reflexivity).
      assert (1 <= zlen (dir_text S ++ c)).
      { rewrite zlen_app. pose proof (zlen_dir S). lia. }
      rewrite Er. cbn [hd tl]. change (47 =? SLASH) with true. change SLASH with 47.
      destruct (1 <? zlen (dir_text (S ++ [c]))) eqn:E1; [|lia]. cbn [andb].
      unfold path_text. destruct (S ++ [c]) eqn:Es; [destruct S; discriminate|]. rewrite <- Es in *.
      destruct (lastc =? 47); cbn [negb].
      * rewrite <- Er, zlen_rev, rev_involutive.
        destruct ((0 <? zlen (dir_text (S ++ [c]))) && (zlen (dir_text (S ++ [c])) <? cap)) eqn:E2; [|lia].
        reflexivity.
      * rewrite zlen_rev, rev_involutive, El.
        destruct ((0 <? zlen (dir_text S ++ c)) && (zlen (dir_text S ++ c) <? cap)) eqn:E2; [|lia].
        reflexivity.
  - apply Forall_app in HN. destruct HN as [_ HN]. inversion HN as [|? ? Hc _]; subst. clear HN.
    rewrite zlen_rev in *.
    assert (HZ : 1 <= zlen (dir_text S' ++ c)).
    { rewrite zlen_app. pose proof (zlen_dir S'). pose proof (zlen_nonneg c). lia. }
    destruct (0 <? zlen (dir_text S' ++ c)) eqn:E; [|lia].
    assert (Hh : hd 0 (rev (dir_text S' ++ c)) =? SLASH = false).
    { destruct Hc as (Hne & _ & _ & H47 & _). destruct c as [|y c _] using rev_ind; [congruence|].
      rewrite app_assoc, rev_app_distr. cbn [rev app hd]. apply Z.eqb_neq. intros ->.
      apply H47. rewrite in_app_iff; right; left; reflexivity. }
    rewrite Hh, andb_false_r. cbn [andb].
    rewrite zlen_rev, rev_involutive.
    destruct ((0 <? zlen (dir_text S' ++ c)) && (zlen (dir_text S' ++ c) <? cap)) eqn:E2; [|lia].
    unfold path_text. destruct (S' ++ [c]) eqn:Es; [destruct S'; discriminate|]. rewrite <- Es.
    destruct (lastc =? 47) eqn:El; [lia|].
    rewrite dir_text_snoc, app_assoc, removelast_last. reflexivity.
Qed.

Lemma last_dir st : last (dir_text st) 0 = 47.
Proof. destruct (dir_text_last st) as [r ->]. apply last_last. Qed.

Theorem abs_path_ok cwd path dest_s :
  Forall name cwd -> path <> [] -> ~ In 0 path -> no_dots_before_double_slash path ->
  compute_abs_path path (dir_text cwd) dest_s =
  Some (if dest_s <? zlen path + (if hd 0 path =? 47 then 0 else zlen (dir_text cwd)) + 1
        then PathENAMETOOLONG
        else PathOk (path_text (destination cwd path) (last path 0 =? 47))) /\
  Forall name (destination cwd path).
Proof.
  intros HN Hne H0 HG. unfold compute_abs_path, destination.
  change (hd 0 (dir_text cwd) =? SLASH) with true. cbn [negb].
  destruct path as [|c path]; [congruence|]. cbn [hd]. change SLASH with 47.
  destruct (c =? 47) eqn:E; cbn [negb].
  - rewrite Z.add_0_r.
    destruct (abs_loop_root (zlen (c :: path) + 1) (c :: path) [] (S (length (c :: path))))
      as (_ & _ & _ & HNm & _); try lia; auto; [cbn [hd]; lia|].
    split; [|exact HNm].
    destruct (dest_s <? zlen (c :: path) + 1) eqn:Es; [reflexivity|].
    destruct (abs_loop_root dest_s (c :: path) [] (S (length (c :: path))))
      as (ro & E1 & HE & _ & HL); try lia; auto; [cbn [hd]; lia|].
    rewrite E1. apply finish_ok; auto. lia.
  - rewrite last_dir. change (47 =? 47) with true. cbv iota.
    destruct (abs_loop_ok (zlen (dir_text cwd) + zlen (c :: path) + 1) (S (length (c :: path)))) as [HA _].
    destruct (HA (c :: path) cwd) as (_ & _ & _ & HNm & _); auto; try lia; [cbn [hd]; lia|]. clear HA.
    split; [|exact HNm].
    destruct (dest_s <? zlen (c :: path) + zlen (dir_text cwd) + 1) eqn:Es; [reflexivity|].
    pose proof (zlen_nonneg (c :: path)).
    destruct (zlen (dir_text cwd) + 1 <=? dest_s) eqn:E2; [|lia].
    destruct (abs_loop_ok dest_s (S (length (c :: path)))) as [HA _].
    destruct (HA (c :: path) cwd) as (ro & E1 & HE & _ & HL); auto; try lia; [cbn [hd]; lia|].
    rewrite E1. apply finish_ok; auto. lia.
Qed.

(** Safety for every path, whatever its form *)
Lemma drop_loop_bottom : forall ro, last ro 0 = 47 -> 1 < zlen ro ->
  last (drop_loop ro) 0 = 47 /\ 1 <= zlen (drop_loop ro) <= zlen ro.
Proof.
  induction ro as [|x ro IH]; intros HL HZ; [discriminate|].
  destruct ro as [|y ro]; [change (zlen [x]) with 1 in HZ; lia|].
  rewrite drop_loop_cons2. rewrite (zlen_cons x) in *.
  assert (HL' : last (y :: ro) 0 = 47) by exact HL.
  pose proof (zlen_nonneg ro).
  destruct (1 <? zlen (y :: ro)) eqn:E1.
  - destruct (y =? 47) eqn:Ey; [|destruct (IH HL' ltac:(lia)); split; auto; lia].
    split; [exact HL'|]. lia.
  - split; [exact HL'|]. rewrite zlen_cons in *. lia.
Qed.

Lemma abs_loop_safe cap : forall fuel p ro,
  (length p < fuel)%nat -> ~ In 0 p -> zlen ro + zlen p < cap ->
  (ro = [] /\ hd 0 p = 47 \/ last ro 0 = 47 /\ 0 < zlen ro) ->
  exists ro', abs_loop fuel cap ro p = Some ro' /\ last ro' 0 = 47 /\
    0 < zlen ro' <= zlen ro + zlen p.
Proof.
  induction fuel as [|f IH]; intros p ro HF H0 HC HR; [lia|].
  destruct p as [|x p].
  { exists ro. destruct HR as [[_ HR]|[HR1 HR2]]; [discriminate|].
    change (zlen (@nil Z)) with 0. split; [reflexivity|]. split; [assumption|lia]. }
  cbn [length] in HF. rewrite zlen_cons in *.
  assert (H0p : ~ In 0 p) by (intros H; apply H0; right; exact H).
  assert (Hx0 : x <> 0) by (intros ->; apply H0; left; reflexivity).
  pose proof (zlen_nonneg p). pose proof (zlen_nonneg ro).
  cbn [abs_loop]. change SLASH with 47. change DOT with 46.
  assert (HCOPY : exists ro', (if zlen ro <? cap then abs_loop f cap (x :: ro) p else None) = Some ro' /\
    last ro' 0 = 47 /\ 0 < zlen ro' <= zlen ro + (1 + zlen p)).
  { destruct (zlen ro <? cap) eqn:E; [|lia].
    destruct (IH p (x :: ro)) as (ro' & E1 & HL & HB); auto; try lia.
    - rewrite zlen_cons. lia.
    - right. rewrite zlen_cons. split; [|lia].
      destruct HR as [[-> HR]|[HR1 HR2]]; [exact HR|].
      destruct ro; [discriminate|exact HR1].
    - exists ro'. rewrite zlen_cons in HB. split; [exact E1|]. split; [exact HL|]. lia. }
  assert (HSKIP : forall q, (length q <= length p)%nat -> zlen q <= zlen p -> ~ In 0 q ->
     forall ro2, zlen ro2 <= zlen ro ->
     (ro2 = [] /\ hd 0 q = 47 \/ last ro2 0 = 47 /\ 0 < zlen ro2) ->
     exists ro', abs_loop f cap ro2 q = Some ro' /\ last ro' 0 = 47 /\
       0 < zlen ro' <= zlen ro + (1 + zlen p)).
  { intros q Hq1 Hq2 Hq3 ro2 Hr2 HR2. destruct (IH q ro2) as (ro' & E1 & HL & HB); auto; try lia.
    exists ro'. split; [exact E1|]. split; [exact HL|]. lia. }
  destruct ((x =? 47) && (hd 0 p =? 47)) eqn:E1.
  { apply HSKIP; auto; try lia. destruct HR as [[-> HR]|HR]; [left|right; exact HR].
    split; [reflexivity|lia]. }
  destruct (x =? 46) eqn:E46; cbn [negb]; [|exact HCOPY].
  destruct ((0 <? zlen ro) && negb (hd 0 ro =? 47)) eqn:E2; [exact HCOPY|].
  destruct HR as [[-> HR]|HR]; [cbn [hd] in HR; lia|].
  assert (HT : (length (tl p) <= length p)%nat /\ zlen (tl p) <= zlen p /\ ~ In 0 (tl p)).
  { destruct p; cbn [tl length]; [auto with zarith|]. rewrite zlen_cons.
    split; [lia|]. split; [lia|]. intros H2; apply H0p; right; exact H2. }
  destruct HT as (HT1 & HT2 & HT3).
  destruct ((hd 0 p =? 47) || (hd 0 p =? 0)); [apply HSKIP; auto; lia|].
  destruct ((hd 0 p =? 46) && ((hd 0 (tl p) =? 47) || (hd 0 (tl p) =? 0))); [|exact HCOPY].
  assert (HTT : (length (tl (tl p)) <= length p)%nat /\ zlen (tl (tl p)) <= zlen p /\ ~ In 0 (tl (tl p))).
  { destruct (tl p); cbn [tl length] in *; [auto with zarith|]. rewrite zlen_cons in *.
    split; [lia|]. split; [lia|]. intros H2; apply HT3; right; exact H2. }
  destruct HTT as (HU1 & HU2 & HU3).
  destruct (0 <? zlen ro) eqn:E3; [|lia].
  destruct (1 <? zlen ro) eqn:E4; [|apply HSKIP; auto; lia].
  cbn [andb] in E2. unfold drop_last_component.
  destruct ro as [|y ro]; [discriminate|]. cbn [hd] in E2. change SLASH with 47.
  destruct (y =? 47) eqn:Ey; [|discriminate].
  destruct (drop_loop_bottom (y :: ro)) as [HD1 HD2]; [apply HR|lia|].
  apply HSKIP; auto; lia.
Qed.

Theorem abs_path_safe cwd path dest_s :
  Forall name cwd -> ~ In 0 path ->
  exists r, compute_abs_path path (dir_text cwd) dest_s = Some r /\
    forall s, r = PathOk s -> hd 0 s = 47 /\ zlen s < dest_s.
Proof.
  intros HN H0. unfold compute_abs_path.
  change (hd 0 (dir_text cwd) =? SLASH) with true. cbn [negb].
  destruct path as [|c path]; [eexists; split; [reflexivity|discriminate]|].
  change SLASH with 47.
  assert (HFIN : forall ro, last ro 0 = 47 -> 0 < zlen ro < dest_s ->
    exists r, abs_finish dest_s (last (c :: path) 0) ro = Some r /\
     forall s, r = PathOk s -> hd 0 s = 47 /\ zlen s < dest_s).
  { intros ro HL HZ. unfold abs_finish. destruct (0 <? zlen ro) eqn:E; [|lia].
    assert (HG : forall ro', last ro' 0 = 47 -> 0 < zlen ro' < dest_s ->
      exists r, (if (0 <? zlen ro') && (zlen ro' <? dest_s) then Some (PathOk (rev ro')) else None) = Some r /\
      forall s, r = PathOk s -> hd 0 s = 47 /\ zlen s < dest_s).
    { intros ro' HL' HZ'. destruct ((0 <? zlen ro') && (zlen ro' <? dest_s)) eqn:E'; [|lia].
      eexists; split; [reflexivity|]. intros s [= <-]. rewrite zlen_rev. split; [|lia].
      destruct ro' as [|y ro' _] using rev_ind; [discriminate|].
      rewrite last_last in HL'. subst y. rewrite rev_app_distr. reflexivity. }
    destruct ((1 <? zlen ro) && (hd 0 ro =? SLASH) && negb (last (c :: path) 0 =? SLASH)) eqn:E2; [|apply HG; assumption].
    destruct ro as [|y ro]; [discriminate|]. rewrite zlen_cons in *. cbn [tl].
    apply HG; [|lia]. destruct ro; [change (zlen (@nil Z)) with 0 in *; lia|exact HL]. }
  destruct (c =? 47) eqn:E; cbn [negb].
  - destruct (dest_s <? zlen (c :: path) + 1) eqn:Es; [eexists; split; [reflexivity|discriminate]|].
    destruct (abs_loop_safe dest_s (S (length (c :: path))) (c :: path) []) as (ro & E1 & HL & HB); auto.
    + change (zlen (@nil Z)) with 0. lia.
    + left. split; [reflexivity|]. cbn [hd]. lia.
    + rewrite E1. apply HFIN; [assumption|]. change (zlen (@nil Z)) with 0 in HB. lia.
  - rewrite last_dir. change (47 =? 47) with true. cbv iota.
    destruct (dest_s <? zlen (c :: path) + zlen (dir_text cwd) + 1) eqn:Es;
      [eexists; split; [reflexivity|discriminate]|].
    pose proof (zlen_nonneg (c :: path)).
    destruct (zlen (dir_text cwd) + 1 <=? dest_s) eqn:E2; [|lia].
    destruct (abs_loop_safe dest_s (S (length (c :: path))) (c :: path) (rev (dir_text cwd)))
      as (ro & E1 & HL & HB); auto.
    + rewrite zlen_rev. lia.
    + right. rewrite zlen_rev. pose proof (zlen_dir cwd). split; [|lia].
      unfold dir_text. cbn [rev]. apply last_last.
    + rewrite E1. apply HFIN; [assumption|]. rewrite zlen_rev in HB. lia.
Qed.

(** Current directory string *)
Lemma mem_write_prefix (d buf : list Z) : zlen d <= zlen buf ->
  mem_write buf 0 d = Some (d ++ skipn (length d) buf).
Proof.
  intros H. unfold mem_write. rewrite Z.add_0_l.
  destruct ((0 <=? 0) && (zlen d <=? zlen buf)) eqn:E; [|lia]. reflexivity.
Qed.

Lemma skipn_cons_zlen {A} n (l : list A) : Z.of_nat n < zlen l ->
  exists x, skipn n l = x :: skipn (S n) l.
Proof.
  revert l. induction n as [|n IH]; intros [|y l] H.
  - change (zlen (@nil A)) with 0 in H; lia.
  - exists y. reflexivity.
  - change (zlen (@nil A)) with 0 in H; lia.
  - rewrite zlen_cons in H. destruct (IH l ltac:(lia)) as [x E]. exists x. exact E.
Qed.

Theorem set_cwd_ok loc slash buf : Forall name loc -> zlen buf = 256 ->
  zlen (path_text loc slash) <= 254 ->
  exists rest, set_process_str_cwd buf (path_text loc slash) = Some (dir_text loc ++ 0 :: rest) /\
    zlen (dir_text loc ++ 0 :: rest) = 256.
Proof.
  intros HN HB HL. unfold set_process_str_cwd.
  rewrite mem_write_prefix by (rewrite zlen_snoc; lia).
  rewrite app_length. cbn [length]. rewrite <- app_assoc. cbn [app].
  destruct loc as [|c loc _] using rev_ind.
  { cbn [path_text]. change (1 <? zlen [47]) with false. cbv iota. cbn [app length].
    eexists; split; [reflexivity|]. change (dir_text []) with [47]. cbn [app].
    rewrite !zlen_cons, zlen_skipn, HB. reflexivity. }
  apply Forall_app in HN. destruct HN as [_ HN]. inversion HN as [|? ? Hc _]; subst. clear HN.
  pose proof (zlen_name c Hc).
  assert (Hd : dir_text (loc ++ [c]) = (dir_text loc ++ c) ++ [47]) by (rewrite dir_text_snoc, app_assoc; reflexivity).
  assert (HP : path_text (loc ++ [c]) slash = (dir_text loc ++ c) ++ (if slash then [47] else [])).
  { unfold path_text. destruct (loc ++ [c]) eqn:E; [destruct loc; discriminate|]. rewrite <- E in *.
    rewrite Hd. destruct slash; [reflexivity|]. rewrite removelast_last, app_nil_r. reflexivity. }
  rewrite HP in *. rewrite Hd. set (t := dir_text loc ++ c) in *.
  assert (Ht : 2 <= zlen t).
  { unfold t. rewrite zlen_app. pose proof (zlen_dir loc). lia. }
  assert (Hlast : exists t' y, t = t' ++ [y] /\ y <> 47).
  { unfold t. destruct Hc as (Hne & _ & _ & H47 & _). destruct c as [|y c _] using rev_ind; [congruence|].
    exists (dir_text loc ++ c), y. split; [rewrite app_assoc; reflexivity|]. intros ->.
    apply H47. rewrite in_app_iff; right; left; reflexivity. }
  destruct slash.
  - rewrite zlen_snoc in *. destruct (1 <? zlen t + 1) eqn:E; [|lia].
    rewrite <- !app_assoc. cbn [app].
    rewrite aget_app by lia. change (47 =? SLASH) with true. cbv iota.
    rewrite aset_app by lia. change SLASH with 47.
    match goal with |- context [aset (t ++ 47 :: 0 :: ?r)] =>
      change (t ++ 47 :: 0 :: r) with (t ++ [47] ++ 0 :: r) end.
    rewrite app_assoc. rewrite aset_app by (rewrite zlen_snoc; lia).
    eexists. rewrite <- !app_assoc. cbn [app]. split; [reflexivity|].
    rewrite zlen_app, !zlen_cons, zlen_skipn. rewrite app_length. cbn [length]. unfold zlen in *. lia.
  - rewrite app_nil_r in *. destruct Hlast as (t' & y & Et & Hy).
    destruct (1 <? zlen t) eqn:E; [|lia].
    assert (Hg : forall x, aget (t ++ x) (zlen t - 1) = Some y).
    { intros x. rewrite Et, <- app_assoc. cbn [app]. apply aget_app. rewrite zlen_snoc. lia. }
    rewrite Hg. change SLASH with 47. destruct (y =? 47) eqn:Ey; [lia|].
    rewrite aset_app by lia.
    destruct (skipn_cons_zlen (length t + 1) buf) as [z Hz]; [unfold zlen in *; lia|].
    rewrite Hz. match goal with |- context [aset (t ++ 47 :: ?r)] =>
      change (t ++ 47 :: r) with (t ++ [47] ++ r) end.
    rewrite app_assoc. rewrite aset_app by (rewrite zlen_snoc; lia).
    eexists. rewrite <- !app_assoc. cbn [app]. split; [reflexivity|].
    rewrite zlen_app, !zlen_cons, zlen_skipn. unfold zlen in *. lia.
Qed.

Theorem getcwd_ok loc ubuf : Forall name loc -> zlen (dir_text loc) + 1 <= zlen ubuf ->
  exists rest rc, getcwd (dir_text loc) ubuf = Some (GcOk (path_text loc false ++ 0 :: rest) rc).
Proof.
  intros HN HL. unfold getcwd. pose proof (zlen_dir loc).
  destruct ubuf as [|u ubuf]; [change (zlen (@nil Z)) with 0 in HL; lia|].
  set (ub := u :: ubuf) in *.
  destruct (zlen ub <? zlen (dir_text loc) + 1) eqn:E; [lia|].
  rewrite mem_write_prefix by (rewrite zlen_snoc; lia).
  rewrite <- app_assoc. cbn [app].
  destruct loc as [|c loc _] using rev_ind.
  { change (zlen (dir_text [])) with 1. change (2 <? 1 + 1) with false. cbv iota.
    eexists; eexists; reflexivity. }
  apply Forall_app in HN. destruct HN as [_ HN]. inversion HN as [|? ? Hc _]; subst. clear HN.
  pose proof (zlen_name c Hc).
  assert (Hd : dir_text (loc ++ [c]) = (dir_text loc ++ c) ++ [47]) by (rewrite dir_text_snoc, app_assoc; reflexivity).
  assert (HP : path_text (loc ++ [c]) false = dir_text loc ++ c).
  { unfold path_text. destruct (loc ++ [c]) eqn:E2; [destruct loc; discriminate|]. rewrite <- E2 in *.
    rewrite Hd. apply removelast_last. }
  rewrite HP, Hd in *. set (t := dir_text loc ++ c) in *. rewrite zlen_snoc in *.
  assert (Ht : 2 <= zlen t).
  { unfold t. rewrite zlen_app. pose proof (zlen_dir loc). lia. }
  destruct (2 <? zlen t + 1 + 1) eqn:E3; [|lia].
  rewrite <- app_assoc. cbn [app]. rewrite aget_app by lia.
  change (47 =? SLASH) with true. cbv iota. rewrite aset_app by lia.
  eexists; eexists; reflexivity.
Qed.

(** Violations *)
Lemma double_slash_wrong : exists path s,
  ~ In 0 path /\ compute_abs_path path (dir_text []) 256 = Some (PathOk s) /\
  walk [] (components s) <> destination [] path.
Proof.
  (* "/a/.//../b" *)
  exists [47; 97; 47; 46; 47; 47; 46; 46; 47; 98], [47; 97; 47; 98].
  split; [intros H; repeat (destruct H as [H|H]; [discriminate|]); destruct H|].
  split; [vm_compute; reflexivity|]. vm_compute. discriminate.
Qed.

Lemma double_slash_empty : exists path s,
  ~ In 0 path /\ compute_abs_path path (dir_text []) 256 = Some (PathOk s) /\
  forall loc slash, Forall name loc -> s <> path_text loc slash.
Proof.
  (* "/..//x" -> "//x" *)
  exists [47; 46; 46; 47; 47; 120], [47; 47; 120].
  split; [intros H; repeat (destruct H as [H|H]; [discriminate|]); destruct H|].
  split; [vm_compute; reflexivity|].
  intros loc slash HN. destruct loc as [|c loc]; [discriminate|].
  inversion HN as [|? ? (Hne & _ & _ & H47 & _) _]; subst.
  destruct c as [|y c]; [congruence|].
  unfold path_text, dir_text. cbn [map concat app].
  intros E.
  assert (47 = y); [|subst; apply H47; left; reflexivity].
  destruct slash.
  - inversion E; reflexivity.
  - cbn [removelast] in E. destruct ((c ++ [47]) ++ concat (map (fun c0 => c0 ++ [47]) loc)) eqn:E2.
    + destruct c; discriminate.
    + inversion E; reflexivity.
Qed.

(** A 255-character directory path passes every length check of chdir but does
    not fit the 256-byte str_cwd once the '/' is appended *)
Lemma cwd_overflow : exists loc, Forall name loc /\
  compute_abs_path (path_text loc false) (dir_text []) 256 = Some (PathOk (path_text loc false)) /\
  forall buf, zlen buf = 256 -> set_process_str_cwd buf (path_text loc false) = None.
Proof.
  exists [repeat 97 254].
  assert (HN : Forall name [repeat 97 254]).
  { constructor; [|constructor]. repeat split; try discriminate.
    - intros H. apply repeat_spec in H. discriminate.
    - intros H. apply repeat_spec in H. discriminate. }
  split; [exact HN|]. split; [vm_compute; reflexivity|].
  intros buf HB. unfold set_process_str_cwd.
  change (zlen (path_text [repeat 97 254] false)) with 255.
  assert (HZ : zlen (path_text [repeat 97 254] false ++ [0]) = 256) by reflexivity.
  rewrite mem_write_prefix by lia.
  replace (skipn (length (path_text [repeat 97 254] false ++ [0])) buf) with (@nil Z).
  2:{ symmetry. apply skipn_all2. unfold zlen in *. lia. }
  vm_compute. reflexivity.
Qed.

Lemma getcwd_exact_size loc ubuf : Forall name loc -> loc <> [] ->
  zlen ubuf = zlen (path_text loc false) + 1 ->
  getcwd (dir_text loc) ubuf = Some GcERANGE.
Proof.
  intros HN Hne HL. unfold getcwd.
  destruct loc as [|c loc _] using rev_ind; [congruence|].
  assert (HP : zlen (path_text (loc ++ [c]) false) = zlen (dir_text (loc ++ [c])) - 1).
  { unfold path_text. destruct (loc ++ [c]) eqn:E; [destruct loc; discriminate|]. rewrite <- E in *.
    rewrite dir_text_snoc, app_assoc, removelast_last, (zlen_snoc 47). lia. }
  pose proof (zlen_dir (loc ++ [c])).
  destruct ubuf as [|u ubuf]; [change (zlen (@nil Z)) with 0 in HL; lia|].
  destruct (zlen (u :: ubuf) <? zlen (dir_text (loc ++ [c])) + 1) eqn:E; [reflexivity|lia].
Qed.
