(** getdents; the invariant of all reachable states *)
From Verif Require Import Lib Dir_Model Dir_Spec Dir_Proofs Dir_Proofs2 Dir_Proofs3 Dir_Proofs4 Dir_Proofs5.

Lemma from_suffix l x l1 e l2 : NoDup (map e_id l) -> from_eid l x = Some (l1 ++ e :: l2) ->
  from_eid l (e_id e) = Some (e :: l2).
Proof.
  revert l1. induction l as [|f l IH]; intros l1 ND H; [discriminate|]. cbn in *. inversion ND as [|? ? N1 N2]; subst.
  assert (SUF : forall k l0, l0 ++ e :: l2 = k -> NoDup (map e_id k) -> from_eid k (e_id e) = Some (e :: l2)).
  { clear. intros k. induction k as [|f k IH]; intros [|a l0] E ND; cbn in E; try discriminate; injection E as -> E.
    - subst. cbn. rewrite Z.eqb_refl. reflexivity.
    - cbn. inversion ND as [|? ? N1 N2]; subst. destruct (e_id f =? e_id e) eqn:Q; [|eapply IH; eauto].
      exfalso. apply N1. replace (e_id f) with (e_id e) by lia. rewrite map_app. apply in_or_app. right. left. reflexivity. }
  destruct (e_id f =? x) eqn:Q.
  - injection H as H. apply (SUF (f :: l) l1); auto.
  - destruct (e_id f =? e_id e) eqn:Q2; [|eapply IH; eauto].
    exfalso. apply N1. replace (e_id f) with (e_id e) by lia.
    assert (G : forall k, from_eid k x = Some (l1 ++ e :: l2) -> In e k).
    { clear. induction k as [|f k IH]; cbn; [discriminate|]. destruct (e_id f =? x); [|auto].
      intros H. injection H as H. change (In e (f :: k)). rewrite H. apply in_or_app. right. left. reflexivity. }
    apply in_map. apply G. exact H.
Qed.

Definition head_pos (l : list entry) : option Z := match l with [] => None | e :: _ => Some (e_id e) end.

Lemma bytes_app a b : bytes (a ++ b) = bytes a + bytes b.
Proof. unfold bytes. induction a as [|x a IH]; cbn; lia. Qed.

Section P.
  Variables (dbg : bool) (NAMEMAX DSZ : Z).
  Notation core := (core NAMEMAX).
  Notation wf := (wf NAMEMAX).
  Notation okp := (okp NAMEMAX).

  Lemma gd_ok s bufsz lim : forall l offset pos out,
    (forall e, In e l -> exists T, ino s (e_tgt e) = Some T) ->
    exists rc l1 l2 outs, gd DSZ s l bufsz lim offset pos out = GOk rc (head_pos l2) (pos + zlen l1) (out ++ outs) /\
      l = l1 ++ l2 /\ Forall2 (describes s) outs l1 /\
      (19 <= DSZ -> DSZ + NAMEMAX < 2147483648 -> 0 <= offset <= bufsz -> bufsz < 2147483648 ->
       (forall e, In e l -> okname NAMEMAX (e_name e)) ->
       offset + bytes outs <= bufsz /\ (0 <= bytes outs /\ (bytes outs = 0 -> outs = [])) /\
       ((rc = offset + bytes outs /\ (l2 = [] \/ 0 < rc)) \/
        (rc = EINVAL /\ offset + bytes outs = 0 /\ exists e, In e l2 /\ bufsz < DSZ + zlen (e_name e) + 1) \/ (rc = EFAULT /\ lim < bufsz))).
  Proof.
    induction l as [|e l IH]; intros offset pos out HT.
    - cbn. eexists _, [], [], []. rewrite app_nil_r. split; [rewrite Z.add_0_r; reflexivity|].
      split; [reflexivity|]. split; [constructor|]. intros D1 D2 O1 B1 _. cbn. split; [lia|]. split; [split; [lia|reflexivity]|]. left.
      split; [|auto]. destruct (offset <? 2147483648) eqn:Q; lia.
    - cbn [gd]. destruct (HT e) as (T & ET); [left; reflexivity|]. rewrite ET.
      destruct (u32 (offset + (DSZ + (zlen (e_name e) + 1))) >? bufsz) eqn:Q1.
      { eexists _, [], (e :: l), []. rewrite app_nil_r. split; [rewrite Z.add_0_r; reflexivity|].
        split; [reflexivity|]. split; [constructor|]. intros D1 D2 O1 B1 ON. cbn. split; [lia|]. split; [split; [lia|reflexivity]|].
        destruct (ON e (or_introl eq_refl)) as (_ & _ & L). pose proof (zlen_nonneg (e_name e)). rewrite Lib.u32_small in Q1 by lia.
        destruct (offset =? 0) eqn:Q2; [right; left; split; [reflexivity|split; [lia|exists e; split; [left; reflexivity|lia]]]|].
        left. destruct (offset <? 2147483648) eqn:Q; lia. }
      destruct ((offset + DSZ >? lim) || (offset + 19 + (zlen (e_name e) + 1) >? lim)) eqn:Q2.
      { eexists _, [], (e :: l), []. rewrite app_nil_r. split; [rewrite Z.add_0_r; reflexivity|].
        split; [reflexivity|]. split; [constructor|]. intros D1 D2 O1 B1 ON. cbn. split; [lia|]. split; [split; [lia|reflexivity]|].
        right. right. split; [reflexivity|]. destruct (ON e (or_introl eq_refl)) as (_ & _ & L).
        pose proof (zlen_nonneg (e_name e)). rewrite Lib.u32_small in Q1 by lia. lia. }
      destruct (IH (offset + (DSZ + (zlen (e_name e) + 1))) (pos + 1)
        (out ++ [mkD (e_id e) (e_tgt e) (pos + 1) (DSZ + (zlen (e_name e) + 1)) (i_type T) (e_name e)]))
        as (rc & l1 & l2 & outs & G & EL & FA & BY); [intros f HF; apply HT; right; exact HF|].
      exists rc, (e :: l1), l2, (mkD (e_id e) (e_tgt e) (pos + 1) (DSZ + (zlen (e_name e) + 1)) (i_type T) (e_name e) :: outs).
      split; [rewrite G, <- app_assoc, zlen_cons; f_equal; lia|]. split; [rewrite EL; reflexivity|].
      split; [constructor; [|exact FA]; unfold describes; cbn; do 3 (split; [reflexivity|]); exists T; auto|].
      intros D1 D2 O1 B1 ON. destruct (ON e (or_introl eq_refl)) as (_ & _ & L). pose proof (zlen_nonneg (e_name e)).
      rewrite Lib.u32_small in Q1 by lia.
      destruct BY as (BY1 & BY2 & BY3); auto; [lia|intros f HF; apply ON; right; exact HF|].
      cbn [bytes fold_right d_reclen]. fold (bytes outs).
      split; [lia|]. split; [split; [lia|intros; exfalso; lia]|]. destruct BY3 as [(-> & BY3) | [(-> & BY3 & BY4) | (-> & BY3)]].
      + left. split; [lia|]. destruct BY3; [auto|right; lia].
      + exfalso. lia.
      + auto.
  Qed.

  (** What getdents did: [l1] was copied, [l2] is left *)
  Lemma getdents_ok s g bufsz lim : wf s -> In g (hnds s) ->
    exists s' rc out, do_getdents DSZ s (h_id g) bufsz lim = Ok s' rc out /\ wf s' /\ ents s' = ents s /\
      nexte s' = nexte s /\ nexth s' = nexth s /\ ino s' = ino s /\
      (forall k, In k (hnds s') -> h_id k <> h_id g -> In k (hnds s)) /\
      (forall k, In k (hnds s) -> h_id k <> h_id g -> In k (hnds s')) /\
      exists g' l1 l2, In g' (hnds s') /\ h_id g' = h_id g /\ h_ino g' = h_ino g /\
        rest s g = l1 ++ l2 /\ rest s' g' = l2 /\ Forall2 (describes s) out l1 /\
        (19 <= DSZ -> DSZ + NAMEMAX < 2147483648 -> 0 <= bufsz < 2147483648 ->
           bytes out <= bufsz /\
           (0 <= rc -> rc = bytes out /\ (rc = 0 -> l2 = [])) /\
           (rc = EINVAL -> out = [] /\ exists e, In e l2 /\ bufsz < DSZ + zlen (e_name e) + 1) /\ (rc = EFAULT -> lim < bufsz) /\
           (rc < 0 -> rc = EINVAL \/ rc = EFAULT \/ ~ readable s (h_ino g))).
  Proof.
    intros W HI. pose proof W as [C T]. unfold do_getdents. rewrite (find_h_in s g (c_hids _ _ C) HI).
    destruct (c_hino _ _ C _ HI) as (x & EX & _). rewrite EX.
    assert (SAME : forall rc, rc < 0 -> rc <> EINVAL -> rc <> EFAULT -> ~ readable s (h_ino g) -> exists s' rc' out, Ok s rc [] = Ok s' rc' out /\ wf s' /\ ents s' = ents s /\
      nexte s' = nexte s /\ nexth s' = nexth s /\ ino s' = ino s /\
      (forall k, In k (hnds s') -> h_id k <> h_id g -> In k (hnds s)) /\
      (forall k, In k (hnds s) -> h_id k <> h_id g -> In k (hnds s')) /\
      exists g' l1 l2, In g' (hnds s') /\ h_id g' = h_id g /\ h_ino g' = h_ino g /\
        rest s g = l1 ++ l2 /\ rest s' g' = l2 /\ Forall2 (describes s) out l1 /\
        (19 <= DSZ -> DSZ + NAMEMAX < 2147483648 -> 0 <= bufsz < 2147483648 ->
           bytes out <= bufsz /\
           (0 <= rc' -> rc' = bytes out /\ (rc' = 0 -> l2 = [])) /\
           (rc' = EINVAL -> out = [] /\ exists e, In e l2 /\ bufsz < DSZ + zlen (e_name e) + 1) /\ (rc' = EFAULT -> lim < bufsz) /\
           (rc' < 0 -> rc' = EINVAL \/ rc' = EFAULT \/ ~ readable s (h_ino g)))).
    { intros rc N N2 N3 N4. exists s, rc, []. split; [reflexivity|]. split; [exact W|]. do 6 (split; [auto|]).
      exists g, [], (rest s g). split; [exact HI|]. split; [reflexivity|]. split; [reflexivity|].
      split; [reflexivity|]. split; [reflexivity|]. split; [constructor|]. intros _ _ B. cbn. split; [lia|]. split; [lia|]. split; [contradiction|]. split; [contradiction|auto]. }
    destruct (ftype_eqb (i_type x) FDir) eqn:TX; cbn [negb]; [|apply SAME; unfold ENOTDIR, EINVAL, EFAULT; try lia; intros (y & Ey & Ty & _); rewrite Ey in EX; injection EX as <-; rewrite Ty in TX; discriminate].
    destruct (has (i_mode x) 256) eqn:HM; cbn [negb]; [|apply SAME; unfold EACCES, EINVAL, EFAULT; try lia; intros (y & Ey & Ty & My); rewrite Ey in EX; injection EX as <-; unfold has in HM; rewrite My in HM; discriminate]. clear SAME.
    apply ftype_eqb_iff in TX.
    assert (RS : match h_dpos g with None => Some [] | Some y => from_eid (dents s (h_ino g)) y end = Some (rest s g)).
    { unfold rest. destruct (h_dpos g) as [y|] eqn:DP; [|reflexivity].
      destruct (c_hpos _ _ C _ _ HI DP) as (e & E1 & E2 & E3).
      destruct (from_some (dents s (h_ino g)) e) as (r & R); [apply dents_in; auto|]. rewrite E2 in R. rewrite R. reflexivity. }
    rewrite RS.
    destruct (gd_ok s bufsz lim (rest s g) 0 (h_pos g) []) as (rc & l1 & l2 & outs & G & EL & FA & BY).
    { intros e HE. apply rest_in in HE. apply (c_tgt _ _ C). tauto. }
    rewrite G. cbn [app]. eexists _, _, _. split; [reflexivity|].
    set (f := fun g0 => mkH (h_id g0) (h_ino g0) (h_reg g0) (head_pos l2) (h_pos g + zlen l1)).
    assert (SUB : forall e, In e l2 -> In e (ents s) /\ e_dir e = h_ino g).
    { intros e HE. apply (rest_in s g). rewrite EL. apply in_or_app. auto. }
    split.
    { apply (set_h_ok NAMEMAX s g x f); auto. intros y. cbn. unfold head_pos. destruct l2 as [|e l2']; [discriminate|].
      intros H. injection H as <-. destruct (SUB e) as [S1 S2]; [left; reflexivity|]. eauto. }
    do 4 (split; [reflexivity|]). split.
    { intros k HK NE. cbn in HK. apply in_map_iff in HK as (k0 & K1 & K2). destruct (h_id k0 =? h_id g) eqn:Q; [|congruence].
      subst k. cbn in NE. lia. }
    split.
    { intros k HK NE. cbn. apply in_map_iff. exists k. split; [|exact HK]. replace (h_id k =? h_id g) with false by lia. reflexivity. }
    exists (f g), l1, l2. split; [cbn; apply in_map_iff; exists g; rewrite Z.eqb_refl; auto|].
    split; [reflexivity|]. split; [reflexivity|]. split; [exact EL|]. split.
    { unfold rest at 1. cbn. unfold head_pos. destruct l2 as [|e l2']; [reflexivity|].
      change (filter (fun e0 => e_dir e0 =? h_ino g) (ents s)) with (dents s (h_ino g)).
      destruct (h_dpos g) as [y|]; [|injection RS as RS; rewrite EL in RS; destruct l1; discriminate].
      rewrite EL in RS. erewrite from_suffix; [reflexivity| |exact RS].
      unfold dents. apply NoDup_map_filter. apply (c_ids _ _ C). }
    split; [exact FA|]. intros D1 D2 B1.
    destruct BY as (BY1 & BY2 & BY3); auto; [lia|lia|intros e HE; apply rest_in in HE; apply (c_nm _ _ C); tauto|].
    destruct BY2 as [BY2 BY4]. split; [lia|].
    destruct BY3 as [(-> & BY3) | [(-> & BY3 & BY5) | (-> & BY3)]].
    - split; [intros _; split; [lia|intros Z0; destruct BY3; [assumption|lia]]|].
      split; [intros Q; exfalso; unfold EINVAL in Q; lia|].
      split; [intros Q; exfalso; unfold EFAULT in Q; lia|]. lia.
    - split; [unfold EINVAL; lia|]. split; [intros _; split; [apply BY4; lia|exact BY5]|]. split; [discriminate|auto].
    - split; [unfold EFAULT; lia|]. split; [discriminate|]. split; [intros _; exact BY3|auto].
  Qed.
End P.
