From Verif Require Import Lib Sort_Model Sort_Spec.

Section Ptr.
  Context {A : Type}.
  Variable cmp : A -> A -> Z.
  Hypothesis tp : total_preorder cmp.

  Notation sorted := (sorted cmp).

  Lemma inner_ok : forall pre elem hole suf rest,
      Forall (fun y => 0 < cmp y elem) suf ->
      exists p s, sort_inner cmp (pre ++ hole :: suf ++ rest) elem (length pre) =
        match s with
        | [] => Some (pre ++ hole :: suf ++ rest, length pre)
        | y :: s' => Some (p ++ y :: (s ++ suf) ++ rest, length p)
        end /\
        pre = p ++ s /\ Forall (fun y => 0 < cmp y elem) s /\
        (p = [] \/ exists q y, p = q ++ [y] /\ cmp y elem <= 0).
  Proof.
    intros pre. induction pre as [|y pre IH] using rev_ind; intros elem hole suf rest Hs.
    - exists [], []. simpl. repeat split; auto.
    - rewrite app_length. simpl. rewrite Nat.add_1_r. cbn [sort_inner].
      rewrite <- app_assoc. cbn [app]. rewrite aget_app by reflexivity.
      destruct (Z.ltb_spec 0 (cmp y elem)) as [Hc|Hc].
      + replace (pre ++ y :: hole :: suf ++ rest) with ((pre ++ [y]) ++ hole :: suf ++ rest)
          by (rewrite <- app_assoc; reflexivity).
        rewrite aset_app by (rewrite zlen_snoc; unfold zlen; lia).
        rewrite <- app_assoc. cbn [app].
        destruct (IH elem y (y :: suf) rest) as (p & s & E1 & E2 & E3 & E4); [constructor; auto|].
        exists p, (s ++ [y]). cbn [app] in E1. rewrite E1.
        destruct s as [|z s].
        * rewrite app_nil_r in E2. subst p. cbn [app]. repeat split; auto.
        * cbn [app]. rewrite E2. rewrite <- !app_assoc. cbn [app]. repeat split; auto.
          inversion E3; subst. constructor; auto. apply Forall_app. split; auto.
      + exists (pre ++ [y]), []. rewrite <- app_assoc. cbn [app].
        split; [reflexivity|]. split; [reflexivity|]. split; [constructor|].
        right. exists pre, y. auto.
  Qed.

  Lemma sorted_app : forall l1 l2, sorted (l1 ++ l2) <->
      sorted l1 /\ sorted l2 /\ (forall x y, In x l1 -> In y l2 -> cmp x y <= 0).
  Proof.
    unfold Sort_Spec.sorted. induction l1 as [|x l1 IH]; intros l2; simpl.
    - split; [intros H; repeat split; auto; [constructor|tauto]| tauto].
    - split.
      + intros H. inversion H as [|? ? H1 H2]; subst. apply IH in H1.
        destruct H1 as (G1 & G2 & G3). rewrite Forall_app in H2. destruct H2 as [F1 F2].
        repeat split; auto; [constructor; auto|].
        intros u v [->|Hu] Hv; [rewrite Forall_forall in F2; auto | auto].
      + intros (H1 & H2 & H3). inversion H1 as [|? ? G1 G2]; subst.
        constructor; [apply IH; repeat split; auto|].
        apply Forall_app; split; auto. apply Forall_forall. intros v Hv. auto.
  Qed.

  (** One pass of the outer loop inserts the element into the sorted prefix *)
  Lemma pass_ok : forall pre elem rest, sorted pre ->
      exists arr1 j p s,
        sort_inner cmp (pre ++ elem :: rest) elem (length pre) = Some (arr1, j) /\
        aset arr1 (Z.of_nat j) elem = Some ((p ++ elem :: s) ++ rest) /\
        pre = p ++ s /\ sorted (p ++ elem :: s) /\ Forall (fun y => 0 < cmp y elem) s.
  Proof.
    intros pre elem rest Hs.
    destruct (inner_ok pre elem elem [] rest ltac:(constructor)) as (p & s & E1 & E2 & E3 & E4).
    cbn [app] in E1.
    assert (Hsort : sorted (p ++ elem :: s)).
    { rewrite E2 in Hs. apply sorted_app in Hs. destruct Hs as (S1 & S2 & S3).
      apply sorted_app. split; [auto|]. split.
      - constructor; auto. eapply Forall_impl; [|exact E3]. simpl. intros y Hy. apply (tp_total _ tp); auto.
      - assert (Hle : forall x, In x p -> cmp x elem <= 0).
        { intros x Hx. destruct E4 as [->|(q & y & -> & Hy)]; [destruct Hx|].
          apply in_app_iff in Hx. destruct Hx as [Hx|[<-|[]]]; [|auto].
          apply sorted_app in S1. destruct S1 as (_ & _ & S1).
          apply (tp_trans _ tp) with y; [|auto]. apply S1; simpl; auto. }
        intros x y Hx [<-|Hy]; auto. }
    destruct s as [|y s].
    - rewrite app_nil_r in E2. subst p.
      do 2 eexists. exists pre, []. split; [exact E1|]. split.
      + rewrite aset_app by reflexivity. rewrite <- app_assoc. reflexivity.
      + rewrite app_nil_r. auto.
    - do 2 eexists. exists p, (y :: s). split; [exact E1|]. split.
      + rewrite aset_app by reflexivity. rewrite app_nil_r. rewrite <- app_assoc. reflexivity.
      + auto.
  Qed.

  Lemma filter_none : forall (f : A -> bool) l, Forall (fun y => f y = false) l -> filter f l = [].
  Proof. induction 1; simpl; auto. rewrite H. auto. Qed.

  Lemma stable_insert : forall p s elem, Forall (fun y => 0 < cmp y elem) s ->
      stable cmp ((p ++ s) ++ [elem]) (p ++ elem :: s).
  Proof.
    intros p s elem Hs x. rewrite !filter_app. simpl.
    destruct (equiv cmp x elem) eqn:E.
    - rewrite (filter_none _ s); [rewrite app_nil_r; reflexivity|].
      eapply Forall_impl; [|exact Hs]. simpl. intros y Hy.
      unfold equiv in *. apply andb_false_iff. destruct (Z.leb_spec (cmp y x) 0); [|right; lia].
      pose proof (tp_trans _ tp y x elem). lia.
    - rewrite app_nil_r. reflexivity.
  Qed.

  Lemma outer_ok : forall n pre mid rest, sorted pre -> pre <> [] ->
      length mid = n ->
      exists out, sort_outer cmp n (length pre) (pre ++ mid ++ rest) = Some (out ++ rest) /\
        Permutation (pre ++ mid) out /\ sorted out /\ stable cmp (pre ++ mid) out.
  Proof.
    induction n as [|n IH]; intros pre mid rest Hs Hne Hm.
    - destruct mid; [|discriminate]. exists pre. rewrite app_nil_r. simpl. repeat split; auto.
    - destruct mid as [|elem mid]; [discriminate|]. injection Hm as Hm.
      cbn [sort_outer]. cbn [app]. rewrite aget_app by reflexivity.
      destruct (pass_ok pre elem (mid ++ rest) Hs) as (arr1 & j & p & s & E1 & E2 & E3 & E4 & E5).
      rewrite E1, E2.
      replace (S (length pre)) with (length (p ++ elem :: s))
        by (rewrite E3, !app_length; simpl; lia).
      destruct (IH (p ++ elem :: s) mid rest) as (out & G1 & G2 & G3 & G4); auto.
      { intros H. apply app_eq_nil in H. destruct H; discriminate. }
      exists out. split; [exact G1|]. split; [|split; [auto|]].
      + eapply perm_trans; [|exact G2]. rewrite E3, <- !app_assoc. simpl.
        apply Permutation_app_head.
        eapply perm_trans; [apply Permutation_sym, Permutation_middle|]. reflexivity.
      + intros x. rewrite G4. pose proof (stable_insert p s elem E5 x) as Hst.
        replace (pre ++ elem :: mid) with (((p ++ s) ++ [elem]) ++ mid)
          by (rewrite E3, <- !app_assoc; reflexivity).
        rewrite !(filter_app _ _ mid), Hst. reflexivity.
  Qed.

  Theorem sort_ptr_ok : forall l rest,
      exists out, insertion_sort_ptr cmp (l ++ rest) (length l) = Some (out ++ rest) /\
        stably_sorted cmp l out.
  Proof.
    intros [|a l] rest.
    - exists []. split; [reflexivity|]. repeat split; constructor.
    - unfold insertion_sort_ptr. simpl length. rewrite Nat.sub_1_r. simpl Nat.pred.
      destruct (outer_ok (length l) [a] l rest) as (out & G1 & G2 & G3 & G4); auto.
      + repeat constructor.
      + discriminate.
      + exists out. split; [exact G1|]. repeat split; auto.
  Qed.

  Lemma reverse_ok_aux : forall n (pre mid post rest : list A),
      length mid = n -> length pre = length post ->
      forall k, (k = n / 2)%nat ->
      reverse_loop k (zlen pre) (zlen (pre ++ mid ++ post)) (pre ++ mid ++ post ++ rest)
      = Some (pre ++ rev mid ++ post ++ rest).
  Proof.
    intros n. induction n as [n IH] using (well_founded_induction lt_wf).
    intros pre mid post rest Hm Hp k Hk.
    destruct mid as [|a mid].
    - simpl in Hm. subst n k. reflexivity.
    - destruct mid as [|b mid0] using rev_ind.
      + simpl in Hm. subst n k. reflexivity.
      + clear IHmid0. rewrite app_comm_cons, app_length in Hm. simpl in Hm.
        assert (Hk2 : k = S ((n - 2) / 2)).
        { subst k. replace n with ((n - 2) + 1 * 2)%nat at 1 by lia.
          rewrite Nat.div_add by lia. lia. }
        rewrite Hk2. cbn [reverse_loop].
        set (m := mid0) in *.
        assert (E0 : pre ++ (a :: m ++ [b]) ++ post ++ rest = pre ++ a :: (m ++ b :: post ++ rest))
          by (simpl; rewrite <- !app_assoc; reflexivity).
        rewrite E0. rewrite aget_app by reflexivity.
        assert (E1 : pre ++ a :: m ++ b :: post ++ rest = (pre ++ a :: m) ++ b :: post ++ rest)
          by (rewrite <- !app_assoc; reflexivity).
        assert (Hidx : zlen (pre ++ (a :: m ++ [b]) ++ post) - zlen pre - 1 = zlen (pre ++ a :: m)).
        { rewrite !zlen_app, !zlen_cons, zlen_app, zlen_cons. change (zlen (@nil A)) with 0.
          unfold zlen. lia. }
        rewrite Hidx. rewrite E1 at 1. rewrite aget_app by reflexivity.
        rewrite aset_app by reflexivity.
        replace (pre ++ b :: m ++ b :: post ++ rest) with ((pre ++ b :: m) ++ b :: post ++ rest)
          by (rewrite <- !app_assoc; reflexivity).
        rewrite aset_app by (rewrite !zlen_app, !zlen_cons; reflexivity).
        replace (zlen pre + 1) with (zlen (pre ++ [b])) by (rewrite zlen_snoc; lia).
        replace (zlen (pre ++ (a :: m ++ [b]) ++ post)) with (zlen ((pre ++ [b]) ++ m ++ a :: post))
          by (rewrite !zlen_app, !zlen_cons, !zlen_app, !zlen_cons; lia).
        replace ((pre ++ b :: m) ++ a :: post ++ rest) with ((pre ++ [b]) ++ m ++ (a :: post) ++ rest)
          by (rewrite <- !app_assoc; reflexivity).
        rewrite (IH (n - 2)%nat) by (rewrite ?app_length; simpl; lia).
        simpl. rewrite rev_app_distr. simpl. rewrite <- !app_assoc. reflexivity.
  Qed.

  Theorem reverse_ok : forall l rest : list A,
      array_reverse_ptr (l ++ rest) (length l) = Some (rev l ++ rest).
  Proof.
    intros l rest. unfold array_reverse_ptr.
    pose proof (reverse_ok_aux (length l) [] l [] rest eq_refl eq_refl _ eq_refl) as H.
    simpl in H. rewrite app_nil_r in H. exact H.
  Qed.
End Ptr.

(** The byte version simulates the element version *)
Section Generic.
  Variable cmp : list Z -> list Z -> Z.
  Variable es : Z.

  Definition chunks_ok (cs : list (list Z)) := Forall (fun c => zlen c = es) cs.

  Lemma concat_len : forall cs, chunks_ok cs -> zlen (concat cs) = zlen cs * es.
  Proof.
    induction 1 as [|c cs Hc _ IH]; [reflexivity|].
    cbn [concat]. rewrite zlen_app, zlen_cons, Hc, IH. lia.
  Qed.

  Lemma read_mid : forall {B} (p d s : list B), mem_read (p ++ d ++ s) (zlen p) (zlen d) = Some d.
  Proof.
    intros B p d s. unfold mem_read. rewrite !zlen_app.
    pose proof (zlen_nonneg p). pose proof (zlen_nonneg d). pose proof (zlen_nonneg s).
    destruct (_ && _) eqn:E; [|lia]. unfold zlen. rewrite !Nat2Z.id.
    rewrite skipn_app, skipn_all, Nat.sub_diag. cbn [skipn app].
    rewrite firstn_app, firstn_all, Nat.sub_diag, firstn_O, app_nil_r. reflexivity.
  Qed.

  Lemma write_mid : forall {B} (p d d' s : list B), zlen d' = zlen d ->
      mem_write (p ++ d ++ s) (zlen p) d' = Some (p ++ d' ++ s).
  Proof.
    intros B p d d' s Hl. unfold mem_write. rewrite !zlen_app.
    pose proof (zlen_nonneg p). pose proof (zlen_nonneg d). pose proof (zlen_nonneg s).
    destruct (_ && _) eqn:E; [|lia]. unfold zlen in *. rewrite !Nat2Z.id.
    rewrite firstn_app, firstn_all, Nat.sub_diag, firstn_O, app_nil_r.
    rewrite skipn_app, skipn_all2 by lia.
    replace (length p + length d' - length p)%nat with (length d) by lia.
    rewrite skipn_app, skipn_all, Nat.sub_diag. reflexivity.
  Qed.

  Lemma chunk_read : forall cs i x tl, chunks_ok cs -> aget cs (Z.of_nat i) = Some x ->
      mem_read (concat cs ++ tl) (Z.of_nat i * es) es = Some x /\ zlen x = es.
  Proof.
    intros cs i x tl Hc Hg. unfold aget in Hg. destruct (0 <=? Z.of_nat i); [|discriminate].
    rewrite Nat2Z.id in Hg. apply nth_error_split in Hg. destruct Hg as (p & s & -> & Hp).
    apply Forall_app in Hc. destruct Hc as [Hcp Hcx]. inversion Hcx as [|? ? Hx Hcs].
    split; [|exact Hx]. rewrite concat_app. cbn [concat]. rewrite <- !app_assoc.
    pose proof (concat_len p Hcp) as Hl. replace (Z.of_nat i * es) with (zlen (concat p))
      by (rewrite Hl, <- Hp; reflexivity).
    rewrite <- Hx. apply read_mid.
  Qed.

  Lemma chunk_write : forall cs i x cs' tl, chunks_ok cs -> zlen x = es ->
      aset cs (Z.of_nat i) x = Some cs' ->
      mem_write (concat cs ++ tl) (Z.of_nat i * es) x = Some (concat cs' ++ tl) /\ chunks_ok cs'.
  Proof.
    intros cs i x cs' tl Hc Hx Hs.
    assert (Hr : 0 <= Z.of_nat i < zlen cs).
    { unfold aset, mem_write in Hs. change (zlen [x]) with 1 in Hs.
      destruct ((0 <=? Z.of_nat i) && (Z.of_nat i + 1 <=? zlen cs)) eqn:E; [lia|discriminate]. }
    destruct (list_split_at cs _ Hr) as (p & y & s & -> & Hp).
    rewrite aset_app in Hs by lia. injection Hs as <-.
    apply Forall_app in Hc. destruct Hc as [Hcp Hcx]. inversion Hcx as [|? ? Hy Hcs].
    split; [|apply Forall_app; split; auto; constructor; auto].
    rewrite !concat_app. cbn [concat]. rewrite <- !app_assoc.
    pose proof (concat_len p Hcp) as Hl.
    replace (Z.of_nat i * es) with (zlen (concat p)) by (rewrite Hl, Hp; lia).
    apply write_mid. lia.
  Qed.

  Lemma ginner_sim : forall j cs elem tl cs' j', chunks_ok cs ->
      sort_inner cmp cs elem j = Some (cs', j') ->
      gsort_inner cmp es (concat cs ++ tl) elem j = Some (concat cs' ++ tl, j') /\ chunks_ok cs'.
  Proof.
    induction j as [|j IH]; intros cs elem tl cs' j' Hc H; cbn [sort_inner gsort_inner] in *.
    - injection H as <- <-. auto.
    - destruct (aget cs (Z.of_nat j)) as [y|] eqn:Eg; [|discriminate].
      destruct (chunk_read cs j y tl Hc Eg) as [-> Hy].
      destruct (0 <? cmp y elem).
      + destruct (aset cs (Z.of_nat (S j)) y) as [cs1|] eqn:Es; [|discriminate].
        destruct (chunk_write cs (S j) y cs1 tl Hc Hy Es) as [-> Hc1]. apply IH; auto.
      + injection H as <- <-. auto.
  Qed.

  Lemma gouter_sim : forall n i cs tl cs', chunks_ok cs ->
      sort_outer cmp n i cs = Some cs' ->
      gsort_outer cmp es n i (concat cs ++ tl) = Some (concat cs' ++ tl).
  Proof.
    induction n as [|n IH]; intros i cs tl cs' Hc H; cbn [sort_outer gsort_outer] in *.
    - injection H as <-. auto.
    - destruct (aget cs (Z.of_nat i)) as [elem|] eqn:Eg; [|discriminate].
      destruct (chunk_read cs i elem tl Hc Eg) as [-> He].
      destruct (sort_inner cmp cs elem i) as [[cs1 j]|] eqn:Ei; [|discriminate].
      destruct (ginner_sim i cs elem tl cs1 j Hc Ei) as [-> Hc1].
      destruct (aset cs1 (Z.of_nat j) elem) as [cs2|] eqn:Es; [|discriminate].
      destruct (chunk_write cs1 j elem cs2 tl Hc1 He Es) as [-> Hc2]. apply IH; auto.
  Qed.

  Hypothesis tp : total_preorder cmp.

  Theorem sort_generic_ok : forall cs tl, chunks_ok cs -> es <= 256 ->
      exists out, insertion_sort_generic cmp es (concat cs ++ tl) (length cs)
                  = Some (concat out ++ tl) /\ stably_sorted cmp cs out.
  Proof.
    intros cs tl Hc Hes. unfold insertion_sort_generic.
    destruct (Z.leb_spec es 256); [|lia].
    destruct (sort_ptr_ok cmp tp cs []) as (out & E1 & E2). rewrite !app_nil_r in E1.
    exists out. split; [|exact E2]. apply gouter_sim; auto.
  Qed.
End Generic.
