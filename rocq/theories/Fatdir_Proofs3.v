(** The walk over a whole directory; listing, lookup. *)
From Verif Require Import Lib Fat_Model Fat_Spec Fat_Proofs Fat_Proofs2 Fat_Proofs4 Fatdir_Model
  Fatdir_Spec Fatdir_Proofs Fatdir_Proofs2.

(** * Chains have no repetitions *)
Lemma chain_fun v c l1 : wf v -> chain v c l1 -> forall l2, chain v c l2 -> l1 = l2.
Proof.
  intros W H. induction H as [c V E|c l V H IH]; intros l2 H2; inversion H2 as [c' V' E'|c' l' V' H']; subst.
  - reflexivity.
  - exfalso. destruct (chain_head _ _ _ H') as [Vn _]. destruct (valid_not_eoc v _ W Vn) as [A _].
    rewrite (eoc_ok v _ W E) in A. discriminate.
  - exfalso. destruct (chain_head _ _ _ H) as [Vn _]. destruct (valid_not_eoc v _ W Vn) as [A _].
    rewrite (eoc_ok v _ W E') in A. discriminate.
  - f_equal. apply IH. exact H'.
Qed.
Lemma chain_suffix v c l x : chain v c l -> In x l -> exists a b, l = a ++ b /\ chain v x b.
Proof.
  intros H. induction H as [c V E|c l V H IH]; intros I.
  - destruct I as [<-|[]]. exists [], [c]. split; [reflexivity|]. constructor; assumption.
  - destruct I as [<-|I].
    + exists [], (c :: l). split; [reflexivity|]. apply chain_cons; assumption.
    + destruct (IH I) as (a & b & -> & Q). exists (c :: a), b. auto.
Qed.
Lemma chain_nodup v c l : wf v -> chain v c l -> NoDup l.
Proof.
  intros W H. induction H as [c V E|c l V H IH].
  - constructor; [intros []|constructor].
  - constructor; [|exact IH]. intros I. destruct (chain_suffix _ _ _ _ H I) as (a & b & E & Q).
    assert (X : c :: l = b) by (apply (chain_fun v c); [exact W|apply chain_cons; assumption|exact Q]).
    subst b. apply (f_equal (@length Z)) in E. rewrite app_length in E. cbn [length] in E. lia.
Qed.
Lemma nodup_range (l : list Z) a n : 0 <= n -> NoDup l -> (forall x, In x l -> a <= x < a + n) ->
  zlen l <= n.
Proof.
  intros N ND R.
  assert (L : (length l <= length (map (fun i => a + Z.of_nat i)%Z (seq 0 (Z.to_nat n))))%nat).
  { apply NoDup_incl_length; [exact ND|]. intros x X. specialize (R x X). apply in_map_iff.
    exists (Z.to_nat (x - a)). split; [lia|]. apply in_seq. lia. }
  rewrite map_length, seq_length in L. unfold zlen. lia.
Qed.
Lemma chain_len v c l : wf v -> chain v c l -> zlen l <= sp_clusters (vh v).
Proof.
  intros W H. pose proof (wf_type v W). apply (nodup_range l 2); [lia|eapply chain_nodup; eauto|].
  intros x X. pose proof (chain_valid _ _ _ H x X) as V. unfold valid in V. lia.
Qed.

(** * The slots *)
Lemma epc_pos v : wf v -> 16 <= epc v /\ csize v = 32 * epc v.
Proof.
  intros W. unfold epc. destruct (csize32 v W) as (q & E & Q). rewrite E.
  replace (32 * q) with (q * 32) by lia. rewrite Z.div_mul by lia. lia.
Qed.
Lemma epc_eq v : wf v -> entries_per_cluster (vh v) = epc v.
Proof.
  intros W. unfold entries_per_cluster, epc. fold (csize v). pose proof (csize_pos v W).
  rewrite Lib.u32_small by lia. reflexivity.
Qed.
Lemma cslot_in v cl i : wf v -> (forall x, In x cl -> valid (vh v) x) -> 0 <= i < zlen cl * epc v ->
  in_image v (cslot v cl i).
Proof.
  intros W V I. destruct (epc_pos v W) as [EP CE]. unfold cslot.
  assert (D : 0 <= i / epc v < zlen cl).
  { split; [apply Z.div_pos; lia|]. apply Z.div_lt_upper_bound; lia. }
  pose proof (Z.mod_pos_bound i (epc v) ltac:(lia)) as M.
  set (q := i / epc v) in *. set (m := i mod epc v) in *. clearbody q m.
  assert (X : valid (vh v) (znth 0 cl q)).
  { apply V. unfold znth. apply nth_In. unfold zlen in D. lia. }
  destruct (cluster_off_bounds v W _ X) as (A & _ & B). pose proof (data_in v W) as [_ DI].
  unfold in_image. lia.
Qed.
Lemma root_span v : wf v -> fatsz16 (vh v) <> 0 ->
  FATSz (vh v) = fatsz16 (vh v) /\
  0 <= (rsvd (vh v) + nfats (vh v) * FATSz (vh v)) * bps (vh v) /\
  (rsvd (vh v) + nfats (vh v) * FATSz (vh v)) * bps (vh v) + csize v <= vsz v.
Proof.
  intros W F. split.
  { unfold FATSz. destruct (fatsz16 (vh v) =? 0) eqn:E; [lia|reflexivity]. }
  pose proof (data_small v W) as [[_ D1] D2]. pose proof (root_nonneg v W) as RN.
  pose proof (clusters_small v W) as [_ C2]. pose proof (wf_type v W) as T.
  pose proof (bps_pos v W) as B. pose proof (wf_spc v W) as SP. pose proof (wf_size v W) as SZ.
  pose proof (wf_rsvd v W) as RV. unfold csize.
  unfold sp_data_sector in *.
  set (f := nfats (vh v) * FATSz (vh v)) in *. clearbody f.
  assert (spc (vh v) <= sp_clusters (vh v) * spc (vh v)) by nia. nia.
Qed.
Lemma rslot_in v i : wf v -> fatsz16 (vh v) <> 0 -> 0 <= i < epc v -> in_image v (rslot v i).
Proof.
  intros W F I. destruct (root_span v W F) as (_ & A & B). destruct (epc_pos v W) as [EP CE].
  unfold in_image, rslot. lia.
Qed.
Lemma rootdir_16 v : wf v -> fatsz16 (vh v) <> 0 -> sp_width (vh v) = 2 ->
  rootdir (vh v) (fat_type (vh v)) = (rslot v 0, 0).
Proof.
  intros W F E. rewrite (type_eq v W), E. destruct (root_span v W F) as (FE & A & B).
  unfold rootdir. change (2 =? 2) with true. cbn iota. f_equal. unfold rslot.
  pose proof (csize_pos v W). pose proof (wf_4g v W). pose proof (bps_pos v W) as BP.
  rewrite <- FE. pose proof (wf_rsvd v W). pose proof (wf_nfats v W). pose proof (wf_fatsz v W).
  set (q := rsvd (vh v) + nfats (vh v) * FATSz (vh v)) in *.
  assert (Q : 0 <= q) by (unfold q; nia). clearbody q.
  rewrite (Lib.u32_small q) by nia. rewrite Lib.u32_small by nia. lia.
Qed.

Section W3.
  Context {S : Type}.
  Variable cb : S -> vol -> Z -> option (list Z) -> res (S * vol * bool).

  Lemma from_ext slot1 slot2 i j n :
    (forall k, 0 <= k < Z.of_nat n -> slot1 (i + k) = slot2 (j + k)) -> from slot1 i n = from slot2 j n.
  Proof.
    intros H. unfold from. apply map_ext_in. intros k K. apply in_seq in K. apply H. lia.
  Qed.
  Lemma walk_list_pure v (P : forall s e n s1 v1 st, cb s v e n = Ok (s1, v1, st) -> v1 = v) :
    forall es s x s1 v1 x1 st, walk_list cb es s v x = Ok (s1, v1, x1, st) -> v1 = v.
  Proof.
    induction es as [|e es IH]; intros s x s1 v1 x1 st; cbn [walk_list].
    - intros [= _ <- _ _]. reflexivity.
    - destruct (walk_entries cb 1 e s v x) as [[[[s2 v2] x2] st2]| | |] eqn:E; cbn [bind]; try discriminate.
      assert (V2 : v2 = v).
      { revert E. cbn [walk_entries].
        destruct (e_byte v e 11) as [at1| | |]; cbn [bind]; try discriminate.
        destruct (e_byte v e 0) as [b0| | |]; cbn [bind]; try discriminate.
        destruct x as [c|].
        - destruct (_ =? 15).
          { destruct (handle_long v c e); cbn [bind]; try discriminate. congruence. }
          destruct (is_volid at1); [congruence|]. destruct (b0 =? 229); [congruence|].
          destruct (b0 =? 0); [congruence|].
          match goal with |- context[bind ?y _] => destruct y as [nm| | |]; cbn [bind]; try discriminate end.
          destruct (cb s v e nm) as [[[s3 v3] st3]| | |] eqn:C; cbn [bind]; try discriminate.
          apply P in C. destruct st3; congruence.
        - destruct (is_volid at1); [congruence|]. destruct (b0 =? 229); [congruence|].
          destruct (b0 =? 0); [congruence|].
          destruct (cb s v e None) as [[[s3 v3] st3]| | |] eqn:C; cbn [bind]; try discriminate.
          apply P in C. destruct st3; congruence. }
      subst v2. destruct st2; [congruence|]. apply IH.
  Qed.

  Lemma walk_chain v base (W : wf v)
    (P : forall s e n s1 v1 st, cb s v e n = Ok (s1, v1, st) -> v1 = v) :
    forall cl c fuel s x, chain v c cl -> (length cl < fuel)%nat ->
    walk_clusters cb fuel base c s v x =
    out1 (walk_list cb (from (cslot v cl) 0 (length cl * Z.to_nat (epc v))) s v x).
  Proof.
    destruct (epc_pos v W) as [EP CE].
    induction cl as [|c0 cl IH]; intros c fuel s x CH FU; [inversion CH|].
    destruct (chain_head _ _ _ CH) as [V (r & E)]. injection E as <- <-.
    destruct fuel as [|fuel]; [cbn in FU; lia|]. cbn [walk_clusters]. cbv zeta.
    replace (c0 =? 0) with false by (unfold valid in V; lia).
    rewrite (cluster_ptr_eq v W) by assumption. rewrite (epc_eq v W).
    cbn [length]. rewrite Nat.mul_succ_l, Nat.add_comm, from_app, walk_list_app.
    rewrite walk_entries_list.
    replace (from (cslot v (c0 :: cl)) 0 (Z.to_nat (epc v)))
      with (from (fun i => sp_cluster_off (vh v) c0 + 32 * i) 0 (Z.to_nat (epc v))).
    2:{ apply from_ext. intros k K. unfold cslot. cbn [Z.add].
        rewrite Z.div_small by lia. rewrite Z.mod_small by lia. rewrite znth_cons_0. reflexivity. }
    destruct (walk_list cb _ s v x) as [[[[s1 v1] x1] st]| | |] eqn:WL; cbn [bind out1]; try reflexivity.
    destruct st; [reflexivity|].
    pose proof (walk_list_pure v P _ _ _ _ _ _ _ WL). subst v1.
    rewrite read_fat_ok by (auto using nfats0, valid_entry). cbn [bind].
    inversion CH as [c' V' EO E1|c' l' V' CH' E1 E2]; subst.
    + rewrite (eoc_ok v _ W EO). reflexivity.
    + destruct (chain_head _ _ _ CH') as [Vn _].
      destruct (valid_not_eoc v _ W Vn) as [-> ->].
      rewrite (IH _ fuel s1 x1 CH') by (cbn in FU; lia).
      f_equal. f_equal. apply from_ext. intros k K. cbn [Z.add].
      unfold cslot. replace (0 + k) with k by lia.
      replace (0 + Z.of_nat (Z.to_nat (epc v)) + k) with (k + 1 * epc v) by lia.
      rewrite Z.div_add, Z.mod_add by lia.
      assert (0 <= k / epc v) by (apply Z.div_pos; lia).
      rewrite (znth_cons_pos 0 c0 cl (k / epc v + 1)) by lia.
      replace (k / epc v + 1 - 1) with (k / epc v) by lia. reflexivity.
  Qed.

  Theorem walk_ok v clu slot l fuel s : wf v -> dir_of v clu slot l ->
    (forall s e n s1 v1 st, cb s v e n = Ok (s1, v1, st) -> v1 = v) ->
    (Z.to_nat (sp_clusters (vh v)) < fuel)%nat ->
    walk cb fuel true clu s v = bnd s' <- visit cb s v (listing slot 0 l); Ok (s', v).
  Proof.
    intros W D P FU. destruct (epc_pos v W) as [EP CE]. unfold walk.
    assert (G : good_type (fat_type (vh v)) = true).
    { rewrite (type_eq v W). destruct (width_cases v) as [[-> _]|[-> _]]; reflexivity. }
    rewrite G. unfold dir_of in D.
    assert (CO : ctx_ok None (L false [] (-1))) by (split; reflexivity).
    destruct ((clu =? 0) && (sp_width (vh v) =? 2)) eqn:Q.
    - destruct D as (F & -> & [OK FIT RAW EN]). apply andb_true_iff in Q. destruct Q as [Q1 Q2].
      rewrite Q1. rewrite (rootdir_16 v W F) by lia.
      destruct fuel as [|fuel]; [lia|]. cbn [walk_clusters]. cbv zeta. change (0 =? 0) with true.
      cbn iota. rewrite (epc_eq v W), walk_entries_list.
      replace (from (fun i => rslot v 0 + 32 * i) 0 (Z.to_nat (epc v)))
        with (from (rslot v) 0 (Z.to_nat (epc v))).
      2:{ apply from_ext. intros k K. unfold rslot. lia. }
      transitivity (out1 (walk_list cb (from (rslot v) 0 (Z.to_nat (epc v))) s v
                            (Some (L false [] (-1))))).
      { destruct (walk_list cb _ s v _) as [[[[s1 v1] x1] st]| | |]; cbn [bind out1]; try reflexivity.
        destruct st; reflexivity. }
      apply (walk_items cb v (rslot v) P l None); auto.
      + unfold zlen in FIT. lia.
      + intros j J. cbn [Z.add]. apply rslot_in; auto. lia.
      + intros J. cbn [Z.add]. apply EN. unfold zlen. lia.
    - destruct D as (cl & CH & -> & [OK FIT RAW EN]).
      pose proof (chain_len v _ _ W CH) as CL.
      assert (E : (if clu =? 0 then rootdir (vh v) (fat_type (vh v)) else (0, clu)) =
              (if clu =? 0 then fst (rootdir (vh v) (fat_type (vh v))) else 0,
               if clu =? 0 then rootclus (vh v) else clu)).
      { destruct (clu =? 0) eqn:Q0; [|reflexivity]. cbn [andb] in Q.
        rewrite (type_eq v W). unfold rootdir. rewrite Q. reflexivity. }
      rewrite E. rewrite (walk_chain v _ W P cl) by (auto; unfold zlen in CL; lia).
      apply (walk_items cb v (cslot v cl) P l None); auto.
      + unfold zlen in FIT. nia.
      + intros j J. cbn [Z.add]. apply cslot_in; auto; [apply (chain_valid _ _ _ CH)|].
        unfold zlen. nia.
      + intros J. cbn [Z.add]. apply EN. unfold zlen in *. nia.
  Qed.
End W3.
