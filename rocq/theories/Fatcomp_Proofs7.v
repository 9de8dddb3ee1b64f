(** Compaction: the whole volume. *)
From Coq Require FinFun.
From Verif Require Import Lib Fat_Model Fat_Spec Fat_Proofs Fat_Proofs2 Fat_Proofs4 Fatdir_Model
  Fatdir_Spec Fatdir_Proofs Fatdir_Proofs2 Fatdir_Proofs3 Fatdir_Proofs4 Fatcomp_Model Fatcomp_Spec
  Fatcomp_Proofs Fatcomp_Proofs2 Fatcomp_Proofs3 Fatcomp_Proofs4 Fatcomp_Proofs5 Fatcomp_Proofs6.

Lemma first_zero_ok v : wf v -> forall n clu, 0 <= clu -> clu + Z.of_nat n <= sp_clusters (vh v) + 2 ->
  (forall c, 0 <= c < clu -> ~ fz v c) ->
  exists c, first_zero n v clu = Ok c /\ clu <= c <= clu + Z.of_nat n /\
    (forall x, 0 <= x < c -> ~ fz v x) /\ (c < clu + Z.of_nat n -> fz v c).
Proof.
  intros W. pose proof (clusters_small v W) as [CS _].
  induction n as [|n IH]; intros clu C0 C1 LO.
  - exists clu. split; [reflexivity|]. split; [lia|]. split; [exact LO|lia].
  - cbn [first_zero]. rewrite read_fat_ok by (auto using nfats0; lia). cbn [bind]. fold (fat0 v clu).
    destruct (Z.eqb_spec (fat0 v clu) 0) as [Q|Q].
    + exists clu. split; [reflexivity|]. split; [lia|]. split; [exact LO|]. intros _. exact Q.
    + rewrite Lib.u32_small by lia. destruct (IH (clu + 1)) as (c & A & B & C & D); [lia|lia| |].
      * intros x X. destruct (Z.eq_dec x clu) as [->|N]; [exact Q|]. apply LO. lia.
      * exists c. split; [exact A|]. split; [lia|]. split; [exact C|]. intros E. apply D. lia.
Qed.

Section TOP.
  Variables (v : vol) (rl : list Z) (rs : list (list Z)) (ts : list tree) (l : list Z).
  Variables (d fuel : nat).
  Hypothesis W : wf v.
  Hypothesis H : holds v rl rs ts l.
  Hypothesis RF : root_fits v.
  Hypothesis FR : exists c, valid (vh v) c /\ free v c.
  Hypothesis D : (depths ts < d)%nat.
  Hypothesis FU : 2 * sp_clusters (vh v) + 3 < Z.of_nat fuel.
  Let es := root_slots v rl.

  Lemma rl_ok c : In c rl -> valid (vh v) c /\ ~ X1 v l c.
  Proof.
    intros C. pose proof (h_root _ _ _ _ _ H) as HR. destruct (sp_width (vh v) =? 2).
    - destruct HR as [_ HR]. rewrite HR in C. destruct C.
    - split; [apply (chain_valid _ _ _ HR c C)|]. intros [Q|Q].
      + pose proof (h_nodup _ _ _ _ _ H) as ND. apply (proj2 (proj2 (nodup_split _ _ ND)) c C Q).
      + apply (chain_nz v _ _ W HR c C Q).
  Qed.
  Lemma es_ok : Forall (slot_ok v (X1 v l)) es.
  Proof.
    apply Forall_forall. intros e E. unfold es, root_slots in E.
    pose proof (h_root _ _ _ _ _ H) as HR. destruct (Z.eqb_spec (sp_width (vh v)) 2) as [S2|S2].
    - destruct HR as [F _]. apply in_map_iff in E. destruct E as (i & <- & I). apply in_seq in I.
      specialize (RF S2). destruct (rslot_in v (Z.of_nat i) W F) as [_ R2]; [lia|].
      split; [unfold tab_end, rslot; lia|]. split; [exact R2|]. intros c V _. left.
      destruct (cluster_off_bounds v W c V) as (P0 & _). unfold rslot in *. lia.
    - apply in_slots in E. destruct E as (c & i & C & I & ->). destruct (rl_ok c C). apply slot_in; assumption.
  Qed.
  Lemma es_far : ForallOrdPairs far es.
  Proof.
    unfold es, root_slots. pose proof (h_nodup _ _ _ _ _ H) as ND.
    destruct (sp_width (vh v) =? 2); [|apply fop_slots; [exact W|apply (nodup_split _ _ ND)]].
    unfold rslot. apply fop_row.
  Qed.

  Lemma walk_root v1 f1 f2 v2 st (cb : Z -> vol -> Z -> option (list Z) -> res (Z * vol * bool)) : vh v1 = vh v -> wf v1 -> v1 = v ->
    walk_list cb es f1 v1 None = Ok (f2, v2, None, st) ->
    (forall p q s1 v3 x1 st1, es = p ++ q -> walk_list cb p f1 v1 None = Ok (s1, v3, x1, st1) ->
       wf v3 /\ frame (X1 v l) (fun e => In e es) v v3) ->
    walk cb fuel false 0 f1 v1 = Ok (f2, v2).
  Proof.
    intros _ _ -> A PF. pose proof es_ok as EO. rewrite Forall_forall in EO. unfold walk.
    assert (G : good_type (fat_type (vh v)) = true).
    { rewrite (type_eq v W). destruct (width_cases v) as [[-> _]|[-> _]]; reflexivity. }
    rewrite G. change (0 =? 0) with true. cbn iota. unfold es, root_slots in *.
    pose proof (h_root _ _ _ _ _ H) as HR. destruct (Z.eqb_spec (sp_width (vh v)) 2) as [S2|S2].
    - destruct HR as [F _]. rewrite (rootdir_16 v W F S2).
      destruct fuel as [|n]; [pose proof (wf_type v W); lia|]. cbn [walk_clusters]. cbv zeta.
      change (0 =? 0) with true. cbn iota. rewrite (epc_eq v W), walk_entries_list.
      replace (from (fun i => rslot v 0 + 32 * i) 0 (Z.to_nat (epc v)))
        with (map (fun i => rslot v (Z.of_nat i)) (seq 0 (Z.to_nat (epc v)))).
      2:{ unfold from. apply map_ext. intros i. unfold rslot. lia. }
      rewrite A. cbn [bind]. destruct st; reflexivity.
    - assert (E : exists b, rootdir (vh v) (fat_type (vh v)) = (b, rootclus (vh v))).
      { rewrite (type_eq v W). unfold rootdir. replace (sp_width (vh v) =? 2) with false by lia.
        eexists. reflexivity. }
      destruct E as (b & ->). pose proof (chain_len v _ _ W HR) as CL. pose proof (wf_type v W).
      rewrite (walk_chain2 cb v rl b rl _ fuel f1 v None HR W); auto.
      + rewrite A. reflexivity.
      + unfold zlen in CL. lia.
      + intros p q s3 v3 x3 st3 E3 WL3. destruct (PF p q s3 v3 x3 st3 E3 WL3) as [W3 F3].
        split; [exact W3|]. split; [apply (frame_hdr _ _ _ _ F3)|]. intros y Y.
        destruct (rl_ok y Y) as [V N]. apply (frame_fat _ _ v v3 y W F3).
        * apply valid_inr. exact V.
        * intros _. exact N.
        * intros e I. apply (EO e I).
  Qed.

  Theorem compact_ok : exists v' l',
    compact d fuel v = Ok v' /\ wf v' /\ vh v' = vh v /\ vsz v' = vsz v /\
    holds v' rl (map (raw v') (root_slots v' rl)) ts l' /\
    view_of (map (raw v') (root_slots v' rl)) = view_of rs /\ length l' = length l /\
    (forall c, valid (vh v) c -> (free v' c <-> (free v c \/ In c l) /\ ~ In c l')) /\
    (forall c x, In c l' -> 2 <= x < c -> ~ free v' x) /\
    (forall c, valid (vh v) c -> ~ In c l -> ~ free v c ->
       fat_val v' 0 c = fat_val v 0 c /\ (~ In c rl -> cdata v' c = cdata v c)).
  Proof.
    pose proof (clusters_small v W) as [CS _]. pose proof (wf_type v W) as WT.
    destruct (first_zero_ok v W (Z.to_nat (sp_clusters (vh v))) 0) as (f0 & E0 & B0 & L0 & _);
      [lia|lia|intros c C; lia|].
    assert (R : rdy v f0).
    { constructor; [exact W|apply H|apply H|lia|exact L0|exact FR]. }
    assert (X : exists d', d = S d') by (exists (pred d); lia). destruct X as (d' & ED).
    pose proof D as D'. rewrite ED in D' |- *.
    pose proof (h_kids _ _ _ _ _ H) as HK. rewrite (h_rs _ _ _ _ _ H) in HK. fold es in HK.
    pose proof (nodup_split _ _ (h_nodup _ _ _ _ _ H)) as (NR & NL & DJ).
    destruct (wll (compact_cb (S d') fuel) (fun t => (depth t < S d')%nat) (vh v)
                (fun v ffc e t l A B C E F => cb_ok _ fuel FU (S d') v ffc e t l A B C E F)
                (cb_dots fuel d') es v f0 ts l eq_refl R HK NL es_ok es_far (depths_le fuel ts (S d') D'))
      as (f2 & v2 & l2 & st & A & R2 & M2 & RS2 & VW & L2 & LE2 & PF).
    exists v2, l2. pose proof (m_frame _ _ _ _ _ M2) as F2. pose proof (frame_hdr _ _ _ _ F2) as H2.
    pose proof (y_wf _ _ R2) as W2.
    assert (ES : root_slots v2 rl = es).
    { unfold root_slots, es, root_slots. rewrite (epc_hdr v v2 H2), H2, (slots_hdr v v2 rl H2).
      destruct (_ =? 2); [|reflexivity]. apply map_ext. intros i. unfold rslot. rewrite H2. reflexivity. }
    assert (OUT : forall c, inr v c -> (valid (vh v) c -> ~ X1 v l c) -> fat0 v2 c = fat0 v c).
    { intros c I N. apply (frame_fat _ _ v v2 c W F2 I N). intros e E. pose proof es_ok as EO.
      rewrite Forall_forall in EO. apply (EO e E). }
    rewrite ES. split.
    { unfold compact. rewrite (count_eq v W), E0. cbn [bind].
      rewrite (walk_root v f0 f2 v2 st (compact_cb (S d') fuel) eq_refl W eq_refl A PF). reflexivity. }
    split; [exact W2|]. split; [exact H2|]. split; [apply (frame_sz _ _ _ _ F2)|]. split.
    { constructor.
      - rewrite H2. pose proof (h_root _ _ _ _ _ H) as HR. destruct (sp_width (vh v) =? 2); [exact HR|].
        apply (chain_keep v); [exact H2| |exact HR]. intros x X. destruct (rl_ok x X) as [V N].
        apply OUT; [apply valid_inr; exact V|]. intros _. exact N.
      - rewrite ES. reflexivity.
      - exact RS2.
      - apply nodup_app; [exact NR|apply M2|]. intros x X Q. destruct (rl_ok x X) as [_ N].
        apply N. apply (m_src _ _ _ _ _ M2 x Q).
      - rewrite H2. fold (fat0 v2 0). rewrite OUT; [apply H|unfold inr; lia|unfold valid; lia].
      - fold (fat0 v2 1). rewrite OUT; [apply H|unfold inr; lia|unfold valid; lia]. }
    split; [rewrite VW; rewrite (h_rs _ _ _ _ _ H); reflexivity|].
    split; [apply M2|].
    split; [intros c V; apply (m_zero _ _ _ _ _ M2 c (valid_inr v c V))|].
    split.
    { intros c x C X. apply (y_low _ _ R2). specialize (L2 c C). lia. }
    intros c V N1 N2.
    assert (NX : ~ X1 v l c) by (intros [Q|Q]; [apply N1; exact Q|apply N2; exact Q]).
    split; [apply OUT; [apply valid_inr; exact V|]; intros _; exact NX|].
    intros N3. apply (frame_data _ _ v v2 c W F2 V NX). intros e E. unfold es, root_slots in E.
    pose proof (h_root _ _ _ _ _ H) as HR. destruct (Z.eqb_spec (sp_width (vh v)) 2) as [S2|S2].
    - apply in_map_iff in E. destruct E as (i & <- & I). apply in_seq in I.
      specialize (RF S2). destruct (cluster_off_bounds v W c V) as (P0 & _). unfold rslot in *. lia.
    - apply in_slots in E. destruct E as (c' & i & C' & I & ->). destruct (epc_pos v W) as [EP CE].
      assert (NE : c <> c') by (intros ->; contradiction).
      destruct (Z.lt_ge_cases c c').
      + pose proof (clusters_apart v W c c'). lia.
      + pose proof (clusters_apart v W c' c). lia.
  Qed.
End TOP.

(** * What is in use is at the start *)
Lemma dense v' l' : wf v' -> NoDup l' -> (forall c, In c l' -> valid (vh v') c) ->
  (forall c x, In c l' -> 2 <= x < c -> ~ free v' x) -> all_used v' l' ->
  (forall c, In c l' -> ~ free v' c) ->
  forall c, valid (vh v') c -> (~ free v' c <-> c < 2 + zlen l').
Proof.
  intros W ND V LO AU NF c VC. pose proof (zlen_nonneg l') as NN. split.
  - intros F. assert (I : In c l') by (apply AU; assumption).
    assert (Q : incl (map (fun i => 2 + Z.of_nat i)%Z (seq 0 (Z.to_nat (c - 1)))) l').
    { intros x X. apply in_map_iff in X. destruct X as (i & <- & X). apply in_seq in X.
      unfold valid in VC. destruct (Z.eq_dec (2 + Z.of_nat i) c) as [->|N]; [exact I|].
      apply AU; [unfold valid; lia|]. apply (LO c); [exact I|lia]. }
    apply NoDup_incl_length in Q.
    + rewrite map_length, seq_length in Q. unfold zlen. unfold valid in VC. lia.
    + apply FinFun.Injective_map_NoDup; [intros a b E; lia|apply seq_NoDup].
  - intros L F. assert (B : zlen l' <= c - 2).
    { unfold valid in VC. apply (nodup_range l' 2); [lia|exact ND|]. intros x X.
      specialize (V x X). unfold valid in V. split; [lia|].
      destruct (Z.lt_ge_cases x c); [lia|]. destruct (Z.eq_dec x c) as [->|N]; [exfalso; apply (NF c X F)|].
      exfalso. apply (LO x c X); [lia|exact F]. }
    lia.
Qed.

Theorem compact_dense v rl rs ts l d fuel : wf v -> holds v rl rs ts l -> root_fits v ->
  (exists c, valid (vh v) c /\ free v c) -> (depths ts < d)%nat ->
  2 * sp_clusters (vh v) + 3 < Z.of_nat fuel -> all_used v (rl ++ l) -> in_front rl ->
  exists v', compact d fuel v = Ok v' /\
    forall c, valid (vh v) c -> (~ free v' c <-> c < 2 + zlen rl + zlen l).
Proof.
  intros W H RF FR D FU AU IF.
  destruct (compact_ok v rl rs ts l d fuel W H RF FR D FU)
    as (v' & l' & E & W' & HH & _ & HO & _ & LN & ZE & LO & OUT).
  exists v'. split; [exact E|].
  assert (USED : forall c, In c (rl ++ l') -> valid (vh v') c /\ ~ free v' c).
  { intros c C. apply in_app_or in C. destruct C as [C|C].
    - pose proof (h_root _ _ _ _ _ HO) as HR. destruct (_ =? 2).
      + destruct HR as [_ HR]. rewrite HR in C. destruct C.
      + split; [apply (chain_valid _ _ _ HR c C)|apply (chain_nz v' _ _ W' HR c C)].
    - apply (proj2 (rep_used v' W') _ _ _ (h_kids _ _ _ _ _ HO) c C). }
  replace (2 + zlen rl + zlen l) with (2 + zlen (rl ++ l')) by (unfold zlen; rewrite app_length; lia).
  rewrite <- HH. apply dense; try assumption.
  - apply HO.
  - intros c C. apply USED. exact C.
  - intros c x C X. apply in_app_or in C. destruct C as [C|C].
    + apply USED. apply in_or_app. left. apply (IF c); assumption.
    + apply (LO c); assumption.
  - intros c V N. rewrite HH in V. destruct (in_dec Z.eq_dec c rl) as [I|I]; [apply in_or_app; auto|].
    destruct (in_dec Z.eq_dec c l') as [J|J]; [apply in_or_app; auto|]. exfalso. apply N.
    apply ZE; [exact V|]. split; [|exact J]. destruct (Z.eq_dec (fat_val v 0 c) 0) as [Q|Q]; [left; exact Q|].
    right. specialize (AU c V Q). apply in_app_or in AU. destruct AU; [contradiction|assumption].
  - intros c C. apply USED. exact C.
Qed.

(** * How much there is *)
Lemma eoc_not_bad v x : sp_eoc (vh v) x -> is_bad (sp_width (vh v)) x = false.
Proof.
  intros E. unfold sp_eoc in E. unfold is_bad. destruct (width_cases v) as [[K _]|[K _]]; rewrite K in *.
  - change (2 =? 2) with true in *. cbn iota in *. lia.
  - change (4 =? 2) with false in *. cbn iota in *. lia.
Qed.
Lemma chain_good v c l : wf v -> chain v c l -> forall x, In x l -> is_bad (sp_width (vh v)) (fat0 v x) = false.
Proof.
  intros W H. induction H as [c V E|c l V H IH]; intros x X.
  - destruct X as [<-|[]]. apply eoc_not_bad. exact E.
  - destruct X as [<-|X]; [|apply IH; exact X]. destruct (chain_head _ _ _ H) as [Vn _].
    destruct (valid_not_eoc v _ W Vn) as [_ B]. rewrite (type_eq v W) in B. exact B.
Qed.
Lemma rep_good v : wf v ->
  (forall c d t l, rep v c d t l -> forall x, In x l -> is_bad (sp_width (vh v)) (fat0 v x) = false) /\
  (forall rs ts l, reps v rs ts l -> forall x, In x l -> is_bad (sp_width (vh v)) (fat0 v x) = false).
Proof.
  intros W. apply rep_reps_ind.
  - intros x [].
  - intros c l CH x X. apply (chain_good v _ _ W CH x X).
  - intros c l ts k CH RS IH x X. apply in_app_or in X. destruct X as [X|X]; [|apply IH; exact X].
    apply (chain_good v _ _ W CH x X).
  - intros x [].
  - intros r rs t ts l k R IHR RS IHS x X. apply in_app_or in X. destruct X; auto.
Qed.
Lemma last_used_ok v : wf v -> forall n, Z.of_nat n <= sp_clusters (vh v) ->
  exists c, last_used n v = Ok c /\ 0 <= c <= Z.of_nat n /\
    (forall x, c <= x < Z.of_nat n -> fz v x \/ is_bad (sp_width (vh v)) (fat0 v x) = true) /\
    (0 < c -> ~ fz v (c - 1) /\ is_bad (sp_width (vh v)) (fat0 v (c - 1)) = false).
Proof.
  intros W. induction n as [|n IH]; intros L.
  - exists 0. split; [reflexivity|]. split; [lia|]. split; [intros x X; lia|lia].
  - cbn [last_used]. cbv zeta. rewrite read_fat_ok by (auto using nfats0; lia). cbn [bind].
    rewrite (type_eq v W). fold (fat0 v (Z.of_nat n)).
    destruct (Z.eqb_spec (fat0 v (Z.of_nat n)) 0) as [Q|Q]; cbn [negb andb].
    2: destruct (is_bad (sp_width (vh v)) (fat0 v (Z.of_nat n))) eqn:B; cbn [negb].
    3:{ exists (Z.of_nat (S n)). split; [reflexivity|]. split; [lia|]. split; [intros x X; lia|].
        intros _. replace (Z.of_nat (S n) - 1) with (Z.of_nat n) by lia. split; [exact Q|exact B]. }
    all: destruct IH as (c & E & R & A & C); [lia|]; exists c; split; [exact E|]; split; [lia|];
      split; [|exact C]; intros x X; destruct (Z.eq_dec x (Z.of_nat n)) as [->|N];
      [auto|apply A; lia].
Qed.
Lemma off_ok v c : wf v -> 2 <= c <= sp_clusters (vh v) ->
  u32 (u32 (sector_for_cluster (vh v) c + 1) * bps (vh v)) = sp_cluster_off (vh v) c + bps (vh v).
Proof.
  intros W C. assert (V : valid (vh v) c) by (unfold valid; lia).
  destruct (cluster_off_bounds v W c V) as (A & DD & E). pose proof (data_in v W) as [_ DI].
  unfold sector_for_cluster. rewrite (fds_eq v W).
  unfold valid in V. pose proof (clusters_small v W) as [C8 CS]. pose proof (bps_pos v W) as B.
  pose proof (wf_spc v W) as S. pose proof (tot_small v W) as T. pose proof (data_small v W) as DS.
  assert (E0 : 0 <= (c - 2) * spc (vh v)) by nia.
  assert (E1 : (c - 2) * spc (vh v) <= (sp_clusters (vh v) - 1) * spc (vh v)) by nia.
  rewrite (Lib.u32_small (c - 2)) by lia.
  rewrite (Lib.u32_small ((c - 2) * spc (vh v))) by lia.
  rewrite (Lib.u32_small ((c - 2) * spc (vh v) + sp_data_sector (vh v))) by lia.
  rewrite (Lib.u32_small ((c - 2) * spc (vh v) + sp_data_sector (vh v) + 1)) by lia.
  unfold sp_cluster_off in *.
  replace (((c - 2) * spc (vh v) + sp_data_sector (vh v) + 1) * bps (vh v))
    with ((sp_data_sector (vh v) + (c - 2) * spc (vh v)) * bps (vh v) + bps (vh v)) by ring.
  pose proof (wf_4g v W).
  assert (CZ : csize v = bps (vh v) * spc (vh v)) by reflexivity.
  (* the next cluster starts after the sector, and a cluster follows *)
  assert (V2 : valid (vh v) (c + 1)) by (unfold valid; lia).
  destruct (cluster_off_bounds v W (c + 1) V2) as (_ & _ & E2). unfold sp_cluster_off in E2.
  assert (N1 : (sp_data_sector (vh v) + (c + 1 - 2) * spc (vh v)) * bps (vh v) =
               (sp_data_sector (vh v) + (c - 2) * spc (vh v)) * bps (vh v) + bps (vh v) * spc (vh v)) by ring.
  rewrite N1 in E2. assert (bps (vh v) <= bps (vh v) * spc (vh v)) by (clear -B S; nia).
  apply Lib.u32_small. lia.
Qed.
(** the two sizes the boot loaders compare *)
Theorem sizes_agree v n : wf v -> 1 <= n -> 0 <= n ->
  sp_eoc (vh v) (fat_val v 0 0) -> fat_val v 0 1 <> 0 ->
  (forall c, valid (vh v) c -> (~ free v c <-> c < 2 + n)) ->
  (forall c, valid (vh v) c -> c < 2 + n -> is_bad (sp_width (vh v)) (fat_val v 0 c) = false) ->
  let c := Z.min (2 + n) (sp_clusters (vh v)) in
  first_free_off v = Ok (sp_cluster_off (vh v) c + bps (vh v)) /\
  used_bytes v = Ok (sp_cluster_off (vh v) c + bps (vh v)).
Proof.
  intros W N _ E0 E1 U G c. pose proof (wf_type v W) as WT.
  assert (DEC : forall x, fz v x \/ ~ fz v x) by (intros x; unfold fz; lia).
  assert (NZ : forall x, 0 <= x < c -> ~ fz v x).
  { intros x X. destruct (Z.eq_dec x 0) as [->|N0]; [apply (eoc_nz v _ W E0)|].
    destruct (Z.eq_dec x 1) as [->|N1]; [exact E1|]. apply U; [unfold valid, c in *; lia|unfold c in *; lia]. }
  split.
  - unfold first_free_off. rewrite (count_eq v W).
    destruct (first_zero_ok v W (Z.to_nat (sp_clusters (vh v))) 0) as (f0 & F0 & B0 & L0 & Z0);
      [lia|lia|intros x X; lia|]. rewrite F0. cbn [bind].
    assert (f0 = c).
    { destruct (Z.lt_trichotomy f0 c) as [Q|[Q|Q]]; [|exact Q|].
      - exfalso. apply (NZ f0); [lia|]. apply Z0. unfold c in Q. lia.
      - exfalso. apply (L0 c); [unfold c in *; lia|]. unfold c in *.
        rewrite Z.min_l by lia. destruct (DEC (2 + n)) as [D|D]; [exact D|].
        exfalso. assert (V : valid (vh v) (2 + n)) by (unfold valid; lia). apply (U _ V) in D. lia. }
    subst f0. rewrite off_ok by (auto; unfold c; lia). reflexivity.
  - unfold used_bytes. rewrite (count_eq v W).
    destruct (last_used_ok v W (Z.to_nat (sp_clusters (vh v)))) as (k & K & B & A & C); [lia|].
    rewrite K. cbn [bind].
    assert (GC : ~ (fz v (c - 1) \/ is_bad (sp_width (vh v)) (fat0 v (c - 1)) = true)).
    { intros [Q|Q].
      - apply (NZ (c - 1)); [unfold c; lia|exact Q].
      - unfold fat0 in Q. rewrite G in Q; [discriminate|unfold valid, c; lia|unfold c; lia]. }
    assert (k = c).
    { destruct (Z.lt_trichotomy k c) as [Q|[Q|Q]]; [|exact Q|].
      - exfalso. apply GC. apply A. unfold c in *. lia.
      - exfalso. destruct C as [C1 _]; [unfold c in *; lia|]. unfold c in Q.
        assert (V : valid (vh v) (k - 1)) by (unfold valid; lia).
        apply (U _ V) in C1. lia. }
    subst k. replace (c =? 0) with false by (unfold c; lia).
    rewrite off_ok by (auto; unfold c; lia). reflexivity.
Qed.
Theorem compact_sizes v rl rs ts l d fuel : wf v -> holds v rl rs ts l -> root_fits v ->
  (exists c, valid (vh v) c /\ free v c) -> (depths ts < d)%nat ->
  2 * sp_clusters (vh v) + 3 < Z.of_nat fuel -> all_used v (rl ++ l) -> in_front rl ->
  rl ++ l <> [] ->
  exists v', compact d fuel v = Ok v' /\
    let c := Z.min (2 + zlen rl + zlen l) (sp_clusters (vh v)) in
    first_free_off v' = Ok (sp_cluster_off (vh v) c + bps (vh v)) /\
    used_bytes v' = Ok (sp_cluster_off (vh v) c + bps (vh v)).
Proof.
  intros W H RF FR D FU AU IF NE.
  destruct (compact_dense v rl rs ts l d fuel W H RF FR D FU AU IF) as (v' & E & U).
  destruct (compact_ok v rl rs ts l d fuel W H RF FR D FU)
    as (v2 & l' & E2 & W' & HH & _ & HO & _ & LN & ZE & _).
  rewrite E in E2. injection E2 as <-. exists v'. split; [exact E|]. rewrite <- HH.
  rewrite <- Z.add_assoc. apply (sizes_agree v' (zlen rl + zlen l)).
  - exact W'.
  - destruct (rl ++ l) as [|x r] eqn:Q; [congruence|]. assert (zlen (rl ++ l) = 1 + zlen r) by (rewrite Q, zlen_cons; lia).
    rewrite zlen_app in H0. pose proof (zlen_nonneg r). lia.
  - pose proof (zlen_nonneg rl). pose proof (zlen_nonneg l). lia.
  - apply HO.
  - apply HO.
  - intros c V. rewrite HH in V. rewrite (U c V). lia.
  - intros c V L. rewrite HH in V. assert (NF : ~ free v' c) by (apply U; [exact V|lia]).
    assert (I : In c rl \/ In c l').
    { destruct (in_dec Z.eq_dec c rl) as [I|I]; [auto|]. right.
      destruct (in_dec Z.eq_dec c l') as [J|J]; [exact J|]. exfalso. apply NF.
      apply ZE; [exact V|]. split; [|exact J]. destruct (Z.eq_dec (fat_val v 0 c) 0) as [Q|Q]; [left; exact Q|].
      right. specialize (AU c V Q). apply in_app_or in AU. destruct AU; [contradiction|assumption]. }
    destruct I as [I|I].
    + pose proof (h_root _ _ _ _ _ HO) as HR. destruct (_ =? 2) eqn:Q2.
      * destruct HR as [_ HR]. rewrite HR in I. destruct I.
      * apply (chain_good v' _ _ W' HR c I).
    + apply (proj2 (rep_good v' W') _ _ _ (h_kids _ _ _ _ _ HO) c I).
Qed.
