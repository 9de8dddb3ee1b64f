(** Moving the data of a FAT volume forward: proofs. *)
From Verif Require Import Lib Fat_Model Fat_Spec Fat_Proofs Fat_Proofs2 Fat_Proofs4
  Fatdir_Model Fatdir_Spec Fatdir_Proofs Fatdir_Proofs2 Fatdir_Proofs3 Fatdir_Proofs4
  Fatcomp_Model Fatcomp_Spec Fatcomp_Proofs Fatcomp_Proofs2 Fatcomp_Proofs3 Fatcomp_Proofs4
  Fatcomp_Proofs5 Fatcomp_Proofs6 Fatcomp_Proofs7 Fatalign_Spec.

Lemma bad_iff v x : wf v -> is_bad (sp_width (vh v)) x = true <-> sp_bad (vh v) x.
Proof.
  intros W. unfold is_bad, sp_bad. destruct (width_cases v) as [[K _]|[K _]]; rewrite K.
  - change (2 =? 2) with true. cbn iota. lia.
  - change (4 =? 2) with false. cbn iota. lia.
Qed.
Lemma used_ok v c : wf v -> last v c -> used_bytes v = Ok (used_end (vh v) c).
Proof.
  intros W [R U A]. unfold used_bytes. rewrite (count_eq v W).
  destruct (last_used_ok v W (Z.to_nat (sp_clusters (vh v)))) as (k & K & B & A2 & C); [lia|].
  rewrite K. cbn [bind]. assert (k = c + 1).
  { destruct (Z.lt_trichotomy k (c + 1)) as [Q|[Q|Q]]; [|exact Q|].
    - exfalso. destruct (A2 c) as [F|F]; [lia|apply (proj1 U); exact F|].
      apply (bad_iff v _ W) in F. apply (proj2 U). exact F.
    - exfalso. destruct C as [C1 C2]; [lia|]. destruct (A (k - 1)) as [F|F]; [lia|apply C1; exact F|].
      apply (bad_iff v _ W) in F. unfold fat0 in C2. congruence. }
  subst k. replace (c + 1 =? 0) with false by lia. unfold used_end. rewrite off_ok by (auto; lia). reflexivity.
Qed.
Lemma shifted_data h n : sp_data_sector (shifted h n) = sp_data_sector h + n.
Proof. unfold sp_data_sector, sp_root_sectors. cbn [shifted rsvd nfats rootent bps]. change (FATSz (shifted h n)) with (FATSz h). ring. Qed.
Lemma shifted_off h n c : sp_cluster_off (shifted h n) c = sp_cluster_off h c + n * bps h.
Proof. unfold sp_cluster_off. rewrite shifted_data. cbn [shifted spc bps]. ring. Qed.
Lemma shifted_fat h n k c : sp_width (shifted h n) = sp_width h ->
  sp_fat_off (shifted h n) k c = sp_fat_off h k c + n * bps h.
Proof. intros E. unfold sp_fat_off. rewrite E. cbn [shifted rsvd bps]. change (FATSz (shifted h n)) with (FATSz h). ring. Qed.

Section Move.
  Variables (v : vol) (page c : Z).
  Hypothesis W : wf v.
  Hypothesis M : movable v page c.
  Notation h := (vh v).
  Notation g := (gap h page).
  Notation n := (g / bps h).

  Lemma gap_rng : 0 < g < page.
  Proof.
    pose proof (mo_page _ _ _ M). pose proof (mo_not _ _ _ M). unfold gap.
    pose proof (Z.mod_pos_bound (sp_data_sector h * bps h) page). lia.
  Qed.
  Lemma gap_mult : g = n * bps h.
  Proof.
    pose proof (bps_pos v W) as B. pose proof (mo_mult _ _ _ M) as D. pose proof (mo_page _ _ _ M) as P.
    assert (E : g mod bps h = 0).
    { unfold gap. apply Z.mod_divide; [lia|]. apply Z.mod_divide in D; [|lia]. apply Z.divide_sub_r; [exact D|].
      rewrite Z.mod_eq by lia. apply Z.divide_sub_r; [apply Z.divide_factor_r|].
      apply Z.divide_mul_l. exact D. }
    pose proof (Z.div_mod g (bps h)). lia.
  Qed.
  Lemma after_aligned : ((sp_data_sector h + n) * bps h) mod page = 0.
  Proof.
    rewrite Z.mul_add_distr_r, <- gap_mult. unfold gap. pose proof (mo_page _ _ _ M) as P.
    set (d := sp_data_sector h * bps h). replace (d + (page - d mod page)) with ((d / page + 1) * page).
    - apply Z.mod_mul. lia.
    - pose proof (Z.div_mod d page). lia.
  Qed.
  Lemma used_rng : rsvd h * bps h < used_end h c /\ sp_data_sector h * bps h < used_end h c.
  Proof.
    destruct (mo_last _ _ _ M) as [R _ _].
    assert (V : valid h (c + 1)) by (unfold valid; lia).
    destruct (cluster_off_bounds v W (c + 1) V) as (A & _ & _).
    pose proof (bps_pos v W) as B. unfold used_end. split; [|lia].
    assert (rsvd h * bps h <= sp_data_sector h * bps h); [|lia].
    apply Z.mul_le_mono_nonneg_r; [lia|]. unfold sp_data_sector. pose proof (root_nonneg v W).
    pose proof (data_small v W). lia.
  Qed.
  Lemma align_run : exists m, align v page = Ok (Vol (shifted h n) (vsz v) m) /\
    (forall a, rsvd h * bps h <= a < used_end h c -> m (a + g) = vm v a) /\
    (forall a, a < rsvd h * bps h \/ used_end h c + g <= a -> m a = vm v a) /\
    (forall a, 0 <= m a < 256).
  Proof.
    pose proof gap_rng as G. pose proof gap_mult as GM. pose proof used_rng as [U1 U2].
    pose proof (bps_pos v W) as B. pose proof (mo_room _ _ _ M) as RO. pose proof (mo_rsvd _ _ _ M) as RV.
    pose proof (wf_4g v W) as G4. pose proof (wf_rsvd v W) as RS.
    pose proof (data_small v W) as DS. pose proof (tot_small v W) as TS.
    assert (N0 : 0 <= n) by (apply Z.div_pos; lia).
    assert (R0 : 512 <= rsvd h * bps h) by nia.
    unfold align. cbv zeta. rewrite (used_ok v c W (mo_last _ _ _ M)). cbn [bind].
    rewrite (fds_eq v W).
    rewrite (Lib.u32_small (sp_data_sector h * bps h)) by lia.
    fold g.
    rewrite (Lib.u32_small (rsvd h * bps h)) by lia.
    rewrite (Lib.u32_small (used_end h c - rsvd h * bps h)) by lia.
    replace (page mod bps h =? 0) with true by (rewrite (mo_mult _ _ _ M); reflexivity).
    replace (g mod bps h =? 0) with true by (rewrite GM, Z.mod_mul by lia; reflexivity).
    cbn [negb orb]. replace (g =? 0) with false by lia.
    assert (AF : aligned h page = false).
    { unfold aligned. rewrite (fds_eq v W), (Lib.u32_small (sp_data_sector h * bps h)) by lia.
      pose proof (mo_not _ _ _ M). lia. }
    rewrite AF.
    rewrite ld_ok by lia. cbn [bind].
    rewrite st_ok by (rewrite ?bytes_len; lia). cbn [bind].
    assert (WR : wrap 16 (rsvd h + n) = rsvd h + n) by (unfold wrap; apply Z.mod_small; lia).
    rewrite WR. change (Hdr _ _ (rsvd h + n) _ _ _ _ _ _ _) with (shifted h n).
    assert (AT : aligned (shifted h n) page = true).
    { unfold aligned. replace (first_data_sector (shifted h n)) with (sp_data_sector h + n).
      - cbn [shifted bps]. rewrite (Lib.u32_small ((sp_data_sector h + n) * bps h)).
        + rewrite after_aligned. reflexivity.
        + rewrite Z.mul_add_distr_r, <- GM. lia.
      - unfold first_data_sector. change (root_dir_sectors (shifted h n)) with (root_dir_sectors h).
        rewrite (root_eq v W). cbn [shifted rsvd nfats]. change (FATSz (shifted h n)) with (FATSz h).
        unfold sp_data_sector in *. rewrite (Lib.u32_small (nfats h * FATSz h)) by lia.
        rewrite Lib.u32_small; [ring|]. lia. }
    rewrite AT. cbn [negb].
    rewrite st_ok.
    2: lia.
    2:{ unfold zlen. rewrite repeat_length. cbn [vsz]. lia. }
    cbn [bind vsz vm]. eexists. split; [reflexivity|].
    assert (LR : zlen (repeat 0 (Z.to_nat g)) = g) by (unfold zlen; rewrite repeat_length; lia).
    split; [|split].
    - intros a A. rewrite upd_out by (rewrite LR; lia).
      rewrite upd_in by (rewrite bytes_len; lia). rewrite bytes_nth by lia. f_equal. lia.
    - intros a A. rewrite upd_out by (rewrite LR; lia). rewrite upd_out by (rewrite bytes_len; lia). reflexivity.
    - intros a. unfold upd. destruct ((rsvd h * bps h <=? a) && _) eqn:Q1.
      + unfold znth. rewrite nth_repeat. lia.
      + destruct ((rsvd h * bps h + g <=? a) && _) eqn:Q2; [|apply (wf_byte v W)].
        rewrite bytes_len in Q2 by lia. rewrite bytes_nth by lia. apply (wf_byte v W).
  Qed.
End Move.

(** * The same tree elsewhere *)
Definition kept (v v' : vol) (l : list Z) : Prop := forall x, In x l ->
  valid (vh v') x /\ fat_val v' 0 x = fat_val v 0 x /\ cdata v' x = cdata v x.
Lemma chain_moved v v' c l : sp_width (vh v') = sp_width (vh v) -> kept v v' l ->
  chain v c l -> chain v' c l.
Proof.
  intros E K H. revert K. induction H as [c V Q|c l V H IH]; intros K.
  - destruct (K c) as (V' & F & _); [left; reflexivity|]. apply chain_last; [exact V'|].
    rewrite F. unfold sp_eoc in *. rewrite E. exact Q.
  - destruct (K c) as (V' & F & _); [left; reflexivity|]. apply chain_cons; [exact V'|].
    rewrite F. apply IH. intros x X. apply K. right. exact X.
Qed.
Lemma kept_app v v' l k : kept v v' (l ++ k) -> kept v v' l /\ kept v v' k.
Proof. intros K. split; intros x X; apply K, in_or_app; auto. Qed.
Lemma kept_data v v' l : kept v v' l -> map (cdata v') l = map (cdata v) l.
Proof. intros K. apply map_ext_in. intros x X. apply K. exact X. Qed.
Lemma raws_moved v v' l : wf v -> wf v' -> csize v' = csize v -> kept v v' l ->
  map (raw v') (slots v' l) = map (raw v) (slots v l).
Proof.
  intros W W' C K. rewrite !raws_data by assumption. rewrite (kept_data v v' l K).
  unfold epc. rewrite C. reflexivity.
Qed.
Lemma rep_moved v v' : wf v -> wf v' -> csize v' = csize v -> sp_width (vh v') = sp_width (vh v) ->
  (forall c d t l, rep v c d t l -> kept v v' l -> rep v' c d t l) /\
  (forall rs ts l, reps v rs ts l -> kept v v' l -> reps v' rs ts l).
Proof.
  intros W W' C E. apply rep_reps_ind.
  - intros _. constructor.
  - intros c l CH K. replace (content v l) with (content v' l).
    + constructor. apply (chain_moved v); assumption.
    + unfold content. rewrite (kept_data v v' l K). reflexivity.
  - intros c l ts k CH RS IH K. apply kept_app in K. destruct K as [K1 K2].
    rewrite <- (raws_moved v v' l W W' C K1) in *. apply rep_dir.
    + apply (chain_moved v); assumption.
    + apply IH. exact K2.
  - intros _. constructor.
  - intros r rs t ts l k R IHR RS IHS K. apply kept_app in K. destruct K as [K1 K2]. constructor; auto.
Qed.

Theorem align_ok v page c : wf v -> movable v page c ->
  exists v', align v page = Ok v' /\ vh v' = shifted (vh v) (gap (vh v) page / bps (vh v)) /\
    vsz v' = vsz v /\ (sp_data_sector (vh v') * bps (vh v')) mod page = 0 /\
    (forall a, rsvd (vh v) * bps (vh v) <= a < used_end (vh v) c ->
       vm v' (a + gap (vh v) page) = vm v a) /\
    (forall a, a < rsvd (vh v) * bps (vh v) -> vm v' a = vm v a) /\
    (same_kind (vh v) (vh v') -> wf v' /\
       (forall k x, 0 <= k < nfats (vh v) -> 0 <= x < sp_clusters (vh v) + 2 ->
          fat_val v' k x = fat_val v k x) /\
       (forall x, 2 <= x <= c -> cdata v' x = cdata v x)).
Proof.
  intros W M. destruct (align_run v page c W M) as (m & E & IN & OUT & BY).
  pose proof (gap_mult v page c W M) as GM. pose proof (gap_rng v page c M) as G.
  pose proof (bps_pos v W) as B. pose proof (used_rng v page c W M) as [U1 U2].
  destruct (mo_last _ _ _ M) as [LR _ _].
  set (n := gap (vh v) page / bps (vh v)) in *. set (g := gap (vh v) page) in *.
  eexists. split; [exact E|]. cbn [vh vsz vm]. split; [reflexivity|]. split; [reflexivity|].
  split. { rewrite shifted_data. cbn [shifted bps]. apply (after_aligned v page c W M). }
  split; [exact IN|]. split. { intros a A. apply OUT. auto. }
  intros [SD SM SW].
  assert (N0 : 0 <= n) by (apply Z.div_pos; lia).
  assert (CL : sp_clusters (shifted (vh v) n) <= sp_clusters (vh v)).
  { unfold sp_clusters. rewrite shifted_data. change (TotSec (shifted (vh v) n)) with (TotSec (vh v)).
    cbn [shifted spc]. pose proof (wf_spc v W). apply Z.div_le_mono; lia. }
  split.
  { destruct W. constructor; cbn [vh vsz vm]; auto.
    - cbn [shifted rsvd]. pose proof (mo_rsvd _ _ _ M) as Q. fold g in Q. fold n in Q. lia.
    - rewrite SW. change (FATSz (shifted (vh v) n)) with (FATSz (vh v)). cbn [shifted bps].
      etransitivity; [|exact wf_table]. apply Z.mul_le_mono_nonneg_r; [|lia].
      destruct (width_cases v); lia. }
  split.
  - intros k x K X. destruct (fat_off_bounds v W k x K X) as (A1 & _ & A2).
    unfold fat_val. cbn [vh vm]. cbv zeta. rewrite shifted_fat, SW by exact SW. fold n. rewrite <- GM.
    set (p := sp_fat_off (vh v) k x) in *.
    assert (P1 : rsvd (vh v) * bps (vh v) <= p).
    { pose proof (wf_fatsz v W). etransitivity; [|exact A1]. apply Z.mul_le_mono_nonneg_r; [lia|nia]. }
    assert (Q : forall i, 0 <= i < sp_width (vh v) -> m (p + g + i) = vm v (p + i)).
    { intros i I. rewrite <- (IN (p + i)) by lia. f_equal. lia. }
    destruct (width_cases v) as [[K2 _]|[K2 _]]; rewrite K2 in *.
    + change (2 =? 2) with true. cbn iota. rewrite <- (Q 1) by lia.
      replace (m (p + g)) with (vm v p); [reflexivity|].
      rewrite <- (Z.add_0_r p) at 1. rewrite <- Q by lia. f_equal. lia.
    + change (4 =? 2) with false. cbn iota. rewrite <- (Q 1), <- (Q 2), <- (Q 3) by lia.
      replace (m (p + g)) with (vm v p); [reflexivity|].
      rewrite <- (Z.add_0_r p) at 1. rewrite <- Q by lia. f_equal. lia.
  - intros x X. unfold cdata. cbn [vm vh]. rewrite shifted_off. rewrite <- GM.
    change (csize (Vol (shifted (vh v) n) (vsz v) m)) with (csize v).
    apply bytes_ext. intros i I.
    assert (V : valid (vh v) x) by (unfold valid; lia).
    destruct (cluster_off_bounds v W x V) as (A & _ & _).
    replace (sp_cluster_off (vh v) x + g + i) with (sp_cluster_off (vh v) x + i + g) by ring.
    apply IN. split.
    + unfold sp_data_sector in *. pose proof (data_small v W). pose proof (root_nonneg v W).
      assert (rsvd (vh v) * bps (vh v) <= sp_data_sector (vh v) * bps (vh v)).
      { apply Z.mul_le_mono_nonneg_r; [lia|]. unfold sp_data_sector. lia. }
      unfold sp_data_sector in *. lia.
    + unfold used_end. assert (sp_cluster_off (vh v) x + csize v <= sp_cluster_off (vh v) (c + 1)); [|lia].
      unfold sp_cluster_off, csize. pose proof (wf_spc v W).
      assert (0 <= (c - x) * spc (vh v) * bps (vh v)) by (apply Z.mul_nonneg_nonneg; [apply Z.mul_nonneg_nonneg; lia|lia]).
      lia.
Qed.

(** the tree *)
Theorem align_keeps v page c rl rs ts l : wf v -> movable v page c -> holds v rl rs ts l -> root_fits v ->
  let h' := shifted (vh v) (gap (vh v) page / bps (vh v)) in
  same_kind (vh v) h' -> (forall x, In x (rl ++ l) -> x < sp_clusters (vh v) /\ valid h' x) ->
  exists v', align v page = Ok v' /\ wf v' /\ vh v' = h' /\ vsz v' = vsz v /\
    (sp_data_sector h' * bps h') mod page = 0 /\ holds v' rl rs ts l.
Proof.
  intros W M H RF h' SK LV.
  destruct (align_ok v page c W M) as (v' & E & EH & ES & AL & IN & _ & REST).
  fold h' in EH. rewrite EH in *. destruct (REST SK) as (W' & FV & CD). clear REST.
  exists v'. split; [exact E|]. split; [exact W'|]. split; [exact EH|]. split; [exact ES|]. split; [exact AL|].
  destruct H as [HR HS HK HN H0 H1]. pose proof (wf_type v W) as WT. pose proof (wf_nfats v W) as NF.
  assert (SW : sp_width (vh v') = sp_width (vh v)) by (rewrite EH; apply SK).
  assert (CZ : csize v' = csize v) by (unfold csize; rewrite EH; reflexivity).
  assert (KE : kept v v' (rl ++ l)).
  { intros x X. destruct (LV x X) as [L V]. rewrite EH. split; [exact V|]. split; [apply FV; unfold valid in V; lia|].
    apply CD. destruct (mo_last _ _ _ M) as [LR LU LA]. split; [unfold valid in V; lia|].
    destruct (Z_le_gt_dec x c) as [Q|Q]; [exact Q|]. exfalso.
    assert (USED : ~ fz v x /\ is_bad (sp_width (vh v)) (fat0 v x) = false).
    { apply in_app_or in X. destruct X as [X|X].
      - destruct (sp_width (vh v) =? 2). { destruct HR as [_ HR]. rewrite HR in X. destruct X. }
        split; [apply (chain_nz v _ _ W HR x X)|apply (chain_good v _ _ W HR x X)].
      - split; [apply (proj2 (rep_used v W) _ _ _ HK x X)|apply (proj2 (rep_good v W) _ _ _ HK x X)]. }
    destruct (LA x) as [F|F]; [lia|apply USED; exact F|].
    apply (bad_iff v _ W) in F. destruct USED as [_ US]. unfold fat0 in US. congruence. }
  destruct (kept_app _ _ _ _ KE) as [K1 K2].
  assert (RW : map (raw v') (root_slots v' rl) = map (raw v) (root_slots v rl)).
  { unfold root_slots. rewrite SW. destruct (Z.eqb_spec (sp_width (vh v)) 2) as [Q|Q]; [|apply raws_moved; assumption].
    unfold epc at 1. rewrite CZ. fold (epc v). rewrite !map_map. apply map_ext_in. intros i I.
    apply in_seq in I. unfold raw. apply bytes_ext. intros j J. unfold rslot. rewrite EH.
    cbn [h' shifted rsvd nfats bps]. change (FATSz h') with (FATSz (vh v)).
    pose proof (gap_mult v page c W M) as GM. specialize (RF Q). unfold rslot in RF.
    pose proof (used_rng v page c W M) as [U1 U2]. pose proof (data_small v W) as [_ DS]. pose proof (bps_pos v W) as B.
    rewrite <- (IN ((rsvd (vh v) + nfats (vh v) * FATSz (vh v)) * bps (vh v) + 32 * Z.of_nat i + j)).
    - f_equal. rewrite GM at 2. unfold h'. cbn [shifted rsvd nfats bps]. change (FATSz (shifted _ _)) with (FATSz (vh v)). ring.
    - assert (0 <= nfats (vh v) * FATSz (vh v) * bps (vh v)) by (apply Z.mul_nonneg_nonneg; lia). lia. }
  constructor.
  - rewrite SW. destruct (sp_width (vh v) =? 2).
    + rewrite EH. exact HR.
    + rewrite EH. change (rootclus h') with (rootclus (vh v)). apply (chain_moved v); assumption.
  - rewrite RW. exact HS.
  - apply (proj2 (rep_moved v v' W W' CZ SW)); assumption.
  - exact HN.
  - rewrite FV by lia. unfold sp_eoc in *. rewrite SW. exact H0.
  - rewrite FV by lia. exact H1.
Qed.
