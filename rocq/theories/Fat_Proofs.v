(** Geometry, the file allocation table, bytes. *)
From Verif Require Import Lib Fat_Model Fat_Spec.

Section WF.
Variable v : vol.
Hypothesis W : wf v.
Notation h := (vh v).

Lemma bps_cases : bps h = 512 \/ bps h = 1024 \/ bps h = 2048 \/ bps h = 4096.
Proof. destruct (wf_bps v W) as [E|[E|[E|[E|[]]]]]; auto. Qed.

Lemma bps_pos : 512 <= bps h <= 4096.
Proof. destruct bps_cases as [E|[E|[E|E]]]; lia. Qed.

Lemma bps32 : exists q, bps h = 32 * q /\ 16 <= q.
Proof. destruct bps_cases as [E|[E|[E|E]]]; rewrite E; [exists 16|exists 32|exists 64|exists 128]; lia. Qed.

Lemma root_nonneg : 0 <= sp_root_sectors h.
Proof.
  unfold sp_root_sectors. pose proof bps_pos. pose proof (wf_rootent v W).
  apply Z.div_pos; lia.
Qed.

Lemma tot_small : 0 <= TotSec h <= 8388608.
Proof.
  pose proof bps_pos. pose proof (wf_size v W). pose proof (wf_4g v W).
  pose proof (wf_tot v W). unfold sp_data_sector in *. pose proof root_nonneg.
  pose proof (wf_rsvd v W). pose proof (wf_nfats v W). pose proof (wf_fatsz v W). nia.
Qed.

Lemma data_small : 2 <= sp_data_sector h <= TotSec h /\ 0 <= nfats h * FATSz h <= TotSec h.
Proof.
  pose proof (wf_tot v W) as T. unfold sp_data_sector in *. pose proof root_nonneg.
  pose proof (wf_rsvd v W). pose proof (wf_nfats v W). pose proof (wf_fatsz v W). nia.
Qed.

Lemma root_eq : root_dir_sectors h = sp_root_sectors h.
Proof.
  unfold root_dir_sectors, sp_root_sectors. pose proof bps_pos. pose proof (wf_rootent v W).
  rewrite Lib.u32_small by lia. f_equal. lia.
Qed.

Lemma fds_eq : first_data_sector h = sp_data_sector h.
Proof.
  unfold first_data_sector. rewrite root_eq. pose proof data_small. pose proof tot_small.
  unfold sp_data_sector in *. rewrite (Lib.u32_small (nfats h * FATSz h)) by lia.
  apply Lib.u32_small. lia.
Qed.

Lemma count_eq : cluster_count h = sp_clusters h.
Proof.
  unfold cluster_count, sp_clusters. change (u32 (rsvd h + u32 (nfats h * FATSz h) + root_dir_sectors h))
    with (first_data_sector h). rewrite fds_eq.
  pose proof data_small. pose proof tot_small. rewrite Lib.u32_small by lia. reflexivity.
Qed.

Lemma type_eq : fat_type h = sp_width h.
Proof.
  unfold fat_type, sp_width. rewrite count_eq. pose proof (wf_type v W).
  destruct (sp_clusters h <? 4085) eqn:E; [lia|reflexivity].
Qed.

Lemma width_cases : (sp_width h = 2 /\ sp_clusters h < 65525) \/
                    (sp_width h = 4 /\ 65525 <= sp_clusters h).
Proof. unfold sp_width. destruct (sp_clusters h <? 65525) eqn:E; lia. Qed.

Lemma clusters_small : sp_clusters h <= 8388608 /\ sp_clusters h * spc h <= TotSec h - sp_data_sector h.
Proof.
  pose proof (wf_spc v W) as S. pose proof data_small. pose proof tot_small.
  unfold sp_clusters.
  pose proof (Z.mul_div_le (TotSec h - sp_data_sector h) (spc h) ltac:(lia)) as M.
  pose proof (Z.div_pos (TotSec h - sp_data_sector h) (spc h) ltac:(lia) ltac:(lia)) as P.
  nia.
Qed.

(** table entries *)
Lemma entry_ptr_eq k c : 0 <= k < nfats h -> 0 <= c < sp_clusters h + 2 ->
  entry_ptr h (sp_width h) k c = sp_fat_off h k c.
Proof.
  intros K C. unfold entry_ptr, sp_fat_off.
  pose proof (wf_table v W) as T. pose proof bps_pos as B.
  pose proof data_small as D. pose proof tot_small as TS. pose proof clusters_small as [CS _].
  pose proof (wf_rsvd v W) as R. pose proof (wf_fatsz v W) as FS.
  assert (W1 : 2 <= sp_width h <= 4) by (destruct width_cases; lia).
  assert (O1 : 0 <= c * sp_width h) by nia.
  assert (O2 : c * sp_width h < FATSz h * bps h) by nia.
  assert (O3 : c * sp_width h < 4294967296) by nia.
  rewrite (Lib.u32_small (c * sp_width h)) by lia.
  pose proof (Z.div_mod (c * sp_width h) (bps h) ltac:(lia)) as DM.
  pose proof (Z.mod_pos_bound (c * sp_width h) (bps h) ltac:(lia)) as MB.
  set (q := c * sp_width h / bps h) in *. set (r := (c * sp_width h) mod bps h) in *.
  assert (Q : 0 <= q < FATSz h) by (clear - DM MB O1 O2 B; nia).
  pose proof root_nonneg as RN.
  assert (X : k * FATSz h + rsvd h + q < sp_data_sector h)
    by (unfold sp_data_sector; clear - K Q R RN; nia).
  assert (X0 : 0 <= k * FATSz h) by (clear - K FS; nia).
  rewrite (Lib.u32_small (k * FATSz h + rsvd h + q)) by lia.
  pose proof (wf_size v W). pose proof (wf_4g v W).
  assert (Y : (k * FATSz h + rsvd h + q) * bps h < 4294967296) by nia.
  rewrite Lib.u32_small by nia. rewrite DM. ring.
Qed.

(** all table bytes are before the data area, table [k] before table [k+1] *)
Lemma fat_off_bounds k c : 0 <= k < nfats h -> 0 <= c < sp_clusters h + 2 ->
  (rsvd h + k * FATSz h) * bps h <= sp_fat_off h k c /\
  sp_fat_off h k c + sp_width h <= (rsvd h + (k + 1) * FATSz h) * bps h /\
  sp_fat_off h k c + sp_width h <= sp_data_sector h * bps h.
Proof.
  intros K C. unfold sp_fat_off. pose proof (wf_table v W) as T. pose proof bps_pos as B.
  pose proof (wf_fatsz v W) as FS. pose proof root_nonneg as RN.
  assert (W1 : 2 <= sp_width h <= 4) by (destruct width_cases; lia).
  assert (E : c * sp_width h + sp_width h <= FATSz h * bps h) by nia.
  assert (E0 : 0 <= c * sp_width h) by nia.
  assert (D : (rsvd h + (k + 1) * FATSz h) * bps h <= sp_data_sector h * bps h).
  { apply Z.mul_le_mono_nonneg_r; [lia|]. unfold sp_data_sector. nia. }
  split; [lia|]. split; [|eapply Z.le_trans; [|exact D]];
  replace ((rsvd h + (k + 1) * FATSz h) * bps h)
    with ((rsvd h + k * FATSz h) * bps h + FATSz h * bps h) by ring; lia.
Qed.

Lemma data_in : sp_data_sector h * bps h <= vsz v /\ 1024 <= sp_data_sector h * bps h.
Proof.
  pose proof (wf_size v W). pose proof (wf_tot v W). pose proof bps_pos. pose proof data_small. nia.
Qed.

Lemma fat_in k c : 0 <= k < nfats h -> 0 <= c < sp_clusters h + 2 ->
  512 <= sp_fat_off h k c /\ sp_fat_off h k c + sp_width h <= vsz v.
Proof.
  intros K C. destruct (fat_off_bounds k c K C) as (A & _ & D). pose proof data_in as [E _].
  split; [|lia]. pose proof (wf_rsvd v W). pose proof (wf_fatsz v W). pose proof bps_pos.
  assert (512 <= (rsvd h + k * FATSz h) * bps h) by nia. lia.
Qed.

(** clusters *)
Lemma cluster_off_bounds c : valid h c ->
  sp_data_sector h * bps h <= sp_cluster_off h c /\
  sp_cluster_off h c + csize v <= TotSec h * bps h /\
  sp_cluster_off h c + csize v <= vsz v.
Proof.
  unfold valid, sp_cluster_off, csize. intros C.
  pose proof clusters_small as [_ CS]. pose proof bps_pos as B. pose proof (wf_spc v W) as S.
  pose proof (wf_size v W) as Z1.
  assert (E : (c - 2) * spc h + spc h <= sp_clusters h * spc h) by nia.
  assert (E0 : 0 <= (c - 2) * spc h) by nia.
  assert (X : (sp_data_sector h + (c - 2) * spc h) * bps h + bps h * spc h <= TotSec h * bps h).
  { replace ((sp_data_sector h + (c - 2) * spc h) * bps h + bps h * spc h)
      with ((sp_data_sector h + ((c - 2) * spc h + spc h)) * bps h) by ring.
    apply Z.mul_le_mono_nonneg_r; lia. }
  split; [|lia]. apply Z.mul_le_mono_nonneg_r; lia.
Qed.

Lemma cluster_ptr_eq c : valid h c -> cluster_ptr h c = sp_cluster_off h c.
Proof.
  intros C. pose proof (cluster_off_bounds c C) as (A & D & E). pose proof data_in as [_ DI].
  unfold cluster_ptr, sector_for_cluster. rewrite fds_eq.
  unfold valid in C. pose proof clusters_small as [C8 CS]. pose proof bps_pos as B.
  pose proof (wf_spc v W) as S. pose proof tot_small as T. pose proof data_small as DS.
  assert (E0 : 0 <= (c - 2) * spc h) by nia.
  assert (E1 : (c - 2) * spc h <= sp_clusters h * spc h) by nia.
  rewrite (Lib.u32_small (c - 2)) by lia.
  rewrite (Lib.u32_small ((c - 2) * spc h)) by lia.
  rewrite (Lib.u32_small ((c - 2) * spc h + sp_data_sector h)) by lia.
  unfold sp_cluster_off in *. replace (((c - 2) * spc h + sp_data_sector h) * bps h)
    with ((sp_data_sector h + (c - 2) * spc h) * bps h) by ring.
  pose proof (wf_4g v W). assert (0 < csize v) by (unfold csize; nia).
  apply Lib.u32_small. lia.
Qed.

Lemma clusters_apart c c' : c < c' -> sp_cluster_off h c + csize v <= sp_cluster_off h c'.
Proof.
  intros L. unfold sp_cluster_off, csize. pose proof bps_pos as B. pose proof (wf_spc v W) as S.
  assert (spc h <= (c' - c) * spc h) by nia. nia.
Qed.

Lemma csize_pos : 512 <= csize v <= 524288.
Proof. unfold csize. pose proof bps_pos. pose proof (wf_spc v W). nia. Qed.

Lemma csize32 : exists q, csize v = 32 * q /\ 16 <= q.
Proof.
  unfold csize. destruct bps32 as (q & E & Q). exists (q * spc h). rewrite E.
  pose proof (wf_spc v W). split; [ring|nia].
Qed.
End WF.

(** * Bytes *)
Lemma bytes_len m a n : 0 <= n -> zlen (bytes m a n) = n.
Proof. intros. unfold bytes, zlen. rewrite map_length, seq_length. lia. Qed.

Lemma bytes_nth m a n i : 0 <= i < n -> znth 0 (bytes m a n) i = m (a + i).
Proof.
  intros H. unfold znth, bytes.
  rewrite (nth_indep _ 0 (m (a + Z.of_nat 0))) by (rewrite map_length, seq_length; lia).
  rewrite (map_nth (fun i => m (a + Z.of_nat i)) (seq 0 (Z.to_nat n)) 0%nat).
  rewrite seq_nth by lia. f_equal. lia.
Qed.

Lemma bytes_ext m m' a a' n : (forall i, 0 <= i < n -> m (a + i) = m' (a' + i)) ->
  bytes m a n = bytes m' a' n.
Proof.
  intros H. unfold bytes. apply map_ext_in. intros i I. apply in_seq in I. apply H. lia.
Qed.

Lemma bytes_app m a n k : 0 <= n -> 0 <= k ->
  bytes m a (n + k) = bytes m a n ++ bytes m (a + n) k.
Proof.
  intros. apply (znth_ext 0).
  - rewrite zlen_app, !bytes_len by lia. reflexivity.
  - intros i I. rewrite bytes_len in I by lia. rewrite bytes_nth by lia.
    destruct (Z.ltb_spec i n).
    + rewrite znth_app1 by (rewrite bytes_len; lia). rewrite bytes_nth by lia. reflexivity.
    + rewrite znth_app2 by (rewrite bytes_len; lia). rewrite bytes_len by lia.
      rewrite bytes_nth by lia. f_equal. lia.
Qed.

Lemma bytes_0 m a : bytes m a 0 = [].
Proof. reflexivity. Qed.

Lemma ld_ok v a n : 0 <= a -> a + n <= vsz v -> ld v a n = Ok (bytes (vm v) a n).
Proof. intros. unfold ld. replace (_ && _) with true by lia. reflexivity. Qed.

Lemma st_ok v a d : 0 <= a -> a + zlen d <= vsz v ->
  st v a d = Ok (Vol (vh v) (vsz v) (upd (vm v) a d)).
Proof. intros. unfold st. replace (_ && _) with true by lia. reflexivity. Qed.

Lemma upd_in m a d x : a <= x < a + zlen d -> upd m a d x = znth 0 d (x - a).
Proof. intros. unfold upd. replace (_ && _) with true by lia. reflexivity. Qed.
Lemma upd_out m a d x : x < a \/ a + zlen d <= x -> upd m a d x = m x.
Proof. intros. unfold upd. replace (_ && _) with false by lia. reflexivity. Qed.

Lemma bytes_2 m a : bytes m a 2 = [m a; m (a + 1)].
Proof.
  unfold bytes. change (Z.to_nat 2) with 2%nat. cbn [seq map].
  replace (a + Z.of_nat 0) with a by lia. reflexivity.
Qed.
Lemma bytes_4 m a : bytes m a 4 = [m a; m (a + 1); m (a + 2); m (a + 3)].
Proof.
  unfold bytes. change (Z.to_nat 4) with 4%nat. cbn [seq map].
  replace (a + Z.of_nat 0) with a by lia. reflexivity.
Qed.
Lemma bytes_1 m a : bytes m a 1 = [m a].
Proof.
  unfold bytes. change (Z.to_nat 1) with 1%nat. cbn [seq map].
  replace (a + Z.of_nat 0) with a by lia. reflexivity.
Qed.

(** masks *)
Lemma land28 x : Z.land x 268435455 = x mod 268435456.
Proof. change 268435455 with (Z.ones 28). rewrite Z.land_ones by lia. reflexivity. Qed.
Lemma land_hi4 x : 0 <= x < 4294967296 -> Z.land x 4026531840 = x / 268435456 * 268435456.
Proof.
  intros H. change 4026531840 with (Z.shiftl (Z.ones 4) 28).
  apply Z.bits_inj'. intros n N. rewrite Z.land_spec.
  change 268435456 with (2 ^ 28). rewrite <- Z.shiftl_mul_pow2, <- Z.shiftr_div_pow2 by lia.
  rewrite !Z.shiftl_spec by lia.
  destruct (Z.ltb_spec (n - 28) 0).
  - rewrite !(Z.testbit_neg_r _ (n - 28)) by lia. apply andb_false_r.
  - rewrite Z.shiftr_spec by lia. replace (n - 28 + 28) with n by lia.
    destruct (Z.ltb_spec (n - 28) 4).
    + rewrite Z.ones_spec_low by lia. apply andb_true_r.
    + rewrite Z.ones_spec_high by lia. rewrite andb_false_r. symmetry.
      apply Z.bits_above_log2; [lia|]. destruct (Z.eq_dec x 0) as [->|]; [cbn; lia|].
      apply Z.log2_lt_pow2; [lia|]. eapply Z.lt_le_trans; [apply H|].
      change 4294967296 with (2 ^ 32). apply Z.pow_le_mono_r; lia.
Qed.
Lemma lor_hi4 a x : 0 <= a -> 0 <= x < 268435456 ->
  Z.lor (a * 268435456) x = a * 268435456 + x.
Proof.
  intros A H. rewrite Z.add_nocarry_lxor, Z.lxor_lor; [reflexivity| |].
  all: apply Z.bits_inj'; intros n N; rewrite Z.land_spec, Z.bits_0;
    change 268435456 with (2 ^ 28); rewrite <- Z.shiftl_mul_pow2, Z.shiftl_spec by lia;
    destruct (Z.ltb_spec n 28); [rewrite (Z.testbit_neg_r _ (n - 28)) by lia; reflexivity|];
    rewrite andb_comm; replace (Z.testbit x n) with false; [reflexivity|]; symmetry;
    (destruct (Z.eq_dec x 0) as [->|]; [apply Z.bits_0|]);
    apply Z.bits_above_log2; [lia|];
    apply Z.log2_lt_pow2; [lia|]; eapply Z.lt_le_trans; [apply H|];
    change 268435456 with (2 ^ 28); apply Z.pow_le_mono_r; lia.
Qed.
Lemma land_hi16 x : 0 <= x < 65536 -> Z.land x 4294901760 = 0.
Proof.
  intros H. apply Z.bits_inj'. intros n N. rewrite Z.land_spec, Z.bits_0.
  change 4294901760 with (Z.shiftl (Z.ones 16) 16). rewrite Z.shiftl_spec by lia.
  destruct (Z.ltb_spec n 16).
  - rewrite (Z.testbit_neg_r _ (n - 16)) by lia. apply andb_false_r.
  - replace (Z.testbit x n) with false; [reflexivity|]. symmetry.
    destruct (Z.eq_dec x 0) as [->|]; [apply Z.bits_0|].
    apply Z.bits_above_log2; [lia|]. apply Z.log2_lt_pow2; [lia|].
    eapply Z.lt_le_trans; [apply H|]. change 65536 with (2 ^ 16). apply Z.pow_le_mono_r; lia.
Qed.
Lemma land_hi4_0 x : 0 <= x < 268435456 -> Z.land x 4026531840 = 0.
Proof.
  intros H. rewrite land_hi4 by lia. rewrite Z.div_small by lia. reflexivity.
Qed.
