(** Compaction: what the writes change. *)
From Verif Require Import Lib Fat_Model Fat_Spec Fat_Proofs Fat_Proofs2 Fat_Proofs4 Fatdir_Model
  Fatdir_Spec Fatdir_Proofs Fatdir_Proofs2 Fatdir_Proofs3 Fatdir_Proofs4 Fatcomp_Model Fatcomp_Spec.

Definition tab_end (v : vol) : Z := (rsvd (vh v) + nfats (vh v) * FATSz (vh v)) * bps (vh v).
Definition in_tab (v : vol) (c a : Z) : Prop :=
  sp_fat_off (vh v) 0 c <= a < sp_fat_off (vh v) 0 c + sp_width (vh v).
Definition in_dat (v : vol) (c a : Z) : Prop :=
  sp_cluster_off (vh v) c <= a < sp_cluster_off (vh v) c + csize v.
Definition fld (e a : Z) : Prop := a = e + 20 \/ a = e + 21 \/ a = e + 26 \/ a = e + 27.
(** only clusters of [X] and first-cluster fields of entries of [E] may differ *)
Definition frame (X E : Z -> Prop) (v v' : vol) : Prop :=
  vh v' = vh v /\ vsz v' = vsz v /\
  forall a, (forall c, valid (vh v) c -> X c -> ~ in_tab v c a /\ ~ in_dat v c a) ->
    (forall e, E e -> ~ fld e a) -> vm v' a = vm v a.
(** an entry outside the clusters of [X] *)
Definition slot_ok (v : vol) (X : Z -> Prop) (e : Z) : Prop :=
  tab_end v <= e /\ e + 32 <= vsz v /\
  forall c, valid (vh v) c -> X c -> e + 32 <= sp_cluster_off (vh v) c \/ sp_cluster_off (vh v) c + csize v <= e.
Definition fat0 (v : vol) (c : Z) : Z := fat_val v 0 c.
Definition fz (v : vol) (c : Z) : Prop := fat0 v c = 0.
Definition inr (v : vol) (c : Z) : Prop := 0 <= c < sp_clusters (vh v) + 2.

Lemma valid_inr v c : valid (vh v) c -> inr v c.
Proof. unfold valid, inr. lia. Qed.
Lemma tab_end_ok v : wf v -> 512 <= tab_end v /\ tab_end v <= sp_data_sector (vh v) * bps (vh v) /\
  forall c, inr v c -> 512 <= sp_fat_off (vh v) 0 c /\ sp_fat_off (vh v) 0 c + sp_width (vh v) <= tab_end v.
Proof.
  intros W. pose proof (root_nonneg v W) as RN. pose proof (bps_pos v W) as B.
  pose proof (wf_rsvd v W) as R. pose proof (wf_nfats v W) as N. pose proof (wf_fatsz v W) as F.
  unfold tab_end, sp_data_sector.
  assert (P : FATSz (vh v) <= nfats (vh v) * FATSz (vh v)) by nia.
  split; [nia|]. split; [nia|]. intros c C.
  destruct (fat_off_bounds v W 0 c (nfats0 v W) C) as (A & D & _).
  split; [nia|]. eapply Z.le_trans; [exact D|]. apply Z.mul_le_mono_nonneg_r; [lia|]. lia.
Qed.

(** * Consequences of a frame *)
Lemma frame_hdr X E v v' : frame X E v v' -> vh v' = vh v.
Proof. intros (A & _). exact A. Qed.
Lemma frame_refl X E v : frame X E v v.
Proof. repeat split. Qed.
Lemma frame_mono (X X' E E' : Z -> Prop) v v' : frame X E v v' ->
  (forall c, valid (vh v) c -> X c -> X' c) -> (forall e, E e -> E' e) -> frame X' E' v v'.
Proof.
  intros (A & B & C) S1 S2. split; [exact A|]. split; [exact B|]. intros a P Q. apply C.
  - intros c V Xc. apply P; auto.
  - intros e Ee. apply Q. auto.
Qed.
Lemma frame_trans X E v v1 v2 : frame X E v v1 -> frame X E v1 v2 -> frame X E v v2.
Proof.
  intros (A & B & C) (A' & B' & C'). split; [congruence|]. split; [congruence|]. intros a P Q.
  rewrite C'; [apply C; assumption| |exact Q]. intros c V Xc.
  unfold in_tab, in_dat, csize in *. rewrite A in *. apply P; assumption.
Qed.
Lemma frame_fat X E v v' c : wf v -> frame X E v v' -> inr v c -> (valid (vh v) c -> ~ X c) ->
  (forall e, E e -> tab_end v <= e) -> fat0 v' c = fat0 v c.
Proof.
  intros W (A & B & C) I N EE. unfold fat0. apply fat_val_ext; [exact A|]. intros x P. apply C.
  - intros c' V Xc. split.
    + intros T. unfold in_tab in T.
      assert (NE : (0, c) <> (0, c')) by (intros [= ->]; exact (N V Xc)).
      destruct (fat_off_apart v 0 c 0 c' W (nfats0 v W) I (nfats0 v W) (valid_inr v c' V) NE); lia.
    + intros T. unfold in_dat in T. destruct (cluster_off_bounds v W c' V) as (D & _).
      destruct (tab_end_ok v W) as (_ & T2 & T3). specialize (T3 c I). lia.
  - intros e Ee F. specialize (EE e Ee). destruct (tab_end_ok v W) as (_ & _ & T3). specialize (T3 c I).
    unfold fld in F. lia.
Qed.
Lemma dat_apart v c c' a : wf v -> c <> c' -> in_dat v c a -> ~ in_dat v c' a.
Proof.
  intros W N H H'. unfold in_dat in *. destruct (Z.lt_ge_cases c c').
  - pose proof (clusters_apart v W c c'). lia.
  - pose proof (clusters_apart v W c' c). lia.
Qed.
Lemma tab_dat v c c' a : wf v -> inr v c -> valid (vh v) c' -> in_tab v c a -> ~ in_dat v c' a.
Proof.
  intros W I V T D. unfold in_tab, in_dat in *. destruct (cluster_off_bounds v W c' V) as (Q & _).
  destruct (tab_end_ok v W) as (_ & T2 & T3). specialize (T3 c I). lia.
Qed.
Lemma cdata_ext v v' c : vh v' = vh v -> (forall a, in_dat v c a -> vm v' a = vm v a) ->
  cdata v' c = cdata v c.
Proof.
  intros H M. unfold cdata, csize. rewrite H. apply bytes_ext. intros i I. apply M.
  unfold in_dat, csize. lia.
Qed.
Lemma frame_data X E v v' c : wf v -> frame X E v v' -> valid (vh v) c -> ~ X c ->
  (forall e, E e -> e + 32 <= sp_cluster_off (vh v) c \/ sp_cluster_off (vh v) c + csize v <= e) ->
  cdata v' c = cdata v c.
Proof.
  intros W (A & B & C) V N EE. apply cdata_ext; [exact A|]. intros a D. apply C.
  - intros c' V' Xc. split.
    + intros T. apply (tab_dat v c' c a W (valid_inr v c' V') V T D).
    + apply (dat_apart v c c' a W); [congruence|exact D].
  - intros e Ee F. specialize (EE e Ee). unfold fld, in_dat in *. lia.
Qed.
Lemma frame_raw X E v v' e0 : wf v -> frame X E v v' -> slot_ok v X e0 ->
  (forall e, E e -> e0 + 32 <= e \/ e + 32 <= e0) -> raw v' e0 = raw v e0.
Proof.
  intros W (A & B & C) (S1 & S2 & S3) EE. apply bytes_ext. intros i I. apply C.
  - intros c V Xc. split.
    + intros T. unfold in_tab in T. destruct (tab_end_ok v W) as (_ & _ & T3).
      specialize (T3 c (valid_inr v c V)). lia.
    + intros T. unfold in_dat in T. destruct (S3 c V Xc); lia.
  - intros e Ee F. destruct (EE e Ee); unfold fld in F; lia.
Qed.
Lemma raw_len v e : zlen (raw v e) = 32.
Proof. apply bytes_len. lia. Qed.
Lemma frame_blank X E v v' e0 : wf v -> frame X E v v' -> slot_ok v X e0 ->
  (forall e, E e -> e = e0 \/ e0 + 32 <= e \/ e + 32 <= e0) ->
  blank (raw v' e0) = blank (raw v e0).
Proof.
  intros W (A & B & C) (S1 & S2 & S3) EE.
  assert (Q : forall i, 0 <= i < 32 -> i <> 20 -> i <> 21 -> i <> 26 -> i <> 27 ->
          vm v' (e0 + i) = vm v (e0 + i)).
  { intros i I N1 N2 N3 N4. apply C.
    - intros c V Xc. split.
      + intros T. unfold in_tab in T. destruct (tab_end_ok v W) as (_ & _ & T3).
        specialize (T3 c (valid_inr v c V)). lia.
      + intros T. unfold in_dat in T. destruct (S3 c V Xc); lia.
    - intros e Ee F. destruct (EE e Ee) as [->|[G|G]]; unfold fld in F; lia. }
  unfold blank, raw, bytes. change (Z.to_nat 32) with 32%nat. cbn [seq map firstn skipn app].
  rewrite !Q by lia. reflexivity.
Qed.

(** * The writes *)
Definition put_data (v : vol) (c : Z) (d : list Z) : vol :=
  Vol (vh v) (vsz v) (upd (vm v) (sp_cluster_off (vh v) c) d).
Definition put_first (v : vol) (e x : Z) : vol :=
  Vol (vh v) (vsz v)
    (upd (upd (vm v) (e + 20) (le2 (Z.shiftr x 16))) (e + 26) (le2 (Z.land x 65535))).
Lemma le2_len x : zlen (le2 x) = 2.
Proof. reflexivity. Qed.
Lemma put_first_ok v e x : 0 <= e -> e + 32 <= vsz v -> set_first_cluster v e x = Ok (put_first v e x).
Proof.
  intros A B. unfold set_first_cluster. rewrite st_ok by (rewrite ?le2_len; cbn [vsz]; lia). cbn [bind].
  rewrite st_ok by (rewrite ?le2_len; cbn [vsz]; lia). reflexivity.
Qed.
Lemma put_first_out v e x a : ~ fld e a -> vm (put_first v e x) a = vm v a.
Proof.
  intros N. cbn [put_first vm]. unfold fld in N.
  rewrite upd_out by (change (zlen (le2 (Z.land x 65535))) with 2; lia).
  rewrite upd_out by (change (zlen (le2 (Z.shiftr x 16))) with 2; lia). reflexivity.
Qed.
Lemma put_first_same v e x : 0 <= x < 4294967296 -> de_cluster (put_first v e x) e = x.
Proof.
  intros X. unfold de_cluster. cbn [put_first vm].
  assert (E1 : Z.shiftr x 16 = x / 65536) by (rewrite Z.shiftr_div_pow2 by lia; reflexivity).
  assert (E2 : Z.land x 65535 = x mod 65536).
  { change 65535 with (Z.ones 16). rewrite Z.land_ones by lia. reflexivity. }
  rewrite E1, E2.
  rewrite (upd_in _ (e + 26) _ (e + 26)) by (rewrite ?le2_len; cbn [vsz]; lia). rewrite (upd_in _ (e + 26) _ (e + 27)) by (rewrite ?le2_len; cbn [vsz]; lia).
  rewrite !(upd_out _ (e + 26)) by (rewrite ?le2_len; cbn [vsz]; lia).
  rewrite (upd_in _ (e + 20) _ (e + 20)) by (rewrite ?le2_len; cbn [vsz]; lia). rewrite (upd_in _ (e + 20) _ (e + 21)) by (rewrite ?le2_len; cbn [vsz]; lia).
  replace (e + 26 - (e + 26)) with 0 by lia. replace (e + 27 - (e + 26)) with 1 by lia.
  replace (e + 20 - (e + 20)) with 0 by lia. replace (e + 21 - (e + 20)) with 1 by lia.
  change (znth 0 (le2 (x mod 65536)) 0) with ((x mod 65536) mod 256).
  change (znth 0 (le2 (x mod 65536)) 1) with ((x mod 65536 / 256) mod 256).
  change (znth 0 (le2 (x / 65536)) 0) with ((x / 65536) mod 256).
  change (znth 0 (le2 (x / 65536)) 1) with ((x / 65536 / 256) mod 256).
  clear -X. lia.
Qed.
Lemma put_first_wf v e x : wf v -> wf (put_first v e x).
Proof.
  intros W. apply (st_wf (Vol (vh v) (vsz v) (upd (vm v) (e + 20) (le2 (Z.shiftr x 16)))) (e + 26)
                     (le2 (Z.land x 65535))).
  - apply (st_wf v (e + 20)); [exact W|apply le2_bytes].
  - apply le2_bytes.
Qed.
Lemma bytes_wf v a n : wf v -> Forall (fun b => 0 <= b < 256) (bytes (vm v) a n).
Proof.
  intros W. unfold bytes. apply Forall_forall. intros x X. apply in_map_iff in X.
  destruct X as (i & <- & _). apply (wf_byte v W).
Qed.
