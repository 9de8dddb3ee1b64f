(** Reading and writing the table; reading a whole file. *)
From Verif Require Import Lib Fat_Model Fat_Spec Fat_Proofs.

Definition max_val (h : hdr) : Z := if sp_width h =? 2 then 65536 else 268435456.

Lemma byte_le4 m a : (forall x, 0 <= m x < 256) ->
  le (bytes m a 4) = m a + 256 * m (a + 1) + 65536 * m (a + 2) + 16777216 * m (a + 3).
Proof. intros _. rewrite bytes_4. cbn [le]. ring. Qed.

Lemma le4_parts x : 0 <= x < 4294967296 ->
  x mod 256 + 256 * ((x / 256) mod 256) + 65536 * ((x / 65536) mod 256)
    + 16777216 * ((x / 16777216) mod 256) = x.
Proof. intros. lia. Qed.

Lemma good2 k n : 0 <= k < n -> good_type 2 && (k <? n) = true.
Proof. intros. change (good_type 2) with true. cbn [andb]. lia. Qed.
Lemma good4 k n : 0 <= k < n -> good_type 4 && (k <? n) = true.
Proof. intros. change (good_type 4) with true. cbn [andb]. lia. Qed.

Lemma read_fat_ok v k c : wf v -> 0 <= k < nfats (vh v) -> 0 <= c < sp_clusters (vh v) + 2 ->
  read_fat v (fat_type (vh v)) k c = Ok (fat_val v k c).
Proof.
  intros W K C. unfold read_fat. rewrite (type_eq v W). rewrite (entry_ptr_eq v W) by assumption.
  destruct (fat_in v W k c K C) as [A B].
  destruct (width_cases v) as [[E _]|[E _]]; unfold fat_val; rewrite E in B |- *.
  - rewrite (good2 k _ K).
    change (2 =? 2) with true. cbn iota. rewrite ld_ok by lia. cbn [bind].
    rewrite bytes_2. cbn [le]. f_equal. ring.
  - rewrite (good4 k _ K).
    change (4 =? 2) with false. cbn iota. rewrite ld_ok by lia. cbn [bind].
    rewrite byte_le4 by apply (wf_byte v W). rewrite land28. f_equal.
    pose proof (wf_byte v W (sp_fat_off (vh v) k c)). pose proof (wf_byte v W (sp_fat_off (vh v) k c + 1)).
    pose proof (wf_byte v W (sp_fat_off (vh v) k c + 2)). pose proof (wf_byte v W (sp_fat_off (vh v) k c + 3)).
    set (b0 := vm v (sp_fat_off (vh v) k c)) in *. set (b1 := vm v (sp_fat_off (vh v) k c + 1)) in *.
    set (b2 := vm v (sp_fat_off (vh v) k c + 2)) in *. set (b3 := vm v (sp_fat_off (vh v) k c + 3)) in *.
    clearbody b0 b1 b2 b3. clear - H H0 H1 H2. lia.
Qed.

Lemma fat_val_range v k c : wf v -> 0 <= fat_val v k c < max_val (vh v).
Proof.
  intros W. unfold fat_val, max_val. set (p := sp_fat_off (vh v) k c).
  pose proof (wf_byte v W p). pose proof (wf_byte v W (p + 1)).
  pose proof (wf_byte v W (p + 2)). pose proof (wf_byte v W (p + 3)).
  pose proof (Z.mod_pos_bound (vm v (p + 3)) 16 ltac:(lia)).
  destruct (sp_width (vh v) =? 2); lia.
Qed.

Lemma st_wf v a d : wf v -> Forall (fun b => 0 <= b < 256) d ->
  wf (Vol (vh v) (vsz v) (upd (vm v) a d)).
Proof.
  intros W F. destruct W. constructor; cbn [vh vsz vm]; auto.
  intros x. unfold upd. destruct (_ && _) eqn:E; [|auto].
  assert (I : In (znth 0 d (x - a)) d) by (apply nth_In; unfold zlen in E; lia).
  rewrite Forall_forall in F. auto.
Qed.

(** the bytes written by fat_write_fat_entry *)
Definition fat_bytes (v : vol) (k c val : Z) : list Z :=
  if sp_width (vh v) =? 2 then le2 val
  else le4 (vm v (sp_fat_off (vh v) k c + 3) / 16 * 268435456 + val).
Definition put_fat (v : vol) (k c val : Z) : vol :=
  Vol (vh v) (vsz v) (upd (vm v) (sp_fat_off (vh v) k c) (fat_bytes v k c val)).

Lemma fat_bytes_len v k c val : zlen (fat_bytes v k c val) = sp_width (vh v).
Proof.
  unfold fat_bytes. destruct (width_cases v) as [[E _]|[E _]]; rewrite E; reflexivity.
Qed.

Lemma write_fat_ok v k c val : wf v -> 0 <= k < nfats (vh v) -> 0 <= c < sp_clusters (vh v) + 2 ->
  0 <= val < max_val (vh v) ->
  write_fat v (fat_type (vh v)) k c val = Ok (put_fat v k c val).
Proof.
  intros W K C V. unfold write_fat. rewrite (type_eq v W). rewrite (entry_ptr_eq v W) by assumption.
  destruct (fat_in v W k c K C) as [A B]. unfold max_val in V. unfold put_fat, fat_bytes.
  destruct (width_cases v) as [[E _]|[E _]]; rewrite E in B, V |- *.
  - rewrite (good2 k _ K).
    change (2 =? 2) with true in *. cbn iota in *. rewrite land_hi16 by lia. cbn [Z.eqb].
    apply st_ok; [lia|]. change (zlen (le2 val)) with 2. lia.
  - rewrite (good4 k _ K).
    change (4 =? 2) with false in *. cbn iota in *. rewrite land_hi4_0 by lia. cbn [Z.eqb].
    rewrite ld_ok by lia. cbn [bind]. rewrite byte_le4 by apply (wf_byte v W).
    pose proof (wf_byte v W (sp_fat_off (vh v) k c)). pose proof (wf_byte v W (sp_fat_off (vh v) k c + 1)).
    pose proof (wf_byte v W (sp_fat_off (vh v) k c + 2)). pose proof (wf_byte v W (sp_fat_off (vh v) k c + 3)).
    set (b0 := vm v (sp_fat_off (vh v) k c)) in *. set (b1 := vm v (sp_fat_off (vh v) k c + 1)) in *.
    set (b2 := vm v (sp_fat_off (vh v) k c + 2)) in *. set (b3 := vm v (sp_fat_off (vh v) k c + 3)) in *.
    rewrite land_hi4 by lia.
    replace ((b0 + 256 * b1 + 65536 * b2 + 16777216 * b3) / 268435456) with (b3 / 16)
      by (clearbody b0 b1 b2 b3; clear - H H0 H1 H2; lia).
    rewrite lor_hi4 by lia.
    apply st_ok; [lia|]. change (zlen (le4 _)) with 4. lia.
Qed.

Lemma le2_bytes x : Forall (fun b => 0 <= b < 256) (le2 x).
Proof. repeat constructor; apply Z.mod_pos_bound; lia. Qed.
Lemma le4_bytes x : Forall (fun b => 0 <= b < 256) (le4 x).
Proof. repeat constructor; apply Z.mod_pos_bound; lia. Qed.

Lemma put_fat_wf v k c val : wf v -> wf (put_fat v k c val).
Proof.
  intros W. apply st_wf; [assumption|]. unfold fat_bytes.
  destruct (_ =? _); [apply le2_bytes|apply le4_bytes].
Qed.

Lemma put_fat_same v k c val : wf v -> 0 <= val < max_val (vh v) ->
  fat_val (put_fat v k c val) k c = val.
Proof.
  intros W V. unfold fat_val. cbn [put_fat vh vm].
  set (p := sp_fat_off (vh v) k c). pose proof (fat_bytes_len v k c val) as L.
  unfold max_val in V. pose proof (wf_byte v W (p + 3)) as B3.
  destruct (width_cases v) as [[E _]|[E _]]; rewrite E in L, V |- *.
  - change (2 =? 2) with true in *. cbn iota in *. rewrite !upd_in by lia.
    unfold fat_bytes. rewrite E. change (2 =? 2) with true. cbn iota.
    replace (p - p) with 0 by lia. replace (p + 1 - p) with 1 by lia.
    change (znth 0 (le2 val) 0) with (val mod 256).
    change (znth 0 (le2 val) 1) with ((val / 256) mod 256). clear - V. lia.
  - change (4 =? 2) with false in *. cbn iota in *. rewrite !upd_in by lia.
    unfold fat_bytes. rewrite E. change (4 =? 2) with false. cbn iota. fold p.
    replace (p - p) with 0 by lia. replace (p + 1 - p) with 1 by lia.
    replace (p + 2 - p) with 2 by lia. replace (p + 3 - p) with 3 by lia.
    set (x := vm v (p + 3) / 16 * 268435456 + val).
    change (znth 0 (le4 x) 0) with (x mod 256).
    change (znth 0 (le4 x) 1) with ((x / 256) mod 256).
    change (znth 0 (le4 x) 2) with ((x / 65536) mod 256).
    change (znth 0 (le4 x) 3) with ((x / 16777216) mod 256).
    subst x. set (b := vm v (p + 3)) in *. clearbody b. clear - V B3.
    assert (0 <= b / 16 < 16) by lia. set (q := b / 16) in *. clearbody q. clear B3. lia.
Qed.

Lemma put_fat_out v k c val x :
  x < sp_fat_off (vh v) k c \/ sp_fat_off (vh v) k c + sp_width (vh v) <= x ->
  vm (put_fat v k c val) x = vm v x.
Proof. intros H. cbn [put_fat vm]. apply upd_out. rewrite fat_bytes_len. exact H. Qed.

Lemma fat_off_apart v k c k' c' : wf v -> 0 <= k < nfats (vh v) -> 0 <= c < sp_clusters (vh v) + 2 ->
  0 <= k' < nfats (vh v) -> 0 <= c' < sp_clusters (vh v) + 2 -> (k, c) <> (k', c') ->
  sp_fat_off (vh v) k c + sp_width (vh v) <= sp_fat_off (vh v) k' c' \/
  sp_fat_off (vh v) k' c' + sp_width (vh v) <= sp_fat_off (vh v) k c.
Proof.
  intros W K C K' C' N.
  destruct (fat_off_bounds v W k c K C) as (A1 & A2 & _).
  destruct (fat_off_bounds v W k' c' K' C') as (B1 & B2 & _).
  pose proof (wf_fatsz v W). pose proof (bps_pos v W) as BP.
  assert (W1 : 2 <= sp_width (vh v) <= 4) by (destruct (width_cases v); lia).
  destruct (Z.lt_trichotomy k k') as [L|[E|L]].
  - left. eapply Z.le_trans; [exact A2|]. eapply Z.le_trans; [|exact B1].
    apply Z.mul_le_mono_nonneg_r; [lia|]. nia.
  - subst k'. assert (c <> c') by (intros ->; auto). unfold sp_fat_off.
    destruct (Z.lt_trichotomy c c') as [L|[->|L]]; [left|contradiction|right];
      clear - L W1; nia.
  - right. eapply Z.le_trans; [exact B2|]. eapply Z.le_trans; [|exact A1].
    apply Z.mul_le_mono_nonneg_r; [lia|]. nia.
Qed.

Lemma fat_val_ext v v' k c : vh v' = vh v ->
  (forall x, sp_fat_off (vh v) k c <= x < sp_fat_off (vh v) k c + sp_width (vh v) ->
     vm v' x = vm v x) ->
  fat_val v' k c = fat_val v k c.
Proof.
  intros H M. unfold fat_val. rewrite H.
  destruct (width_cases v) as [[E _]|[E _]]; rewrite E in M |- *.
  - change (2 =? 2) with true. cbn iota. rewrite !M by lia. reflexivity.
  - change (4 =? 2) with false. cbn iota. rewrite !M by lia. reflexivity.
Qed.

Lemma put_fat_other v k c val k' c' : wf v -> 0 <= k < nfats (vh v) ->
  0 <= c < sp_clusters (vh v) + 2 ->
  0 <= k' < nfats (vh v) -> 0 <= c' < sp_clusters (vh v) + 2 -> (k, c) <> (k', c') ->
  fat_val (put_fat v k c val) k' c' = fat_val v k' c'.
Proof.
  intros W K C K' C' N. apply fat_val_ext; [reflexivity|]. intros x X. apply put_fat_out.
  destruct (fat_off_apart v k c k' c' W K C K' C' N); lia.
Qed.

(** the top 4 bits of a FAT32 entry stay *)
Lemma put_fat_top v k c val : wf v -> 0 <= val < max_val (vh v) -> sp_width (vh v) = 4 ->
  vm (put_fat v k c val) (sp_fat_off (vh v) k c + 3) / 16 = vm v (sp_fat_off (vh v) k c + 3) / 16.
Proof.
  intros W V E. cbn [put_fat vm]. rewrite upd_in by (rewrite fat_bytes_len; lia).
  unfold fat_bytes. rewrite E. change (4 =? 2) with false. cbn iota.
  unfold max_val in V. rewrite E in V. change (4 =? 2) with false in V. cbn iota in V.
  set (p := sp_fat_off (vh v) k c). replace (p + 3 - p) with 3 by lia.
  pose proof (wf_byte v W (p + 3)) as B. set (b := vm v (p + 3)) in *.
  change (znth 0 (le4 (b / 16 * 268435456 + val)) 3)
    with (((b / 16 * 268435456 + val) / 16777216) mod 256).
  clearbody b. clear - V B. assert (Q : 0 <= b / 16 < 16) by lia. set (q := b / 16) in *.
  clearbody q. clear B. lia.
Qed.

(** clusters are not touched by the table *)
Lemma put_fat_cdata v k c val c' : wf v -> 0 <= k < nfats (vh v) -> 0 <= c < sp_clusters (vh v) + 2 ->
  valid (vh v) c' -> cdata (put_fat v k c val) c' = cdata v c'.
Proof.
  intros W K C V. unfold cdata, csize. cbn [put_fat vh]. apply bytes_ext. intros i I.
  apply put_fat_out. destruct (fat_off_bounds v W k c K C) as (_ & _ & B).
  destruct (cluster_off_bounds v W c' V) as (A & _). lia.
Qed.

(** * chains *)
Lemma eoc_ok v x : wf v -> sp_eoc (vh v) x -> is_eoc (fat_type (vh v)) x = true.
Proof.
  intros W. unfold sp_eoc, is_eoc. rewrite (type_eq v W).
  destruct (width_cases v) as [[E _]|[E _]]; rewrite E.
  - change (2 =? 2) with true. cbn iota. lia.
  - change (4 =? 2) with false. cbn iota. lia.
Qed.

Lemma valid_not_eoc v c : wf v -> valid (vh v) c ->
  is_eoc (fat_type (vh v)) c = false /\ is_bad (fat_type (vh v)) c = false.
Proof.
  intros W [V1 V2]. unfold is_eoc, is_bad. rewrite (type_eq v W).
  pose proof (clusters_small v W) as [CS _].
  destruct (width_cases v) as [[E F]|[E F]]; rewrite E.
  - change (2 =? 2) with true. cbn iota. lia.
  - change (4 =? 2) with false. cbn iota. lia.
Qed.

Lemma chain_head v c l : chain v c l -> valid (vh v) c /\ exists r, l = c :: r.
Proof. intros H; inversion H; subst; eauto. Qed.

Lemma valid_entry v c : valid (vh v) c -> 0 <= c < sp_clusters (vh v) + 2.
Proof. unfold valid. lia. Qed.

Lemma nfats0 v : wf v -> 0 <= 0 < nfats (vh v).
Proof. intros W. pose proof (wf_nfats v W). lia. Qed.

Lemma cdata_len v c : wf v -> zlen (cdata v c) = csize v.
Proof. intros W. apply bytes_len. pose proof (csize_pos v W). lia. Qed.

Lemma content_len v l : wf v -> zlen (content v l) = zlen l * csize v.
Proof.
  intros W. induction l as [|c l IH]; [reflexivity|].
  unfold content in *. cbn [map concat]. rewrite zlen_app, IH, zlen_cons, cdata_len by assumption. ring.
Qed.

Lemma firstn_bytes m a n k : 0 <= k <= n -> firstn (Z.to_nat k) (bytes m a n) = bytes m a k.
Proof.
  intros H. unfold bytes. rewrite firstn_map.
  f_equal. replace (Z.to_nat n) with (Z.to_nat k + (Z.to_nat n - Z.to_nat k))%nat by lia.
  rewrite seq_app, firstn_app, seq_length.
  replace (Z.to_nat k - Z.to_nat k)%nat with 0%nat by lia.
  rewrite firstn_all2 by (rewrite seq_length; lia). cbn [firstn]. apply app_nil_r.
Qed.

Lemma rwf_ok v fsize bufsize l : wf v -> forall c d fuel, chain v c l ->
  (length l < fuel)%nat -> zlen d <= fsize -> zlen d <= bufsize ->
  rwf fuel v fsize bufsize c d =
    Ok (d ++ firstn (Z.to_nat (Z.min (fsize - zlen d) (bufsize - zlen d))) (content v l)).
Proof.
  intros W. pose proof (csize_pos v W) as CS.
  induction l as [|c0 l IH]; intros c d fuel CH FU D1 D2; [inversion CH|].
  destruct (chain_head _ _ _ CH) as [V (r & E)]. injection E as <- <-.
  destruct fuel as [|fuel]; [cbn in FU; lia|]. cbn [rwf].
  rewrite (cluster_ptr_eq v W) by assumption.
  destruct (cluster_off_bounds v W c0 V) as (P0 & _ & P1). pose proof (data_in v W) as [_ DI].
  change (cluster_size (vh v)) with (csize v).
  set (rem := Z.min (fsize - zlen d) (bufsize - zlen d)).
  unfold content. cbn [map concat]. fold (content v l).
  destruct (Z.leb_spec rem (csize v)) as [R|R].
  - destruct (Z.eqb_spec rem 0) as [R0|R0].
    + rewrite R0. cbn. rewrite app_nil_r. reflexivity.
    + rewrite ld_ok by lia. cbn [bind]. rewrite firstn_app.
      replace (Z.to_nat rem - length (cdata v c0))%nat with 0%nat
        by (pose proof (cdata_len v c0 W) as L; unfold zlen in L; lia).
      cbn [firstn]. rewrite app_nil_r. unfold cdata. rewrite firstn_bytes by lia. reflexivity.
  - rewrite ld_ok by lia. cbn [bind].
    change (bytes (vm v) (sp_cluster_off (vh v) c0) (csize v)) with (cdata v c0).
    rewrite zlen_app, cdata_len by assumption.
    replace (0 <? fsize - (zlen d + csize v)) with true by lia.
    rewrite read_fat_ok by (auto using nfats0, valid_entry). cbn [bind].
    replace (zlen d + csize v <? fsize) with true by lia.
    assert (SPL : firstn (Z.to_nat rem) (cdata v c0 ++ content v l) =
                  cdata v c0 ++ firstn (Z.to_nat (rem - csize v)) (content v l)).
    { rewrite firstn_app. pose proof (cdata_len v c0 W) as L. unfold zlen in L.
      rewrite firstn_all2 by lia. do 2 f_equal. lia. }
    rewrite SPL.
    inversion CH as [c' V' EO E1|c' l' V' CH' E1 E2]; subst.
    + rewrite (eoc_ok v _ W EO). cbn [content map concat].
      rewrite firstn_nil. rewrite app_nil_r. reflexivity.
    + destruct (chain_head _ _ _ CH') as [Vn _].
      destruct (valid_not_eoc v _ W Vn) as [-> ->].
      rewrite IH; [|assumption|cbn in FU; lia|rewrite zlen_app, cdata_len by assumption; lia..].
      rewrite zlen_app, cdata_len by assumption. rewrite <- app_assoc. do 4 f_equal. lia.
Qed.

(** entries *)
Lemma lor16 hi lo : 0 <= hi < 65536 -> 0 <= lo < 65536 ->
  Z.lor (Z.shiftl hi 16) lo = 65536 * hi + lo.
Proof.
  intros H L. rewrite Z.shiftl_mul_pow2 by lia. rewrite <- Z.lxor_lor, <- Z.add_nocarry_lxor.
  - change (2 ^ 16) with 65536. ring.
  - apply Z.bits_inj'; intros n N; rewrite Z.land_spec, Z.bits_0, <- Z.shiftl_mul_pow2, Z.shiftl_spec by lia.
    destruct (Z.ltb_spec n 16); [rewrite (Z.testbit_neg_r _ (n - 16)) by lia; reflexivity|].
    rewrite andb_comm; replace (Z.testbit lo n) with false; [reflexivity|]; symmetry.
    destruct (Z.eq_dec lo 0) as [->|]; [apply Z.bits_0|].
    apply Z.bits_above_log2; [lia|]. apply Z.log2_lt_pow2; [lia|].
    eapply Z.lt_le_trans; [apply L|]. change 65536 with (2 ^ 16). apply Z.pow_le_mono_r; lia.
  - apply Z.bits_inj'; intros n N; rewrite Z.land_spec, Z.bits_0, <- Z.shiftl_mul_pow2, Z.shiftl_spec by lia.
    destruct (Z.ltb_spec n 16); [rewrite (Z.testbit_neg_r _ (n - 16)) by lia; reflexivity|].
    rewrite andb_comm; replace (Z.testbit lo n) with false; [reflexivity|]; symmetry.
    destruct (Z.eq_dec lo 0) as [->|]; [apply Z.bits_0|].
    apply Z.bits_above_log2; [lia|]. apply Z.log2_lt_pow2; [lia|].
    eapply Z.lt_le_trans; [apply L|]. change 65536 with (2 ^ 16). apply Z.pow_le_mono_r; lia.
Qed.

Lemma first_cluster_ok v e : wf v -> in_image v e -> first_cluster v e = Ok (de_cluster v e).
Proof.
  intros W [A B]. unfold first_cluster. rewrite !ld_ok by lia. cbn [bind]. rewrite !bytes_2.
  cbn [le]. replace (e + 20 + 1) with (e + 21) by lia. replace (e + 26 + 1) with (e + 27) by lia.
  pose proof (wf_byte v W (e + 20)). pose proof (wf_byte v W (e + 21)).
  pose proof (wf_byte v W (e + 26)). pose proof (wf_byte v W (e + 27)).
  rewrite lor16 by lia. f_equal. unfold de_cluster. ring.
Qed.

Lemma file_size_ok v e : in_image v e -> file_size v e = Ok (de_size v e).
Proof.
  intros [A B]. unfold file_size. rewrite ld_ok by lia. cbn [bind]. rewrite bytes_4. cbn [le].
  replace (e + 28 + 1) with (e + 29) by lia. replace (e + 28 + 2) with (e + 30) by lia.
  replace (e + 28 + 3) with (e + 31) by lia. f_equal. unfold de_size. ring.
Qed.

Lemma de_size_range v e : wf v -> 0 <= de_size v e < 4294967296.
Proof.
  intros W. unfold de_size.
  pose proof (wf_byte v W (e + 28)). pose proof (wf_byte v W (e + 29)).
  pose proof (wf_byte v W (e + 30)). pose proof (wf_byte v W (e + 31)). lia.
Qed.

Lemma read_whole_ok v e l d bufsize fuel : wf v -> is_file v e l d -> 0 <= bufsize ->
  (length l < fuel)%nat ->
  read_whole_file fuel v e bufsize = Ok (firstn (Z.to_nat bufsize) d).
Proof.
  intros W F B FU. unfold read_whole_file.
  rewrite first_cluster_ok, file_size_ok by (auto; apply F). cbn [bind].
  pose proof (de_size_range v e W) as S. rewrite (f_data _ _ _ _ F).
  destruct (Z.eq_dec (de_size v e) 0) as [E|E].
  - rewrite E. destruct fuel as [|fuel]; [lia|]. cbn [rwf]. rewrite (zlen_nil (A:=Z)).
    replace (Z.min (0 - 0) (bufsize - 0)) with 0 by lia.
    pose proof (csize_pos v W) as CS. change (cluster_size (vh v)) with (csize v).
    replace (0 <=? csize v) with true by lia. cbn. rewrite firstn_nil. reflexivity.
  - rewrite (rwf_ok v _ _ l W) by (auto; try rewrite (zlen_nil (A:=Z)); try lia; apply (f_chain _ _ _ _ F); lia).
    cbn [app]. rewrite (zlen_nil (A:=Z)), firstn_firstn. do 2 f_equal. lia.
Qed.

(** a file that is shorter than its size field says, chain ended early *)
Lemma read_whole_short v e l bufsize fuel : wf v -> in_image v e -> chain v (de_cluster v e) l ->
  0 <= bufsize -> (length l < fuel)%nat ->
  read_whole_file fuel v e bufsize =
    Ok (firstn (Z.to_nat (Z.min (de_size v e) bufsize)) (content v l)).
Proof.
  intros W I CH B FU. unfold read_whole_file.
  rewrite first_cluster_ok, file_size_ok by auto. cbn [bind].
  pose proof (de_size_range v e W) as S.
  rewrite (rwf_ok v _ _ l W) by (auto; rewrite (zlen_nil (A:=Z)); lia).
  cbn [app]. rewrite (zlen_nil (A:=Z)). do 3 f_equal. lia.
Qed.
