(** The open file: read and seek along the chain. *)
From Verif Require Import Lib Fat_Model Fat_Spec Fat_Proofs Fat_Proofs2.

Lemma sw_small M x : - M <= x < M -> sw M x = x.
Proof. intros H. unfold sw. rewrite Z.mod_small by lia. lia. Qed.

Lemma chain_nth v : forall l c, chain v c l -> forall i, 0 <= i < zlen l ->
  valid (vh v) (znth 0 l i) /\
  (i + 1 < zlen l -> fat_val v 0 (znth 0 l i) = znth 0 l (i + 1)) /\
  (i + 1 = zlen l -> sp_eoc (vh v) (fat_val v 0 (znth 0 l i))).
Proof.
  intros l c H. induction H as [c V E|c l V CH IH]; intros i I.
  - change (zlen [c]) with 1 in *. assert (i = 0) as -> by lia.
    change (znth 0 [c] 0) with c. split; [assumption|]. split; [lia|auto].
  - rewrite zlen_cons in *. destruct (chain_head _ _ _ CH) as [V' (r & E)].
    destruct (Z.eq_dec i 0) as [->|N].
    + rewrite znth_cons_0. split; [assumption|]. split.
      * intros _. rewrite znth_cons_pos by lia. rewrite E. reflexivity.
      * intros X. rewrite E, zlen_cons in X. pose proof (zlen_nonneg r). lia.
    + rewrite !znth_cons_pos by lia. destruct (IH (i - 1) ltac:(lia)) as (A & B & C).
      split; [assumption|]. split.
      * intros. rewrite B by lia. f_equal. lia.
      * intros. apply C. lia.
Qed.

Lemma content_nth v l i : wf v -> 0 <= i < zlen l * csize v ->
  znth 0 (content v l) i =
    vm v (sp_cluster_off (vh v) (znth 0 l (i / csize v)) + i mod csize v).
Proof.
  intros W. pose proof (csize_pos v W) as CS. revert i.
  induction l as [|c l IH]; intros i I; [rewrite (zlen_nil (A:=Z)) in I; lia|].
  rewrite zlen_cons in I. unfold content. cbn [map concat]. fold (content v l).
  destruct (Z.ltb_spec i (csize v)) as [L|L].
  - rewrite znth_app1 by (rewrite cdata_len; auto; lia).
    rewrite Z.div_small, Z.mod_small by lia. rewrite znth_cons_0.
    unfold cdata. rewrite bytes_nth by lia. reflexivity.
  - rewrite znth_app2 by (rewrite cdata_len; auto; lia). rewrite cdata_len by assumption.
    rewrite IH by lia.
    replace i with (i - csize v + 1 * csize v) at 3 4 by lia.
    rewrite Z.div_add, Z.mod_add by lia.
    rewrite znth_cons_pos by (pose proof (Z.div_pos (i - csize v) (csize v)); lia).
    replace ((i - csize v) / csize v + 1 - 1) with ((i - csize v) / csize v) by lia. reflexivity.
Qed.

Lemma content_piece v l p n : wf v -> 0 <= p -> 0 <= n -> p mod csize v + n <= csize v ->
  p / csize v < zlen l ->
  firstn (Z.to_nat n) (skipn (Z.to_nat p) (content v l)) =
    bytes (vm v) (sp_cluster_off (vh v) (znth 0 l (p / csize v)) + p mod csize v) n.
Proof.
  intros W P N F L. pose proof (csize_pos v W) as CS.
  pose proof (Z.div_mod p (csize v) ltac:(lia)) as DM.
  pose proof (Z.mod_pos_bound p (csize v) ltac:(lia)) as MB.
  set (q := p / csize v) in *. set (o := p mod csize v) in *.
  assert (Q : 0 <= q) by (unfold q; apply Z.div_pos; lia).
  assert (T : p + n <= zlen l * csize v) by nia.
  apply (znth_ext 0).
  - rewrite zlen_firstn, zlen_skipn, content_len, bytes_len by (auto; lia). lia.
  - intros i I. rewrite zlen_firstn, zlen_skipn, content_len in I by auto.
    rewrite znth_firstn by lia. rewrite znth_skipn by lia.
    rewrite content_nth by (auto; lia). rewrite bytes_nth by lia.
    assert (E1 : (Z.of_nat (Z.to_nat p) + i) / csize v = q).
    { symmetry. apply Z.div_unique with (r := o + i); lia. }
    assert (E2 : (Z.of_nat (Z.to_nat p) + i) mod csize v = o + i).
    { symmetry. apply Z.mod_unique with (q := q); lia. }
    rewrite E1, E2. f_equal. lia.
Qed.

Lemma piece_cut (C : list Z) s p n : 0 <= p -> 0 <= n -> p + n <= s ->
  firstn (Z.to_nat n) (skipn (Z.to_nat p) (firstn (Z.to_nat s) C)) =
  firstn (Z.to_nat n) (skipn (Z.to_nat p) C).
Proof.
  intros. rewrite skipn_firstn_comm, firstn_firstn. f_equal. lia.
Qed.
Lemma piece_all (d : list Z) p n : 0 <= p -> zlen d - p <= n ->
  firstn (Z.to_nat n) (skipn (Z.to_nat p) d) = skipn (Z.to_nat p) d.
Proof. intros. apply firstn_all2. rewrite skipn_length. unfold zlen in *. lia. Qed.
Lemma piece_split (d : list Z) p b n : 0 <= p -> 0 <= n <= b -> p + n <= zlen d ->
  firstn (Z.to_nat b) (skipn (Z.to_nat p) d) =
  firstn (Z.to_nat n) (skipn (Z.to_nat p) d) ++ firstn (Z.to_nat (b - n)) (skipn (Z.to_nat (p + n)) d).
Proof.
  intros. apply (znth_ext 0).
  - rewrite zlen_app, !zlen_firstn, !zlen_skipn. lia.
  - intros i I. rewrite zlen_firstn, zlen_skipn in I. rewrite znth_firstn, znth_skipn by lia.
    destruct (Z.ltb_spec i n).
    + rewrite znth_app1 by (rewrite zlen_firstn, zlen_skipn; lia).
      rewrite znth_firstn, znth_skipn by lia. reflexivity.
    + rewrite znth_app2 by (rewrite zlen_firstn, zlen_skipn; lia).
      rewrite zlen_firstn, zlen_skipn. rewrite znth_firstn, znth_skipn by lia. f_equal. lia.
Qed.

Section FILE.
Variables (M : Z) (v : vol) (e : Z) (l d : list Z).
Hypothesis W : wf v.
Hypothesis F : is_file v e l d.
Hypothesis M31 : 2147483648 <= M.
Hypothesis SZ : de_size v e < M.
Notation sz := (de_size v e).
Notation cs := (csize v).

Lemma d_len : zlen d = sz.
Proof.
  rewrite (f_data _ _ _ _ F), zlen_firstn, content_len by assumption.
  pose proof (f_fit _ _ _ _ F). pose proof (de_size_range v e W). lia.
Qed.

Lemma d_piece p n : 0 <= p -> 0 <= n -> p + n <= sz -> p mod cs + n <= cs ->
  p / cs < zlen l ->
  firstn (Z.to_nat n) (skipn (Z.to_nat p) d) =
    bytes (vm v) (sp_cluster_off (vh v) (znth 0 l (p / cs)) + p mod cs) n.
Proof.
  intros. rewrite <- (content_piece v l p n) by auto.
  rewrite (f_data _ _ _ _ F). apply piece_cut; auto.
Qed.

(** the cluster under the position *)
Definition on (p c : Z) : Prop := p < sz -> c = znth 0 l (p / cs).

Lemma div_lt p : 0 <= p < sz -> 0 <= p / cs < zlen l.
Proof.
  intros P. pose proof (csize_pos v W). pose proof (f_fit _ _ _ _ F).
  pose proof (Z.div_mod p cs ltac:(lia)). pose proof (Z.mod_pos_bound p cs ltac:(lia)).
  assert (0 <= p / cs) by (apply Z.div_pos; lia). nia.
Qed.

(** one round of either loop: [n] bytes of the current cluster, up to the cluster's end *)
Lemma next_cluster p : 0 < sz -> 0 <= p -> p mod cs = 0 -> 0 < p <= sz -> (p - 1) / cs < zlen l ->
  let c := znth 0 l ((p - 1) / cs) in
  (is_eoc (fat_type (vh v)) (fat_val v 0 c) = true /\ p = sz) \/
  (is_eoc (fat_type (vh v)) (fat_val v 0 c) = false /\
   is_bad (fat_type (vh v)) (fat_val v 0 c) = false /\
   p / cs < zlen l /\ fat_val v 0 c = znth 0 l (p / cs)).
Proof.
  intros S0 P PM PS L c. pose proof (csize_pos v W) as CS.
  pose proof (Z.div_mod p cs ltac:(lia)) as DM. rewrite PM in DM.
  set (q := p / cs) in *.
  assert (E : (p - 1) / cs = q - 1).
  { symmetry. apply Z.div_unique with (r := cs - 1); lia. }
  subst c. rewrite E in *. assert (Q : 0 < q) by nia.
  pose proof (f_chain _ _ _ _ F ltac:(lia)) as CH.
  destruct (chain_nth v l _ CH (q - 1) ltac:(lia)) as (A & B & C).
  destruct (Z.eq_dec (q - 1 + 1) (zlen l)) as [X|X].
  - left. split; [apply eoc_ok; auto|]. pose proof (f_fit _ _ _ _ F). nia.
  - right. rewrite B by lia. replace (q - 1 + 1) with q in * by lia.
    destruct (chain_nth v l _ CH q ltac:(lia)) as (A' & _).
    destruct (valid_not_eoc v _ W A') as [-> ->]. repeat split; auto; lia.
Qed.

Lemma mod_end p n : 0 <= p -> n = cs - p mod cs ->
  (p + n) mod cs = 0 /\ (p + n - 1) / cs = p / cs /\ (p + n) / cs = p / cs + 1.
Proof.
  intros P ->. pose proof (csize_pos v W) as CS.
  pose proof (Z.div_mod p cs ltac:(lia)) as DM. pose proof (Z.mod_pos_bound p cs ltac:(lia)) as MB.
  set (q := p / cs) in *. set (o := p mod cs) in *. repeat split.
  - symmetry. apply Z.mod_unique with (q := q + 1); lia.
  - symmetry. apply Z.div_unique with (r := cs - 1); lia.
  - symmetry. apply Z.div_unique with (r := 0); lia.
Qed.

Lemma mod_in p n : 0 <= p -> 0 <= n < cs - p mod cs -> (p + n) / cs = p / cs.
Proof.
  intros P N. pose proof (csize_pos v W) as CS.
  pose proof (Z.div_mod p cs ltac:(lia)) as DM. pose proof (Z.mod_pos_bound p cs ltac:(lia)) as MB.
  set (q := p / cs) in *. set (o := p mod cs) in *.
  symmetry. apply Z.div_unique with (r := o + n); lia.
Qed.

Lemma read_loop_ok : forall fuel p c bufsize acc, 0 <= p <= sz -> p / cs < zlen l ->
  c = znth 0 l (p / cs) -> zlen acc <= bufsize < M -> 0 < sz ->
  zlen l - p / cs < Z.of_nat fuel ->
  exists c', let x := firstn (Z.to_nat (bufsize - zlen acc)) (skipn (Z.to_nat p) d) in
    read_loop fuel M v sz bufsize acc (Handle e p c) =
      Ok (acc ++ x, Handle e (p + zlen x) c') /\ on (p + zlen x) c'.
Proof.
  induction fuel as [|fuel IH]; intros p c bufsize acc P L C B S0 FU; [lia|].
  pose proof (csize_pos v W) as CS. pose proof d_len as DL. pose proof (zlen_nonneg acc) as AN.
  pose proof (Z.div_mod p cs ltac:(lia)) as DM. pose proof (Z.mod_pos_bound p cs ltac:(lia)) as MB.
  assert (Q0 : 0 <= p / cs) by (apply Z.div_pos; lia).
  pose proof (f_chain _ _ _ _ F ltac:(lia)) as CH.
  destruct (chain_nth v l _ CH (p / cs) ltac:(lia)) as (V & _ & _). rewrite <- C in V.
  destruct (cluster_off_bounds v W c V) as (O0 & _ & O1). pose proof (data_in v W) as [_ DI].
  cbn [read_loop]. cbn [h_pos h_clu h_e]. change (cluster_size (vh v)) with cs.
  rewrite (cluster_ptr_eq v W c V).
  rewrite (sw_small M bufsize) by lia. rewrite (sw_small M cs) by lia.
  rewrite Z.rem_mod_nonneg by lia.
  rewrite (sw_small M (sz - p)) by lia. rewrite (sw_small M (bufsize - zlen acc)) by lia.
  rewrite (sw_small M (cs - p mod cs)) by lia.
  set (n := Z.min (cs - p mod cs) (Z.min (bufsize - zlen acc) (sz - p))).
  assert (N0 : 0 <= n) by (unfold n; lia).
  replace (n <? 0) with false by lia.
  assert (N1 : n <= cs - p mod cs /\ n <= bufsize - zlen acc /\ n <= sz - p) by (unfold n; lia).
  assert (LD : (if n =? 0 then Ok [] else ld v (sp_cluster_off (vh v) c + p mod cs) n)
               = Ok (bytes (vm v) (sp_cluster_off (vh v) c + p mod cs) n)).
  { destruct (Z.eqb_spec n 0) as [->|]; [reflexivity|]. apply ld_ok; lia. }
  rewrite LD. cbn [bind]. clear LD.
  rewrite C. rewrite <- (d_piece p n) by lia.
  rewrite (sw_small M (p + n)) by lia.
  set (y := firstn (Z.to_nat n) (skipn (Z.to_nat p) d)).
  assert (YL : zlen y = n) by (unfold y; rewrite zlen_firstn, zlen_skipn; lia).
  destruct (Z.ltb_spec n (cs - p mod cs)) as [NL|NL].
  - (* stop *)
    assert (XE : firstn (Z.to_nat (bufsize - zlen acc)) (skipn (Z.to_nat p) d) = y).
    { unfold y. clear - P DL NL N1 n N0 B. destruct (Z.leb_spec (bufsize - zlen acc) (sz - p)).
      - f_equal. unfold n in *. clear - H NL. lia.
      - assert (n = sz - p) as -> by (unfold n in *; clear - H NL; lia).
        clear NL N1 N0. rewrite !piece_all by lia. reflexivity. }
    exists (znth 0 l (p / cs)). rewrite XE, YL. split; [reflexivity|].
    unfold on. intros _. rewrite mod_in by lia. reflexivity.
  - (* the end of the cluster *)
    assert (NE : n = cs - p mod cs) by lia.
    destruct (mod_end p n ltac:(lia) NE) as (E1 & E2 & E3).
    rewrite read_fat_ok by (auto using nfats0; apply valid_entry; rewrite <- C; assumption).
    cbn [bind].
    destruct (next_cluster (p + n) ltac:(lia) ltac:(lia) E1 ltac:(lia) ltac:(lia)) as [[X1 X2]|(X1 & X2 & X3 & X4)];
      rewrite E2 in *.
    + rewrite X1. replace (p + n =? sz) with true by lia.
      assert (XE : firstn (Z.to_nat (bufsize - zlen acc)) (skipn (Z.to_nat p) d) = y).
      { unfold y. clear - P DL X2 N1. clearbody n. rewrite !piece_all by lia. reflexivity. }
      exists (znth 0 l (p / cs)). rewrite XE, YL. split; [reflexivity|]. unfold on. lia.
    + rewrite X1, X2, X4.
      destruct (IH (p + n) (znth 0 l ((p + n) / cs)) bufsize (acc ++ y)) as (c' & R1 & R2);
        [lia|lia|reflexivity|rewrite zlen_app; lia|lia|lia|].
      rewrite zlen_app, YL in R1, R2.
      set (z := firstn (Z.to_nat (bufsize - (zlen acc + n))) (skipn (Z.to_nat (p + n)) d)) in *.
      assert (XE : firstn (Z.to_nat (bufsize - zlen acc)) (skipn (Z.to_nat p) d) = y ++ z).
      { unfold y, z. replace (bufsize - (zlen acc + n)) with (bufsize - zlen acc - n) by lia.
        clear - P DL N0 N1. clearbody n. apply piece_split; lia. }
      exists c'. rewrite XE. rewrite zlen_app, YL.
      replace (p + (n + zlen z)) with (p + n + zlen z) by lia. split; [|exact R2].
      rewrite R1. rewrite <- app_assoc. reflexivity.
Qed.

Lemma seek_loop_ok : forall fuel p c dist moved, 0 <= p <= sz -> p / cs < zlen l ->
  c = znth 0 l (p / cs) -> 0 <= moved <= dist -> dist < M -> p + (dist - moved) <= sz ->
  0 < sz -> zlen l - p / cs < Z.of_nat fuel ->
  exists c', seek_loop fuel M v sz dist moved (Handle e p c) =
      Ok (Handle e (p + (dist - moved)) c') /\ on (p + (dist - moved)) c'.
Proof.
  induction fuel as [|fuel IH]; intros p c dist moved P L C B DM' FIT S0 FU; [lia|].
  pose proof (csize_pos v W) as CS.
  pose proof (Z.div_mod p cs ltac:(lia)) as DM. pose proof (Z.mod_pos_bound p cs ltac:(lia)) as MB.
  assert (Q0 : 0 <= p / cs) by (apply Z.div_pos; lia).
  pose proof (f_chain _ _ _ _ F ltac:(lia)) as CH.
  destruct (chain_nth v l _ CH (p / cs) ltac:(lia)) as (V & _ & _). rewrite <- C in V.
  cbn [seek_loop]. cbn [h_pos h_clu h_e]. change (cluster_size (vh v)) with cs.
  rewrite (sw_small M cs) by lia. rewrite Z.rem_mod_nonneg by lia.
  rewrite (sw_small M (sz - p)) by lia. rewrite (sw_small M (dist - moved)) by lia.
  rewrite (sw_small M (cs - p mod cs)) by lia.
  set (n := Z.min (cs - p mod cs) (Z.min (dist - moved) (sz - p))).
  assert (N0 : 0 <= n) by (unfold n; lia).
  replace (n <? 0) with false by lia.
  assert (N1 : n <= cs - p mod cs /\ n <= dist - moved /\ n <= sz - p) by (unfold n; lia).
  rewrite (sw_small M (p + n)) by lia. rewrite (sw_small M (moved + n)) by lia.
  destruct (Z.ltb_spec n (cs - p mod cs)) as [NL|NL].
  - exists c. replace (p + n) with (p + (dist - moved)) by lia. split; [reflexivity|].
    unfold on. intros _. replace (p + (dist - moved)) with (p + n) by lia.
    rewrite mod_in by lia. exact C.
  - assert (NE : n = cs - p mod cs) by lia.
    destruct (mod_end p n ltac:(lia) NE) as (E1 & E2 & E3).
    rewrite read_fat_ok by (auto using nfats0, valid_entry).
    cbn [bind].
    destruct (next_cluster (p + n) ltac:(lia) ltac:(lia) E1 ltac:(lia) ltac:(lia)) as [[X1 X2]|(X1 & X2 & X3 & X4)];
      rewrite E2, <- C in *.
    + rewrite X1. replace (p + n =? sz) with true by lia.
      exists c. replace (p + (dist - moved)) with (p + n) by lia. split; [reflexivity|]. unfold on. lia.
    + rewrite X1, X2, X4.
      destruct (IH (p + n) (znth 0 l ((p + n) / cs)) dist (moved + n)) as (c' & R1 & R2);
        [lia|lia|reflexivity|lia|lia|lia|lia|lia|].
      replace (p + n + (dist - (moved + n))) with (p + (dist - moved)) in * by lia. eauto.
Qed.

(** the handle stands at position [p] *)
Definition at_pos (h : handle) (p : Z) : Prop :=
  h_e h = e /\ h_pos h = p /\ 0 <= p < M /\ on p (h_clu h).

Lemma open_ok : exists h, open_handle v e = Ok h /\ at_pos h 0.
Proof.
  unfold open_handle. rewrite first_cluster_ok by (auto; apply F). cbn [bind].
  eexists. split; [reflexivity|]. repeat split; cbn; try lia.
  intros S. pose proof (f_chain _ _ _ _ F S) as CH. destruct (chain_head _ _ _ CH) as [_ (r & ->)].
  pose proof (csize_pos v W). rewrite Z.div_0_l by lia. reflexivity.
Qed.

Lemma rewind_ok h p : at_pos h p -> exists h', rewind v h = Ok h' /\ at_pos h' 0.
Proof.
  intros (E & _). unfold rewind. rewrite E. apply open_ok.
Qed.

Lemma forward_ok fuel h p dist : (length l < fuel)%nat -> at_pos h p -> 0 <= dist -> p + dist < M ->
  exists h', seek_forward fuel M v h dist = Ok (p + dist, h') /\ at_pos h' (p + dist).
Proof.
  intros FU (E & P & R & O) D B. unfold seek_forward. rewrite E, P.
  rewrite file_size_ok by apply F. cbn [bind]. pose proof (de_size_range v e W) as S.
  rewrite (sw_small M sz) by lia. rewrite (sw_small M (p + dist)) by lia.
  destruct (Z.eqb_spec dist 0) as [->|N].
  - exists h. rewrite Z.add_0_r. split; [reflexivity|]. repeat split; auto; lia.
  - destruct (Z.ltb_spec sz (p + dist)) as [X|X].
    + eexists. split; [reflexivity|]. repeat split; cbn; try lia. unfold on; lia.
    + destruct h as [he hp hc]. cbn in E, P, O. subst he hp.
      pose proof (div_lt p ltac:(lia)) as DL.
      destruct (seek_loop_ok fuel p hc dist 0) as (c' & R1 & R2);
        [lia|lia|apply O; lia|lia|lia|lia|lia|unfold zlen; lia|].
      rewrite R1. cbn [bind h_pos]. rewrite Z.sub_0_r in *.
      eexists. split; [reflexivity|]. repeat split; cbn; auto; lia.
Qed.

Lemma step_ok fuel h p o : (length l < fuel)%nat -> at_pos h p -> in_range M d p o -> ~ end_seek o ->
  exists h', run1 fuel M v h o = Ok (fst (sp_step d p o), h') /\ at_pos h' (snd (sp_step d p o)).
Proof.
  intros FU A R NE. pose proof d_len as DL. pose proof (de_size_range v e W) as S.
  destruct o as [n|off w]; cbn [run1 sp_step].
  - destruct A as (E & P & RP & O). cbn in R. unfold fat_read. rewrite E, P.
    rewrite file_size_ok by apply F. cbn [bind]. rewrite (sw_small M sz) by lia.
    unfold e_byte. destruct (f_in _ _ _ _ F) as [I1 I2]. rewrite ld_ok by lia. cbn [bind].
    rewrite bytes_1. cbn [le]. rewrite Z.mul_0_r, Z.add_0_r. unfold is_dir. rewrite (f_reg _ _ _ _ F).
    cbn iota. destruct (Z.leb_spec sz p) as [X|X].
    + cbn [bind]. change (0 <? 0) with false. cbn iota.
      assert (SK : skipn (Z.to_nat p) d = []) by (apply skipn_all2; unfold zlen in DL; lia).
      rewrite SK, firstn_nil. cbn [fst snd]. rewrite (zlen_nil (A:=Z)), Z.add_0_r.
      exists h. split; [reflexivity|]. repeat split; auto; lia.
    + destruct h as [he hp hc]. cbn in E, P, O. subst he hp.
      pose proof (div_lt p ltac:(lia)) as DV.
      destruct (read_loop_ok fuel p hc n []) as (c' & R1 & R2);
        [lia|lia|apply O; lia|rewrite (zlen_nil (A:=Z)); lia|lia|unfold zlen; lia|].
      rewrite (zlen_nil (A:=Z)), Z.sub_0_r in R1, R2. rewrite R1. cbn [bind app fst snd].
      set (x := firstn (Z.to_nat n) (skipn (Z.to_nat p) d)) in *.
      pose proof (zlen_nonneg x). replace (zlen x <? 0) with false by lia.
      assert (XL : zlen x <= sz - p) by (unfold x; rewrite zlen_firstn, zlen_skipn; lia).
      eexists. split; [reflexivity|]. repeat split; cbn; auto; lia.
  - destruct R as [RO RP]. unfold seek_to in *. rewrite DL in *.
    pose proof A as (E & P & RG & O).
    destruct w; cbn [fat_seek].
    + (* SET *) specialize (RP ltac:(discriminate) off). destruct (Z.ltb_spec off 0) as [X|X].
      * cbn [bind fst snd]. exists h. split; [reflexivity|assumption].
      * destruct (rewind_ok h p A) as (h1 & R1 & A1). rewrite R1. cbn [bind].
        destruct (forward_ok fuel h1 0 off FU A1 X ltac:(rewrite Z.add_0_l; auto)) as (h2 & R2 & A2).
        rewrite R2. cbn [bind fst snd]. rewrite Z.add_0_l in *. replace (off <? 0) with false by lia. eauto.
    + (* CUR *) specialize (RP ltac:(discriminate) (p + off)).
      destruct (Z.ltb_spec off 0) as [X|X].
      * rewrite P. rewrite (sw_small M (p + off)) by lia. destruct (Z.ltb_spec (p + off) 0) as [Y|Y].
        -- cbn [bind fst snd]. exists h. split; [reflexivity|assumption].
        -- destruct (rewind_ok h p A) as (h1 & R1 & A1). rewrite R1. cbn [bind].
           destruct (forward_ok fuel h1 0 (p + off) FU A1 Y ltac:(rewrite Z.add_0_l; auto)) as (h2 & R2 & A2).
           rewrite R2. cbn [bind fst snd]. rewrite Z.add_0_l in *.
           replace (p + off <? 0) with false by lia. eauto.
      * destruct (Z.ltb_spec (p + off) 0) as [Y|Y]; [lia|].
        destruct (forward_ok fuel h p off FU A X ltac:(auto)) as (h2 & R2 & A2).
        rewrite R2. cbn [bind fst snd]. replace (p + off <? 0) with false by lia. eauto.
    + (* END *) cbn in NE. specialize (RP ltac:(discriminate) (sz + off)).
      destruct (Z.leb_spec 0 off) as [X|X]; [contradiction|].
      rewrite E. rewrite file_size_ok by apply F. cbn [bind]. rewrite (sw_small M sz) by lia.
      rewrite (sw_small M (sz + off)) by lia. destruct (Z.ltb_spec (sz + off) 0) as [Y|Y].
      * cbn [bind fst snd]. exists h. split; [reflexivity|assumption].
      * destruct (rewind_ok h p A) as (h1 & R1 & A1). rewrite R1. cbn [bind].
        destruct (forward_ok fuel h1 0 (sz + off) FU A1 Y ltac:(rewrite Z.add_0_l; auto)) as (h2 & R2 & A2).
        rewrite R2. cbn [bind fst snd]. rewrite Z.add_0_l in *.
        replace (sz + off <? 0) with false by lia. eauto.
    + (* other *) cbn [bind fst snd]. exists h. change (-1 <? 0) with true. cbn iota.
      split; [reflexivity|assumption].
Qed.

Lemma run_ok fuel : (length l < fuel)%nat -> forall os h p, at_pos h p -> ops_ok M d p os ->
  run fuel M v h os = Ok (sp_run d p os).
Proof.
  intros FU. induction os as [|o os IH]; intros h p A R; [reflexivity|].
  cbn [ops_ok] in R. destruct R as (R1 & R2 & R3).
  destruct (step_ok fuel h p o FU A R1 R2) as (h' & S1 & S2).
  cbn [run sp_run]. destruct (sp_step d p o) as [x q] eqn:SP. cbn [fst snd] in *.
  rewrite S1. cbn [bind]. rewrite (IH h' q S2 R3). reflexivity.
Qed.

Lemma history_ok fuel os : (length l < fuel)%nat -> ops_ok M d 0 os ->
  (bnd h <- open_handle v e; run fuel M v h os) = Ok (sp_run d 0 os).
Proof.
  intros FU R. destruct open_ok as (h & H1 & H2). rewrite H1. cbn [bind].
  apply run_ok; assumption.
Qed.

(** SEEK_END with an offset >= 0 counts from the current position *)
Lemma end_ok fuel h p off : (length l < fuel)%nat -> at_pos h p -> 0 <= off -> p + off < M ->
  exists h', fat_seek fuel M v h off SEEK_END = Ok (p + off, h') /\ at_pos h' (p + off).
Proof.
  intros FU A O B. cbn [fat_seek]. replace (0 <=? off) with true by lia.
  apply forward_ok; assumption.
Qed.

(** the position after any calls, then SEEK_END *)
Lemma run_at fuel : (length l < fuel)%nat -> forall os h p, at_pos h p -> ops_ok M d p os ->
  exists h', at_pos h' (fold_left (fun q o => snd (sp_step d q o)) os p) /\
    forall os', run fuel M v h (os ++ os') =
      (bnd y <- run fuel M v h' os'; Ok (sp_run d p os ++ y)).
Proof.
  intros FU. induction os as [|o os IH]; intros h p A R.
  - exists h. split; [assumption|]. intros os'. cbn [app run sp_run].
    destruct (run fuel M v h os'); reflexivity.
  - cbn [ops_ok] in R. destruct R as (R1 & R2 & R3).
    destruct (step_ok fuel h p o FU A R1 R2) as (h' & S1 & S2).
    destruct (IH h' _ S2 R3) as (h2 & A2 & E2). exists h2. split; [exact A2|].
    intros os'. cbn [app run sp_run fold_left]. destruct (sp_step d p o) as [x q] eqn:SP.
    cbn [fst snd] in *. rewrite S1. cbn [bind]. rewrite E2.
    destruct (run fuel M v h2 os'); reflexivity.
Qed.

Lemma end_after fuel os off : (length l < fuel)%nat -> ops_ok M d 0 os -> 0 <= off ->
  let p := fold_left (fun q o => snd (sp_step d q o)) os 0 in p + off < M ->
  (bnd h <- open_handle v e; run fuel M v h (os ++ [Seek off SEEK_END])) =
    Ok (sp_run d 0 os ++ [Pos (p + off)]).
Proof.
  intros FU R O p B. destruct open_ok as (h & H1 & H2). rewrite H1. cbn [bind].
  destruct (run_at fuel FU os h 0 H2 R) as (h' & A & E). rewrite E. fold p in A.
  destruct (end_ok fuel h' p off FU A O B) as (h2 & E2 & _).
  cbn [run run1]. rewrite E2. cbn [bind]. destruct A as (_ & _ & A & _).
  replace (p + off <? 0) with false by lia. reflexivity.
Qed.
End FILE.
