From Verif Require Import Lib Ramfs_Model Ramfs_Spec Ramfs_Proofs.

(** truncation *)
Notation up := page_up.
Lemma pg_lt p len : 0 <= p -> pg p < len <-> p < up len.
Proof. unfold pg, page_up, PAGE. lia. Qed.
Lemma byte_filter l len p : 0 <= p -> byte_of (filter (fun b : block => fst b <? len) l) p = if p <? up len then byte_of l p else 0.
Proof.
  intros P. unfold byte_of. rewrite pg_eq, find_filter. pose proof (pg_lt p len P). destruct (pg p <? len) eqn:A; destruct (p <? up len) eqn:B; try lia; reflexivity.
Qed.
Lemma filter_asc (g : block -> bool) l : StronglySorted Z.lt (map fst l) -> StronglySorted Z.lt (map fst (filter g l)).
Proof.
  induction l as [|b l IH]; cbn [filter map]; intros S; [constructor|]. inversion S as [|x y S1 F]; subst. destruct (g b); [|auto]. cbn [map]. constructor; [auto|]. rewrite Forall_map in *. rewrite Forall_forall in *. intros x X. apply F. apply filter_In in X. tauto.
Qed.
Lemma filter_forall {A} (P : A -> Prop) g l : Forall P l -> Forall P (filter g l).
Proof. rewrite !Forall_forall. intros F x X. apply F. apply filter_In in X. tauto. Qed.
Lemma trunc_ok M i len : wf M i -> Z.land (mode i) 128 = 128 -> - M <= len < M ->
  let '(i', rc) := truncate_safe M i len in
  if len <? 0 then i' = i /\ rc = - 22
  else rc = 0 /\ wf M i' /\ mode i' = mode i /\ fsize i' = len /\ forall p, 0 <= p -> byte_of (blocks i') p = if (len <? fsize i) && (up len <=? p) then 0 else byte_of (blocks i) p.
Proof.
  intros [W1 W2 W3 W4] Md L. unfold truncate_safe. rewrite Md, Z.eqb_refl. destruct (len <? fsize i) eqn:A.
  - unfold inode_truncate. destruct (len <? 0) eqn:N; cbn [orb]; [auto|]. destruct (len >=? fsize i) eqn:B; [lia|]. rewrite W1. cbn [isdir mode fsize blocks]. split; [reflexivity|]. rewrite drop_last_filter by (auto || lia).
    split; [constructor; cbn [isdir fsize blocks]; [reflexivity|lia|apply filter_asc; exact W3|apply filter_forall; exact W4]|]. split; [reflexivity|]. split; [reflexivity|]. intros p P. rewrite byte_filter by exact P. cbn [andb]. destruct (p <? up len) eqn:U; destruct (up len <=? p) eqn:V; try lia; reflexivity.
  - destruct (len <? 0) eqn:N; [lia|]. destruct (len >? fsize i) eqn:B; unfold inode_extend; cbn [isdir mode fsize blocks andb].
    + split; [reflexivity|]. split; [constructor; cbn [isdir fsize blocks]; auto; lia|]. auto.
    + split; [reflexivity|]. split; [constructor; auto|]. split; [reflexivity|]. split; [lia|]. reflexivity.
Qed.
(** seeking *)
Lemma seek_ok M i pos off wh : 0 < M -> 0 <= fsize i < M -> 0 <= pos < M -> - M <= off < M -> let t := target (file_of i) pos off wh in
  seek_nolock M i pos off wh = if (0 <=? t) && (t <? M) then (t, t) else (- 22, 0).
Proof.
  intros HM F P O. cbv zeta. unfold seek_nolock, target, file_of. cbn [size]. destruct wh.
  - destruct (off <? 0) eqn:E; destruct ((0 <=? off) && (off <? M)) eqn:G; try lia; reflexivity.
  - destruct ((0 <=? pos + off) && (pos + off <? M)) eqn:G; [rewrite sw_small by lia; destruct (pos + off <? 0) eqn:E; [lia|reflexivity]|]. unfold sw.
    destruct (Z_lt_dec (pos + off) 0); [rewrite Z.mod_small by lia; destruct (pos + off + M - M <? 0) eqn:E; [reflexivity|lia]|]. assert (X : (pos + off + M) mod (2 * M) = pos + off - M) by (symmetry; apply (Z.mod_unique _ _ 1); lia). rewrite X. destruct (pos + off - M - M <? 0) eqn:E; [reflexivity|lia].
  - destruct ((0 <=? fsize i + off) && (fsize i + off <? M)) eqn:G; [rewrite sw_small by lia; destruct (fsize i + off <? 0) eqn:E; [lia|reflexivity]|]. unfold sw.
    destruct (Z_lt_dec (fsize i + off) 0); [rewrite Z.mod_small by lia; destruct (fsize i + off + M - M <? 0) eqn:E; [reflexivity|lia]|]. assert (X : (fsize i + off + M) mod (2 * M) = fsize i + off - M) by (symmetry; apply (Z.mod_unique _ _ 1); lia). rewrite X. destruct (fsize i + off - M - M <? 0) eqn:E; [reflexivity|lia].
Qed.
(** flags *)
Lemma land_lor_3 x : Z.land x (Z.lor O_WRONLY O_RDWR) = 0 <-> Z.land x 1 = 0 /\ Z.land x 2 = 0.
Proof. rewrite Z.land_lor_distr_r. rewrite Z.lor_eq_0_iff. reflexivity. Qed.
Lemma can_read_ok h : if can_read h then readable (fl h) else ~ readable (fl h).
Proof. unfold can_read, has, readable, O_WRONLY, O_RDWR. destruct (Z.land (fl h) 1 =? 0) eqn:A; destruct (Z.land (fl h) 2 =? 0) eqn:B; cbn [negb andb]; lia. Qed.
Lemma can_write_ok h : if can_write h then writable (fl h) else ~ writable (fl h).
Proof. unfold can_write, has, writable. pose proof (land_lor_3 (fl h)). destruct (Z.land (fl h) (Z.lor O_WRONLY O_RDWR) =? 0) eqn:A; cbn [negb]; lia. Qed.

(** specification facts *)
Lemma feq_refl f : feq f f.
Proof. split; auto. Qed.
Lemma feq_sym f g : feq f g -> feq g f.
Proof. intros [A B]. split; [auto|intros; rewrite B; auto]. Qed.
Lemma feq_trans f g h : feq f g -> feq g h -> feq f h.
Proof. intros [A B] [C D]. split; [congruence|intros; rewrite B, D; auto]. Qed.
Lemma content_feq f g pos n : feq f g -> 0 <= pos -> content f pos n = content g pos n.
Proof. intros [_ B] P. unfold content. apply map_seq_ext. intros j J. apply B. lia. Qed.
Lemma sread_feq f g pos n : feq f g -> 0 <= pos -> sread f pos n = sread g pos n.
Proof. intros F P. unfold sread. destruct F as [A B]. rewrite A. apply content_feq; [split; auto|exact P]. Qed.
Lemma swrite_feq f g pos d : feq f g -> feq (swrite f pos d) (swrite g pos d).
Proof.
  intros [A B]. unfold swrite. destruct (zlen d =? 0); [split; auto|]. split; cbn [size byte]; [congruence|]. intros p P. rewrite B by exact P. reflexivity.
Qed.
Lemma sread_len f pos n : zlen (sread f pos n) = Z.max 0 (Z.min n (size f - pos)).
Proof. apply content_len. Qed.
Lemma sread_app f pos a b : 0 <= a -> 0 <= b -> zlen (sread f pos a) = a -> sread f pos (a + b) = sread f pos a ++ sread f (pos + a) b.
Proof.
  intros A B H. rewrite sread_len in H. unfold sread. destruct (Z.eq_dec a 0) as [->|].
  - rewrite (content_le f pos (Z.min 0 _)) by lia. cbn [app]. rewrite Z.add_0_l, Z.add_0_r. reflexivity.
  - replace (Z.min a (size f - pos)) with a by lia. destruct (Z_le_dec 0 (Z.min b (size f - (pos + a)))).
    + rewrite <- content_split by lia. f_equal. lia.
    + rewrite (content_le f (pos + a)) by lia. rewrite app_nil_r. f_equal. lia.
Qed.
Lemma sread_min f pos a : 0 <= a -> sread f pos (zlen (sread f pos a)) = sread f pos a.
Proof.
  intros A. rewrite sread_len. unfold sread. destruct (Z_le_dec (size f - pos) 0); [rewrite !content_le by lia; reflexivity|]. f_equal. lia.
Qed.
Lemma start_eq f i flags pos : size f = fsize i -> start f flags pos = if has flags O_APPEND then fsize i else pos.
Proof. intros E. unfold start, has, O_APPEND. destruct (Z.land flags 1024 =? 0); cbn [negb]; auto. Qed.
Lemma swrite_app f pos a b : 0 <= pos -> feq (swrite (swrite f pos a) (pos + zlen a) b) (swrite f pos (a ++ b)).
Proof.
  intros P. pose proof (zlen_nonneg a). pose proof (zlen_nonneg b). assert (L : zlen (a ++ b) = zlen a + zlen b) by (unfold zlen; rewrite app_length; lia). unfold swrite. rewrite L.
  destruct (zlen a =? 0) eqn:A; destruct (zlen b =? 0) eqn:B; destruct (zlen a + zlen b =? 0) eqn:C; try lia; split; cbn [size byte]; try lia; intros p Hp; try reflexivity.
  - assert (a = []) by (destruct a; [reflexivity|unfold zlen in A; cbn in A; lia]). subst a. cbn [app]. replace (zlen (@nil Z)) with 0 by reflexivity. rewrite !Z.add_0_r, Z.add_0_l. reflexivity.
  - assert (b = []) by (destruct b; [reflexivity|unfold zlen in B; cbn in B; lia]). subst b. rewrite app_nil_r. replace (zlen (@nil Z)) with 0 by reflexivity. rewrite !Z.add_0_r. reflexivity.
  - destruct ((pos + zlen a <=? p) && (p <? pos + zlen a + zlen b)) eqn:E1; destruct ((pos <=? p) && (p <? pos + zlen a)) eqn:E2; destruct ((pos <=? p) && (p <? pos + (zlen a + zlen b))) eqn:E3; try lia; try reflexivity.
    + unfold znth. rewrite app_nth2 by (unfold zlen in *; lia). f_equal. unfold zlen in *. lia.
    + unfold znth. rewrite app_nth1 by (unfold zlen in *; lia). reflexivity.
Qed.

(** readv *)
Lemma copied_prefix cbuf data n : zlen data <= n -> exists t, copied cbuf data n = data ++ t.
Proof.
  intros H. unfold copied. exists (firstn (Z.to_nat n - length data) (skipn (length data) cbuf)). rewrite firstn_app. rewrite firstn_all2 by (unfold zlen in H; lia). reflexivity.
Qed.
Lemma copied_full cbuf data n : zlen data = n -> copied cbuf data n = data.
Proof. intros H. unfold copied. rewrite firstn_app. rewrite firstn_all2 by (unfold zlen in H; lia). replace (Z.to_nat n - length data)%nat with O by (unfold zlen in H; lia). rewrite firstn_O, app_nil_r. reflexivity. Qed.
Notation sum := (fold_right Z.add 0).
Lemma sum_nonneg l : Forall (fun x => 0 <= x) l -> 0 <= sum l.
Proof. induction 1; cbn [fold_right]; lia. Qed.
Lemma readv_ok M CB i : 0 < M -> 0 <= CB -> isdir i = false -> 0 <= fsize i < M -> forall iov cbuf pos ret outs, 0 <= pos < M -> Forall (fun l => 0 <= l) iov -> sum iov < M ->
  exists n new, readv M CB i cbuf iov pos ret outs = (ret + n, outs ++ new, pos + n) /\ 0 <= n <= sum iov /\ n = zlen (sread (file_of i) pos n) /\
    (Forall (fun l => l <= CB) iov -> n = zlen (sread (file_of i) pos (sum iov))) /\ firstn (Z.to_nat n) (concat new) = sread (file_of i) pos n.
Proof.
  intros HM HC D F. set (f := file_of i). assert (Sf : size f = fsize i) by reflexivity.
  induction iov as [|l iov IH]; intros cbuf pos ret outs P A S.
  - exists 0, []. cbn [readv fold_right]. rewrite !Z.add_0_r, app_nil_r. split; [reflexivity|]. split; [lia|]. rewrite sread_len. split; [lia|]. split; [intros _; lia|]. unfold sread. rewrite content_le by lia. reflexivity.
  - inversion A as [|? ? L A']; subst. cbn [fold_right] in S. pose proof (sum_nonneg _ A'). cbn [readv]. rewrite read_ok by (auto; lia). fold f. set (d := sread f pos (Z.min l CB)). assert (Ld : zlen d = Z.max 0 (Z.min (Z.min l CB) (fsize i - pos))) by (unfold d; rewrite sread_len, Sf; reflexivity).
    destruct (zlen d <? 0) eqn:E0; [lia|]. destruct (copied_prefix cbuf d (Z.min l CB) ltac:(lia)) as [t Ht]. destruct (zlen d <? l) eqn:E.
    + exists (zlen d), [copied cbuf d (Z.min l CB)]. split; [reflexivity|]. cbn [fold_right]. split; [lia|]. assert (X : sread f pos (zlen d) = d) by (apply sread_min; lia). rewrite X. split; [reflexivity|]. split.
      * intros Fo. inversion Fo; subst. rewrite Ld, sread_len, Sf. lia.
      * cbn [concat]. rewrite app_nil_r, Ht. unfold zlen. rewrite Nat2Z.id. rewrite firstn_app, Nat.sub_diag, firstn_O, app_nil_r. apply firstn_all.
    + assert (Dl : zlen d = l) by lia. assert (Lc : Z.min l CB = l) by lia. specialize (IH (d ++ skipn (length d) cbuf) (pos + zlen d) (ret + zlen d) (outs ++ [copied cbuf d (Z.min l CB)]) ltac:(lia) A' ltac:(lia)).
      destruct IH as (n & new & -> & N & Nn & Fo & Co). exists (zlen d + n), (copied cbuf d (Z.min l CB) :: new). split; [f_equal; [f_equal; [lia|rewrite <- app_assoc; reflexivity]|lia]|]. cbn [fold_right]. split; [lia|].
      assert (Dd : zlen (sread f pos (zlen d)) = zlen d) by (unfold d at 1; rewrite sread_min by lia; reflexivity).
      rewrite (sread_app f pos (zlen d) n) by (auto; lia). split; [unfold zlen at 2; rewrite app_length, Nat2Z.inj_add; fold (zlen (sread f pos (zlen d))); fold (zlen (sread f (pos + zlen d) n)); lia|]. split.
      * intros X. apply Forall_inv_tail in X. specialize (Fo X). rewrite Fo. rewrite !sread_len, Sf. lia.
      * cbn [concat]. rewrite copied_full by lia. assert (Dx : sread f pos (zlen d) = d) by (apply sread_min; lia). rewrite Dx, <- Co. rewrite Z2Nat.inj_add by lia. unfold zlen. rewrite Nat2Z.id. apply firstn_app_2.
Qed.

(** writev *)
Lemma writev_ok M dbg CB flags : 0 < M -> forall bufs i k pos ret, wf M i -> 0 <= pos -> bufs <> [] -> Forall (fun b => zlen b <= CB) bufs -> 0 <= ret ->
  let p0 := if has flags O_APPEND then fsize i else pos in p0 + zlen (concat bufs) < M -> need p0 bufs <= Z.of_nat k ->
  match writev M dbg CB i flags k (map Some bufs) pos ret with
  | None => dbg = true
  | Some (i', rc, pos') => rc = ret + zlen (concat bufs) /\ pos' = p0 + zlen (concat bufs) /\ wf M i' /\ mode i' = mode i /\
      bcount i' - zlen (blocks i') = bcount i - zlen (blocks i) /\ feq (file_of i') (swrite (file_of i) p0 (concat bufs))
  end.
Proof.
  intros HM. induction bufs as [|b bufs IH]; intros i k pos ret W P NE A R p0 B N; [contradiction|]. clear NE. inversion A as [|? ? Lb A']; subst. cbn [map writev concat need] in *.
  assert (Eb : firstn (Z.to_nat CB) b = b) by (apply firstn_all2; unfold zlen in Lb; lia). rewrite Eb. pose proof (zlen_nonneg b). pose proof (zlen_nonneg (concat bufs)). assert (Lc : zlen (b ++ concat bufs) = zlen b + zlen (concat bufs)) by (unfold zlen; rewrite app_length; lia). rewrite Lc in B.
  assert (P0 : 0 <= p0) by (unfold p0; destruct (has flags O_APPEND); [apply (wf_size _ _ W)|exact P]).
  assert (Nn : forall bs q, 0 <= q -> 0 <= need q bs) by (induction bs as [|x bs IHb]; intros q Q; cbn [need]; [lia|]; pose proof (pages_nonneg q (zlen x) Q); pose proof (zlen_nonneg x); specialize (IHb (q + zlen x) ltac:(lia)); lia).
  pose proof (Nn bufs (p0 + zlen b) ltac:(lia)) as N2.
  pose proof (write_ok M dbg i flags k b pos W P ltac:(fold p0; lia)) as Hw. fold p0 in Hw. cbv zeta in Hw. destruct (write_nolock M dbg i flags k b pos) as [[[[i' k'] rc] pos']|]; [|exact Hw].
  destruct Hw as (n & Am & -> & -> & W' & Md & Ku & Bc & Fe). assert (n = zlen b) by (destruct Am as [->|[_ X]]; [reflexivity|lia]). subst n. specialize (Ku eq_refl).
  assert (Wc : wcode (zlen b) (zlen b) = zlen b) by (unfold wcode; destruct (zlen b >? 0) eqn:X; destruct (zlen b =? 0) eqn:Y; cbn [andb]; lia). rewrite Wc. destruct (zlen b <? 0) eqn:X1; [lia|]. destruct (zlen b <? zlen b) eqn:X2; [lia|].
  assert (Fb : firstn (Z.to_nat (zlen b)) b = b) by (apply firstn_all2; unfold zlen; lia). rewrite Fb in Fe.
  destruct bufs as [|b2 bufs].
  - cbn [map writev concat] in *. rewrite app_nil_r. split; [reflexivity|]. split; [reflexivity|]. split; [exact W'|]. split; [exact Md|]. split; [exact Bc|exact Fe].
  - assert (St : (if has flags O_APPEND then fsize i' else p0 + zlen b) = p0 + zlen b).
    { destruct (has flags O_APPEND) eqn:Ap; [|reflexivity]. destruct Fe as [Fs _]. unfold swrite, file_of in Fs. cbn [size] in Fs. destruct (zlen b =? 0) eqn:Zb; cbn [size] in Fs; unfold p0 in *; lia. }
    specialize (IH i' k' (p0 + zlen b) (ret + zlen b) W' ltac:(lia) ltac:(discriminate) A' ltac:(lia)). cbv zeta in IH. rewrite St in IH. specialize (IH ltac:(lia) ltac:(lia)).
    destruct (writev M dbg CB i' flags k' (map Some (b2 :: bufs)) (p0 + zlen b) (ret + zlen b)) as [[[i2 rc2] pos2]|]; [|exact IH]. destruct IH as (-> & -> & W2 & Md2 & Bc2 & Fe2). rewrite Lc. split; [lia|]. split; [lia|]. split; [exact W2|]. split; [congruence|]. split; [lia|].
    eapply feq_trans; [exact Fe2|]. eapply feq_trans; [apply swrite_feq; exact Fe|]. apply swrite_app. exact P0.
Qed.
