(** fat_mmap of whole clusters. *)
From Verif Require Import Lib Fat_Model Fat_Spec Fat_Proofs Fat_Proofs2 Fat_Proofs3.

Lemma seq_from m : forall n, seq n m = map (fun k => (n + k)%nat) (seq 0 m).
Proof.
  induction m as [|m IH]; intros n; [reflexivity|]. cbn [seq map]. f_equal; [lia|].
  rewrite IH. rewrite <- seq_shift, map_map. apply map_ext. intros. lia.
Qed.

Section MMAP.
Variables (v : vol) (va a b np : Z).
Hypothesis W : wf v.
Hypothesis NP : csize v = np * PAGE.
Notation cs := (csize v).

Fixpoint expd (i : Z) (l : list Z) : list (Z * Z) :=
  match l with
  | [] => []
  | c :: r => (if (a <=? i) && (i <? b) then
                 pages (Z.to_nat np) (va + (i - a) * cs) (sp_cluster_off (vh v) c) else [])
              ++ expd (i + 1) r
  end.

Lemma expd_past l : forall i, b <= i -> expd i l = [].
Proof.
  induction l as [|c l IH]; intros i I; [reflexivity|]. cbn [expd].
  replace ((a <=? i) && (i <? b)) with false by lia. cbn [app]. apply IH. lia.
Qed.

Lemma np_pos : 1 <= np.
Proof. pose proof (csize_pos v W). unfold PAGE in NP. lia. Qed.

Lemma mmap_loop_ok l : forall i c acc fuel, chain v c l -> 0 <= i -> 0 <= a ->
  (length l < fuel)%nat ->
  mmap_loop fuel v (a * cs) (b * cs) (va + Z.max 0 (i - a) * cs) (i * cs) c acc =
    Ok (acc ++ expd i l).
Proof.
  pose proof (csize_pos v W) as CS. pose proof np_pos as N1.
  induction l as [|c0 l IH]; intros i c acc fuel CH I A FU; [inversion CH|].
  destruct (chain_head _ _ _ CH) as [V (r & E)]. injection E as <- <-.
  destruct fuel as [|fuel]; [cbn in FU; lia|]. cbn [mmap_loop].
  change (cluster_size (vh v)) with cs. rewrite (cluster_ptr_eq v W) by assumption.
  destruct (Z.leb_spec (b * cs) (i * cs)) as [X|X].
  { rewrite expd_past by nia. rewrite app_nil_r. reflexivity. }
  assert (IB : i < b) by nia.
  assert (STEP : exists acc1, acc1 = acc ++ (if (a <=? i) && (i <? b) then
                 pages (Z.to_nat np) (va + (i - a) * cs) (sp_cluster_off (vh v) c0) else []) /\
    (if a * cs <? i * cs + cs then
       let off0 := if i * cs <? a * cs then a * cs else i * cs in
       let data0 := if i * cs <? a * cs then sp_cluster_off (vh v) c0 + (a * cs - off0)
                    else sp_cluster_off (vh v) c0 in
       let cnt := (Z.min (i * cs + cs) (b * cs) - off0) / PAGE in
       let o2 := off0 + cnt * PAGE in
       if o2 mod cs =? 0
       then Ok (acc ++ pages (Z.to_nat cnt) (va + Z.max 0 (i - a) * cs) data0,
                va + Z.max 0 (i - a) * cs + cnt * PAGE, o2) else Assert
     else Ok (acc, va + Z.max 0 (i - a) * cs, i * cs + cs)) =
    Ok (acc1, va + Z.max 0 (i + 1 - a) * cs, (i + 1) * cs)).
  { eexists. split; [reflexivity|]. destruct (Z.ltb_spec (a * cs) (i * cs + cs)) as [Y|Y].
    - assert (AI : a <= i) by nia. cbv zeta.
      replace (i * cs <? a * cs) with false by nia.
      replace (Z.min (i * cs + cs) (b * cs)) with (i * cs + cs) by nia.
      replace (i * cs + cs - i * cs) with cs by ring.
      assert (CN : cs / PAGE = np) by (rewrite NP; apply Z.div_mul; unfold PAGE; lia).
      rewrite CN. rewrite <- NP.
      replace ((i * cs + cs) mod cs) with 0
        by (replace (i * cs + cs) with ((i + 1) * cs) by ring; rewrite Z.mod_mul; lia).
      cbn [Z.eqb]. replace ((a <=? i) && (i <? b)) with true by lia.
      replace (Z.max 0 (i - a)) with (i - a) by lia.
      replace (Z.max 0 (i + 1 - a)) with (i - a + 1) by lia.
      f_equal. f_equal; [f_equal|]; ring.
    - replace ((a <=? i) && (i <? b)) with false by nia. rewrite app_nil_r.
      replace (Z.max 0 (i - a)) with 0 by nia. replace (Z.max 0 (i + 1 - a)) with 0 by nia.
      f_equal. f_equal; ring. }
  destruct STEP as (acc1 & E1 & E2). cbv zeta in E2 |- *. rewrite E2. cbn [bind].
  rewrite read_fat_ok by (auto using nfats0, valid_entry). cbn [bind].
  cbn [expd]. rewrite app_assoc, <- E1.
  inversion CH as [c' V' EO Q1|c' l' V' CH' Q1 Q2]; subst c'.
  - subst l. assert (NB : is_bad (fat_type (vh v)) (fat_val v 0 c0) = false).
    { unfold is_bad, sp_eoc in *. rewrite (type_eq v W).
      destruct (width_cases v) as [[Ew _]|[Ew _]]; rewrite Ew in EO |- *.
      - change (2 =? 2) with true in *. cbn iota in *. lia.
      - change (4 =? 2) with false in *. cbn iota in *. lia. }
    rewrite NB. rewrite (eoc_ok v _ W EO). cbn [expd]. rewrite app_nil_r. reflexivity.
  - subst l'. destruct (chain_head _ _ _ CH') as [Vn _].
    destruct (valid_not_eoc v _ W Vn) as [-> ->].
    rewrite IH; auto; [lia|cbn in FU; lia].
Qed.

(** the pages that are expected, by number *)
Lemma pages_fst n : forall x y, map fst (pages n x y) = map (fun k => x + Z.of_nat k * PAGE) (seq 0 n).
Proof.
  induction n as [|n IH]; intros x y; [reflexivity|].
  cbn [pages map seq fst]. f_equal; [lia|]. rewrite IH, <- seq_shift, map_map.
  apply map_ext. intros k. lia.
Qed.
Lemma pages_in n : forall x y p q, In (p, q) (pages n x y) ->
  exists k, 0 <= k < Z.of_nat n /\ p = x + k * PAGE /\ q = y + k * PAGE.
Proof.
  induction n as [|n IH]; intros x y p q H; [destruct H|]. cbn [pages] in H.
  destruct H as [H|H].
  - injection H as <- <-. exists 0. lia.
  - destruct (IH _ _ _ _ H) as (k & K & -> & ->). exists (k + 1). lia.
Qed.

(** every page of the result holds the bytes of the file at its offset *)
Lemma expd_bytes l0 l : forall pre p q, l0 = pre ++ l -> In (p, q) (expd (zlen pre) l) ->
  (forall c, In c l0 -> valid (vh v) c) ->
  exists k, 0 <= k /\ p = va + k * PAGE /\ 0 <= q /\ q + PAGE <= vsz v /\
    bytes (vm v) q PAGE =
      firstn (Z.to_nat PAGE) (skipn (Z.to_nat (a * cs + k * PAGE)) (content v l0)).
Proof.
  pose proof (csize_pos v W) as CS. pose proof np_pos as N1.
  induction l as [|c l IH]; intros pre p q E H VA; [destruct H|].
  cbn [expd] in H. apply in_app_or in H. destruct H as [H|H].
  - destruct ((a <=? zlen pre) && (zlen pre <? b)) eqn:C; [|destruct H].
    destruct (pages_in _ _ _ _ _ H) as (k & K & -> & ->).
    set (i := zlen pre) in *.
    assert (Vc : valid (vh v) c) by (apply VA; rewrite E; apply in_or_app; right; left; reflexivity).
    destruct (cluster_off_bounds v W c Vc) as (O1 & _ & O2). pose proof (data_in v W) as [_ DI].
    assert (KB : 0 <= k * PAGE /\ k * PAGE + PAGE <= cs) by (unfold PAGE in *; nia).
    exists ((i - a) * np + k). split; [nia|]. split; [rewrite NP; ring|].
    split; [lia|]. split; [lia|].
    replace (a * cs + ((i - a) * np + k) * PAGE) with (i * cs + k * PAGE) by (rewrite NP; ring).
    assert (I0 : 0 <= i) by apply zlen_nonneg.
    assert (D1 : (i * cs + k * PAGE) / cs = i).
    { symmetry. apply Z.div_unique with (r := k * PAGE); unfold PAGE in *; lia. }
    assert (D2 : (i * cs + k * PAGE) mod cs = k * PAGE).
    { symmetry. apply Z.mod_unique with (q := i); unfold PAGE in *; lia. }
    assert (LT : i < zlen l0).
    { rewrite E, zlen_app, zlen_cons. pose proof (zlen_nonneg l). unfold i. lia. }
    rewrite content_piece; [| assumption | nia | unfold PAGE; lia | rewrite D2; lia | rewrite D1; lia ].
    rewrite D1, D2. rewrite E. unfold i at 1. rewrite znth_app2 by lia.
    rewrite Z.sub_diag, znth_cons_0. reflexivity.
  - apply (IH (pre ++ [c]) p q); auto.
    + rewrite <- app_assoc. exact E.
    + rewrite zlen_snoc. exact H.
Qed.

Lemma seq_cat {A} (f : Z -> A) n m :
  map (fun k => f (Z.of_nat k)) (seq 0 n) ++ map (fun k => f (Z.of_nat n + Z.of_nat k)) (seq 0 m)
  = map (fun k => f (Z.of_nat k)) (seq 0 (n + m)).
Proof.
  rewrite seq_app, map_app. f_equal. cbn [Nat.add].
  rewrite (seq_from m n), map_map. apply map_ext. intros k. f_equal. lia.
Qed.

(** and the virtual addresses are consecutive pages from [va] *)
Lemma expd_fst l : forall i, 0 <= i -> 0 <= a -> a <= b ->
  let lo := Z.max 0 (Z.min i b - a) in
  let hi := Z.max 0 (Z.min (i + zlen l) b - a) in
  map (fun k => va + Z.of_nat k * PAGE) (seq 0 (Z.to_nat (lo * np))) ++ map fst (expd i l) =
  map (fun k => va + Z.of_nat k * PAGE) (seq 0 (Z.to_nat (hi * np))).
Proof.
  pose proof np_pos as N1.
  induction l as [|c l IH]; intros i I A AB; cbv zeta.
  - rewrite (zlen_nil (A:=Z)), Z.add_0_r. cbn [expd map]. apply app_nil_r.
  - cbn [expd]. rewrite map_app, app_assoc. rewrite zlen_cons.
    specialize (IH (i + 1) ltac:(lia) A AB). cbv zeta in IH.
    replace (i + (1 + zlen l)) with (i + 1 + zlen l) by lia. rewrite <- IH. f_equal.
    destruct ((a <=? i) && (i <? b)) eqn:C.
    + rewrite pages_fst.
      replace (Z.max 0 (Z.min i b - a)) with (i - a) by lia.
      replace (Z.max 0 (Z.min (i + 1) b - a)) with (i - a + 1) by lia.
      rewrite (map_ext (fun k => va + (i - a) * cs + Z.of_nat k * PAGE)
                       (fun k => (fun z => va + z * PAGE) (Z.of_nat (Z.to_nat ((i - a) * np)) + Z.of_nat k))).
      * rewrite (seq_cat (fun z => va + z * PAGE)). do 2 f_equal. nia.
      * intros k. cbv beta. rewrite Z2Nat.id by nia. rewrite NP. ring.
    + cbn [map]. rewrite app_nil_r. do 3 f_equal. lia.
Qed.
End MMAP.

Lemma chain_valid v c l : chain v c l -> forall x, In x l -> valid (vh v) x.
Proof.
  intros H. induction H; intros x [<-|I]; auto. destruct I.
Qed.

Lemma mmap_ok v e l off len vaddr fuel : wf v -> in_image v e -> chain v (de_cluster v e) l ->
  csize v mod PAGE = 0 -> off mod csize v = 0 -> len mod csize v = 0 -> 0 <= off -> 0 <= len ->
  (length l < fuel)%nat ->
  exists pl, fat_mmap fuel v e off len vaddr = Ok pl /\
    map fst pl = map (fun k => vaddr + Z.of_nat k * PAGE)
      (seq 0 (Z.to_nat (Z.max 0 (Z.min (zlen l * csize v) (off + len) - off) / PAGE))) /\
    forall p q, In (p, q) pl -> 0 <= q /\ q + PAGE <= vsz v /\
      bytes (vm v) q PAGE =
        firstn (Z.to_nat PAGE) (skipn (Z.to_nat (off + (p - vaddr))) (content v l)).
Proof.
  intros W I CH M1 M2 M3 O L FU. pose proof (csize_pos v W) as CS.
  assert (NP : csize v = csize v / PAGE * PAGE) by (unfold PAGE in *; lia).
  set (np := csize v / PAGE) in *.
  assert (EA : off = off / csize v * csize v).
  { pose proof (Z.div_mod off (csize v) ltac:(lia)). lia. }
  assert (EB : len = len / csize v * csize v).
  { pose proof (Z.div_mod len (csize v) ltac:(lia)). lia. }
  set (a := off / csize v) in *. set (b := a + len / csize v) in *.
  assert (A0 : 0 <= a) by (apply Z.div_pos; lia).
  assert (B0 : a <= b) by (unfold b; pose proof (Z.div_pos len (csize v)); lia).
  assert (EB' : off + len = b * csize v) by (unfold b; rewrite Z.mul_add_distr_r; lia).
  unfold fat_mmap. rewrite first_cluster_ok by auto. cbn [bind].
  rewrite EB', EA.
  pose proof (mmap_loop_ok v vaddr a b np W NP l 0 (de_cluster v e) [] fuel CH ltac:(lia) A0 FU) as R.
  replace (vaddr + Z.max 0 (0 - a) * csize v) with vaddr in R by (replace (Z.max 0 (0 - a)) with 0 by lia; ring).
  replace (0 * csize v) with 0 in R by ring. cbn [app] in R.
  eexists. split; [exact R|]. split.
  - pose proof (expd_fst v vaddr a b np W NP l 0 ltac:(lia) A0 B0) as X. cbv zeta in X.
    replace (Z.max 0 (Z.min 0 b - a)) with 0 in X by lia. cbn [Z.mul Z.to_nat seq map app] in X.
    replace (Z.to_nat (0 * np)) with 0%nat in X by lia. cbn [seq map app] in X. rewrite X.
    do 3 f_equal. rewrite Z.add_0_l.
    replace (Z.min (zlen l * csize v) (b * csize v) - a * csize v)
      with ((Z.min (zlen l) b - a) * csize v) by (rewrite Z.mul_sub_distr_r, Z.mul_min_distr_nonneg_r; lia).
    replace (Z.max 0 ((Z.min (zlen l) b - a) * csize v))
      with (Z.max 0 (Z.min (zlen l) b - a) * csize v) by (rewrite <- Z.mul_max_distr_nonneg_r; lia).
    rewrite NP, Z.mul_assoc, Z.div_mul by (unfold PAGE; lia). reflexivity.
  - intros p q H. destruct (expd_bytes v vaddr a b np W NP l l [] p q eq_refl H) as (k & K & -> & Q1 & Q2 & Q3).
    { intros c C. eapply chain_valid; eauto. }
    split; [assumption|]. split; [assumption|]. rewrite Q3. do 3 f_equal. lia.
Qed.

Lemma layout_ok v : wf v ->
  fat_type (vh v) = sp_width (vh v) /\ cluster_count (vh v) = sp_clusters (vh v) /\
  (forall k c, 0 <= k < nfats (vh v) -> 0 <= c < sp_clusters (vh v) + 2 ->
     entry_ptr (vh v) (fat_type (vh v)) k c = sp_fat_off (vh v) k c) /\
  (forall c, valid (vh v) c -> cluster_ptr (vh v) c = sp_cluster_off (vh v) c).
Proof.
  intros W. split; [apply type_eq; auto|]. split; [apply count_eq; auto|]. split.
  - intros. rewrite (type_eq v W). apply entry_ptr_eq; auto.
  - intros. apply cluster_ptr_eq; auto.
Qed.

Lemma layout_apart v : wf v ->
  (forall k c k' c', 0 <= k < nfats (vh v) -> 0 <= c < sp_clusters (vh v) + 2 ->
     0 <= k' < nfats (vh v) -> 0 <= c' < sp_clusters (vh v) + 2 -> (k, c) <> (k', c') ->
     sp_fat_off (vh v) k c + sp_width (vh v) <= sp_fat_off (vh v) k' c' \/
     sp_fat_off (vh v) k' c' + sp_width (vh v) <= sp_fat_off (vh v) k c) /\
  (forall k c x, 0 <= k < nfats (vh v) -> 0 <= c < sp_clusters (vh v) + 2 -> valid (vh v) x ->
     512 <= sp_fat_off (vh v) k c /\ sp_fat_off (vh v) k c + sp_width (vh v) <= sp_cluster_off (vh v) x) /\
  (forall c c', valid (vh v) c -> valid (vh v) c' -> c < c' ->
     sp_cluster_off (vh v) c + csize v <= sp_cluster_off (vh v) c') /\
  (forall c, valid (vh v) c -> sp_cluster_off (vh v) c + csize v <= vsz v).
Proof.
  intros W. split; [|split; [|split]].
  - intros. apply fat_off_apart; auto.
  - intros k c x K C X. pose proof (fat_in v W k c K C) as [A _].
    destruct (fat_off_bounds v W k c K C) as (_ & _ & B).
    destruct (cluster_off_bounds v W x X) as (D & _). lia.
  - intros. apply clusters_apart; auto.
  - intros c C. destruct (cluster_off_bounds v W c C) as (_ & _ & D). exact D.
Qed.

Lemma write_ok v k c val : wf v -> 0 <= k < nfats (vh v) -> 0 <= c < sp_clusters (vh v) + 2 ->
  0 <= val < (if sp_width (vh v) =? 2 then 65536 else 268435456) ->
  exists v', write_fat v (fat_type (vh v)) k c val = Ok v' /\ wf v' /\ vh v' = vh v /\
    fat_val v' k c = val /\
    (forall k' c', 0 <= k' < nfats (vh v) -> 0 <= c' < sp_clusters (vh v) + 2 -> (k, c) <> (k', c') ->
       fat_val v' k' c' = fat_val v k' c') /\
    (forall x, x < sp_fat_off (vh v) k c \/ sp_fat_off (vh v) k c + sp_width (vh v) <= x ->
       vm v' x = vm v x) /\
    (sp_width (vh v) = 4 ->
       vm v' (sp_fat_off (vh v) k c + 3) / 16 = vm v (sp_fat_off (vh v) k c + 3) / 16) /\
    (forall x, valid (vh v) x -> cdata v' x = cdata v x).
Proof.
  intros W K C V. exists (put_fat v k c val).
  split; [apply write_fat_ok; auto|]. split; [apply put_fat_wf; auto|]. split; [reflexivity|].
  split; [apply put_fat_same; auto|]. split; [intros; apply put_fat_other; auto|].
  split; [intros; apply put_fat_out; auto|]. split; [intros; apply put_fat_top; auto|].
  intros. apply put_fat_cdata; auto.
Qed.
