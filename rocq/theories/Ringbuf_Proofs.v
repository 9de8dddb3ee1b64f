(** Proofs for the ring buffer: simulation between the model and the bounded
    FIFO. *)
From Verif Require Import Lib Ringbuf_Model Ringbuf_Spec.
Local Arguments Z.add : simpl nomatch.
Local Arguments Z.sub : simpl nomatch.
Local Arguments Z.mul : simpl nomatch.
Local Arguments Z.max : simpl nomatch.
Local Arguments Z.min : simpl nomatch.
Local Arguments Z.of_nat : simpl nomatch.
Local Arguments Z.to_nat : simpl nomatch.

Definition wrapN (N x : Z) : Z := if x <? N then x else x - N.

Lemma mod_wrapN N x : 0 <= x < 2 * N -> x mod N = wrapN N x.
Proof.
  intros H. unfold wrapN. destruct (Z.ltb_spec x N).
  - apply Z.mod_small; lia.
  - symmetry. apply (Z.mod_unique_pos x N 1); lia.
Qed.

Definition M32 : Z := 4294967296.

(** The element stored [i] places after the read cursor starts at byte
    [wrapN N (rp + i) * e]. *)
Definition rep (N e : Z) (r : ringbuf) (q : list (list Z)) : Prop :=
  rb_max r = N /\ rb_esize r = e /\ zlen (rb_buf r) = N * e /\
  0 <= rb_read_pos r < N /\ rb_write_pos r = wrapN N (rb_read_pos r + zlen q) /\
  rb_elems r = zlen q /\ zlen q <= N /\ Forall (fun x => zlen x = e) q /\
  forall i b, 0 <= i < zlen q -> 0 <= b < e ->
    znth 0 (rb_buf r) (wrapN N (rb_read_pos r + i) * e + b)
    = znth 0 (znth [] q i) b.

Lemma slot_disjoint j1 j2 e b :
  0 <= b < e -> j1 <> j2 -> ((j2 * e <=? j1 * e + b) && (j1 * e + b <? j2 * e + e)) = false.
Proof.
  intros Hb Hj.
  destruct (Z_lt_ge_dec j1 j2).
  - assert (j1 * e + e <= j2 * e) by nia. lia.
  - assert (j2 * e + e <= j1 * e) by nia. lia.
Qed.

Lemma slot_bound j N e b : 0 <= j < N -> 0 <= b <= e -> 0 <= j * e + b <= N * e.
Proof. nia. Qed.

Lemma wrapN_range N x : 0 <= x < 2 * N -> 0 <= wrapN N x < N.
Proof. unfold wrapN; destruct (Z.ltb_spec x N); lia. Qed.

Lemma wrapN_inj N rp i j :
  0 <= rp < N -> 0 <= i < N -> 0 <= j < N ->
  wrapN N (rp + i) = wrapN N (rp + j) -> i = j.
Proof. unfold wrapN; intros. destruct (rp + i <? N) eqn:?, (rp + j <? N) eqn:?; lia. Qed.

Lemma rep_init N e buf :
  1 <= N < M32 -> 1 <= e < M32 -> zlen buf = N * e ->
  rep N e (ringbuf_init N e buf) [].
Proof.
  unfold M32; intros HN He Hb. unfold rep, ringbuf_init. cbn -[zlen].
  rewrite !u32_small by lia. change (zlen (@nil (list Z))) with 0.
  repeat split; try lia.
  - unfold wrapN. destruct (Z.ltb_spec 0 N); lia.
  - constructor.
Qed.

Section Steps.
  Variables N e : Z.
  Hypothesis HN : 1 <= N.
  Hypothesis He : 1 <= e.
  Hypothesis HNe : N * e <= M32.

  Lemma N_small : N <= M32. Proof. nia. Qed.

  Ltac unrep H :=
    destruct H as (Hmax & Hes & Hlen & Hrp & Hwp & Hel & Hq & HF & Hc).

  Lemma write_elem_sim r q d :
    N < M32 -> rep N e r q -> zlen d = e ->
    exists r', rb_write_elem r d = Some (r', zlen q <? N) /\
      rep N e r' (if zlen q <? N then q ++ [d] else q).
  Proof.
    intros HN2 H Hd. unrep H. unfold rb_write_elem, rb_is_full.
    pose proof (zlen_nonneg q) as Hqp.
    rewrite Hel, Hmax, Hes.
    destruct (Z.eqb_spec (zlen q) N) as [E|E].
    { exists r. replace (zlen q <? N) with false by lia.
      split; [reflexivity|]. unfold rep; repeat split; auto; lia. }
    replace (zlen q <? N) with true by lia.
    assert (Hw : 0 <= rb_write_pos r < N)
      by (rewrite Hwp; apply wrapN_range; lia).
    assert (Hoff : 0 <= rb_write_pos r * e /\ rb_write_pos r * e + e <= N * e) by nia.
    unfold M32 in *.
    rewrite (u32_small (rb_write_pos r * e)) by nia.
    destruct (mem_write_some (rb_buf r) (rb_write_pos r * e) d) as (b & Hb & Hbl & Hbn);
      [lia|lia|].
    rewrite Hb. eexists; split; [reflexivity|].
    unfold rep; cbn [rb_max rb_esize rb_buf rb_read_pos rb_write_pos rb_elems].
    rewrite !zlen_snoc.
    rewrite !u32_small by lia.
    repeat split; try lia.
    - rewrite mod_wrapN by lia. rewrite Hwp. unfold wrapN.
      repeat match goal with |- context[if ?x <? ?y then _ else _] =>
        destruct (Z.ltb_spec x y) end; lia.
    - apply Forall_app; split; auto.
    - intros i bb Hi Hbb. rewrite Hbn by (pose proof (wrapN_range N (rb_read_pos r + i)); nia).
      destruct (Z.eq_dec i (zlen q)) as [->|Hne].
      + rewrite <- Hwp.
        replace ((rb_write_pos r * e <=? rb_write_pos r * e + bb) &&
           (rb_write_pos r * e + bb <? rb_write_pos r * e + zlen d)) with true by lia.
        rewrite znth_app2 by lia. rewrite Z.sub_diag, znth_cons_0.
        f_equal; lia.
      + rewrite Hd, slot_disjoint; [|lia|].
        * rewrite znth_app1 by lia. apply Hc; lia.
        * rewrite Hwp. intros Heq. apply wrapN_inj in Heq; lia.
  Qed.

  Lemma read_elem_sim r q :
    N < M32 -> rep N e r q ->
    exists r', rb_read_elem r
      = Some (r', match q with [] => None | x :: _ => Some x end) /\
      rep N e r' (tl q).
  Proof.
    intros HN2 H. unrep H. unfold rb_read_elem, rb_is_empty.
    rewrite Hel.
    destruct q as [|x q'].
    { cbn -[rep]. exists r; split; [reflexivity|]. unfold rep; repeat split; auto; lia. }
    pose proof (zlen_nonneg q') as Hqp.
    rewrite zlen_cons in *.
    destruct (Z.eqb_spec (1 + zlen q') 0) as [E|E]; [lia|].
    assert (Hoff : 0 <= rb_read_pos r * e /\ rb_read_pos r * e + e <= N * e) by nia.
    unfold M32 in *. rewrite Hmax, Hes.
    rewrite (u32_small (rb_read_pos r * e)) by nia.
    destruct (mem_read_some (rb_buf r) (rb_read_pos r * e) e) as (o & Ho & Hol & Hon);
      [lia|lia|lia|].
    rewrite Ho.
    assert (Hx : o = x).
    { inversion HF; subst. apply (znth_ext 0); [lia|].
      intros i Hi. rewrite Hon by lia.
      specialize (Hc 0 i). rewrite znth_cons_0 in Hc. rewrite <- Hc by lia.
      unfold wrapN. replace (rb_read_pos r + 0 <? rb_max r) with true by lia. f_equal; lia. }
    rewrite Hx. eexists; split; [reflexivity|].
    unfold rep; cbn [rb_max rb_esize rb_buf rb_read_pos rb_write_pos rb_elems tl].
    rewrite !u32_small by lia.
    rewrite mod_wrapN by lia.
    inversion HF as [|? ? Hx1 Hx2]; subst.
    set (N := rb_max r) in *. set (e := rb_esize r) in *.
    pose proof (wrapN_range N (rb_read_pos r + 1)).
    repeat split; auto; try lia.
    - rewrite Hwp. unfold wrapN.
      repeat match goal with |- context[if ?x <? ?y then _ else _] =>
        destruct (Z.ltb_spec x y) end; lia.
    - intros i b Hi Hb.
      specialize (Hc (1 + i) b). rewrite znth_cons_pos in Hc by lia.
      replace (1 + i - 1) with i in Hc by lia. rewrite <- Hc by lia.
      f_equal. f_equal. f_equal. unfold wrapN.
      repeat match goal with |- context[if ?x <? ?y then _ else _] =>
        destruct (Z.ltb_spec x y) end; lia.
  Qed.

  Lemma unwrite_elem_sim r q :
    N <= 2147483648 -> rep N e r q ->
    exists r', rb_unwrite_elem r
      = Some (r', match rev q with [] => None | x :: _ => Some x end) /\
      rep N e r' (rev (tl (rev q))).
  Proof.
    intros HN2 H. unrep H. unfold rb_unwrite_elem, rb_is_empty.
    rewrite Hel.
    destruct q as [|x q'] using rev_ind.
    { cbn -[rep]. exists r; split; [reflexivity|]. unfold rep; repeat split; auto; lia. }
    clear IHq'.
    rewrite rev_app_distr. cbn [rev app tl]. rewrite rev_involutive.
    pose proof (zlen_nonneg q') as Hqp.
    rewrite zlen_snoc in *.
    destruct (Z.eqb_spec (zlen q' + 1) 0) as [E|E]; [lia|].
    rewrite Hmax, Hes.
    assert (Hw : 0 <= rb_write_pos r < N)
      by (rewrite Hwp; apply wrapN_range; lia).
    unfold M32 in *.
    rewrite (u32_small (N + rb_write_pos r - 1)) by lia.
    rewrite mod_wrapN by lia.
    assert (Hwp' : wrapN N (N + rb_write_pos r - 1) = wrapN N (rb_read_pos r + zlen q')).
    { rewrite Hwp. unfold wrapN.
      repeat match goal with |- context[if ?x <? ?y then _ else _] =>
        destruct (Z.ltb_spec x y) end; lia. }
    rewrite Hwp'. set (w := wrapN N (rb_read_pos r + zlen q')).
    assert (Hw2 : 0 <= w < N) by (apply wrapN_range; lia).
    assert (Hoff : 0 <= w * e /\ w * e + e <= N * e) by nia.
    rewrite (u32_small (w * e)) by nia.
    destruct (mem_read_some (rb_buf r) (w * e) e) as (o & Ho & Hol & Hon);
      [lia|lia|lia|].
    rewrite Ho.
    apply Forall_app in HF; destruct HF as [HF1 HF2]. inversion HF2 as [|? ? HX _]; subst x0 l.
    assert (Hx : o = x).
    { apply (znth_ext 0); [lia|].
      intros i Hi. rewrite Hon by lia.
      specialize (Hc (zlen q') i). rewrite znth_app2 in Hc by lia.
      rewrite Z.sub_diag, znth_cons_0 in Hc. rewrite <- Hc by lia. reflexivity. }
    rewrite Hx. eexists; split; [reflexivity|].
    unfold rep; cbn [rb_max rb_esize rb_buf rb_read_pos rb_write_pos rb_elems tl].
    rewrite !u32_small by lia.
    repeat split; auto; try lia.
    intros i b Hi Hb. specialize (Hc i b). rewrite znth_app1 in Hc by lia. apply Hc; lia.
  Qed.

  Lemma reset_sim r q : rep N e r q -> rep N e (rb_reset r) [].
  Proof.
    intros H. unrep H. unfold rep, rb_reset; cbn -[zlen]. change (zlen (@nil (list Z))) with 0.
    unfold wrapN. destruct (Z.ltb_spec 0 N); [|lia].
    repeat split; auto; lia.
  Qed.
End Steps.

(** Byte streams: elements of one byte. *)
Section Bytes.
  Variable N : Z.
  Hypothesis HN : 1 <= N.
  Hypothesis HN2 : N < M32.

  Definition sing (d : list Z) : list (list Z) := map (fun v => [v]) d.

  Lemma zlen_sing d : zlen (sing d) = zlen d.
  Proof. apply zlen_map. Qed.

  Lemma znth_sing d i : 0 <= i < zlen d -> znth [] (sing d) i = [znth 0 d i].
  Proof. intros; unfold sing. rewrite (znth_map _ 0) by lia. reflexivity. Qed.

  Lemma sing_esize d : Forall (fun x => zlen x = 1) (sing d).
  Proof. unfold sing. apply Forall_map. apply Forall_forall. reflexivity. Qed.

  (** One contiguous chunk appended at the write cursor. *)
  Lemma write_chunk r q d :
    rep N 1 r q -> zlen d <= N - zlen q -> rb_write_pos r + zlen d <= N ->
    exists b, mem_write (rb_buf r) (rb_write_pos r) d = Some b /\
      rep N 1 (mk_rb (rb_read_pos r) (wrapN N (rb_write_pos r + zlen d))
                     (rb_elems r + zlen d) (rb_max r) (rb_esize r) b)
          (q ++ sing d).
  Proof.
    intros H Hd Hw.
    destruct H as (Hmax & Hes & Hlen & Hrp & Hwp & Hel & Hq & HF & Hc).
    pose proof (zlen_nonneg q) as Hqp. pose proof (zlen_nonneg d) as Hdp.
    assert (Hwr : 0 <= rb_write_pos r < N)
      by (rewrite Hwp; apply wrapN_range; lia).
    destruct (mem_write_some (rb_buf r) (rb_write_pos r) d) as (b & Hb & Hbl & Hbn);
      [lia|lia|].
    exists b; split; [exact Hb|].
    unfold rep; cbn [rb_max rb_esize rb_buf rb_read_pos rb_write_pos rb_elems].
    rewrite !zlen_app, zlen_sing.
    repeat split; auto; try lia.
    - rewrite Hwp in *. unfold wrapN in *.
      repeat match goal with |- context[if ?x <? ?y then _ else _] =>
        destruct (Z.ltb_spec x y) end; lia.
    - apply Forall_app; split; [auto|apply sing_esize].
    - intros i bb Hi Hbb. assert (bb = 0) by lia; subst bb.
      pose proof (wrapN_range N (rb_read_pos r + i)) as Hir.
      rewrite Hbn by lia.
      specialize (Hc i 0).
      destruct (Z_lt_ge_dec i (zlen q)).
      + rewrite znth_app1 by lia. rewrite <- Hc by lia.
        destruct ((rb_write_pos r <=? wrapN N (rb_read_pos r + i) * 1 + 0) &&
          (wrapN N (rb_read_pos r + i) * 1 + 0 <? rb_write_pos r + zlen d)) eqn:E; [|reflexivity].
        exfalso. rewrite Hwp in *. unfold wrapN in *.
        repeat match goal with [H : context[if ?x <? ?y then _ else _] |- _] =>
          destruct (Z.ltb_spec x y) end; lia.
      + rewrite znth_app2 by lia. rewrite znth_sing by lia. rewrite znth_cons_0.
        replace ((rb_write_pos r <=? wrapN N (rb_read_pos r + i) * 1 + 0) &&
          (wrapN N (rb_read_pos r + i) * 1 + 0 <? rb_write_pos r + zlen d)) with true.
        * f_equal. rewrite Hwp in *. unfold wrapN in *.
          repeat match goal with |- context[if ?x <? ?y then _ else _] =>
            destruct (Z.ltb_spec x y) end; lia.
        * rewrite Hwp in *. unfold wrapN in *.
          repeat match goal with |- context[if ?x <? ?y then _ else _] =>
            destruct (Z.ltb_spec x y) end; lia.
  Qed.

  (** One contiguous chunk consumed at the read cursor. *)
  Lemma read_chunk r q n :
    rep N 1 r q -> 0 <= n <= zlen q -> rb_read_pos r + n <= N ->
    mem_read (rb_buf r) (rb_read_pos r) n = Some (concat (firstn (Z.to_nat n) q)) /\
    rep N 1 (mk_rb (wrapN N (rb_read_pos r + n)) (rb_write_pos r)
                   (rb_elems r - n) (rb_max r) (rb_esize r) (rb_buf r))
        (skipn (Z.to_nat n) q).
  Proof.
    intros H Hn Hr.
    destruct H as (Hmax & Hes & Hlen & Hrp & Hwp & Hel & Hq & HF & Hc).
    destruct (mem_read_some (rb_buf r) (rb_read_pos r) n) as (o & Ho & Hol & Hon);
      [lia|lia|lia|].
    assert (HL : forall l, Forall (fun x : list Z => zlen x = 1) l ->
              zlen (concat l) = zlen l /\
              forall i, 0 <= i < zlen l -> znth 0 (concat l) i = znth 0 (znth [] l i) 0).
    { clear. induction l as [|x l IH]; intros HF.
      - split; [reflexivity|]. intros i Hi; unfold zlen in Hi; simpl in Hi; lia.
      - inversion HF as [|? ? HX HL]; subst. destruct (IH HL) as [IH1 IH2].
        cbn [concat]. rewrite zlen_app, zlen_cons. split; [lia|].
        intros i Hi. destruct (Z.eq_dec i 0) as [->|].
        + rewrite znth_app1 by lia. reflexivity.
        + rewrite znth_app2 by lia. rewrite znth_cons_pos by lia.
          rewrite HX. apply IH2. lia. }
    split.
    - rewrite Ho. f_equal.
      assert (HFf : Forall (fun x : list Z => zlen x = 1) (firstn (Z.to_nat n) q)).
      { apply Forall_forall. intros x Hx. rewrite Forall_forall in HF. apply HF.
        rewrite <- (firstn_skipn (Z.to_nat n) q). apply in_or_app; auto. }
      destruct (HL _ HFf) as [H1 H2]. rewrite zlen_firstn in *.
      apply (znth_ext 0); [lia|].
      intros i Hi. rewrite H2 by lia. rewrite Hon by lia.
      rewrite znth_firstn by lia. rewrite <- Hc by lia.
      f_equal. unfold wrapN. destruct (Z.ltb_spec (rb_read_pos r + i) N); lia.
    - unfold rep; cbn [rb_max rb_esize rb_buf rb_read_pos rb_write_pos rb_elems].
      rewrite zlen_skipn.
      pose proof (wrapN_range N (rb_read_pos r + n)) as Hwr.
      repeat split; auto; try lia.
      + rewrite Hwp. unfold wrapN.
        repeat match goal with |- context[if ?x <? ?y then _ else _] =>
          destruct (Z.ltb_spec x y) end; lia.
      + apply Forall_forall. intros x Hx. rewrite Forall_forall in HF. apply HF.
        rewrite <- (firstn_skipn (Z.to_nat n) q). apply in_or_app; auto.
      + intros i b Hi Hb. rewrite znth_skipn by lia.
        rewrite <- Hc by lia. f_equal. f_equal. f_equal. unfold wrapN.
        repeat match goal with |- context[if ?x <? ?y then _ else _] =>
          destruct (Z.ltb_spec x y) end; lia.
  Qed.

  Lemma wp_range r q : rep N 1 r q -> 0 <= rb_write_pos r < N.
  Proof.
    intros (Hmax & Hes & Hlen & Hrp & Hwp & Hel & Hq & HF & Hc).
    rewrite Hwp. apply wrapN_range. pose proof (zlen_nonneg q). lia.
  Qed.

  Lemma firstn_all_ge {A} (l : list A) n : (length l <= n)%nat -> firstn n l = l.
  Proof. apply firstn_all2. Qed.

  Lemma write_bytes_sim r q d :
    rep N 1 r q ->
    exists r', rb_write_bytes r d = Some (r', Z.min (zlen d) (N - zlen q)) /\
      rep N 1 r' (q ++ sing (firstn (Z.to_nat (Z.min (zlen d) (N - zlen q))) d)).
  Proof.
    intros H. pose proof (wp_range _ _ H) as Hwr. pose proof H as H0.
    destruct H0 as (Hmax & Hes & Hlen & Hrp & Hwp & Hel & Hq & HF & Hc).
    pose proof (zlen_nonneg q) as Hqp. pose proof (zlen_nonneg d) as Hdp.
    unfold rb_write_bytes, rb_is_full. rewrite Hes, Hel, Hmax.
    cbn [negb Z.eqb Pos.eqb]. unfold M32 in *.
    destruct (Z.eqb_spec (zlen q) N) as [E|E].
    { exists r. replace (Z.min (zlen d) (N - zlen q)) with 0 by lia.
      split; [reflexivity|]. cbn. rewrite app_nil_r. exact H. }
    destruct (Z.ltb_spec (rb_write_pos r) (rb_read_pos r)) as [L|L].
    - rewrite (u32_small (rb_read_pos r - rb_write_pos r)) by lia.
      assert (Hroom : rb_read_pos r - rb_write_pos r = N - zlen q).
      { rewrite Hwp in *. unfold wrapN in *.
        destruct (Z.ltb_spec (rb_read_pos r + zlen q) N); lia. }
      rewrite Hroom. set (al := Z.min (zlen d) (N - zlen q)).
      set (dd := firstn (Z.to_nat al) d).
      assert (Hdd : zlen dd = al) by (unfold dd; rewrite zlen_firstn; lia).
      destruct (write_chunk r q dd H) as (b & Hb & Hrep); [lia|lia|].
      rewrite Hb. rewrite Hdd in Hrep.
      eexists; split; [reflexivity|].
      rewrite !u32_small by lia. rewrite Hel, Hmax, Hes in Hrep.
      replace (wrapN N (rb_write_pos r + al)) with (rb_write_pos r + al) in Hrep
        by (unfold wrapN; destruct (Z.ltb_spec (rb_write_pos r + al) N); lia).
      exact Hrep.
    - rewrite (u32_small (N - rb_write_pos r)) by lia.
      set (al := Z.min (zlen d) (N - rb_write_pos r)).
      set (dd := firstn (Z.to_nat al) d).
      assert (Hdd : zlen dd = al) by (unfold dd; rewrite zlen_firstn; lia).
      assert (Hroom : N - zlen q = N - rb_write_pos r + rb_read_pos r).
      { rewrite Hwp in *. unfold wrapN in *.
        destruct (Z.ltb_spec (rb_read_pos r + zlen q) N); lia. }
      destruct (write_chunk r q dd H) as (b & Hb & Hrep); [lia|lia|].
      rewrite Hb. rewrite Hdd in Hrep. rewrite mod_wrapN by lia.
      rewrite Hel, Hmax, Hes in Hrep.
      rewrite (u32_small (zlen q + al)) by lia.
      destruct (Z.eqb_spec al (zlen d)) as [Ea|Ea].
      + eexists; split; [do 2 f_equal; lia|].
        replace (Z.min (zlen d) (N - zlen q)) with al by lia. exact Hrep.
      + assert (Hal : al = N - rb_write_pos r) by lia.
        replace (wrapN N (rb_write_pos r + al)) with 0 in *
          by (unfold wrapN; destruct (Z.ltb_spec (rb_write_pos r + al) N); lia).
        cbn [negb Z.eqb].
        set (al2 := Z.min (zlen d - al) (rb_read_pos r)).
        set (d2 := firstn (Z.to_nat al2) (skipn (Z.to_nat al) d)).
        assert (Hd2 : zlen d2 = al2) by (unfold d2; rewrite zlen_firstn, zlen_skipn; lia).
        destruct (write_chunk _ _ d2 Hrep) as (b2 & Hb2 & Hrep2);
          cbn [rb_write_pos rb_read_pos rb_buf rb_elems rb_max rb_esize] in *.
        { rewrite zlen_app, zlen_sing. lia. }
        { lia. }
        rewrite Hb2. eexists; split; [do 2 f_equal; lia|].
        rewrite !u32_small by lia. rewrite Hd2 in Hrep2.
        replace (wrapN N (0 + al2)) with (0 + al2) in Hrep2
          by (unfold wrapN; destruct (Z.ltb_spec (0 + al2) N); lia).
        replace (Z.min (zlen d) (N - zlen q)) with (al + al2) by lia.
        replace (firstn (Z.to_nat (al + al2)) d) with (dd ++ d2).
        { unfold sing in *. rewrite map_app, app_assoc. exact Hrep2. }
        unfold dd, d2. rewrite <- (firstn_skipn (Z.to_nat al) d) at 3.
        rewrite firstn_app, firstn_firstn, firstn_length.
        f_equal; f_equal; unfold zlen in *; lia.
  Qed.

  Lemma read_bytes_sim r q len :
    rep N 1 r q -> 0 <= len ->
    exists r', rb_read_bytes r len
        = Some (r', concat (firstn (Z.to_nat (Z.min len (zlen q))) q)) /\
      rep N 1 r' (skipn (Z.to_nat (Z.min len (zlen q))) q).
  Proof.
    intros H Hlen0. pose proof (wp_range _ _ H) as Hwr. pose proof H as H0.
    destruct H0 as (Hmax & Hes & Hlen & Hrp & Hwp & Hel & Hq & HF & Hc).
    pose proof (zlen_nonneg q) as Hqp.
    unfold rb_read_bytes, rb_is_empty. rewrite Hes, Hel, Hmax.
    cbn [negb Z.eqb Pos.eqb]. unfold M32 in *.
    destruct (Z.eqb_spec (zlen q) 0) as [E|E].
    { exists r. replace (Z.min len (zlen q)) with 0 by lia. cbn. split; [reflexivity|exact H]. }
    destruct (Z.ltb_spec (rb_read_pos r) (rb_write_pos r)) as [L|L].
    - rewrite (u32_small (rb_write_pos r - rb_read_pos r)) by lia.
      assert (Hroom : rb_write_pos r - rb_read_pos r = zlen q).
      { rewrite Hwp in *. unfold wrapN in *.
        destruct (Z.ltb_spec (rb_read_pos r + zlen q) N); lia. }
      rewrite Hroom. set (al := Z.min len (zlen q)).
      destruct (read_chunk r q al H) as (Ho & Hrep); [lia|lia|].
      rewrite Ho. eexists; split; [reflexivity|].
      rewrite !u32_small by lia. rewrite Hel, Hmax, Hes in Hrep.
      replace (wrapN N (rb_read_pos r + al)) with (rb_read_pos r + al) in Hrep
        by (unfold wrapN; destruct (Z.ltb_spec (rb_read_pos r + al) N); lia).
      exact Hrep.
    - rewrite (u32_small (N - rb_read_pos r)) by lia.
      set (al := Z.min len (N - rb_read_pos r)).
      assert (Hroom : zlen q = N - rb_read_pos r + rb_write_pos r).
      { rewrite Hwp in *. unfold wrapN in *.
        destruct (Z.ltb_spec (rb_read_pos r + zlen q) N); lia. }
      destruct (read_chunk r q al H) as (Ho & Hrep); [lia|lia|].
      rewrite Ho. rewrite mod_wrapN by lia.
      rewrite Hel, Hmax, Hes in Hrep.
      rewrite (u32_small (zlen q - al)) by lia.
      destruct (Z.eqb_spec al len) as [Ea|Ea].
      + eexists. replace (Z.min len (zlen q)) with al by lia.
        split; [reflexivity|exact Hrep].
      + assert (Hal : al = N - rb_read_pos r) by lia.
        replace (wrapN N (rb_read_pos r + al)) with 0 in *
          by (unfold wrapN; destruct (Z.ltb_spec (rb_read_pos r + al) N); lia).
        cbn [negb Z.eqb].
        set (al2 := Z.min (len - al) (rb_write_pos r)).
        destruct (read_chunk _ _ al2 Hrep) as (Ho2 & Hrep2);
          cbn [rb_write_pos rb_read_pos rb_buf rb_elems rb_max rb_esize] in *.
        { rewrite zlen_skipn. lia. }
        { lia. }
        rewrite Ho2. eexists.
        replace (Z.min len (zlen q)) with (al + al2) by lia.
        replace (Z.to_nat (al + al2)) with (Z.to_nat al + Z.to_nat al2)%nat by lia.
        split.
        * do 2 f_equal. rewrite <- concat_app. f_equal.
          set (a := Z.to_nat al). set (b := Z.to_nat al2). clearbody a b. clear.
          revert a; induction q as [|x q IH]; intros a.
          { rewrite skipn_nil, !firstn_nil. reflexivity. }
          destruct a; cbn; [reflexivity|]. rewrite IH. reflexivity.
        * rewrite !u32_small by lia.
          replace (wrapN N (0 + al2)) with (0 + al2) in Hrep2
            by (unfold wrapN; destruct (Z.ltb_spec (0 + al2) N); lia).
          replace (skipn (Z.to_nat al + Z.to_nat al2) q)
            with (skipn (Z.to_nat al2) (skipn (Z.to_nat al) q)); [exact Hrep2|].
          set (a := Z.to_nat al). set (b := Z.to_nat al2). clearbody a b. clear.
          revert a; induction q as [|x q IH]; intros a.
          { rewrite !skipn_nil. reflexivity. }
          destruct a; cbn; [reflexivity|]. apply IH.
  Qed.
End Bytes.

Lemma step_sim N e r q o :
  1 <= N <= 2147483648 -> 1 <= e -> N * e <= M32 ->
  rep N e r q -> op_ok e o ->
  exists r', rb_step r o = Some (r', snd (fifo_step N q o)) /\
             rep N e r' (fst (fifo_step N q o)).
Proof.
  intros HN He HNe H Hok. assert (HN2 : N < M32) by (unfold M32; lia).
  destruct o; cbn [op_ok] in Hok; cbn [rb_step fifo_step].
  - destruct (write_elem_sim N e ltac:(lia) He HNe r q d HN2 H Hok) as (r' & E & R).
    rewrite E. exists r'. destruct (zlen q <? N); split; auto.
  - subst e.
    destruct (write_elem_sim N 1 ltac:(lia) ltac:(lia) HNe r q [v] HN2 H eq_refl) as (r' & E & R).
    exists r'.
    assert (E1 : rb_write_elem1 r v = rb_write_elem r [v]).
    { unfold rb_write_elem1, rb_write_elem.
      destruct H as (Hmax & Hes & Hlen & Hrp & Hwp & Hrest). rewrite Hes, Z.mul_1_r.
      pose proof (zlen_nonneg q).
      destruct Hrest as (? & ? & ? & ?).
      pose proof (wrapN_range N (rb_read_pos r + zlen q)).
      rewrite (u32_small (rb_write_pos r)); [reflexivity|]. unfold M32 in *; lia. }
    rewrite E1, E. destruct (zlen q <? N); split; auto.
  - destruct (read_elem_sim N e ltac:(lia) He HNe r q HN2 H) as (r' & E & R).
    rewrite E. exists r'. destruct q; split; auto.
  - subst e.
    destruct (read_elem_sim N 1 ltac:(lia) ltac:(lia) HNe r q HN2 H) as (r' & E & R).
    exists r'.
    assert (E1 : rb_read_elem1 r = rb_read_elem r).
    { unfold rb_read_elem1, rb_read_elem.
      destruct H as (Hmax & Hes & Hlen & Hrp & Hwp & Hrest). rewrite Hes, Z.mul_1_r.
      rewrite (u32_small (rb_read_pos r)); [reflexivity|]. unfold M32 in *; lia. }
    rewrite E1, E. destruct q; split; auto.
  - destruct (unwrite_elem_sim N e ltac:(lia) He HNe r q ltac:(lia) H) as (r' & E & R).
    rewrite E. exists r'. destruct (rev q) eqn:Er; cbn [tl rev] in *; split; auto.
  - subst e. destruct (write_bytes_sim N ltac:(lia) HN2 r q d H) as (r' & E & R).
    rewrite E. exists r'. cbn [fst snd]. split; auto.
  - destruct Hok as [-> Hn].
    destruct (read_bytes_sim N ltac:(lia) HN2 r q len H Hn) as (r' & E & R).
    rewrite E. exists r'. cbn [fst snd]. split; auto.
  - eexists; split; [reflexivity|]. cbn [fst]. eapply reset_sim; eauto. lia.
  - eexists; split; [|exact H]. cbn [snd].
    destruct H as (Hmax & Hes & Hlen & Hrp & Hwp & Hel & Hrest). rewrite Hel. reflexivity.
Qed.

Lemma run_sim N e ops : forall r q,
  1 <= N <= 2147483648 -> 1 <= e -> N * e <= M32 ->
  rep N e r q -> Forall (op_ok e) ops ->
  exists r', rb_run r ops = Some (r', snd (fifo_run N q ops)) /\
             rep N e r' (fst (fifo_run N q ops)).
Proof.
  induction ops as [|o ops IH]; intros r q HN He HNe H Hok.
  - exists r; split; auto.
  - inversion Hok; subst. cbn [rb_run fifo_run].
    destruct (step_sim N e r q o) as (r1 & E1 & R1); auto.
    rewrite E1. destruct (fifo_step N q o) as [q1 x1]; cbn [fst snd] in *.
    destruct (IH r1 q1) as (r2 & E2 & R2); auto.
    rewrite E2. destruct (fifo_run N q1 ops) as [q2 xs]; cbn [fst snd] in *.
    exists r2; split; auto.
Qed.

Lemma ringbuf_fifo N e buf ops :
  1 <= N <= 2147483648 -> 1 <= e -> N * e <= 4294967296 -> e < 4294967296 ->
  zlen buf = N * e -> Forall (op_ok e) ops ->
  exists r', rb_run (ringbuf_init N e buf) ops = Some (r', snd (fifo_run N [] ops)).
Proof.
  intros HN He HNe He2 Hb Hok.
  destruct (run_sim N e ops (ringbuf_init N e buf) []) as (r' & E & _);
    auto; try (unfold M32; lia).
  - apply rep_init; auto; unfold M32; lia.
  - exists r'; exact E.
Qed.

Lemma reachable_rep N buf ops r outs :
  1 <= N <= 2147483648 -> zlen buf = N -> Forall (op_ok 1) ops ->
  rb_run (ringbuf_init N 1 buf) ops = Some (r, outs) ->
  rep N 1 r (fst (fifo_run N [] ops)).
Proof.
  intros HN Hb Hok Hr.
  destruct (run_sim N 1 ops (ringbuf_init N 1 buf) []) as (r' & E & R);
    auto; try (unfold M32; lia).
  - apply rep_init; unfold M32; lia.
  - rewrite Hr in E. inversion E; subst. exact R.
Qed.

Lemma concat_sing d : concat (sing d) = d.
Proof. induction d as [|x d IH]; cbn; [reflexivity|]. unfold sing in IH; rewrite IH; reflexivity. Qed.

Lemma read_all N r q : 1 <= N < M32 -> rep N 1 r q ->
  exists r', rb_read_bytes r (rb_elems r) = Some (r', concat q).
Proof.
  intros HN H. pose proof H as (_ & _ & _ & _ & _ & Hel & _).
  pose proof (zlen_nonneg q).
  destruct (read_bytes_sim N ltac:(lia) ltac:(lia) r q (rb_elems r) H ltac:(lia)) as (r' & E & _).
  exists r'. rewrite E. rewrite firstn_all2; [reflexivity|]. unfold zlen in *. lia.
Qed.

Lemma bulk_write_exact N buf ops r outs d :
  1 <= N <= 2147483648 -> zlen buf = N -> Forall (op_ok 1) ops ->
  rb_run (ringbuf_init N 1 buf) ops = Some (r, outs) ->
  exists r' r1 r2 old,
    rb_write_bytes r d = Some (r', Z.min (zlen d) (N - rb_elems r)) /\
    rb_elems r' = rb_elems r + Z.min (zlen d) (N - rb_elems r) /\
    rb_read_bytes r (rb_elems r) = Some (r1, old) /\
    rb_read_bytes r' (rb_elems r')
      = Some (r2, old ++ firstn (Z.to_nat (Z.min (zlen d) (N - rb_elems r))) d).
Proof.
  intros HN Hb Hok Hr. pose proof (reachable_rep _ _ _ _ _ HN Hb Hok Hr) as R.
  set (q := fst (fifo_run N [] ops)) in *.
  assert (HN2 : N < M32) by (unfold M32; lia).
  destruct (write_bytes_sim N ltac:(lia) HN2 r q d R) as (r' & E & R').
  destruct (read_all N r q ltac:(lia) R) as (r1 & E1).
  destruct (read_all N r' _ ltac:(lia) R') as (r2 & E2).
  pose proof R as (_ & _ & _ & _ & _ & Hel & Hle & _).
  pose proof R' as (_ & _ & _ & _ & _ & Hel' & _ & _).
  exists r', r1, r2, (concat q). rewrite Hel.
  rewrite Hel in E1. repeat split; auto.
  - rewrite Hel', zlen_app, zlen_sing, zlen_firstn. pose proof (zlen_nonneg d). lia.
  - rewrite E2. rewrite concat_app, concat_sing. reflexivity.
Qed.

Lemma zlen_concat_1 (l : list (list Z)) :
  Forall (fun x => zlen x = 1) l -> zlen (concat l) = zlen l.
Proof.
  induction 1 as [|x l Hx Hl IH]; [reflexivity|].
  cbn [concat]. rewrite zlen_app, zlen_cons. lia.
Qed.

Lemma Forall_firstn' {A} (P : A -> Prop) n l : Forall P l -> Forall P (firstn n l).
Proof.
  intros H; apply Forall_forall; intros x Hx; rewrite Forall_forall in H; apply H.
  rewrite <- (firstn_skipn n l); apply in_or_app; auto.
Qed.

Lemma bulk_read_exact N buf ops r outs len :
  1 <= N <= 2147483648 -> zlen buf = N -> Forall (op_ok 1) ops -> 0 <= len ->
  rb_run (ringbuf_init N 1 buf) ops = Some (r, outs) ->
  exists r' out r1 r2 rest,
    rb_read_bytes r len = Some (r', out) /\
    zlen out = Z.min len (rb_elems r) /\
    rb_elems r' = rb_elems r - Z.min len (rb_elems r) /\
    rb_read_bytes r' (rb_elems r') = Some (r1, rest) /\
    rb_read_bytes r (rb_elems r) = Some (r2, out ++ rest).
Proof.
  intros HN Hb Hok Hl Hr. pose proof (reachable_rep _ _ _ _ _ HN Hb Hok Hr) as R.
  set (q := fst (fifo_run N [] ops)) in *.
  assert (HN2 : N < M32) by (unfold M32; lia).
  destruct (read_bytes_sim N ltac:(lia) HN2 r q len R Hl) as (r' & E & R').
  destruct (read_all N r q ltac:(lia) R) as (r2 & E2).
  destruct (read_all N r' _ ltac:(lia) R') as (r1 & E1).
  pose proof R as (_ & _ & _ & _ & _ & Hel & Hle & HF & _).
  pose proof R' as (_ & _ & _ & _ & _ & Hel' & _ & _).
  pose proof (zlen_nonneg q).
  exists r', (concat (firstn (Z.to_nat (Z.min len (zlen q))) q)), r1, r2,
    (concat (skipn (Z.to_nat (Z.min len (zlen q))) q)).
  repeat split; auto.
  - rewrite zlen_concat_1 by (apply Forall_firstn'; auto). rewrite zlen_firstn. lia.
  - rewrite Hel', zlen_skipn. lia.
  - rewrite <- concat_app, firstn_skipn. exact E2.
Qed.

(** With a capacity above 2^31 the u32 sum in ringbuf_unwrite_elem wraps. *)
Lemma unwrite_wrap buf :
  zlen buf = 4294967295 ->
  exists r, rb_run (ringbuf_init 4294967295 1 buf) [OpWrite1 10; OpWrite1 20; OpUnwrite]
            = Some (r, [RBool true; RBool true; RElem (Some [10])]).
Proof.
  intros Hb. cbn [rb_run rb_step].
  unfold rb_write_elem1, rb_is_full, ringbuf_init.
  cbn [rb_elems rb_max rb_write_pos rb_read_pos rb_esize rb_buf].
  change (0 =? u32 4294967295) with false. cbv iota.
  destruct (mem_write_some buf 0 [10]) as (b1 & E1 & L1 & N1); [lia| change (zlen [10]) with 1; lia|].
  rewrite E1. cbn [rb_elems rb_max rb_write_pos rb_read_pos rb_esize rb_buf].
  change (u32 (0 + 1) =? u32 4294967295) with false. cbv iota.
  change (u32 (0 + 1) mod u32 4294967295) with 1.
  destruct (mem_write_some b1 1 [20]) as (b2 & E2 & L2 & N2); [lia| change (zlen [20]) with 1; lia|].
  rewrite E2. unfold rb_unwrite_elem, rb_is_empty.
  cbn [rb_elems rb_max rb_write_pos rb_read_pos rb_esize rb_buf].
  change (u32 (u32 (0 + 1) + 1) =? 0) with false. cbv iota.
  change (u32 (u32 4294967295 + u32 (1 + 1) mod u32 4294967295 - 1) mod u32 4294967295) with 0.
  change (u32 (0 * u32 1)) with 0. change (u32 1) with 1.
  destruct (mem_read_some b2 0 1) as (o & Eo & Lo & No); [lia|lia|lia|].
  rewrite Eo. eexists. do 6 f_equal. f_equal.
  apply (znth_ext 0); [rewrite Lo; reflexivity|].
  intros i Hi. assert (i = 0) by lia. subst i.
  rewrite No, N2, N1 by lia. reflexivity.
Qed.

Lemma list_of_length (n : Z) : 0 <= n -> exists l : list Z, zlen l = n.
Proof.
  intros H. exists (repeat 0 (Z.to_nat n)). unfold zlen.
  rewrite repeat_length, Z2Nat.id; lia.
Qed.
