(** Compaction: the callback and the whole. *)
From Verif Require Import Lib Fat_Model Fat_Spec Fat_Proofs Fat_Proofs2 Fat_Proofs4 Fatdir_Model
  Fatdir_Spec Fatdir_Proofs Fatdir_Proofs2 Fatdir_Proofs3 Fatdir_Proofs4 Fatcomp_Model Fatcomp_Spec
  Fatcomp_Proofs Fatcomp_Proofs2 Fatcomp_Proofs3 Fatcomp_Proofs4 Fatcomp_Proofs5.

(** * Entries are apart *)
Lemma fop_app (a b : list Z) : ForallOrdPairs far a -> ForallOrdPairs far b ->
  (forall x y, In x a -> In y b -> far x y) -> ForallOrdPairs far (a ++ b).
Proof.
  intros A B C. induction A as [|x a F A IH]; [exact B|]. cbn [app]. constructor.
  - apply Forall_forall. intros y Y. apply in_app_or in Y. destruct Y as [Y|Y].
    + rewrite Forall_forall in F. apply F. exact Y.
    + apply C; [left; reflexivity|exact Y].
  - apply IH. intros x' y X Y. apply C; [right; exact X|exact Y].
Qed.
Lemma fop_row base n : forall k,
  ForallOrdPairs far (map (fun i => base + 32 * Z.of_nat i) (seq k n)).
Proof.
  induction n as [|n IH]; intros k; [constructor|]. cbn [seq map]. constructor; [|apply IH].
  apply Forall_forall. intros y Y. apply in_map_iff in Y. destruct Y as (i & <- & I).
  apply in_seq in I. left. lia.
Qed.
Lemma fop_slots v l : wf v -> NoDup l -> ForallOrdPairs far (slots v l).
Proof.
  intros W N. destruct (epc_pos v W) as [EP CE]. induction N as [|c l NI N IH]; [constructor|].
  change (slots v (c :: l)) with
    (map (fun i => sp_cluster_off (vh v) c + 32 * Z.of_nat i) (seq 0 (Z.to_nat (epc v))) ++ slots v l).
  apply fop_app; [apply fop_row|exact IH|]. intros x y X Y.
  apply in_map_iff in X. destruct X as (i & <- & I). apply in_seq in I.
  apply in_slots in Y. destruct Y as (c' & j & C' & J & ->).
  assert (NE : c <> c') by (intros ->; contradiction). unfold far.
  destruct (Z.lt_ge_cases c c').
  - pose proof (clusters_apart v W c c'). lia.
  - pose proof (clusters_apart v W c' c). lia.
Qed.
(** an entry in a cluster that does not move *)
Lemma slot_in v (X : Z -> Prop) c i : wf v -> valid (vh v) c -> ~ X c -> 0 <= i < epc v ->
  slot_ok v X (sp_cluster_off (vh v) c + 32 * i).
Proof.
  intros W V N I. destruct (epc_pos v W) as [EP CE].
  destruct (cluster_off_bounds v W c V) as (P0 & _ & P1). destruct (tab_end_ok v W) as (_ & T2 & _).
  split; [lia|]. split; [lia|]. intros c' V' X'.
  assert (NE : c <> c') by (intros ->; contradiction).
  destruct (Z.lt_ge_cases c c').
  - pose proof (clusters_apart v W c c'). lia.
  - pose proof (clusters_apart v W c' c). lia.
Qed.

(** * Dots *)
Lemma dots_iff v e : wf v -> in_image v e -> exists n, short_name v e = Ok n /\
  (is_dots n = true <-> dots (raw v e)).
Proof.
  intros W I. exists (sp_short (raw v e)). split; [apply short_ok; [exact I|reflexivity|apply raw_len]|].
  unfold is_dots, dots. rewrite orb_true_iff, !leq_iff. reflexivity.
Qed.

Section CBS.
  Variables (h : hdr) (fuel : nat).
  Hypothesis FU : 2 * sp_clusters h + 3 < Z.of_nat fuel.

  Lemma cb_dots d v ffc e : wf v -> in_image v e -> dots (raw v e) ->
    compact_cb (S d) fuel ffc v e None = Ok (ffc, v, false).
  Proof.
    intros W I D. cbn [compact_cb]. rewrite (first_cluster_ok v e W I). cbn [bind].
    destruct (dots_iff v e W I) as (n & -> & Q). cbn [bind]. apply Q in D. rewrite D. reflexivity.
  Qed.

  Lemma depths_le ts d : (depths ts < d)%nat -> Forall (fun t => (depth t < d)%nat) ts.
  Proof.
    induction ts as [|t ts IH]; intros D; [constructor|]. cbn [depths fold_right] in D.
    fold (depths ts) in D. constructor; [lia|]. apply IH. lia.
  Qed.

  Lemma cb_ok : forall d v ffc e t l, vh v = h -> rdy v ffc ->
    rep v (r_cluster (raw v e)) (r_dir (raw v e)) t l -> NoDup l -> slot_ok v (X1 v l) e ->
    (depth t < d)%nat -> ~ dots (raw v e) ->
    exists ffc' v' l', compact_cb d fuel ffc v e None = Ok (ffc', v', false) /\ rdy v' ffc' /\
      mv (eq e) v l v' l' /\ rep v' (r_cluster (raw v' e)) (r_dir (raw v' e)) t l' /\
      blank (raw v' e) = blank (raw v e) /\ (forall c, In c l' -> c < ffc') /\ ffc <= ffc'.
  Proof.
    induction d as [|d IH]; intros v ffc e t l VH R RP ND SL DP DT; [lia|].
    pose proof (y_wf _ _ R) as W. pose proof (slot_img _ _ _ W SL) as IM.
    cbn [compact_cb]. rewrite (first_cluster_ok v e W IM). cbn [bind].
    destruct (dots_iff v e W IM) as (n & -> & Q). cbn [bind].
    destruct (is_dots n) eqn:ED; [exfalso; apply DT, Q; reflexivity|]. clear Q.
    pose proof (cluster_of v e _ IM eq_refl) as CE. fold (raw v e) in CE. rewrite <- CE in RP.
    destruct (r_dir (raw v e)) eqn:RD.
    - inversion RP as [| |c l0 ts k CH RS]; subst.
      destruct (nodup_split _ _ ND) as (N0 & NK & DJ).
      assert (X0 : forall c, valid (vh v) c -> X1 v l0 c -> X1 v (l0 ++ k) c).
      { intros c V [A|A]; [left; apply in_or_app; auto|right; exact A]. }
      assert (S0 : slot_ok v (X1 v l0) e) by (apply (slot_ok_eq v v (X1 v (l0 ++ k))); auto).
      destruct (move_chain_all e fuel v ffc l0 R CH S0 ltac:(lia))
        as (f1 & v1 & l1 & E1 & R1 & M1 & CH1 & D1 & L1 & LE1).
      rewrite E1. cbn [bind].
      pose proof (m_frame _ _ _ _ _ M1) as F1. pose proof (frame_hdr _ _ _ _ F1) as H1.
      pose proof (frame_sz _ _ _ _ F1) as S1. pose proof (y_wf _ _ R1) as W1.
      assert (IM1 : in_image v1 e) by (unfold in_image in *; rewrite S1; exact IM).
      assert (B1 : blank (raw v1 e) = blank (raw v e)).
      { apply (frame_blank _ _ v v1 e W F1 S0). intros e0 <-. left. reflexivity. }
      destruct (blank_hid _ _ (raw_len v1 e) (raw_len v e) B1) as (_ & _ & _ & BR).
      rewrite (e_byte_ok v1 e (raw v1 e) 11 IM1 eq_refl) by lia. cbn [bind].
      fold (attr (raw v1 e)). unfold is_dir. fold (r_dir (raw v1 e)). rewrite BR, RD.
      rewrite (first_cluster_ok v1 e W1 IM1). cbn [bind].
      destruct (rep_used v W) as [_ USED]. specialize (USED _ _ _ RS).
      assert (RW : map (raw v1) (slots v1 l1) = map (raw v) (slots v l0)) by (apply raws_same; assumption).
      assert (RS1 : reps v1 (kids_of (map (raw v1) (slots v1 l1))) ts k).
      { rewrite RW. apply (rep_ext v v1 W W1 H1); [exact RS|]. intros x X.
        destruct (USED x X) as [VX NX]. apply (frame_same _ _ _ _ _ W F1 VX).
        - intros [A|A]; [apply (DJ x A X)|apply NX; exact A].
        - intros e0 <-. destruct SL as (T1 & _ & T3). split; [exact T1|]. apply T3; [exact VX|].
          left. apply in_or_app. auto. }
      assert (L1X : forall c, In c l1 -> valid (vh v) c /\ X1 v l0 c /\ ~ X1 v1 k c).
      { intros c C. destruct (m_src _ _ _ _ _ M1 c C) as [V Xc]. split; [exact V|]. split; [exact Xc|].
        intros [Q|Q].
        - destruct (USED c Q) as [_ NX]. destruct Xc as [Xc|Xc]; [apply (DJ c Xc Q)|apply NX; exact Xc].
        - apply (m_zero _ _ _ _ _ M1 c (valid_inr v c V)) in Q. tauto. }
      assert (X1K : forall c, valid (vh v) c -> X1 v1 k c -> X1 v (l0 ++ k) c).
      { intros c V [A|A]; [left; apply in_or_app; auto|].
        apply (m_zero _ _ _ _ _ M1 c (valid_inr v c V)) in A.
        destruct A as [[A|A] _]; [right; exact A|left; apply in_or_app; auto]. }
      assert (SS : forall e', In e' (slots v1 l1) -> slot_ok v1 (X1 v1 k) e').
      { intros e' I'. apply in_slots in I'. destruct I' as (c & i & C & I & ->).
        destruct (L1X c C) as (V & _ & N). apply slot_in; auto. rewrite H1. exact V. }
      destruct d as [|d]; [cbn [depth] in DP; lia|].
      destruct (wll (compact_cb (S d) fuel) (fun t => (depth t < S d)%nat) (vh v)
                  (fun v ffc e t l A B C D E => IH v ffc e t l A B C D E)
                  (cb_dots d) (slots v1 l1) v1 f1 ts k H1 R1 RS1 NK)
        as (f2 & v2 & k2 & st & A & R2 & M2 & RS2 & VW & L2 & LE2 & PF).
      { apply Forall_forall. exact SS. }
      { apply fop_slots; [exact W1|apply M1]. }
      { apply depths_le. cbn [depth] in DP. fold (depths ts) in DP. lia. }
      pose proof (m_frame _ _ _ _ _ M2) as F2. pose proof (frame_hdr _ _ _ _ F2) as H2.
      pose proof (y_wf _ _ R2) as W2.
      assert (KEEP : forall v3, frame (X1 v1 k) (fun e => In e (slots v1 l1)) v1 v3 ->
                forall y, In y l1 -> fat0 v3 y = fat0 v1 y).
      { intros v3 F3 y Y. destruct (L1X y Y) as (V & _ & N).
        apply (frame_fat _ _ v1 v3 y W1 F3).
        - apply valid_inr. rewrite H1. exact V.
        - intros _. exact N.
        - intros e' I'. apply (SS e' I'). }
      assert (WC : walk (compact_cb (S d) fuel) fuel false (de_cluster v1 e) f1 v1 = Ok (f2, v2)).
      { unfold walk.
        assert (G : good_type (fat_type (vh v1)) = true).
        { rewrite (type_eq v1 W1). destruct (width_cases v1) as [[-> _]|[-> _]]; reflexivity. }
        rewrite G. destruct (chain_head _ _ _ CH1) as [VD _].
        replace (de_cluster v1 e =? 0) with false by (unfold valid in VD; lia).
        pose proof (chain_len v1 _ _ W1 CH1) as CL. rewrite H1 in CL.
        rewrite (walk_chain2 _ v1 l1 0 l1 _ fuel f1 v1 None CH1 W1); auto.
        - rewrite A. reflexivity.
        - unfold zlen in CL. lia.
        - intros p q s3 v3 x3 st3 E3 WL3. destruct (PF p q s3 v3 x3 st3 E3 WL3) as [W3 F3].
          split; [exact W3|]. split; [apply (frame_hdr _ _ _ _ F3)|]. apply KEEP. exact F3. }
      rewrite WC. cbn [bind].
      assert (RE : raw v2 e = raw v1 e).
      { apply (frame_raw _ _ v1 v2 e W1 F2).
        - apply (slot_ok_eq v v1 (X1 v (l0 ++ k))); auto.
        - intros e' I'. apply in_slots in I'. destruct I' as (c & i & C & I & ->).
          destruct (L1X c C) as (V & XC & _). destruct (epc_pos v1 W1) as [EP CZ].
          destruct S0 as (_ & _ & S3). specialize (S3 c V XC). rewrite H1 in *.
          assert (csize v1 = csize v) by (unfold csize; rewrite H1; reflexivity). lia. }
      exists f2, v2, (l1 ++ k2). split; [reflexivity|]. split; [exact R2|].
      assert (MJ : mv (fun e0 => e = e0 \/ In e0 (slots v1 l1)) v (l0 ++ k) v2 (l1 ++ k2)).
      { apply (mv_join _ _ _ _ v1 _ _ _ _ M1 M2); assumption. }
      split.
      { destruct MJ as [J1 J2 J3 J4 J5]. constructor; try assumption.
        apply (frame_absorb _ _ _ _ _ J1). intros e0 [->|I0]; [left; reflexivity|]. right.
        apply in_slots in I0. destruct I0 as (c & i & C & I & ->). exists c.
        destruct (L1X c C) as (V & XC & _). split; [exact V|]. split; [apply X0; assumption|].
        destruct (epc_pos v W) as [EP CZ]. rewrite (epc_hdr v v1 H1) in I. rewrite H1. lia. }
      split.
      { assert (IM2 : in_image v2 e).
        { unfold in_image in *. rewrite (frame_sz _ _ _ _ F2). exact IM1. }
        rewrite RE, BR, RD. rewrite <- RW, <- VW. rewrite <- (slots_hdr v1 v2 l1 H2).
        apply rep_dir.
        - rewrite <- (cluster_of v1 e (raw v1 e) IM1 eq_refl).
          apply (chain_keep v1); [exact H2|apply KEEP; exact F2|exact CH1].
        - rewrite (slots_hdr v1 v2 l1 H2). exact RS2. }
      split; [rewrite RE; exact B1|].
      split; [|lia].
      intros c C. apply in_app_or in C. destruct C as [C|C]; [specialize (L1 c C); lia|apply L2; exact C].
    - assert (AT : forall v1, vsz v1 = vsz v -> blank (raw v1 e) = blank (raw v e) ->
          e_byte v1 e 11 = Ok (attr (raw v1 e)) /\ is_dir (attr (raw v1 e)) = false).
      { intros v1 S1 B1. assert (IM1 : in_image v1 e) by (unfold in_image in *; rewrite S1; exact IM).
        rewrite (e_byte_ok v1 e (raw v1 e) 11 IM1 eq_refl) by lia. split; [reflexivity|].
        destruct (blank_hid _ _ (raw_len v1 e) (raw_len v e) B1) as (_ & _ & _ & BR).
        unfold is_dir. fold (r_dir (raw v1 e)). rewrite BR. exact RD. }
      inversion RP as [E0|c l0 CH|]; subst.
      + destruct (move_chain_empty e fuel v ffc R ltac:(pose proof (wf_type v W); lia)) as (f1 & E1 & R1 & LE).
        rewrite E1. cbn [bind]. destruct (AT v eq_refl eq_refl) as [-> AD]. cbn [bind]. rewrite AD.
        exists f1, v, []. split; [reflexivity|]. split; [exact R1|].
        split; [apply mv_refl; [intros c []|constructor]|].
        split; [rewrite RD, <- CE, <- E0; constructor|].
        split; [reflexivity|]. split; [intros c []|exact LE].
      + destruct (move_chain_all e fuel v ffc l R CH SL ltac:(pose proof (wf_type v W); lia))
          as (f1 & v1 & l1 & E1 & R1 & M1 & CH1 & D1 & L1 & LE1).
        rewrite E1. cbn [bind].
        pose proof (m_frame _ _ _ _ _ M1) as F1. pose proof (frame_sz _ _ _ _ F1) as S1.
        assert (B1 : blank (raw v1 e) = blank (raw v e)).
        { apply (frame_blank _ _ v v1 e W F1 SL). intros e0 <-. left. reflexivity. }
        destruct (AT v1 S1 B1) as [-> AD]. cbn [bind]. rewrite AD.
        exists f1, v1, l1. split; [reflexivity|]. split; [exact R1|]. split; [exact M1|].
        split.
        { destruct (blank_hid _ _ (raw_len v1 e) (raw_len v e) B1) as (_ & _ & _ & BR).
          rewrite BR, RD.
          assert (IM1 : in_image v1 e) by (unfold in_image in *; rewrite S1; exact IM).
          rewrite <- (cluster_of v1 e (raw v1 e) IM1 eq_refl).
          replace (content v l) with (content v1 l1) by (unfold content; rewrite D1; reflexivity).
          constructor. exact CH1. }
        split; [exact B1|]. split; [exact L1|exact LE1].
  Qed.
End CBS.
