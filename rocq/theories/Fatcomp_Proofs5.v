(** Compaction: directories. *)
From Verif Require Import Lib Fat_Model Fat_Spec Fat_Proofs Fat_Proofs2 Fat_Proofs4 Fatdir_Model
  Fatdir_Spec Fatdir_Proofs Fatdir_Proofs2 Fatdir_Proofs3 Fatdir_Proofs4 Fatcomp_Model Fatcomp_Spec
  Fatcomp_Proofs Fatcomp_Proofs2 Fatcomp_Proofs3 Fatcomp_Proofs4.

Definition far (e e' : Z) : Prop := e + 32 <= e' \/ e' + 32 <= e.
Lemma slot_img v X e : wf v -> slot_ok v X e -> in_image v e.
Proof. intros W (A & B & _). destruct (tab_end_ok v W) as (C & _). split; lia. Qed.

Section ONE.
  Variable cb : Z -> vol -> Z -> option (list Z) -> res (Z * vol * bool).
  Lemma one_none v e s : in_image v e ->
    walk_entries cb 1 e s v None =
    if hid (raw v e) then Ok (s, v, None, false)
    else if znth 0 (raw v e) 0 =? 0 then Ok (s, v, None, true)
    else bnd (s1, v1, stop) <- cb s v e None; Ok (s1, v1, None, stop).
  Proof.
    intros I. cbn [walk_entries]. rewrite !(e_byte_ok v e (raw v e)) by (auto; lia). cbn [bind].
    unfold hid. fold (attr (raw v e)). unfold is_volid.
    destruct (Z.testbit (attr (raw v e)) 3); cbn [orb]; [reflexivity|].
    destruct (_ =? 229); [reflexivity|]. destruct (_ =? 0); [reflexivity|].
    destruct (cb s v e None) as [[[s1 v1] st]| | |]; cbn [bind]; try reflexivity. destruct st; reflexivity.
  Qed.
  (** * A chain of clusters *)
  Lemma walk_chain2 v0 all base : forall cl c fuel s v x, chain v0 c cl -> wf v0 ->
    (length cl < fuel)%nat -> (forall y, In y cl -> In y all) ->
    wf v -> vh v = vh v0 -> 
    (forall p q s1 v1 x1 st1, slots v0 cl = p ++ q -> walk_list cb p s v x = Ok (s1, v1, x1, st1) ->
       wf v1 /\ vh v1 = vh v0 /\ forall y, In y all -> fat0 v1 y = fat0 v0 y) ->
    walk_clusters cb fuel base c s v x = out1 (walk_list cb (slots v0 cl) s v x).
  Proof.
    induction cl as [|c0 cl IH]; intros c fuel s v x CH W0 FU AL W H K; [inversion CH|].
    destruct (chain_head _ _ _ CH) as [V (r & E)]. injection E as <- <-.
    destruct (epc_pos v0 W0) as [EP CE].
    destruct fuel as [|fuel]; [cbn in FU; lia|]. cbn [walk_clusters]. cbv zeta.
    replace (c0 =? 0) with false by (unfold valid in V; lia).
    assert (V' : valid (vh v) c0) by (rewrite H; exact V).
    rewrite (cluster_ptr_eq v W) by exact V'. rewrite (epc_eq v W), (epc_hdr v0 v H).
    change (slots v0 (c0 :: cl)) with
      (map (fun i => sp_cluster_off (vh v0) c0 + 32 * Z.of_nat i) (seq 0 (Z.to_nat (epc v0))) ++ slots v0 cl) in *.
    rewrite walk_list_app, walk_entries_list, H.
    replace (from (fun i => sp_cluster_off (vh v0) c0 + 32 * i) 0 (Z.to_nat (epc v0)))
      with (map (fun i => sp_cluster_off (vh v0) c0 + 32 * Z.of_nat i) (seq 0 (Z.to_nat (epc v0)))) by
      (unfold from; apply map_ext; intros i; lia).
    set (S0 := map _ _) in *.
    destruct (walk_list cb S0 s v x) as [[[[s1 v1] x1] st]| | |] eqn:WL; cbn [bind out1]; try reflexivity.
    destruct st; [reflexivity|].
    destruct (K S0 (slots v0 cl) s1 v1 x1 false eq_refl WL) as (W1 & H1 & F1).
    replace (fat_type (vh v0)) with (fat_type (vh v1)) by (rewrite H1; reflexivity).
    rewrite read_fat_ok by (rewrite ?H1; auto using nfats0, valid_entry). cbn [bind].
    fold (fat0 v1 c0). rewrite (F1 c0) by (apply AL; left; reflexivity). rewrite H1.
    unfold fat0. inversion CH as [c' V1 EO E1|c' l' V1 CH' E1 E2]; subst.
    + rewrite (eoc_ok v0 _ W0 EO). cbn [slots flat_map walk_list]. reflexivity.
    + destruct (chain_head _ _ _ CH') as [Vn _].
      destruct (valid_not_eoc v0 _ W0 Vn) as [-> ->].
      apply (IH _ fuel s1 v1 x1 CH'); auto; [cbn in FU; lia|intros y Y; apply AL; right; exact Y|].
      intros p q s2 v2 x2 st2 E2 WL2. apply (K (S0 ++ p) q s2 v2 x2 st2).
      * rewrite E2, app_assoc. reflexivity.
      * rewrite walk_list_app, WL. cbn [bind]. exact WL2.
  Qed.
End ONE.

Section WLL.
  Variable cb : Z -> vol -> Z -> option (list Z) -> res (Z * vol * bool).
  Variable ok_tree : tree -> Prop.
  Variable h : hdr.
  Hypothesis CB : forall v ffc e t l, vh v = h -> rdy v ffc ->
    rep v (r_cluster (raw v e)) (r_dir (raw v e)) t l -> NoDup l -> slot_ok v (X1 v l) e ->
    ok_tree t -> ~ dots (raw v e) ->
    exists ffc' v' l', cb ffc v e None = Ok (ffc', v', false) /\ rdy v' ffc' /\
      mv (eq e) v l v' l' /\ rep v' (r_cluster (raw v' e)) (r_dir (raw v' e)) t l' /\
      blank (raw v' e) = blank (raw v e) /\ (forall c, In c l' -> c < ffc') /\ ffc <= ffc'.
  Hypothesis DOTS : forall v ffc e, wf v -> in_image v e -> dots (raw v e) ->
    cb ffc v e None = Ok (ffc, v, false).

  Lemma wll : forall es v ffc ts l, vh v = h -> rdy v ffc ->
    reps v (kids_of (map (raw v) es)) ts l -> NoDup l -> Forall (slot_ok v (X1 v l)) es ->
    ForallOrdPairs far es -> Forall ok_tree ts ->
    exists ffc' v' l' st, walk_list cb es ffc v None = Ok (ffc', v', None, st) /\ rdy v' ffc' /\
      mv (fun e => In e es) v l v' l' /\ reps v' (kids_of (map (raw v') es)) ts l' /\
      view_of (map (raw v') es) = view_of (map (raw v) es) /\
      (forall c, In c l' -> c < ffc') /\ ffc <= ffc' /\
      (forall p q s1 v1 x1 st1, es = p ++ q -> walk_list cb p ffc v None = Ok (s1, v1, x1, st1) ->
         wf v1 /\ frame (X1 v l) (fun e => In e es) v v1).
  Proof.
    induction es as [|e es IH]; intros v ffc ts l VH R RS ND SL AP OT.
    { cbn [map kids_of] in RS. inversion RS; subst. exists ffc, v, [], false.
      split; [reflexivity|]. split; [exact R|]. split; [apply mv_refl; [intros c []|constructor]|].
      split; [constructor|]. split; [reflexivity|]. split; [intros c []|]. split; [lia|].
      intros p q s1 v1 x1 st1 E H. symmetry in E. apply app_eq_nil in E. destruct E as [-> _].
      cbn [walk_list] in H. injection H as <- <- <- <-. split; [apply R|apply frame_refl]. }
    pose proof (y_wf _ _ R) as W. inversion SL as [|? ? SE SR]; subst. inversion AP as [|? ? FE FR]; subst.
    pose proof (slot_img _ _ _ W SE) as IM.
    (* an entry without effect *)
    assert (SKIP : walk_entries cb 1 e ffc v None = Ok (ffc, v, None, false) ->
      reps v (kids_of (map (raw v) es)) ts l ->
      (forall v', raw v' e = raw v e -> 
         kids_of (map (raw v') (e :: es)) = kids_of (map (raw v') es) /\
         view_of (map (raw v') (e :: es)) = raw v e :: view_of (map (raw v') es)) ->
      exists ffc' v' l' st, walk_list cb (e :: es) ffc v None = Ok (ffc', v', None, st) /\ rdy v' ffc' /\
      mv (fun e0 => In e0 (e :: es)) v l v' l' /\ reps v' (kids_of (map (raw v') (e :: es))) ts l' /\
      view_of (map (raw v') (e :: es)) = view_of (map (raw v) (e :: es)) /\
      (forall c, In c l' -> c < ffc') /\ ffc <= ffc' /\
      (forall p q s1 v1 x1 st1, e :: es = p ++ q -> walk_list cb p ffc v None = Ok (s1, v1, x1, st1) ->
         wf v1 /\ frame (X1 v l) (fun e0 => In e0 (e :: es)) v v1)).
    { intros WE RS' SP. destruct (IH v ffc ts l eq_refl R RS' ND SR FR OT)
        as (f' & v' & l' & st & A & B & M & D & VW & F & G & K).
      exists f', v', l', st.
      assert (RE : raw v' e = raw v e).
      { apply (frame_raw _ _ v v' e W (m_frame _ _ _ _ _ M) SE). intros e' I'.
        rewrite Forall_forall in FE. specialize (FE e' I'). unfold far in FE. lia. }
      destruct (SP v' RE) as [K1 V1]. destruct (SP v eq_refl) as [K2 V2].
      split; [cbn [walk_list]; rewrite WE; cbn [bind]; exact A|]. split; [exact B|].
      split; [apply (mv_E _ _ _ _ _ _ M); intros e0 I0; right; exact I0|].
      split; [rewrite K1; exact D|]. split; [rewrite V1, V2, VW; reflexivity|].
      split; [exact F|]. split; [exact G|].
      intros p q s1 v1 x1 st1 E H. destruct p as [|e0 p].
      - cbn [walk_list] in H. injection H as <- <- <- <-. split; [exact W|apply frame_refl].
      - cbn [app] in E. injection E as <- E. cbn [walk_list] in H. rewrite WE in H. cbn [bind] in H.
        destruct (K p q s1 v1 x1 st1 E H) as [A1 A2]. split; [exact A1|].
        apply (frame_mono _ _ _ _ _ _ A2); [auto|]. intros e0 I0. right. exact I0. }
    cbn [map kids_of] in RS. rewrite (one_none cb v e ffc IM) in SKIP.
    destruct (hid (raw v e)) eqn:HI.
    { apply SKIP; [reflexivity|exact RS|]. intros v' RE. cbn [map kids_of view_of]. rewrite RE, HI. auto. }
    destruct (Z.eqb_spec (znth 0 (raw v e) 0) 0) as [Z0|Z0].
    { clear SKIP. inversion RS; subst. exists ffc, v, [], true.
      assert (WE : walk_entries cb 1 e ffc v None = Ok (ffc, v, None, true)).
      { rewrite (one_none cb v e ffc IM), HI, Z0. reflexivity. }
      split; [cbn [walk_list]; rewrite WE; reflexivity|]. split; [exact R|].
      split; [apply mv_refl; [intros c []|constructor]|].
      split; [cbn [map kids_of]; rewrite HI, Z0; constructor|].
      split; [reflexivity|]. split; [intros c []|]. split; [lia|].
      intros p q s1 v1 x1 st1 E H. destruct p as [|e0 p].
      - cbn [walk_list] in H. injection H as <- <- <- <-. split; [exact W|apply frame_refl].
      - cbn [app] in E. injection E as <- E. cbn [walk_list] in H. rewrite WE in H. cbn [bind] in H.
        injection H as <- <- <- <-. split; [exact W|apply frame_refl]. }
    destruct (dots_dec (raw v e)) as [DT|DT].
    { apply SKIP; [rewrite (DOTS v ffc e W IM DT); reflexivity|exact RS|].
      intros v' RE. cbn [map kids_of view_of]. rewrite RE, HI.
      destruct (Z.eqb_spec (znth 0 (raw v e) 0) 0) as [Z1|Z1]; [contradiction|].
      destruct (dots_dec (raw v e)); [auto|contradiction]. }
    clear SKIP.
    inversion RS as [|r rs t ts' l0 k RP RK]; subst. inversion OT as [|? ? OT1 OT2]; subst.
    destruct (nodup_split _ _ ND) as (N0 & NK & DJ).
    assert (X0 : forall c, valid (vh v) c -> X1 v l0 c -> X1 v (l0 ++ k) c).
    { intros c V [A|A]; [left; apply in_or_app; auto|right; exact A]. }
    destruct (CB v ffc e t l0 eq_refl R RP N0) as (f1 & v1 & l1 & C1 & R1 & M1 & RP1 & B1 & L1 & LE1).
    { apply (slot_ok_eq v v (X1 v (l0 ++ k))); auto. }
    { exact OT1. }
    { exact DT. }
    pose proof (m_frame _ _ _ _ _ M1) as F1. pose proof (frame_hdr _ _ _ _ F1) as H1.
    pose proof (frame_sz _ _ _ _ F1) as S1. pose proof (y_wf _ _ R1) as W1.
    destruct (rep_used v W) as [_ USED]. specialize (USED _ _ _ RK).
    assert (SE' : forall e', In e' es -> slot_ok v (X1 v (l0 ++ k)) e').
    { intros e' I'. rewrite Forall_forall in SR. apply SR. exact I'. }
    assert (FE' : forall e', In e' es -> far e e').
    { intros e' I'. rewrite Forall_forall in FE. apply FE. exact I'. }
    (* the rest is as before *)
    assert (RAW1 : map (raw v1) es = map (raw v) es).
    { apply map_ext_in. intros e' I'. apply (frame_raw _ _ v v1 e' W F1).
      - apply (slot_ok_eq v v (X1 v (l0 ++ k))); auto.
      - intros e0 <-. specialize (FE' e' I'). unfold far in FE'. lia. }
    assert (X1K : forall c, valid (vh v) c -> X1 v1 k c -> X1 v (l0 ++ k) c).
    { intros c V [A|A]; [left; apply in_or_app; auto|].
      apply (m_zero _ _ _ _ _ M1 c (valid_inr v c V)) in A.
      destruct A as [[A|A] _]; [right; exact A|left; apply in_or_app; auto]. }
    assert (RK1 : reps v1 (kids_of (map (raw v1) es)) ts' k).
    { rewrite RAW1. apply (rep_ext v v1 W W1 H1); [exact RK|]. intros x X.
      destruct (USED x X) as [VX NX]. apply (frame_same _ _ _ _ _ W F1 VX).
      - intros [A|A]; [apply (DJ x A X)|apply NX; exact A].
      - intros e0 <-. destruct SE as (T1 & _ & T3). split; [exact T1|]. apply T3; [exact VX|].
        left. apply in_or_app. auto. }
    destruct (IH v1 f1 ts' k) as (f' & v' & k' & st & A & B & M & D & VW & F & G & K); auto.
    { apply Forall_forall. intros e' I'. apply (slot_ok_eq v v1 (X1 v (l0 ++ k))); auto. }
    pose proof (m_frame _ _ _ _ _ M) as F2. pose proof (frame_hdr _ _ _ _ F2) as H2.
    pose proof (y_wf _ _ B) as W'.
    assert (RE : raw v' e = raw v1 e).
    { apply (frame_raw _ _ v1 v' e W1 F2).
      - apply (slot_ok_eq v v1 (X1 v (l0 ++ k))); auto.
      - intros e' I'. specialize (FE' e' I'). unfold far in FE'. lia. }
    assert (BL : blank (raw v' e) = blank (raw v e)) by (rewrite RE; exact B1).
    destruct (blank_hid _ _ (raw_len v' e) (raw_len v e) BL) as (BH & B0 & BD & BR).
    assert (RP2 : rep v' (r_cluster (raw v' e)) (r_dir (raw v' e)) t l1).
    { rewrite RE. apply (rep_ext v1 v' W1 W' H2); [exact RP1|]. intros x X.
      destruct (m_src _ _ _ _ _ M1 x X) as [VX XX].
      assert (NZ : ~ fz v1 x).
      { intros Q. apply (m_zero _ _ _ _ _ M1 x (valid_inr v x VX)) in Q. tauto. }
      apply (frame_same _ _ _ _ _ W1 F2); [rewrite H1; exact VX| |].
      - intros [Q|Q]; [|apply NZ; exact Q]. destruct (USED x Q) as [_ NX].
        destruct XX as [XX|XX]; [apply (DJ x XX Q)|apply NX; exact XX].
      - intros e' I'. destruct (SE' e' I') as (T1 & _ & T3).
        unfold tab_end, csize in *. rewrite H1. split; [exact T1|]. apply T3; [exact VX|].
        apply X0; assumption. }
    exists f', v', (l1 ++ k'), st.
    assert (WE : walk_entries cb 1 e ffc v None = Ok (f1, v1, None, false)).
    { rewrite (one_none cb v e ffc IM), HI. destruct (Z.eqb_spec (znth 0 (raw v e) 0) 0); [contradiction|].
      rewrite C1. reflexivity. }
    split; [cbn [walk_list]; rewrite WE; cbn [bind]; exact A|]. split; [exact B|].
    assert (MJ : mv (fun e0 => In e0 (e :: es)) v (l0 ++ k) v' (l1 ++ k')).
    { apply (mv_E (fun e0 => e = e0 \/ In e0 es)); [|intros e0 Q; exact Q].
      apply (mv_join _ _ _ _ v1 _ _ _ _ M1 M); assumption. }
    split; [exact MJ|].
    split.
    { cbn [map kids_of]. rewrite BH, HI, B0. destruct (Z.eqb_spec (znth 0 (raw v e) 0) 0); [contradiction|].
      destruct (dots_dec (raw v' e)) as [Q|Q]; [apply BD in Q; contradiction|].
      constructor; assumption. }
    split.
    { cbn [map view_of]. rewrite BH, HI, B0. destruct (Z.eqb_spec (znth 0 (raw v e) 0) 0); [contradiction|].
      destruct (dots_dec (raw v' e)) as [Q|Q]; [apply BD in Q; contradiction|].
      destruct (dots_dec (raw v e)) as [Q'|Q']; [contradiction|].
      rewrite BL, VW, RAW1. reflexivity. }
    split.
    { intros c C. apply in_app_or in C. destruct C as [C|C]; [specialize (L1 c C); lia|apply F; exact C]. }
    split; [lia|].
    intros p q s2 v2 x2 st2 E H. destruct p as [|e0 p].
    - cbn [walk_list] in H. injection H as <- <- <- <-. split; [exact W|apply frame_refl].
    - cbn [app] in E. injection E as <- E. cbn [walk_list] in H. rewrite WE in H. cbn [bind] in H.
      destruct (K p q s2 v2 x2 st2 E H) as [A1 A2]. split; [exact A1|].
      apply (frame_trans _ _ v v1 v2).
      + apply (frame_mono _ _ _ _ _ _ F1); [exact X0|]. intros e0 <-. left. reflexivity.
      + apply (frame_mono _ _ _ _ _ _ A2); [|intros e0 I0; right; exact I0].
        intros c V. rewrite H1 in V. apply X1K. exact V.
  Qed.
End WLL.
