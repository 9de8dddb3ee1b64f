(** Compaction: moving a chain. *)
From Verif Require Import Lib Fat_Model Fat_Spec Fat_Proofs Fat_Proofs2 Fat_Proofs4 Fatdir_Model
  Fatdir_Spec Fatdir_Proofs Fatdir_Proofs2 Fatdir_Proofs3 Fatdir_Proofs4 Fatcomp_Model Fatcomp_Spec
  Fatcomp_Proofs Fatcomp_Proofs2.

(** before a step: everything below [ffc] is in use, something is free *)
Record rdy (v : vol) (ffc : Z) : Prop := {
  y_wf : wf v;
  y_0 : sp_eoc (vh v) (fat0 v 0);
  y_1 : fat0 v 1 <> 0;
  y_rng : 0 <= ffc <= sp_clusters (vh v) + 2;
  y_low : forall c, 0 <= c < ffc -> ~ fz v c;
  y_free : exists c, valid (vh v) c /\ fz v c }.

(** the clusters [l] became [l'] *)
Record mv (E : Z -> Prop) (v : vol) (l : list Z) (v' : vol) (l' : list Z) : Prop := {
  m_frame : frame (X1 v l) E v v';
  m_zero : forall c, inr v c -> (fz v' c <-> (fz v c \/ In c l) /\ ~ In c l');
  m_src : forall c, In c l' -> valid (vh v) c /\ X1 v l c;
  m_len : length l' = length l;
  m_nodup : NoDup l' }.

Lemma eoc_nz v x : wf v -> sp_eoc (vh v) x -> x <> 0.
Proof.
  intros W E. pose proof (eoc_ok v x W E) as Q. intros ->. unfold is_eoc in Q.
  rewrite (type_eq v W) in Q. destruct (width_cases v) as [[K _]|[K _]]; rewrite K in Q; discriminate.
Qed.
Lemma chain_nz v c l : wf v -> chain v c l -> forall x, In x l -> ~ fz v x.
Proof.
  intros W H. induction H as [c V E|c l V H IH]; intros x X.
  - destruct X as [<-|[]]. apply (eoc_nz v); assumption.
  - destruct X as [<-|X]; [|apply IH; exact X]. destruct (chain_head _ _ _ H) as [Vn _].
    unfold fz, fat0. unfold valid in Vn. lia.
Qed.
Lemma scan_ok v : wf v -> sp_eoc (vh v) (fat0 v 0) -> fat0 v 1 <> 0 ->
  forall fuel ffc, rdy v ffc ->
  sp_clusters (vh v) + 2 - ffc < Z.of_nat fuel ->
  exists c, scan_ffc fuel v ffc = Ok c /\ valid (vh v) c /\ fz v c /\ rdy v c /\ ffc <= c.
Proof.
  intros W E0 E1. pose proof (clusters_small v W) as [CS _].
  induction fuel as [|f IH]; intros ffc R F; [destruct (y_rng _ _ R); lia|].
  destruct (y_free _ _ R) as (c & VC & ZC). pose proof (y_rng _ _ R) as RG.
  assert (FL : ffc <= c).
  { destruct (Z.le_gt_cases ffc c); [assumption|]. exfalso. unfold valid in VC.
    apply (y_low _ _ R c); [lia|exact ZC]. }
  cbn [scan_ffc].
  rewrite read_fat_ok by (auto using nfats0; unfold valid in VC; lia). cbn [bind].
  fold (fat0 v ffc). destruct (Z.eqb_spec (fat0 v ffc) 0) as [Q|Q].
  - exists ffc. split; [reflexivity|]. split; [|split; [exact Q|split; [exact R|lia]]].
    assert (ffc <> 0) by (intros ->; apply (eoc_nz v _ W E0 Q)).
    assert (ffc <> 1) by (intros ->; congruence). unfold valid in *. lia.
  - unfold valid in VC. rewrite Lib.u32_small by lia.
    assert (NE : ffc <> c) by (intros ->; apply Q, ZC).
    destruct (IH (ffc + 1)) as (c' & A & B & C & D & G).
    + destruct R as [R1 R2 R3 R4 R5 R6]. constructor; try assumption; [lia|]. intros c0 C0.
      destruct (Z.eq_dec c0 ffc) as [->|N0]; [exact Q|]. apply R5. lia.
    + lia.
    + exists c'. split; [exact A|]. split; [exact B|]. split; [exact C|]. split; [exact D|lia].
Qed.

Lemma mv_wf_X v l v' l' E : mv E v l v' l' -> forall c, valid (vh v) c -> (X1 v' l' c <-> X1 v l c).
Proof.
  intros M c V. pose proof (m_zero _ _ _ _ _ M c (valid_inr v c V)) as Q. unfold X1. split.
  - intros [A|A]; [apply (m_src _ _ _ _ _ M c A)|]. apply Q in A. tauto.
  - intros A. destruct (in_dec Z.eq_dec c l') as [I|I]; [left; exact I|]. right. apply Q. tauto.
Qed.
Lemma mv_trans E v l v1 l1 v2 l2 : mv E v l v1 l1 -> mv E v1 l1 v2 l2 -> mv E v l v2 l2.
Proof.
  intros M1 M2. pose proof (mv_wf_X _ _ _ _ _ M1) as X.
  pose proof (frame_hdr _ _ _ _ (m_frame _ _ _ _ _ M1)) as H1.
  constructor.
  - apply (frame_trans _ _ v v1 v2); [apply M1|]. apply (frame_mono (X1 v1 l1) _ E E); [apply M2| |auto].
    intros c V A. rewrite H1 in V. apply X; assumption.
  - intros c I. rewrite (m_zero _ _ _ _ _ M2 c) by (unfold inr in *; rewrite H1; exact I).
    rewrite (m_zero _ _ _ _ _ M1 c I). split.
    + intros [[[A B]|A] C]; [tauto|]. split; [|exact C]. apply (m_src _ _ _ _ _ M1 c) in A.
      destruct A as [_ [A|A]]; tauto.
    + intros [A B]. split; [|exact B]. destruct (in_dec Z.eq_dec c l1); tauto.
  - intros c C. apply (m_src _ _ _ _ _ M2) in C. destruct C as [V A]. rewrite H1 in V.
    split; [exact V|]. apply X; assumption.
  - rewrite (m_len _ _ _ _ _ M2). apply M1.
  - apply M2.
Qed.

Lemma slot_ok_eq v v' (X X' : Z -> Prop) e : vh v' = vh v -> vsz v' = vsz v ->
  (forall c, valid (vh v) c -> X' c -> X c) -> slot_ok v X e -> slot_ok v' X' e.
Proof.
  intros H S I (A & B & C). unfold slot_ok, tab_end, csize in *. rewrite H, S.
  split; [exact A|]. split; [exact B|]. intros c V Xc. apply C; auto.
Qed.
Lemma frame_sz X E v v' : frame X E v v' -> vsz v' = vsz v.
Proof. intros (_ & A & _). exact A. Qed.
Lemma mv_rdy E v l v' l' ffc ffc' : rdy v ffc -> mv E v l v' l' -> wf v' ->
  (forall e, E e -> tab_end v <= e) -> 0 <= ffc' <= sp_clusters (vh v) + 2 ->
  (forall c, 0 <= c < ffc' -> ~ fz v' c) ->
  (exists c, valid (vh v) c /\ fz v' c) -> rdy v' ffc'.
Proof.
  intros R M W' EE RG LO FR. pose proof (y_wf _ _ R) as W.
  pose proof (m_frame _ _ _ _ _ M) as F. pose proof (frame_hdr _ _ _ _ F) as H.
  pose proof (clusters_small v W) as [CS _]. pose proof (wf_type v W) as WT.
  constructor; rewrite ?H; try assumption.
  - rewrite (frame_fat _ _ v v' 0 W F); [apply R|unfold inr; lia|unfold valid; lia|exact EE].
  - rewrite (frame_fat _ _ v v' 1 W F); [apply R|unfold inr; lia|unfold valid; lia|exact EE].
Qed.

(** * The chain of an entry *)
Lemma nodup_swap (a b : list Z) x y : NoDup (a ++ x :: b) -> ~ In y (a ++ x :: b) -> NoDup (a ++ y :: b).
Proof.
  intros N I. apply (NoDup_Add (a := y) (l := a ++ b)).
  - apply Add_app.
  - split; [apply NoDup_remove_1 in N; exact N|]. intros Q. apply I. apply in_app_or in Q.
    apply in_or_app. destruct Q; [auto|right; right; assumption].
Qed.
Lemma in_mid (a b : list Z) x c : In c (a ++ x :: b) <-> c = x \/ In c (a ++ b).
Proof.
  rewrite !in_app_iff. cbn [In]. split.
  - intros [A|[A|A]]; [auto|auto|auto].
  - intros [A|[A|A]]; auto.
Qed.

Lemma mv_refl E v l : (forall c, In c l -> valid (vh v) c /\ ~ fz v c) -> NoDup l -> mv E v l v l.
Proof.
  intros N ND. constructor; [apply frame_refl| | |reflexivity|exact ND].
  - intros c I. split; [|tauto]. intros Q. split; [auto|]. intros C. apply (N c C). exact Q.
  - intros c C. split; [apply N; exact C|left; exact C].
Qed.
Lemma step_ok e b fuel a clu v ffc last first :
  rdy v ffc -> chain v (de_cluster v e) (a ++ clu :: b) -> slot_ok v (X1 v (a ++ clu :: b)) e ->
  (a = [] -> clu = first) -> (a <> [] -> clu <> first /\ exists a', a = a' ++ [last]) ->
  sp_clusters (vh v) + 2 < Z.of_nat fuel ->
  exists c1 ffc2 v1, (bnd ffc1 <- scan_ffc fuel v ffc;
      (if ffc1 <? clu then
           bnd v1 <- move_cluster v e first last clu ffc1 (fat0 v clu); Ok (ffc1, u32 (ffc1 + 1), v1)
         else Ok (clu, ffc1, v))) = Ok (c1, ffc2, v1) /\
    rdy v1 ffc2 /\ mv (eq e) v (a ++ clu :: b) v1 (a ++ c1 :: b) /\
    chain v1 (de_cluster v1 e) (a ++ c1 :: b) /\
    map (cdata v1) (a ++ c1 :: b) = map (cdata v) (a ++ clu :: b) /\ c1 < ffc2 /\ ffc <= ffc2.
Proof.
  intros R CH SL F1 F2 FU. pose proof (y_wf _ _ R) as W. pose proof (clusters_small v W) as [CS _].
  assert (VC : valid (vh v) clu)
    by (apply (chain_valid _ _ _ CH); apply in_or_app; right; left; reflexivity).
  destruct (scan_ok v W (y_0 _ _ R) (y_1 _ _ R) fuel ffc R) as (f1 & SC & VF & ZF & R1 & LE);
    [destruct (y_rng _ _ R); lia|]. rewrite SC. cbn [bind].
  pose proof (chain_nodup v _ _ W CH) as ND. pose proof (chain_nz v _ _ W CH) as NZ.
  assert (CF : clu <> f1)
    by (intros ->; apply (NZ f1); [apply in_or_app; right; left; reflexivity|exact ZF]).
  destruct (Z.ltb_spec f1 clu) as [LT|GE].
  - destruct (reloc v e first last clu f1 a b W CH ND VF ZF NZ SL F1 F2)
      as (v1 & MC & W1 & FR & CH1 & MD & ZR).
    rewrite MC. cbn [bind]. unfold valid in VC, VF. rewrite Lib.u32_small by lia.
    exists f1, (f1 + 1), v1. split; [reflexivity|].
    assert (M1 : mv (eq e) v (a ++ clu :: b) v1 (a ++ f1 :: b)).
    { constructor; [exact FR| | | |].
      - intros c IC. rewrite (ZR c IC). rewrite !in_mid. split.
        + intros [[A|A] B]; (split; [auto|]); intros [Q|Q]; try congruence.
          * apply (NZ c); [apply in_mid; auto|exact A].
          * subst c. apply NoDup_remove_2 in ND. apply ND. exact Q.
        + intros [A B]. split; [|intros ->; apply B; left; reflexivity].
          destruct A as [A|[A|A]]; auto. exfalso. apply B. right. exact A.
      - intros c C. apply in_mid in C. destruct C as [->|C]; [split; [exact VF|right; exact ZF]|].
        split; [apply (chain_valid _ _ _ CH); apply in_mid; auto|left; apply in_mid; auto].
      - rewrite !app_length. reflexivity.
      - apply (nodup_swap a b clu); [exact ND|]. intros Q. apply (NZ f1 Q ZF). }
    split.
    { apply (mv_rdy _ v _ v1 _ f1 _ R1 M1 W1).
      - intros e0 <-. apply SL.
      - lia.
      - intros c C Q. apply ZR in Q; [|unfold inr; lia]. destruct Q as [[Q|Q] N].
        + apply (y_low _ _ R1 c); [lia|exact Q].
        + lia.
      - exists clu. split; [exact VC|]. apply ZR; [unfold inr; lia|]. split; [right; reflexivity|lia]. }
    split; [exact M1|]. split; [exact CH1|]. split; [exact MD|]. lia.
  - exists clu, f1, v. split; [reflexivity|]. split; [exact R1|].
    split; [apply mv_refl; [|exact ND]; intros c C; split; [apply (chain_valid _ _ _ CH c C)|apply NZ; exact C]|].
    split; [exact CH|]. split; [reflexivity|]. lia.
Qed.

Lemma move_chain_ok e : forall b fuel a clu v ffc last first,
  rdy v ffc -> chain v (de_cluster v e) (a ++ clu :: b) -> slot_ok v (X1 v (a ++ clu :: b)) e ->
  (a = [] -> clu = first) -> (a <> [] -> clu <> first /\ exists a', a = a' ++ [last]) ->
  ~ In first b -> (forall c, In c a -> c < ffc) ->
  sp_clusters (vh v) + 2 + zlen b < Z.of_nat fuel ->
  exists ffc' v' l', move_chain fuel e first last clu ffc v = Ok (ffc', v') /\ rdy v' ffc' /\
    mv (eq e) v (a ++ clu :: b) v' l' /\ chain v' (de_cluster v' e) l' /\
    map (cdata v') l' = map (cdata v) (a ++ clu :: b) /\
    (forall c, In c l' -> c < ffc') /\ ffc <= ffc'.
Proof.
  induction b as [|nx b IH]; intros fuel a clu v ffc last first R CH SL F1 F2 NF AL FU.
  all: pose proof (y_wf _ _ R) as W.
  all: assert (VC : valid (vh v) clu)
    by (apply (chain_valid _ _ _ CH); apply in_or_app; right; left; reflexivity).
  all: destruct (proj1 (chain_lk _ _ _) CH) as (_ & y & Y & K); rewrite lk_app in K;
    destruct K as (m & _ & K); cbn [lk] in K; destruct K as (_ & _ & K).
  - rewrite (zlen_nil (A:=Z)) in FU. destruct fuel as [|fuel]; [pose proof (wf_type v W); lia|].
    destruct (step_ok e [] (S fuel) a clu v ffc last first R CH SL F1 F2 ltac:(lia))
      as (c1 & f2 & v1 & E & R1 & M1 & CH1 & D1 & L1 & L2).
    exists f2, v1, (a ++ [c1]). split; [|split; [exact R1|split; [exact M1|split; [exact CH1|split; [exact D1|split; [|exact L2]]]]]].
    + cbn [move_chain]. cbv zeta. rewrite read_fat_ok by (auto using nfats0, valid_entry). cbn [bind].
      fold (fat0 v clu). revert E. destruct (scan_ffc (S fuel) v ffc) as [f1| | |]; cbn [bind]; try discriminate.
      intros ->. cbn [bind]. subst y. rewrite (eoc_ok v _ W Y). reflexivity.
    + intros c C. apply in_app_or in C. destruct C as [C|[<-|[]]]; [|exact L1]. specialize (AL c C). lia.
  - rewrite zlen_cons in FU. destruct fuel as [|fuel]; [pose proof (wf_type v W); pose proof (zlen_nonneg b); lia|].
    pose proof (zlen_nonneg b) as NN.
    destruct (step_ok e (nx :: b) (S fuel) a clu v ffc last first R CH SL F1 F2 ltac:(lia))
      as (c1 & f2 & v1 & E & R1 & M1 & CH1 & D1 & L1 & L2).
    pose proof (m_frame _ _ _ _ _ M1) as FR. pose proof (frame_hdr _ _ _ _ FR) as H1.
    assert (EQ : a ++ c1 :: nx :: b = (a ++ [c1]) ++ nx :: b) by (rewrite <- app_assoc; reflexivity).
    rewrite EQ in *.
    destruct (IH fuel (a ++ [c1]) nx v1 f2 c1 first R1 CH1) as (f3 & v3 & l3 & E3 & R3 & M3 & CH3 & D3 & L3 & L4).
    + apply (slot_ok_eq v v1 (X1 v (a ++ clu :: nx :: b))); [exact H1|apply (frame_sz _ _ _ _ FR)| |exact SL].
      intros c V Xc. apply (mv_wf_X _ _ _ _ _ M1 c V). exact Xc.
    + intros Q. destruct a; discriminate.
    + intros _. split; [|exists a; reflexivity]. intros ->. apply NF. left. reflexivity.
    + intros Q. apply NF. right. exact Q.
    + intros c C. apply in_app_or in C. destruct C as [C|[<-|[]]]; [|exact L1]. specialize (AL c C). lia.
    + rewrite H1. lia.
    + exists f3, v3, l3. split.
      * cbn [move_chain]. cbv zeta. rewrite read_fat_ok by (auto using nfats0, valid_entry). cbn [bind].
        fold (fat0 v clu). revert E. destruct (scan_ffc (S fuel) v ffc) as [f1| | |]; cbn [bind]; try discriminate.
        intros ->. cbn [bind]. cbn [lk] in K. destruct K as (<- & VN & K).
        destruct (valid_not_eoc v _ W VN) as [-> _]. exact E3.
      * split; [exact R3|]. split; [apply (mv_trans _ _ _ v1 ((a ++ [c1]) ++ nx :: b)); assumption|].
        split; [exact CH3|]. split; [rewrite D3; exact D1|]. split; [exact L3|lia].
Qed.

Theorem move_chain_all e fuel v ffc l : rdy v ffc -> chain v (de_cluster v e) l ->
  slot_ok v (X1 v l) e -> 2 * sp_clusters (vh v) + 2 < Z.of_nat fuel ->
  exists ffc' v' l', move_chain fuel e (de_cluster v e) 0 (de_cluster v e) ffc v = Ok (ffc', v') /\
    rdy v' ffc' /\ mv (eq e) v l v' l' /\ chain v' (de_cluster v' e) l' /\
    map (cdata v') l' = map (cdata v) l /\ (forall c, In c l' -> c < ffc') /\ ffc <= ffc'.
Proof.
  intros R CH SL FU. pose proof (y_wf _ _ R) as W.
  destruct (chain_head _ _ _ CH) as [V (b & E)]. subst l.
  pose proof (chain_nodup v _ _ W CH) as ND. inversion ND as [|? ? NI NB]; subst.
  pose proof (chain_len v _ _ W CH) as CL. rewrite zlen_cons in CL.
  apply (move_chain_ok e b fuel [] (de_cluster v e)); auto.
  - congruence.
  - intros c [].
  - lia.
Qed.
(** an empty file: table entry 0 is an end mark, nothing moves *)
Theorem move_chain_empty e fuel v ffc : rdy v ffc -> sp_clusters (vh v) + 2 < Z.of_nat fuel ->
  exists ffc', move_chain fuel e 0 0 0 ffc v = Ok (ffc', v) /\ rdy v ffc' /\ ffc <= ffc'.
Proof.
  intros R FU. pose proof (y_wf _ _ R) as W. destruct fuel as [|fuel]; [pose proof (wf_type v W); lia|].
  cbn [move_chain]. cbv zeta. pose proof (wf_type v W).
  rewrite read_fat_ok by (auto using nfats0; lia). cbn [bind].
  destruct (scan_ok v W (y_0 _ _ R) (y_1 _ _ R) (S fuel) ffc R) as (f1 & SC & VF & ZF & R1 & LE);
    [destruct (y_rng _ _ R); lia|]. rewrite SC. cbn [bind].
  replace (f1 <? 0) with false by (unfold valid in VF; lia). cbn [bind].
  fold (fat0 v 0). rewrite (eoc_ok v _ W (y_0 _ _ R)). exists f1. auto.
Qed.
