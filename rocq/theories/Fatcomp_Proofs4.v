(** Compaction: what a tree depends on; joining moves. *)
From Verif Require Import Lib Fat_Model Fat_Spec Fat_Proofs Fat_Proofs2 Fat_Proofs4 Fatdir_Model
  Fatdir_Spec Fatdir_Proofs Fatdir_Proofs2 Fatdir_Proofs3 Fatdir_Proofs4 Fatcomp_Model Fatcomp_Spec
  Fatcomp_Proofs Fatcomp_Proofs2 Fatcomp_Proofs3.

(** * Entries and cluster data *)
Definition chunks (n : nat) (d : list Z) : list (list Z) :=
  map (fun i => firstn 32 (skipn (32 * i) d)) (seq 0 n).
Lemma raw_chunk v c i : wf v -> (i < Z.to_nat (epc v))%nat ->
  raw v (sp_cluster_off (vh v) c + 32 * Z.of_nat i) = firstn 32 (skipn (32 * i) (cdata v c)).
Proof.
  intros W I. destruct (epc_pos v W) as [EP CE]. pose proof (cdata_len v c W) as CL.
  apply (znth_ext 0).
  - rewrite raw_len. unfold zlen in *. rewrite firstn_length, skipn_length. lia.
  - intros j J. rewrite raw_len in J. unfold raw. rewrite bytes_nth by lia.
    rewrite znth_firstn by lia. rewrite znth_skipn by lia. unfold cdata. rewrite bytes_nth by lia.
    f_equal. lia.
Qed.
Lemma raws_data v l : wf v ->
  map (raw v) (slots v l) = flat_map (chunks (Z.to_nat (epc v))) (map (cdata v) l).
Proof.
  intros W. unfold slots. induction l as [|c l IH]; [reflexivity|].
  cbn [flat_map map]. rewrite map_app, IH. f_equal. unfold chunks. rewrite map_map.
  apply map_ext_in. intros i I. apply in_seq in I. apply raw_chunk; [exact W|lia].
Qed.
Lemma epc_hdr v v' : vh v' = vh v -> epc v' = epc v.
Proof. intros H. unfold epc, csize. rewrite H. reflexivity. Qed.
Lemma slots_hdr v v' l : vh v' = vh v -> slots v' l = slots v l.
Proof. intros H. unfold slots. rewrite (epc_hdr v v' H), H. reflexivity. Qed.
Lemma raws_same v v' l l' : wf v -> wf v' -> vh v' = vh v -> map (cdata v') l' = map (cdata v) l ->
  map (raw v') (slots v' l') = map (raw v) (slots v l).
Proof. intros W W' H D. rewrite !raws_data by assumption. rewrite D, (epc_hdr v v' H). reflexivity. Qed.
Lemma in_slots v l e : In e (slots v l) -> exists c i, In c l /\ 0 <= i < epc v /\
  e = sp_cluster_off (vh v) c + 32 * i.
Proof.
  intros I. unfold slots in I. apply in_flat_map in I. destruct I as (c & C & I).
  apply in_map_iff in I. destruct I as (i & <- & I). apply in_seq in I.
  exists c, (Z.of_nat i). split; [exact C|]. lia.
Qed.

(** * Dependence *)
Lemma chain_keep v v' c l : vh v' = vh v -> (forall x, In x l -> fat0 v' x = fat0 v x) ->
  chain v c l -> chain v' c l.
Proof.
  intros H F C. apply chain_lk. apply chain_lk in C. destruct C as (N & y & Y & K).
  split; [exact N|]. exists y. rewrite H. split; [exact Y|]. apply (lk_ext v); assumption.
Qed.
Lemma rep_ext v v' : wf v -> wf v' -> vh v' = vh v ->
  (forall c d t l, rep v c d t l ->
     (forall x, In x l -> fat0 v' x = fat0 v x /\ cdata v' x = cdata v x) -> rep v' c d t l) /\
  (forall rs ts l, reps v rs ts l ->
     (forall x, In x l -> fat0 v' x = fat0 v x /\ cdata v' x = cdata v x) -> reps v' rs ts l).
Proof.
  intros W W' H. apply rep_reps_ind.
  - intros _. constructor.
  - intros c l CH S. replace (content v l) with (content v' l).
    + constructor. apply (chain_keep v); [exact H| |exact CH]. intros x X. apply S. exact X.
    + unfold content. f_equal. apply map_ext_in. intros x X. apply S. exact X.
  - intros c l ts k CH RS IH S.
    assert (E : map (raw v') (slots v' l) = map (raw v) (slots v l)).
    { apply raws_same; try assumption. apply map_ext_in. intros x X. apply S.
      apply in_or_app. auto. }
    rewrite <- E in *. apply rep_dir.
    + apply (chain_keep v); [exact H| |exact CH]. intros x X. apply S. apply in_or_app. auto.
    + apply IH. intros x X. apply S. apply in_or_app. auto.
  - intros _. constructor.
  - intros r rs t ts l k R IHR RS IHS S. constructor.
    + apply IHR. intros x X. apply S. apply in_or_app. auto.
    + apply IHS. intros x X. apply S. apply in_or_app. auto.
Qed.
Lemma rep_used v : wf v ->
  (forall c d t l, rep v c d t l -> forall x, In x l -> valid (vh v) x /\ ~ fz v x) /\
  (forall rs ts l, reps v rs ts l -> forall x, In x l -> valid (vh v) x /\ ~ fz v x).
Proof.
  intros W. apply rep_reps_ind.
  - intros x [].
  - intros c l CH x X. split; [apply (chain_valid _ _ _ CH x X)|apply (chain_nz v _ _ W CH x X)].
  - intros c l ts k CH RS IH x X. apply in_app_or in X. destruct X as [X|X]; [|apply IH; exact X].
    split; [apply (chain_valid _ _ _ CH x X)|apply (chain_nz v _ _ W CH x X)].
  - intros x [].
  - intros r rs t ts l k R IHR RS IHS x X. apply in_app_or in X. destruct X; auto.
Qed.
(** clusters outside the frame *)
Lemma frame_same X E v v' c : wf v -> frame X E v v' -> valid (vh v) c -> ~ X c ->
  (forall e, E e -> tab_end v <= e /\
     (e + 32 <= sp_cluster_off (vh v) c \/ sp_cluster_off (vh v) c + csize v <= e)) ->
  fat0 v' c = fat0 v c /\ cdata v' c = cdata v c.
Proof.
  intros W F V N EE. split.
  - apply (frame_fat X E); auto; [apply valid_inr; exact V|]. intros e Q. apply EE. exact Q.
  - apply (frame_data X E); auto. intros e Q. apply EE. exact Q.
Qed.

(** * Joining moves *)
Lemma nodup_app (a b : list Z) : NoDup a -> NoDup b -> (forall x, In x a -> ~ In x b) -> NoDup (a ++ b).
Proof.
  intros A B D. induction A as [|x a NI A IH]; [exact B|]. cbn [app]. constructor.
  - intros Q. apply in_app_or in Q. destruct Q as [Q|Q]; [exact (NI Q)|]. apply (D x); [left; reflexivity|exact Q].
  - apply IH. intros y Y. apply D. right. exact Y.
Qed.
Lemma nodup_split (a b : list Z) : NoDup (a ++ b) -> NoDup a /\ NoDup b /\ (forall x, In x a -> ~ In x b).
Proof.
  induction a as [|x a IH]; cbn [app]; intros N.
  - split; [constructor|]. split; [exact N|]. intros x [].
  - inversion N as [|? ? NI NN]; subst. destruct (IH NN) as (A & B & C). split.
    + constructor; [|exact A]. intros Q. apply NI. apply in_or_app. auto.
    + split; [exact B|]. intros y [<-|Y]; [|apply C; exact Y]. intros Q. apply NI. apply in_or_app. auto.
Qed.
Lemma mv_join E1 E2 v l v1 l1 k v2 k2 : mv E1 v l v1 l1 -> mv E2 v1 k v2 k2 ->
  (forall c, In c k -> valid (vh v) c /\ ~ fz v c) -> NoDup (l ++ k) ->
  mv (fun e => E1 e \/ E2 e) v (l ++ k) v2 (l1 ++ k2).
Proof.
  intros M1 M2 K ND. pose proof (frame_hdr _ _ _ _ (m_frame _ _ _ _ _ M1)) as H1.
  destruct (nodup_split _ _ ND) as (NL & NK & DJ).
  assert (L1K : forall c, In c l1 -> ~ In c k).
  { intros c C Q. destruct (m_src _ _ _ _ _ M1 c C) as [_ [A|A]]; [apply (DJ c A Q)|].
    apply (K c Q). exact A. }
  assert (F1 : forall c, valid (vh v) c -> fz v1 c -> fz v c \/ In c l).
  { intros c V Z. apply (m_zero _ _ _ _ _ M1 c (valid_inr v c V)) in Z. tauto. }
  assert (XK : forall c, valid (vh v) c -> X1 v1 k c -> X1 v (l ++ k) c).
  { intros c V [A|A].
    - left. apply in_or_app. auto.
    - destruct (F1 c V A); [right; assumption|left; apply in_or_app; auto]. }
  constructor.
  - apply (frame_trans _ _ v v1 v2).
    + apply (frame_mono (X1 v l) _ E1 _); [apply M1| |auto].
      intros c V [A|A]; [left; apply in_or_app; auto|right; exact A].
    + apply (frame_mono (X1 v1 k) _ E2 _); [apply M2| |auto]. intros c V. rewrite H1 in V. apply XK. exact V.
  - intros c I. rewrite (m_zero _ _ _ _ _ M2 c) by (unfold inr in *; rewrite H1; exact I).
    rewrite (m_zero _ _ _ _ _ M1 c I). rewrite !in_app_iff. split.
    + intros [[[A B]|A] C]; (split; [tauto|]); intros [Q|Q]; try contradiction.
      apply (L1K c Q A).
    + intros [A B]. split; [|tauto]. destruct A as [A|[A|A]]; tauto.
  - intros c C. apply in_app_or in C. destruct C as [C|C].
    + destruct (m_src _ _ _ _ _ M1 c C) as [V [A|A]]; (split; [exact V|]);
        [left; apply in_or_app; auto|right; exact A].
    + destruct (m_src _ _ _ _ _ M2 c C) as [V A]. rewrite H1 in V. split; [exact V|]. apply XK; assumption.
  - rewrite !app_length, (m_len _ _ _ _ _ M1), (m_len _ _ _ _ _ M2). reflexivity.
  - apply nodup_app; [apply M1|apply M2|]. intros c C Q.
    destruct (m_src _ _ _ _ _ M2 c Q) as [V [A|A]]; [apply (L1K c C A)|].
    rewrite H1 in V. apply (m_zero _ _ _ _ _ M1 c (valid_inr v c V)) in A. tauto.
Qed.
Lemma mv_E (E E' : Z -> Prop) v l v' l' : mv E v l v' l' -> (forall e, E e -> E' e) -> mv E' v l v' l'.
Proof.
  intros [A B C D F] S. constructor; try assumption. apply (frame_mono (X1 v l) _ E _); auto.
Qed.
(** writes to entries within the moved clusters *)
Lemma frame_absorb (X E E' : Z -> Prop) v v' : frame X E v v' ->
  (forall e, E e -> E' e \/ exists c, valid (vh v) c /\ X c /\
     sp_cluster_off (vh v) c <= e /\ e + 32 <= sp_cluster_off (vh v) c + csize v) ->
  frame X E' v v'.
Proof.
  intros (A & B & C) S. split; [exact A|]. split; [exact B|]. intros a P Q. apply C; [exact P|].
  intros e I F. destruct (S e I) as [I'|(c & V & Xc & L1 & L2)]; [apply (Q e I' F)|].
  destruct (P c V Xc) as [_ N]. apply N. unfold in_dat, fld in *. lia.
Qed.

(** * Entries equal up to their first cluster *)
Lemma blank_bytes r r' : zlen r = 32 -> zlen r' = 32 -> blank r = blank r' ->
  forall i, 0 <= i < 20 -> znth 0 r i = znth 0 r' i.
Proof.
  intros L L' E i I.
  assert (Q : forall s, zlen s = 32 -> znth 0 s i = znth 0 (blank s) i).
  { intros s S. unfold blank. rewrite znth_app1 by (unfold zlen in *; rewrite firstn_length; lia).
    rewrite znth_firstn by lia. reflexivity. }
  rewrite (Q r L), (Q r' L'), E. reflexivity.
Qed.
Lemma blank_20 r r' : zlen r = 32 -> zlen r' = 32 -> blank r = blank r' -> firstn 20 r = firstn 20 r'.
Proof.
  intros L L' E. apply (znth_ext 0); [unfold zlen in *; rewrite !firstn_length; lia|].
  intros i I. assert (0 <= i < 20) by (unfold zlen in *; rewrite firstn_length in I; lia).
  rewrite !znth_firstn by lia. apply blank_bytes; assumption.
Qed.
Lemma short_20 r r' : zlen r = 32 -> zlen r' = 32 -> blank r = blank r' -> sp_short r = sp_short r'.
Proof.
  intros L L' E. pose proof (blank_20 r r' L L' E) as Q.
  assert (F8 : firstn 8 r = firstn 8 r').
  { transitivity (firstn 8 (firstn 20 r)); [rewrite firstn_firstn; reflexivity|].
    rewrite Q, firstn_firstn. reflexivity. }
  assert (F3 : firstn 3 (skipn 8 r) = firstn 3 (skipn 8 r')).
  { transitivity (firstn 3 (skipn 8 (firstn 20 r))).
    - rewrite skipn_firstn_comm, firstn_firstn. reflexivity.
    - rewrite Q, skipn_firstn_comm, firstn_firstn. reflexivity. }
  unfold sp_short. rewrite F8, F3, (blank_bytes r r' L L' E 12) by lia. reflexivity.
Qed.
Lemma blank_hid r r' : zlen r = 32 -> zlen r' = 32 -> blank r = blank r' ->
  hid r = hid r' /\ znth 0 r 0 = znth 0 r' 0 /\ (dots r <-> dots r') /\ r_dir r = r_dir r'.
Proof.
  intros L L' E. unfold hid, attr, r_dir, attr, dots.
  rewrite (short_20 r r' L L' E), (blank_bytes r r' L L' E 0), (blank_bytes r r' L L' E 11) by lia.
  tauto.
Qed.
