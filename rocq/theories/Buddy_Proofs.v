(** Proofs of C07-C09 for all histories of a buddy heap. *)
From Coq Require Import Permutation.
From Verif Require Import Lib Bits Buddy_Model Buddy_Spec Buddy_Tree Buddy_Ops.

Definition conf (c : cfg) (h : heap) : Prop := hW h = cW c /\ hsize h = total c /\ hmin h = minimum c /\
  forall i, ~ sub 0 (cK c) i -> nd h i = zero_node.

Lemma total_psz c : total c = psz (ca c) (cK c).
Proof. reflexivity. Qed.
Lemma minimum_psz c : minimum c = psz (ca c) 0.
Proof. unfold minimum, psz. f_equal. lia. Qed.

Lemma log2_psz a k : 0 <= a -> Z.log2 (psz a k) = a + Z.of_nat k.
Proof. intros. unfold psz. apply Z.log2_pow2. lia. Qed.

Lemma node_ptr c h cx k : good c -> conf c h -> (k + length cx = cK c)%nat ->
  ptr_to_node h (pos cx * psz (ca c) k) (psz (ca c) k) = cnode cx.
Proof.
  intros G (C1 & C2 & C3 & C4) E. destruct G as (_ & Ha & _). unfold ptr_to_node. rewrite C2, total_psz, !log2_psz by assumption.
  unfold cnode. replace (ca c + Z.of_nat (cK c) - (ca c + Z.of_nat k)) with (Z.of_nat (length cx)) by lia.
  rewrite Z.shiftr_div_pow2 by lia. fold (psz (ca c) k). rewrite Z.div_mul; [reflexivity|].
  pose proof (psz_pos (ca c) k Ha). lia.
Qed.

Lemma ptr_node c h k n q : good c -> conf c h -> (k <= cK c)%nat -> n + 1 = 2 ^ Z.of_nat (cK c - k) + q ->
  node_to_ptr h n (psz (ca c) k) = q * psz (ca c) k.
Proof.
  intros G (C1 & C2 & C3 & C4) Hk E. destruct G as (_ & Ha & _). unfold node_to_ptr. rewrite C2, total_psz, !log2_psz by assumption.
  replace (ca c + Z.of_nat (cK c) - (ca c + Z.of_nat k)) with (Z.of_nat (cK c - k)) by lia.
  rewrite Z.shiftl_mul_pow2 by lia. unfold psz. f_equal. lia.
Qed.

Lemma roundup_psz c k : good c -> (k <= cK c)%nat -> roundup_pow2 (cW c) (psz (ca c) k) = psz (ca c) k.
Proof. intros (HW & Ha & _ & H) Hk. unfold psz. apply roundup_pow; [exact HW|lia]. Qed.

Lemma psz_min c k : good c -> (psz (ca c) k <? minimum c) = false.
Proof. intros (_ & Ha & _). apply Z.ltb_ge. rewrite minimum_psz. apply psz_le; [assumption|lia]. Qed.

(** ** One piece: allocation and split *)
Definition shape (c : cfg) (leaf : Z) (j : nat) (x : tree) : Prop :=
  leaf = 0 /\ x = TU \/ exists jl, (jl <= j)%nat /\ leaf = psz (ca c) jl /\ x = tfl (j - jl).

Lemma shape_full c leaf j x : shape c leaf j x -> tfull x = true.
Proof. intros [[_ ->]|(jl & _ & _ & ->)]; [reflexivity|apply tfl_full]. Qed.
Lemma shape_TF c leaf j x : shape c leaf j x -> x <> TF.
Proof. intros H ->. apply shape_full in H. discriminate. Qed.
Lemma tfl_wf D : wf (tfl D).
Proof.
  induction D as [|D IH]; cbn; [exact Logic.I|]. split; [exact IH|]. split; [exact IH|]. intros [E _].
  assert (tfull (tfl D) = false) by (rewrite E; reflexivity). rewrite tfl_full in H. discriminate.
Qed.
Lemma shape_wf c leaf j x : shape c leaf j x -> wf x.
Proof. intros [[_ ->]|(jl & _ & _ & ->)]; [exact Logic.I|apply tfl_wf]. Qed.

Lemma ik_sim c h cx k t j mark act : good c -> conf c h -> (k + length cx = cK c)%nat -> (j <= k)%nat ->
  rep (nd h) (cnode cx) k t ->
  match talloc (mk mark) j k t with
  | None => internal_kmalloc h (psz (ca c) j) (cnode cx) (psz (ca c) k) mark act = Some (with_nodes h (nd h), None)
  | Some (t', p) => exists ns', internal_kmalloc h (psz (ca c) j) (cnode cx) (psz (ca c) k) mark act =
        Some (mk_heap (hW h) (hsize h) (hmin h) ns' (if act then mem h + psz (ca c) j else mem h),
              Some ((pos cx * 2 ^ Z.of_nat (k - j) + p) * psz (ca c) j)) /\
      rep ns' (cnode cx) k t' /\ forall i, ~ sub (cnode cx) k i -> ns' i = nd h i
  end.
Proof.
  intros G C E Hj R. assert (Ha : 0 <= ca c) by (destruct G; tauto).
  assert (HK : (cK c <= 30)%nat) by (destruct G as (_ & _ & ? & _); lia).
  pose proof (find_sim (ca c) mark j Ha k stack_size (nd h) (cnode cx) t Hj ltac:(unfold stack_size; lia) (cnode_nonneg cx) R) as F.
  unfold internal_kmalloc. destruct (talloc (mk mark) j k t) as [[t' p]|]; [|rewrite F; reflexivity].
  destruct F as (ns' & F & R' & O). rewrite F. exists ns'. split; [|auto]. do 3 f_equal.
  apply ptr_node; auto; [lia|]. unfold cnode. replace (cK c - j)%nat with (length cx + (k - j))%nat by lia.
  rewrite Nat2Z.inj_add, Z.pow_add_r by lia. lia.
Qed.

Lemma alloc_piece c h cx k t j leaf act x t' p :
  good c -> conf c h -> (k + length cx = cK c)%nat -> (j <= k)%nat -> rep (nd h) 0 (cK c) (plug cx t) ->
  shape c leaf j x -> talloc x j k t = Some (t', p) -> (cx = [] \/ tfull t' = tfull t) ->
  exists h1 h2, 
    internal_kmalloc h (psz (ca c) j) (cnode cx) (psz (ca c) k) true act =
      Some (h1, Some ((pos cx * 2 ^ Z.of_nat (k - j) + p) * psz (ca c) j)) /\
    split_opt h1 ((pos cx * 2 ^ Z.of_nat (k - j) + p) * psz (ca c) j) (psz (ca c) j) leaf = Some h2 /\
    conf c h2 /\ rep (nd h2) 0 (cK c) (plug cx t') /\ mem h2 = (if act then mem h + psz (ca c) j else mem h) /\
    Permutation (blocks (ca c) (cK c) 0 (plug cx t'))
      (blocks (ca c) j ((pos cx * 2 ^ Z.of_nat (k - j) + p) * psz (ca c) j) x ++ blocks (ca c) (cK c) 0 (plug cx t)).
Proof.
  intros G C E Hj R Sh T Hf. assert (Ha : 0 <= ca c) by (destruct G; tauto).
  assert (HK : (cK c <= 30)%nat) by (destruct G as (_ & _ & ? & _); lia).
  rewrite <- E in R. apply rep_plug in R. destruct R as [R Rc].
  destruct (talloc_ctx j k x t t' p Hj T) as (c' & Et' & Lc' & Pc' & Ty & Bc' & _).
  pose proof (ik_sim c h cx k t j true act G C E Hj R) as IK. cbn [mk] in IK. rewrite (Ty TU) in IK.
  destruct IK as (ns' & IK & R1 & O1).
  set (addr := (pos cx * 2 ^ Z.of_nat (k - j) + p) * psz (ca c) j) in *.
  set (h1 := mk_heap (hW h) (hsize h) (hmin h) ns' (if act then mem h + psz (ca c) j else mem h)) in *.
  assert (C1 : conf c h1).
  { destruct C as (Q1 & Q2 & Q3 & Q4). repeat split; auto. intros i Hi. cbn [nd h1]. rewrite O1; [apply Q4, Hi|].
    intros Q. apply Hi. rewrite <- E. apply sub_cnode, Q. }
  assert (Tx : tfull (plug c' TU) = tfull t').
  { rewrite Et'. apply tfull_plug. rewrite (shape_full _ _ _ _ Sh). reflexivity. }
  assert (Rr : rep ns' 0 (k + length cx) (plug cx (plug c' TU))).
  { apply rep_plug. split; [exact R1|]. destruct Hf as [->|Hf]; [exact Logic.I|]. rewrite Tx, Hf.
    apply rctx_ext with (nd h); assumption. }
  rewrite <- plug_app in Rr.
  assert (Lcc : (j + length (c' ++ cx) = cK c)%nat) by (rewrite app_length; lia).
  rewrite E, <- Lcc in Rr. apply rep_plug in Rr. destruct Rr as [Rf Rcc].
  assert (Pcc : pos (c' ++ cx) * psz (ca c) j = addr).
  { rewrite pos_app, Lc', Pc'. reflexivity. }
  (* blocks *)
  assert (BB : Permutation (blocks (ca c) (cK c) 0 (plug cx t'))
     (blocks (ca c) j addr x ++ blocks (ca c) (cK c) 0 (plug cx t))).
  { destruct (blocks_plug (ca c) (c' ++ cx) Ha j) as (Rst & HR & _). rewrite Lcc, Pcc in HR.
    rewrite Et', <- plug_app, HR. apply Permutation_app_head.
    rewrite <- E. rewrite <- (blocks_plug_ext (ca c) cx k (plug c' TF) t) by (intros b; apply Bc'; assumption).
    rewrite E, <- plug_app, HR. cbn [blocks app]. reflexivity. }
  exists h1.
  destruct Sh as [[-> Ex]|(jl & Hjl & -> & Ex)].
  - exists h1. split; [exact IK|]. split; [reflexivity|]. split; [exact C1|]. split; [|split; [reflexivity|exact BB]].
    subst x. rewrite Et', <- plug_app, <- Lcc. apply rep_plug. auto.
  - unfold split_opt. assert (NZ : (psz (ca c) jl =? 0) = false) by (apply Z.eqb_neq; pose proof (psz_pos (ca c) jl Ha); lia).
    rewrite NZ. unfold split_block.
    assert (Pn : ptr_to_node h1 addr (psz (ca c) j) = cnode (c' ++ cx)).
    { rewrite <- Pcc. apply node_ptr; auto. }
    rewrite Pn. destruct C1 as (W1 & S1 & M1 & F1). rewrite M1, W1. rewrite !psz_min, !roundup_psz, !Z.eqb_refl by (assumption || lia).
    change (nd h1) with ns'. rewrite (rep_full _ _ _ _ Rf), (rep_split _ _ _ _ Rf). cbn [tfull negb orb].
    destruct (split_rep (ca c) jl j (cnode (c' ++ cx)) ns' Ha (cnode_nonneg _) Hjl ltac:(lia) Rf) as (ns2 & E2 & R2 & O2).
    rewrite E2. exists (with_nodes h1 ns2). split; [exact IK|]. split; [reflexivity|]. 
    split. { repeat split; auto. intros i Hi. cbn [nd with_nodes]. rewrite O2; [apply F1, Hi|]. intros Q. apply Hi. rewrite <- Lcc. apply sub_cnode, Q. }
    split; [|split; [reflexivity|exact BB]]. subst x. rewrite Et', <- plug_app, <- Lcc. apply rep_plug. split; [exact R2|].
    rewrite tfl_full. apply rctx_ext with ns'; [exact O2|exact Rcc].
Qed.

(** ** Blocks of a shape *)
Lemma chunks_app n1 n2 off leaf : chunks (n1 + n2) off leaf = chunks n1 off leaf ++ chunks n2 (off + Z.of_nat n1 * leaf) leaf.
Proof.
  revert off. induction n1 as [|n1 IH]; intros off; cbn [chunks Nat.add app]; [f_equal; lia|].
  rewrite IH. replace (off + leaf + Z.of_nat n1 * leaf) with (off + Z.of_nat (S n1) * leaf) by lia. reflexivity.
Qed.
Lemma blocks_tfl a jl : 0 <= a -> forall D base, blocks a (jl + D) base (tfl D) = chunks (2 ^ D) base (psz a jl).
Proof.
  intros Ha. induction D as [|D IH]; intros base; [rewrite Nat.add_0_r; reflexivity|].
  rewrite Nat.add_succ_r. cbn [tfl blocks]. rewrite !IH. replace (2 ^ S D)%nat with (2 ^ D + 2 ^ D)%nat by (cbn; lia).
  rewrite chunks_app. rewrite psz_add by assumption. rewrite Nat2Z.inj_pow. reflexivity.
Qed.

Lemma pieces_pow2 : forall n i off, (i < n)%nat -> pieces n off (2 ^ Z.of_nat i) = [(off, 2 ^ Z.of_nat i)].
Proof.
  assert (G : forall n i off, (n <= i)%nat -> pieces n off (2 ^ Z.of_nat i) = []).
  { induction n as [|n IH]; intros i off H; cbn [pieces]; [reflexivity|]. rewrite Z.pow2_bits_false by lia. apply IH. lia. }
  induction n as [|n IH]; intros i off H; [lia|]. cbn [pieces]. destruct (Nat.eq_dec i n) as [->|N].
  - rewrite Z.pow2_bits_true by lia. rewrite G by lia. reflexivity.
  - rewrite Z.pow2_bits_false by lia. apply IH. lia.
Qed.

Lemma shape_blocks c j leaf x addr : good c -> (j <= cK c)%nat -> shape c leaf j x ->
  blocks (ca c) j addr x = handed_out c (addr, psz (ca c) j) leaf.
Proof.
  intros G Hj Sh. assert (Ha : 0 <= ca c) by (destruct G; tauto). unfold handed_out. cbn [fst snd].
  destruct Sh as [[-> ->]|(jl & Hjl & -> & ->)].
  - cbn [Z.eqb blocks]. unfold psz, bits. replace (ca c + Z.of_nat j) with (Z.of_nat (Z.to_nat (ca c + Z.of_nat j))) by lia.
    rewrite pieces_pow2 by lia. reflexivity.
  - assert (NZ : (psz (ca c) jl =? 0) = false) by (apply Z.eqb_neq; pose proof (psz_pos (ca c) jl Ha); lia).
    rewrite NZ. replace j with (jl + (j - jl))%nat at 1 by lia. rewrite blocks_tfl by assumption. f_equal.
    replace j with (jl + (j - jl))%nat at 2 by lia. rewrite psz_add, Z.div_mul by (assumption || (pose proof (psz_pos (ca c) jl Ha); lia)).
    rewrite <- (Nat2Z.id (2 ^ (j - jl))). f_equal. rewrite Nat2Z.inj_pow. reflexivity.
Qed.

(** ** The tree of a multi-step allocation: the first [m] units are taken *)
Fixpoint pre (fl : nat -> tree) (k : nat) (m : Z) : tree :=
  if m <=? 0 then TF
  else if 2 ^ Z.of_nat k <=? m then fl k
  else match k with
       | O => TF
       | S k' => if m <=? 2 ^ Z.of_nat k' then TS (pre fl k' m) TF else TS (fl k') (pre fl k' (m - 2 ^ Z.of_nat k'))
       end.

Section Pre.
Variable fl : nat -> tree.

Lemma pre_0 k m : m <= 0 -> pre fl k m = TF.
Proof. intros H. destruct k; cbn [pre]; (replace (m <=? 0) with true by (symmetry; apply Z.leb_le; lia)); reflexivity. Qed.
Lemma pre_top k : pre fl k (2 ^ Z.of_nat k) = fl k.
Proof.
  pose proof (pow2pos k). destruct k; cbn [pre];
  (replace (2 ^ Z.of_nat _ <=? 0) with false by (symmetry; apply Z.leb_gt; lia)); rewrite Z.leb_refl; reflexivity.
Qed.
Lemma pre_S k m : 0 < m < 2 ^ Z.of_nat (S k) -> pre fl (S k) m =
  if m <=? 2 ^ Z.of_nat k then TS (pre fl k m) TF else TS (fl k) (pre fl k (m - 2 ^ Z.of_nat k)).
Proof.
  intros H. cbn [pre]. replace (m <=? 0) with false by (symmetry; apply Z.leb_gt; lia).
  replace (2 ^ Z.of_nat (S k) <=? m) with false by (symmetry; apply Z.leb_gt; lia). reflexivity.
Qed.

Lemma pre_first i : forall k, (i <= k)%nat -> talloc (fl i) i k TF = Some (pre fl k (2 ^ Z.of_nat i), 0).
Proof.
  induction k as [|k IH]; intros H.
  - assert (i = 0)%nat by lia. subst i. rewrite pre_top. apply talloc_eq_TF.
  - destruct (Nat.eq_dec i (S k)) as [->|N]; [rewrite pre_top; apply talloc_eq_TF|].
    rewrite talloc_S_TF, IH by lia.
    assert (2 ^ Z.of_nat i <= 2 ^ Z.of_nat k) by (apply Z.pow_le_mono_r; lia). pose proof (pow2pos i). pose proof (pow2pos k).
    rewrite pre_S by (rewrite pow2S; lia). replace (2 ^ Z.of_nat i <=? 2 ^ Z.of_nat k) with true by (symmetry; apply Z.leb_le; lia). reflexivity.
Qed.

Lemma pre_not_full k : forall m, m < 2 ^ Z.of_nat k -> tfull (pre fl k m) = false.
Proof.
  induction k as [|k IH]; intros m H.
  - change (2 ^ Z.of_nat 0) with 1 in H. rewrite pre_0 by lia. reflexivity.
  - destruct (Z_le_gt_dec m 0); [rewrite pre_0 by lia; reflexivity|]. rewrite pre_S by lia. rewrite pow2S in H.
    destruct (m <=? 2 ^ Z.of_nat k); cbn [tfull]; [apply andb_false_r|]. rewrite IH by lia. apply andb_false_r.
Qed.
Hypothesis flfull : forall k, tfull (fl k) = true.
Lemma pre_alloc i : forall k q, (i < k)%nat -> 0 <= q -> q * 2 ^ Z.of_nat (S i) < 2 ^ Z.of_nat k ->
  talloc (fl i) i k (pre fl k (q * 2 ^ Z.of_nat (S i))) =
    Some (pre fl k (q * 2 ^ Z.of_nat (S i) + 2 ^ Z.of_nat i), q * 2).
Proof.
  induction k as [|k IH]; intros q Hi Hq Hlt; [lia|].
  pose proof (pow2pos i) as Pi. pose proof (pow2pos k) as Pk.
  destruct (Z.eq_dec q 0) as [->|Nq].
  - rewrite !Z.mul_0_l, Z.add_0_l. rewrite pre_0 by lia. apply pre_first. lia.
  - set (m := q * 2 ^ Z.of_nat (S i)) in *. rewrite pow2S in Hlt.
    assert (Em : m = q * (2 * 2 ^ Z.of_nat i)) by (unfold m; rewrite pow2S; reflexivity).
    assert (Ek : exists r, 2 ^ Z.of_nat k = r * 2 ^ Z.of_nat i /\ 0 < r).
    { exists (2 ^ Z.of_nat (k - i)). split; [|apply pow2pos]. rewrite <- Z.pow_add_r by lia. f_equal. lia. }
    assert (Hik : (i < k)%nat).
    { destruct (Nat.eq_dec i k) as [->|]; [|lia]. nia. }
    assert (Ek2 : exists r, 2 ^ Z.of_nat k = r * (2 * 2 ^ Z.of_nat i) /\ 0 < r).
    { exists (2 ^ Z.of_nat (k - S i)). split; [|apply pow2pos]. rewrite <- pow2S, <- Z.pow_add_r by lia. f_equal. lia. }
    destruct Ek2 as (r & Er & Hr).
    assert (Es : (k - i = S (k - S i))%nat) by lia.
    assert (Erk : 2 ^ Z.of_nat (k - i) = r * 2).
    { apply (Z.mul_cancel_r _ _ (2 ^ Z.of_nat i)); [lia|]. rewrite <- Z.pow_add_r by lia. replace (Z.of_nat (k - i) + Z.of_nat i) with (Z.of_nat k) by lia. lia. }
    assert (Hm0 : 0 < m) by (rewrite Em; nia). clearbody m.
    rewrite (pre_S k m) by (rewrite pow2S; lia).
    assert (Hqr : q < 2 * r).
    { apply (Z.mul_lt_mono_pos_r (2 * 2 ^ Z.of_nat i)); [lia|]. rewrite <- Em. rewrite <- Z.mul_assoc, <- Er. exact Hlt. }
    assert (Hm2 : 0 < m + 2 ^ Z.of_nat i < 2 ^ Z.of_nat (S k)) by (rewrite pow2S; nia).
    rewrite (pre_S k (m + 2 ^ Z.of_nat i)) by exact Hm2.
    destruct (m <=? 2 ^ Z.of_nat k) eqn:L1.
    + apply Z.leb_le in L1. rewrite talloc_S_TS by lia. destruct (Z.eq_dec m (2 ^ Z.of_nat k)) as [Q|Q].
      * rewrite Q, pre_top, talloc_full by apply flfull. rewrite pre_first by lia.
        replace (2 ^ Z.of_nat k + 2 ^ Z.of_nat i <=? 2 ^ Z.of_nat k) with false by (symmetry; apply Z.leb_gt; lia).
        replace (2 ^ Z.of_nat k + 2 ^ Z.of_nat i - 2 ^ Z.of_nat k) with (2 ^ Z.of_nat i) by lia.
        f_equal. f_equal. nia.
      * assert (q < r) by nia. replace (pre fl k m) with (pre fl k (q * 2 ^ Z.of_nat (S i))) by (rewrite pow2S, Em; reflexivity). rewrite IH; [|lia|lia|rewrite pow2S; nia]. rewrite pow2S, <- Em.
        replace (m + 2 ^ Z.of_nat i <=? 2 ^ Z.of_nat k) with true by (symmetry; apply Z.leb_le; nia). reflexivity.
    + apply Z.leb_gt in L1. rewrite talloc_S_TS by lia. rewrite talloc_full by apply flfull.
      replace (m - 2 ^ Z.of_nat k) with ((q - r) * 2 ^ Z.of_nat (S i)) by (rewrite pow2S; nia).
      rewrite IH; [|lia|nia|rewrite pow2S; nia].
      replace (m + 2 ^ Z.of_nat i <=? 2 ^ Z.of_nat k) with false by (symmetry; apply Z.leb_gt; lia).
      replace (m + 2 ^ Z.of_nat i - 2 ^ Z.of_nat k) with ((q - r) * 2 ^ Z.of_nat (S i) + 2 ^ Z.of_nat i) by (rewrite pow2S; nia).
      f_equal. f_equal. lia.
Qed.

Lemma pre_not_TF k m : 0 < m -> pre fl k m <> TF.
Proof.
  assert (G : forall k, fl k <> TF) by (intros k' E; pose proof (flfull k') as F; rewrite E in F; discriminate).
  intros H. destruct k; cbn [pre]; (replace (m <=? 0) with false by (symmetry; apply Z.leb_gt; lia)).
  - change (2 ^ Z.of_nat 0) with 1. replace (1 <=? m) with true by (symmetry; apply Z.leb_le; lia). apply G.
  - destruct (_ <=? m); [apply G|]. destruct (m <=? _); discriminate.
Qed.
Hypothesis flwf : forall k, wf (fl k).
Lemma pre_wf k : forall m, wf (pre fl k m).
Proof.
  induction k as [|k IH]; intros m; cbn [pre].
  - destruct (m <=? 0); [exact Logic.I|]. destruct (_ <=? m); [apply flwf|exact Logic.I].
  - destruct (m <=? 0) eqn:E; [exact Logic.I|]. apply Z.leb_gt in E. destruct (_ <=? m); [apply flwf|].
    destruct (m <=? _); cbn [wf]; (split; [auto|split; [auto; exact Logic.I|]]).
    + intros [Q _]. eapply pre_not_TF; eauto.
    + intros [Q _]. pose proof (flfull k) as F. rewrite Q in F. discriminate.
Qed.
End Pre.

(** ** The invariant *)
Definition inv (c : cfg) (h : heap) (live : list block) : Prop :=
  conf c h /\ exists t, rep (nd h) 0 (cK c) t /\ wf t /\ Permutation (blocks (ca c) (cK c) 0 t) live.

Lemma sum_perm l1 l2 : Permutation l1 l2 -> sum_sizes l1 = sum_sizes l2.
Proof. unfold sum_sizes. induction 1; cbn; lia. Qed.
Lemma sum_app l1 l2 : sum_sizes (l1 ++ l2) = sum_sizes l1 + sum_sizes l2.
Proof. unfold sum_sizes. induction l1 as [|b l IH]; cbn; lia. Qed.

Lemma size_block c size : good c -> 0 < size <= total c -> exists j, (j <= cK c)%nat /\
  Z.max (roundup_pow2 (cW c) size) (minimum c) = psz (ca c) j /\ size <= psz (ca c) j /\
  Z.max (2 ^ Z.log2_up size) (minimum c) = psz (ca c) j.
Proof.
  intros (HW & Ha & HK & HS) H.
  assert (H1 : 1 <= size <= 2 ^ (cW c - 1)).
  { split; [lia|]. apply Z.le_trans with (total c); [lia|]. unfold total. apply Z.pow_le_mono_r; lia. }
  pose proof (roundup_ge (cW c) size HW H1) as Hge.
  rewrite roundup_exact in * by assumption. pose proof (Z.log2_up_nonneg size).
  assert (Hu : Z.log2_up size <= ca c + Z.of_nat (cK c)).
  { destruct (Z.eq_dec size 1) as [->|]; [rewrite Z.log2_up_1; lia|]. apply Z.log2_up_le_pow2; [lia|]. unfold total in H. lia. }
  exists (Z.to_nat (Z.log2_up size - ca c)). unfold psz, minimum. split; [lia|].
  assert (E : Z.max (2 ^ Z.log2_up size) (2 ^ ca c) = 2 ^ (ca c + Z.of_nat (Z.to_nat (Z.log2_up size - ca c)))).
  { destruct (Z_le_gt_dec (Z.log2_up size) (ca c)).
    - rewrite Z.max_r by (apply Z.pow_le_mono_r; lia). f_equal. lia.
    - rewrite Z.max_l by (apply Z.pow_le_mono_r; lia). f_equal. lia. }
  split; [exact E|]. split; [|exact E]. rewrite <- E. lia.
Qed.

Lemma shape_of c leaf j : good c -> (leaf = 0 \/ exists e, ca c <= e /\ leaf = 2 ^ e /\ leaf <= psz (ca c) j) ->
  exists x, shape c leaf j x.
Proof.
  intros (_ & Ha & _) [->|(e & He & -> & Hle)]; [exists TU; left; auto|].
  exists (tfl (j - Z.to_nat (e - ca c))). right. exists (Z.to_nat (e - ca c)). split.
  - unfold psz in Hle. apply Z.pow_le_mono_r_iff in Hle; lia.
  - split; [unfold psz; f_equal; lia|reflexivity].
Qed.

(** What a successful allocation guarantees *)
Definition alloc_ok (c : cfg) (h : heap) (live : list block) (act : bool) (leaf : Z) (r : block) (h' : heap) : Prop :=
  inv c h' (handed_out c r leaf ++ live) /\ mem h' = (if act then mem h + snd r else mem h).

Lemma single_sim c h live leaf act j :
  good c -> inv c h live -> (j <= cK c)%nat -> (exists x, shape c leaf j x) ->
  (exists h1 h2 addr, internal_kmalloc h (psz (ca c) j) 0 (total c) true act = Some (h1, Some addr) /\
     split_opt h1 addr (psz (ca c) j) leaf = Some h2 /\ alloc_ok c h live act leaf (addr, psz (ca c) j) h2 /\
     0 <= addr /\ addr + psz (ca c) j <= total c /\ (psz (ca c) j | addr)) \/
  (internal_kmalloc h (psz (ca c) j) 0 (total c) true act = Some (h, None) /\
     forall off, 0 <= off -> off + psz (ca c) j <= total c -> (psz (ca c) j | off) -> exists b, In b live /\ ~ disjoint b (off, psz (ca c) j)).
Proof.
  intros G (C & t & R & W & P) Hj (x & Sh). assert (Ha : 0 <= ca c) by (destruct G; tauto).
  pose proof (psz_pos (ca c) j Ha) as Pj.
  assert (EK : psz (ca c) (cK c) = 2 ^ Z.of_nat (cK c - j) * psz (ca c) j).
  { rewrite <- psz_add by assumption. f_equal. lia. }
  destruct (talloc x j (cK c) t) as [[t' p]|] eqn:T.
  - left. destruct (alloc_piece c h [] (cK c) t j leaf act x t' p) as (h1 & h2 & E1 & E2 & C2 & R2 & M2 & B2); auto.
    cbn [pos cnode plug] in *. change (cnode []) with 0 in E1. rewrite Z.mul_0_l, Z.add_0_l in *.
    exists h1, h2, (p * psz (ca c) j). split; [exact E1|]. split; [exact E2|].
    destruct (talloc_ctx j (cK c) x t t' p Hj T) as (c' & Et' & Lc' & Pc' & Ty & Bc' & Wc').
    pose proof (pos_range c') as PR. rewrite Pc', Lc' in PR.
    split; [split|].
    + split; [exact C2|]. exists t'. split; [exact R2|]. split; [rewrite Et'; apply Wc'; eauto using shape_TF, shape_wf|].
      rewrite B2, (shape_blocks c j leaf x) by auto. rewrite P. reflexivity.
    + exact M2.
    + split; [nia|]. split; [rewrite total_psz, EK; nia|]. exists p. reflexivity.
  - right. pose proof (ik_sim c h [] (cK c) t j true act G C ltac:(cbn; lia) Hj R) as IK.
    assert (T2 : talloc (mk true) j (cK c) t = None).
    { destruct (talloc (mk true) j (cK c) t) as [[? ?]|] eqn:Q; [|reflexivity]. apply talloc_ctx in Q; [|assumption].
      destruct Q as (c' & _ & _ & _ & Q & _). rewrite Q in T. discriminate. }
    rewrite T2 in IK. change (cnode []) with 0 in IK. split.
    + rewrite total_psz, IK. unfold with_nodes. destruct h; reflexivity.
    + intros off H0 H1 (p & E). destruct (talloc_none x j (cK c) t Hj (rep_fits _ _ _ _ R) T (ca c) Ha W 0 p) as (b & B1 & B2 & B3).
      { rewrite total_psz, EK in H1. subst off. nia. }
      exists b. split; [apply (Permutation_in _ P B1)|]. unfold disjoint. cbn [fst snd]. subst off. lia.
Qed.

(** ** Bits *)
Lemma pieces_skip n off tot : Z.testbit tot (Z.of_nat n) = false -> pieces (S n) off tot = pieces n off tot.
Proof. intros H. cbn [pieces]. rewrite H. reflexivity. Qed.
Lemma pieces_zero : forall n off tot q, tot = q * 2 ^ Z.of_nat n -> pieces n off tot = [].
Proof.
  induction n as [|n IH]; intros off tot q E; [reflexivity|]. rewrite pieces_skip.
  - apply IH with (q * 2). rewrite pow2S in E. lia.
  - subst tot. rewrite Z.mul_pow2_bits_low by lia. reflexivity.
Qed.
Lemma testbit_div n i : 0 <= i -> n / 2 ^ i = 2 * (n / 2 ^ (i + 1)) + Z.b2z (Z.testbit n i).
Proof.
  intros Hi. rewrite Z.testbit_spec' by assumption. rewrite Z.pow_add_r by lia. change (2 ^ 1) with 2.
  rewrite <- Z.div_div by (try lia; apply Z.pow_pos_nonneg; lia). apply Z.div_mod. lia.
Qed.

(** The multi-step loop fills the reserved range from the left *)
Lemma multi_S i' h big bign rsz desired tot leaf act : multi_loop (S i') h big bign rsz desired tot leaf act =
      if tot <? desired then
        if Z.testbit desired (Z.of_nat i') then
          let sub := 2 ^ Z.of_nat i' in
          match internal_kmalloc h sub bign rsz true act with
          | Some (h1, Some a) =>
              if a =? big + tot then
                match split_opt h1 a sub leaf with
                | None => None
                | Some h2 => multi_loop i' h2 big bign rsz desired (tot + sub) leaf act
                end
              else None
          | _ => None
          end
        else multi_loop i' h big bign rsz desired tot leaf act
      else Some (h, tot).
Proof. reflexivity. Qed.

Definition rest (i : nat) (off desired tot leaf : Z) : list block :=
  if leaf =? 0 then pieces i (off + tot) desired else chunks (Z.to_nat ((desired - tot) / leaf)) (off + tot) leaf.

Lemma multi_sim c cx j leaf desired act fl : good c -> (j + length cx = cK c)%nat ->
  (forall k, tfull (fl k) = true) ->
  (minimum c | desired) -> 0 < desired < psz (ca c) j ->
  (forall ji, (ji < j)%nat -> Z.testbit desired (ca c + Z.of_nat ji) = true -> shape c leaf ji (fl ji)) ->
  (leaf <> 0 -> 0 < leaf /\ (leaf | desired)) ->
  forall i h tot B, conf c h -> tot = desired / 2 ^ Z.of_nat i * 2 ^ Z.of_nat i ->
  rep (nd h) 0 (cK c) (plug cx (pre fl j (tot / minimum c))) ->
  Permutation (blocks (ca c) (cK c) 0 (plug cx (pre fl j (tot / minimum c)))) B ->
  exists h', multi_loop i h (pos cx * psz (ca c) j) (cnode cx) (psz (ca c) j) desired tot leaf act = Some (h', desired) /\
    conf c h' /\ rep (nd h') 0 (cK c) (plug cx (pre fl j (desired / minimum c))) /\
    Permutation (blocks (ca c) (cK c) 0 (plug cx (pre fl j (desired / minimum c)))) (rest i (pos cx * psz (ca c) j) desired tot leaf ++ B) /\
    mem h' = (if act then mem h + (desired - tot) else mem h).
Proof.
  intros G E Ff Dm Hd Hsh Hleaf. assert (Ha : 0 <= ca c) by (destruct G; tauto).
  assert (Pm : 0 < minimum c) by (unfold minimum; apply Z.pow_pos_nonneg; lia).
  induction i as [|i IH]; intros h tot B C Et R P.
  - change (2 ^ Z.of_nat 0) with 1 in Et. rewrite Z.div_1_r, Z.mul_1_r in Et. subst tot. exists h. split; [reflexivity|].
    split; [exact C|]. split; [exact R|]. split; [|destruct act; lia].
    unfold rest. rewrite Z.sub_diag. destruct (leaf =? 0); [exact P|].
    rewrite Zdiv_0_l. exact P.
  - rewrite multi_S. pose proof (pow2pos i) as Pi.
    assert (Hdv := testbit_div desired (Z.of_nat i) ltac:(lia)).
    replace (Z.of_nat i + 1) with (Z.of_nat (S i)) in Hdv by lia.
    assert (Mt := Z.mul_div_le desired (2 ^ Z.of_nat (S i)) (pow2pos (S i))).
    destruct (tot <? desired) eqn:L.
    + apply Z.ltb_lt in L. destruct (Z.testbit desired (Z.of_nat i)) eqn:Tb; cbn [Z.b2z] in Hdv.
      * (* allocate 2^i *)
        assert (Hai : ca c <= Z.of_nat i).
        { destruct (Z_le_gt_dec (ca c) (Z.of_nat i)); [assumption|]. exfalso. destruct Dm as [q ->]. unfold minimum in Tb.
          rewrite Z.mul_pow2_bits_low in Tb by lia. discriminate. }
        assert (Hij : Z.of_nat i < ca c + Z.of_nat j).
        { destruct (Z_lt_le_dec (Z.of_nat i) (ca c + Z.of_nat j)); [assumption|]. exfalso. rewrite Z.bits_above_log2 in Tb; [discriminate|lia|].
          apply Z.lt_le_trans with (ca c + Z.of_nat j); [|lia]. apply Z.log2_lt_pow2; [lia|]. unfold psz in Hd. lia. }
        set (ji := Z.to_nat (Z.of_nat i - ca c)). assert (Eji : Z.of_nat i = ca c + Z.of_nat ji) by (unfold ji; lia).
        assert (Hji : (ji < j)%nat) by lia.
        assert (Sh : shape c leaf ji (fl ji)) by (apply Hsh; [exact Hji|rewrite <- Eji; exact Tb]).
        cbv zeta. assert (Ep : 2 ^ Z.of_nat i = psz (ca c) ji) by (unfold psz; f_equal; exact Eji). rewrite Ep in *.
        set (q := desired / 2 ^ Z.of_nat (S i)) in *.
        assert (Hq : 0 <= q) by (apply Z.div_pos; [lia|apply pow2pos]).
        assert (Pq : psz (ca c) ji = 2 ^ Z.of_nat ji * minimum c).
        { rewrite minimum_psz, <- psz_add by assumption. reflexivity. }
        assert (ES : 2 ^ Z.of_nat (S i) = 2 ^ Z.of_nat (S ji) * minimum c).
        { rewrite pow2S, Ep, Pq, pow2S. lia. }
        assert (Etm : tot / minimum c = q * 2 ^ Z.of_nat (S ji)).
        { rewrite Et, ES, Z.mul_assoc. apply Z.div_mul. lia. }
        assert (Etm2 : (tot + psz (ca c) ji) / minimum c = q * 2 ^ Z.of_nat (S ji) + 2 ^ Z.of_nat ji).
        { rewrite Pq, Z.div_add by lia. rewrite Etm. reflexivity. }
        assert (Hlt : q * 2 ^ Z.of_nat (S ji) < 2 ^ Z.of_nat j).
        { apply (Z.mul_lt_mono_pos_r (minimum c)); [lia|].
          assert (2 ^ Z.of_nat j * minimum c = psz (ca c) j) by (rewrite minimum_psz, <- psz_add by assumption; reflexivity).
          rewrite <- Z.mul_assoc, <- ES. rewrite <- Et. lia. }
        assert (Hlt2 : q * 2 ^ Z.of_nat (S ji) + 2 ^ Z.of_nat ji < 2 ^ Z.of_nat j).
        { rewrite <- Etm2. apply Z.div_lt_upper_bound; [lia|].
          assert (2 ^ Z.of_nat j * minimum c = psz (ca c) j) by (rewrite minimum_psz, <- psz_add by assumption; reflexivity).
          rewrite Z.mul_comm, H. rewrite Et. rewrite pow2S, Ep.
          assert (desired / psz (ca c) ji * psz (ca c) ji <= desired).
          { rewrite Z.mul_comm. apply Z.mul_div_le. apply psz_pos, Ha. }
          rewrite Hdv in H0. lia. }
        assert (T : talloc (fl ji) ji j (pre fl j (tot / minimum c)) = Some (pre fl j ((tot + psz (ca c) ji) / minimum c), q * 2)).
        { rewrite Etm, Etm2. apply pre_alloc; assumption. }
        destruct (alloc_piece c h cx j (pre fl j (tot / minimum c)) ji leaf act (fl ji) _ _ G C E ltac:(lia) R Sh T)
          as (h1 & h2 & E1 & E2 & C2 & R2 & M2 & B2).
        { right. rewrite Etm, Etm2, !pre_not_full by assumption. reflexivity. }
        rewrite E1.
        assert (EA : (pos cx * 2 ^ Z.of_nat (j - ji) + q * 2) * psz (ca c) ji = pos cx * psz (ca c) j + tot).
        { rewrite Et, pow2S, Ep. replace (psz (ca c) j) with (2 ^ Z.of_nat (j - ji) * psz (ca c) ji).
          - lia.
          - rewrite <- psz_add by assumption. f_equal. lia. }
        rewrite EA in *. rewrite Z.eqb_refl, E2.
        destruct (IH h2 (tot + psz (ca c) ji) (blocks (ca c) ji (pos cx * psz (ca c) j + tot) (fl ji) ++ B)) as (h' & L1 & L2 & L3 & L4 & L5); auto.
        { rewrite Hdv, Et, pow2S, Ep. lia. }
        { rewrite B2. apply Permutation_app_head. exact P. }
        exists h'. split; [exact L1|]. split; [exact L2|]. split; [exact L3|]. split; [|rewrite L5, M2; destruct act; lia].
        rewrite L4. rewrite app_assoc. apply Permutation_app_tail.
        rewrite (shape_blocks c ji leaf (fl ji)) by (auto; lia). unfold handed_out, rest. cbn [fst snd].
        destruct (leaf =? 0) eqn:Lf.
        -- cbn [pieces]. rewrite Tb, Ep. unfold psz at 5. 
           replace (pieces (bits c) (pos cx * psz (ca c) j + tot) (psz (ca c) ji)) with [(pos cx * psz (ca c) j + tot, psz (ca c) ji)].
           2:{ rewrite <- Ep. symmetry. apply pieces_pow2. unfold bits. lia. }
           rewrite Z.add_assoc. rewrite Permutation_app_comm. reflexivity.
        -- apply Z.eqb_neq in Lf. destruct (Hleaf Lf) as [Pl (dq & Dq)].
           destruct Sh as [[? _]|(jl & Hjl & El & _)]; [congruence|].
           assert (Eq : psz (ca c) ji = 2 ^ Z.of_nat (ji - jl) * leaf).
           { rewrite El, <- psz_add by assumption. f_equal. lia. }
           assert (Dt : exists tq, tot = tq * leaf).
           { exists (q * 2 * 2 ^ Z.of_nat (ji - jl)). rewrite Et, pow2S, Ep, Eq. lia. }
           destruct Dt as [tq Dt].
           replace (desired - tot) with ((dq - tq - 2 ^ Z.of_nat (ji - jl)) * leaf + psz (ca c) ji) by (rewrite Eq, Dt, Dq; lia).
           replace (desired - (tot + psz (ca c) ji)) with ((dq - tq - 2 ^ Z.of_nat (ji - jl)) * leaf) by (rewrite Eq, Dt, Dq; lia).
           rewrite Z.div_mul by lia.
           replace (((dq - tq - 2 ^ Z.of_nat (ji - jl)) * leaf + psz (ca c) ji) / leaf) with (2 ^ Z.of_nat (ji - jl) + (dq - tq - 2 ^ Z.of_nat (ji - jl))).
           2:{ rewrite Eq. rewrite <- Z.mul_add_distr_r, Z.div_mul by lia. lia. }
           rewrite Eq, Z.div_mul by lia.
           assert (NN : 0 <= dq - tq - 2 ^ Z.of_nat (ji - jl)).
           { assert (tot + psz (ca c) ji <= desired).
             { assert (desired / psz (ca c) ji * psz (ca c) ji <= desired).
               { rewrite Z.mul_comm. apply Z.mul_div_le. apply psz_pos, Ha. }
               rewrite Hdv in H. rewrite Et, pow2S, Ep. lia. }
             rewrite Eq, Dt, Dq, <- Z.mul_add_distr_r in H. apply Z.mul_le_mono_pos_r in H; [|exact Pl]. clear - H. lia. }
           rewrite Z2Nat.inj_add, chunks_app by (try assumption; pose proof (pow2pos (ji - jl)); lia).
           rewrite Z2Nat.id by (pose proof (pow2pos (ji - jl)); lia). rewrite Z.add_assoc. apply Permutation_app_comm.
      * (* bit not set *)
        destruct (IH h tot B) as (h' & L1 & L2 & L3 & L4 & L5); auto.
        { rewrite Hdv, Et, pow2S. lia. }
        exists h'. split; [exact L1|]. split; [exact L2|]. split; [exact L3|]. split; [|exact L5].
        rewrite L4. unfold rest. destruct (leaf =? 0); [rewrite pieces_skip by assumption|]; reflexivity.
    + apply Z.ltb_ge in L. assert (tot = desired) by (rewrite Et in *; lia). subst tot.
      exists h. rewrite H in *. split; [reflexivity|]. split; [exact C|]. split; [exact R|]. split; [|destruct act; lia].
      unfold rest. rewrite Z.sub_diag, Zdiv_0_l. destruct (leaf =? 0); [|exact P].
      rewrite (pieces_zero (S i) _ desired (desired / 2 ^ Z.of_nat (S i))); [exact P|]. symmetry. exact H.
Qed.

(** ** per_heap_kmalloc *)
Lemma leaf_fl c leaf : leaf = 0 \/ (exists e, ca c <= e /\ leaf = 2 ^ e) -> exists fl : nat -> tree,
  (forall k, tfull (fl k) = true) /\ (forall k, wf (fl k)) /\
  forall k, (leaf = 0 \/ leaf <= psz (ca c) k) -> 0 <= ca c -> shape c leaf k (fl k).
Proof.
  intros [->|(e & He & ->)].
  - exists (fun _ => TU). split; [reflexivity|]. split; [intros; exact Logic.I|]. intros. left. auto.
  - exists (fun k => tfl (k - Z.to_nat (e - ca c))). split; [intros; apply tfl_full|]. split; [intros; apply tfl_wf|].
    intros k [H|H] Ha.
    + exfalso. pose proof (Z.pow_pos_nonneg 2 e). lia.
    + right. exists (Z.to_nat (e - ca c)). unfold psz in *. apply Z.pow_le_mono_r_iff in H; [|lia|lia].
      split; [lia|]. split; [f_equal; lia|reflexivity].
Qed.

Lemma divide_bit e n i : 0 <= e -> (2 ^ e | n) -> Z.testbit n i = true -> e <= i.
Proof.
  intros He [q ->] T. destruct (Z_le_gt_dec e i); [assumption|]. destruct (Z_lt_le_dec i 0) as [L|L].
  - rewrite Z.testbit_neg_r in T by assumption. discriminate.
  - rewrite Z.mul_pow2_bits_low in T by lia. discriminate.
Qed.

Lemma alloc_sim c h live size multi leaf act : good c -> inv c h live -> allowed c live (Alloc size multi leaf act) ->
  exists h' res, kmalloc h size multi leaf act = Some (h', res) /\
    match res with
    | Some r => alloc_ok c h live act leaf r h' /\ size <= snd r /\ 0 <= fst r /\
        fst r + block_of c size <= total c /\ snd r <= block_of c size /\ (block_of c size | fst r) /\
        (multi = false -> snd r = block_of c size) /\ (multi = true -> snd r = size) /\
        (forall b, In b live -> disjoint b r)
    | None => h' = h /\ (total c < size \/ crowded c live (block_of c size))
    end.
Proof.
  intros G I (Hs & Hl & Hm). pose proof I as (C & t & R & W & P). destruct C as (C1 & C2 & C3 & C4).
  assert (Ha : 0 <= ca c) by (destruct G; tauto).
  assert (Pm : 0 < minimum c) by (unfold minimum; apply Z.pow_pos_nonneg; lia).
  assert (Hl0 : leaf = 0 \/ (exists e, ca c <= e /\ leaf = 2 ^ e)) by (destruct Hl as [?|(e & ? & ? & _)]; eauto).
  unfold kmalloc. rewrite C1, C2, C3.
  replace (size =? 0) with false by (symmetry; apply Z.eqb_neq; lia). cbn [orb].
  assert (EL : negb (leaf =? 0) && (leaf <? minimum c) = false).
  { destruct Hl0 as [->|(e & He & ->)]; [reflexivity|]. replace (2 ^ e <? minimum c) with false; [apply andb_false_r|].
    symmetry. apply Z.ltb_ge. unfold minimum. apply Z.pow_le_mono_r; lia. }
  rewrite EL. destruct (size >? total c) eqn:Big.
  { exists h, None. split; [reflexivity|]. split; [reflexivity|]. left. rewrite Z.gtb_ltb in Big. apply Z.ltb_lt in Big. exact Big. }
  assert (Hsz : 0 < size <= total c) by (rewrite Z.gtb_ltb in Big; apply Z.ltb_ge in Big; lia). clear Big.
  destruct (size_block c size G Hsz) as (j & Hj & Er & Hge & Eb). rewrite Er. fold (block_of c size) in Eb.
  assert (Pj : 0 < psz (ca c) j) by (apply psz_pos, Ha). rewrite Eb.
  assert (disj : forall h' r, inv c h' (handed_out c r leaf ++ live) -> 0 < snd r ->
     (forall y, fst r <= y < fst r + snd r -> exists b, In b (handed_out c r leaf) /\ fst b <= y < fst b + snd b) ->
     forall b, In b live -> disjoint b r).
  { intros h' r (_ & t' & _ & _ & P') Hr Cov b Hb.
    assert (Ib : In b (blocks (ca c) (cK c) 0 t')) by (apply (Permutation_in _ (Permutation_sym P')), in_app_iff; auto).
    assert (ND : NoDup (handed_out c r leaf ++ live)) by (apply (Permutation_NoDup P'), blocks_nodup, Ha).
    assert (Sb : 0 < snd b). { destruct b as [bx bs]. apply blocks_in in Ib; [|assumption]. destruct Ib as (_ & _ & jj & q & _ & -> & _). apply psz_pos, Ha. }
    unfold disjoint. destruct (Z_le_gt_dec (fst b + snd b) (fst r)) as [?|N1]; [auto|]. destruct (Z_le_gt_dec (fst r + snd r) (fst b)) as [?|N2]; [auto|]. exfalso.
    destruct (Cov (Z.max (fst b) (fst r))) as (b2 & H2 & H3); [lia|].
    assert (Ib2 : In b2 (blocks (ca c) (cK c) 0 t')) by (apply (Permutation_in _ (Permutation_sym P')), in_app_iff; auto).
    assert (b <> b2).
    { intros <-. clear - ND H2 Hb. induction (handed_out c r leaf) as [|y l IH]; [destruct H2|].
      cbn [app] in ND. apply NoDup_cons_iff in ND. destruct ND as [N1 N2]. destruct H2 as [->|H2]; [apply N1, in_app_iff; auto|auto]. }
    pose proof (blocks_disjoint (ca c) t' Ha _ _ b b2 Ib Ib2 H). lia. }
  assert (covc : forall n off lf, 0 < lf -> forall y, off <= y < off + Z.of_nat n * lf -> exists b, In b (chunks n off lf) /\ fst b <= y < fst b + snd b).
  { induction n as [|n IH]; intros off lf Hlf y Hy; [lia|]. cbn [chunks]. destruct (Z_lt_le_dec y (off + lf)).
    - exists (off, lf). split; [left; reflexivity|cbn; lia].
    - destruct (IH (off + lf) lf Hlf y) as (b & B1 & B2); [lia|]. exists b. split; [right; exact B1|exact B2]. }
  assert (covp : forall n off tot, 0 <= tot < 2 ^ Z.of_nat n -> forall y, off <= y < off + tot -> exists b, In b (pieces n off tot) /\ fst b <= y < fst b + snd b).
  { assert (GG : forall n off tot, forall y, off <= y < off + tot mod 2 ^ Z.of_nat n -> exists b, In b (pieces n off tot) /\ fst b <= y < fst b + snd b).
    { induction n as [|n IH]; intros off tot y Hy; [change (2 ^ Z.of_nat 0) with 1 in Hy; rewrite Z.mod_1_r in Hy; lia|].
      assert (EM : tot mod 2 ^ Z.of_nat (S n) = Z.b2z (Z.testbit tot (Z.of_nat n)) * 2 ^ Z.of_nat n + tot mod 2 ^ Z.of_nat n).
      { rewrite pow2S, Z.mul_comm, Z.rem_mul_r by (pose proof (pow2pos n); lia). rewrite Z.testbit_spec' by lia. lia. }
      rewrite EM in Hy. cbn [pieces]. destruct (Z.testbit tot (Z.of_nat n)); cbn [Z.b2z] in Hy.
      - destruct (Z_lt_le_dec y (off + 2 ^ Z.of_nat n)).
        + eexists. split; [left; reflexivity|cbn; lia].
        + destruct (IH (off + 2 ^ Z.of_nat n) tot y) as (b & B1 & B2); [lia|]. exists b. split; [right; exact B1|exact B2].
      - apply IH. lia. }
    intros n off tot Ht y Hy. apply GG. rewrite Z.mod_small by exact Ht. exact Hy. }
  assert (cov : forall r, 0 < snd r <= total c -> (leaf <> 0 -> (leaf | snd r)) ->
     forall y, fst r <= y < fst r + snd r -> exists b, In b (handed_out c r leaf) /\ fst b <= y < fst b + snd b).
  { intros r Hr Hd y Hy. unfold handed_out. destruct (leaf =? 0) eqn:L0.
    - apply covp; [|exact Hy]. split; [lia|]. apply Z.le_lt_trans with (total c); [lia|]. unfold total, bits. apply Z.pow_lt_mono_r; lia.
    - apply Z.eqb_neq in L0. destruct Hl0 as [?|(e & He & El)]; [congruence|].
      assert (0 < leaf) by (rewrite El; apply Z.pow_pos_nonneg; lia). destruct (Hd L0) as [q Eq]. apply covc; [assumption|].
      rewrite Eq, Z.div_mul by lia. rewrite Z2Nat.id by nia. lia. }
  assert (pdiv : forall e, ca c <= e -> 2 ^ e <= psz (ca c) j -> (2 ^ e | psz (ca c) j)).
  { intros e He Hle. unfold psz in *. apply Z.pow_le_mono_r_iff in Hle; [|lia|lia]. exists (2 ^ (ca c + Z.of_nat j - e)).
    rewrite <- Z.pow_add_r by lia. f_equal. lia. }
  assert (PT : psz (ca c) j <= total c) by (rewrite total_psz; apply psz_le; assumption).
  assert (lle : leaf = 0 \/ leaf <= psz (ca c) j).
  { destruct Hl as [->|(e & He & El & Hm2)]; [auto|]. right. destruct multi; [|rewrite <- Eb; exact Hm2].
    apply Z.le_trans with size; [|lia]. apply Z.divide_pos_le; [lia|exact Hm2]. }
  destruct (negb multi || (psz (ca c) j - size <? minimum c)) eqn:Single.
  - (* one block *)
    destruct (leaf_fl c leaf Hl0) as (fl & _ & _ & Hfl).
    destruct (single_sim c h live leaf act j G I Hj) as [(h1 & h2 & addr & E1 & E2 & OK & A1 & A2 & A3)|(E1 & E2)].
    { exists (fl j). apply Hfl; assumption. }
    + rewrite E1, E2. exists h2, (Some (addr, psz (ca c) j)). split; [reflexivity|]. cbn [fst snd].
      split; [exact OK|]. split; [lia|]. split; [exact A1|]. split; [exact A2|]. split; [lia|]. split; [exact A3|].
      split; [auto|]. split.
      * intros ->. cbn [negb orb] in Single. apply Z.ltb_lt in Single. specialize (Hm eq_refl).
        assert (D : (minimum c | psz (ca c) j)) by (unfold minimum; apply pdiv; [lia|]; rewrite <- Eb; unfold block_of, minimum; lia).
        assert (D2 : (minimum c | psz (ca c) j - size)) by (apply Z.divide_sub_r; assumption).
        destruct (Z.eq_dec (psz (ca c) j - size) 0) as [?|N]; [lia|]. apply Z.divide_pos_le in D2; lia.
      * destruct OK as [OK _]. apply (disj h2 (addr, psz (ca c) j) OK); [exact Pj|]. apply cov; cbn [snd]; [lia|].
        intros L0. destruct Hl0 as [?|(e & He & El)]; [congruence|]. rewrite El. apply pdiv; [exact He|]. rewrite <- El. lia.
    + rewrite E1. exists h, None. split; [reflexivity|]. split; [reflexivity|]. right. exact E2.
  - (* multi-step *)
    apply orb_false_iff in Single. destruct Single as [Mu Gap]. apply negb_false_iff in Mu. subst multi.
    apply Z.ltb_ge in Gap. specialize (Hm eq_refl).
    destruct (talloc TU j (cK c) t) as [[t1 p]|] eqn:T.
    + destruct (talloc_ctx j (cK c) TU t t1 p Hj T) as (cx & Et1 & Lcx & Pcx & Ty & Bcx & Wcx).
      assert (Wx : wf (plug cx TU)) by (apply Wcx; [exact W|discriminate|exact Logic.I]).
      assert (Ec : (j + length cx = cK c)%nat) by lia.
      pose proof (ik_sim c h [] (cK c) t j false false G (conj C1 (conj C2 (conj C3 C4))) ltac:(cbn; lia) Hj R) as IK.
      cbn [mk] in IK. rewrite (Ty TF) in IK. change (cnode []) with 0 in IK. destruct IK as (ns1 & IK & R1 & O1).
      cbn [pos] in IK. rewrite Z.mul_0_l, Z.add_0_l in IK. rewrite <- total_psz in IK. rewrite IK.
      set (h1 := mk_heap (hW h) (hsize h) (hmin h) ns1 (mem h)). rewrite <- Pcx.
      assert (Cf1 : conf c h1) by (repeat split; auto; intros i Hi; cbn [nd h1]; rewrite O1; auto).
      rewrite (node_ptr c h1 cx j G Cf1 Ec).
      destruct (leaf_fl c leaf Hl0) as (fl & Ff & Fw & Hfl).
      assert (Elog : Z.to_nat (Z.log2 (total c)) = Z.to_nat (ca c + Z.of_nat (cK c))).
      { rewrite total_psz, log2_psz by assumption. reflexivity. }
      rewrite Elog. set (i0 := Z.to_nat (ca c + Z.of_nat (cK c))).
      assert (Z0 : size / 2 ^ Z.of_nat i0 = 0).
      { apply Z.div_small. split; [lia|]. unfold i0. rewrite Z2Nat.id by lia. fold (total c). lia. }
      destruct (multi_sim c cx j leaf size act fl G Ec Ff Hm ltac:(lia)) with (i := i0) (h := h1) (tot := 0) (B := live)
        as (h2 & L1 & L2 & L3 & L4 & L5).
      * intros ji Hji Tb. apply Hfl; [|assumption]. destruct Hl as [?|(e & He & El & Hd)]; [auto|]. right.
        rewrite El in *. apply divide_bit with (i := ca c + Z.of_nat ji) in Hd; [|lia|exact Tb].
        unfold psz. apply Z.pow_le_mono_r; lia.
      * intros L0. destruct Hl as [?|(e & He & El & Hd)]; [congruence|]. split; [rewrite El; apply Z.pow_pos_nonneg; lia|exact Hd].
      * exact Cf1.
      * rewrite Z0. reflexivity.
      * rewrite Zdiv_0_l, pre_0 by lia. exact R1.
      * rewrite Zdiv_0_l, pre_0 by lia. rewrite Bcx by assumption. exact P.
      * rewrite L1. replace (size >=? size) with true by (rewrite Z.geb_leb; symmetry; apply Z.leb_refl).
        exists h2, (Some (pos cx * psz (ca c) j, size)). split; [reflexivity|]. cbn [fst snd].
        assert (Dm : 0 < size / minimum c). { destruct Hm as [q ->]. rewrite Z.div_mul by lia. nia. }
        assert (Rest : rest i0 (pos cx * psz (ca c) j) size 0 leaf = handed_out c (pos cx * psz (ca c) j, size) leaf).
        { unfold rest, handed_out. cbn [fst snd]. rewrite Z.add_0_r, Z.sub_0_r. destruct (leaf =? 0); [|reflexivity].
          unfold bits. replace (Z.to_nat (ca c + Z.of_nat (cK c) + 1)) with (S i0) by (unfold i0; lia).
          rewrite pieces_skip; [reflexivity|]. rewrite Z.bits_above_log2; [reflexivity|lia|]. unfold i0. rewrite Z2Nat.id by lia.
          apply Z.log2_lt_pow2; [lia|]. fold (total c). lia. }
        rewrite Rest in L4.
        assert (I2 : inv c h2 (handed_out c (pos cx * psz (ca c) j, size) leaf ++ live)).
        { split; [exact L2|]. exists (plug cx (pre fl j (size / minimum c))). split; [exact L3|]. split; [|exact L4].
          apply wf_plug_swap with TU; [exact Wx|apply pre_wf; assumption|apply pre_not_TF; assumption]. }
        pose proof (pos_range cx) as PR.
        assert (EK : psz (ca c) (cK c) = 2 ^ Z.of_nat (length cx) * psz (ca c) j).
        { rewrite <- psz_add by assumption. f_equal. lia. }
        split; [|repeat split].
        -- split; [exact I2|]. rewrite L5. cbn [snd]. change (mem h1) with (mem h). destruct act; lia.
        -- lia.
        -- nia.
        -- rewrite total_psz, EK. nia.
        -- lia.
        -- exists (pos cx). reflexivity.
        -- discriminate.
        -- apply (disj h2 (pos cx * psz (ca c) j, size) I2); [cbn; lia|]. apply cov; cbn [snd]; [lia|].
           intros L0. destruct Hl as [?|(e & He & El & Hd)]; [congruence|exact Hd].
    + pose proof (ik_sim c h [] (cK c) t j false false G (conj C1 (conj C2 (conj C3 C4))) ltac:(cbn; lia) Hj R) as IK.
      assert (T2 : talloc (mk false) j (cK c) t = None).
      { destruct (talloc (mk false) j (cK c) t) as [[? ?]|] eqn:Q; [|reflexivity]. apply talloc_ctx in Q; [|assumption].
        destruct Q as (c' & _ & _ & _ & Q & _). rewrite Q in T. discriminate. }
      rewrite T2 in IK. change (cnode []) with 0 in IK. rewrite <- total_psz in IK. rewrite IK. exists h, None.
      split; [unfold with_nodes; destruct h; reflexivity|]. split; [reflexivity|]. right. unfold crowded.
      intros off H0 H1 (q & E).
      assert (EK : psz (ca c) (cK c) = 2 ^ Z.of_nat (cK c - j) * psz (ca c) j).
      { rewrite <- psz_add by assumption. f_equal. lia. }
      destruct (talloc_none TU j (cK c) t Hj (rep_fits _ _ _ _ R) T (ca c) Ha W 0 q) as (b & B1 & B2 & B3).
      { rewrite total_psz, EK in H1. subst off. nia. }
      exists b. split; [apply (Permutation_in _ P B1)|]. unfold disjoint. cbn [fst snd]. subst off. lia.
Qed.

(** ** Freeing one range *)
Lemma drop_perm l1 l2 r : Permutation l1 l2 -> Permutation (drop l1 r) (drop l2 r).
Proof.
  unfold drop. induction 1; cbn [filter]; try reflexivity.
  - destruct (negb (inside x r)); auto.
  - destruct (negb (inside x r)), (negb (inside y r)); auto. apply perm_swap.
  - etransitivity; eauto.
Qed.
Lemma in_drop live r b : In b (drop live r) <-> In b live /\ inside b r = false.
Proof. unfold drop. rewrite filter_In. rewrite negb_true_iff. tauto. Qed.

Lemma inside_spec b r : inside b r = true <-> fst r <= fst b /\ fst b + snd b <= fst r + snd r.
Proof. unfold inside. rewrite andb_true_iff, !Z.leb_le. tauto. Qed.

Lemma ikfree_sim c h cx j t0 sp : good c -> conf c h -> (j + length cx = cK c)%nat -> cx <> [] ->
  rep (nd h) 0 (cK c) (plug cx t0) -> t0 <> TF -> (sp = true \/ t0 = TU) ->
  exists h', internal_kfree h (pos cx * psz (ca c) j) (psz (ca c) j) sp = Some h' /\ conf c h' /\
    rep (nd h') 0 (cK c) (join cx) /\
    mem h' = mem h - (psz (ca c) j - match t0 with TS _ _ => tfree j t0 * minimum c | _ => 0 end).
Proof.
  intros G C E Nx R N0 Hsp. assert (Ha : 0 <= ca c) by (destruct G; tauto).
  assert (HK : (cK c <= 30)%nat) by (destruct G as (_ & _ & ? & _); lia).
  pose proof (psz_pos (ca c) j Ha) as Pj. pose proof C as (C1 & C2 & C3 & C4).
  unfold internal_kfree. rewrite (node_ptr c h cx j G C E), C1, C3.
  rewrite (ptr_node c h j (cnode cx) (pos cx) G C) by (unfold cnode; try lia; replace (cK c - j)%nat with (length cx) by lia; lia).
  rewrite Z.eqb_refl, roundup_psz, Z.eqb_refl, psz_min by (assumption || lia).
  replace (psz (ca c) j =? 0) with false by (symmetry; apply Z.eqb_neq; lia). cbn [negb orb].
  assert (R0 := R). rewrite <- E in R0. apply rep_plug in R0. destruct R0 as [Rf Rc].
  (* after the optional coalescing the focus is one block *)
  assert (Co : exists ns1 corr,
     (if sp && nsplit (nd h (cnode cx)) then coalesce_block h (nd h) (pos cx * psz (ca c) j) (psz (ca c) j) else Some (nd h, 0)) = Some (ns1, corr) /\
     rep ns1 (cnode cx) j TU /\ (exists f, rctx ns1 j cx f) /\ (forall i, ~ sub 0 (cK c) i -> ns1 i = zero_node) /\ corr = match t0 with TS _ _ => tfree j t0 * minimum c | _ => 0 end).
  { rewrite (rep_split _ _ _ _ Rf). destruct t0 as [| |l r]; [congruence| |].
    - rewrite andb_false_r. exists (nd h), 0. split; [reflexivity|]. split; [exact Rf|]. split; [eauto|]. split; [exact C4|reflexivity].
    - destruct Hsp as [->|Q]; [|discriminate]. cbn [andb]. unfold coalesce_block. rewrite (node_ptr c h cx j G C E).
      destruct (coalesce_rep (ca c) h (cnode cx) j (TS l r) Ha (cnode_nonneg _)) as (ns' & E1 & R1 & O1); [rewrite C3; apply minimum_psz|lia|exact Rf|].
      rewrite E1. exists (set_full ns' (cnode cx) true), (tfree j (TS l r) * psz (ca c) 0). split; [reflexivity|]. split; [exact R1|].
      split; [eexists; apply rctx_ext with (nd h); [exact O1|exact Rc]|]. split; [|rewrite minimum_psz; reflexivity].
      intros i Hi. rewrite O1; [apply C4, Hi|]. intros Q. apply Hi. rewrite <- E. apply sub_cnode, Q. }
  destruct Co as (ns1 & corr & -> & Rf1 & (f & Rc1) & F1 & ->). rewrite (rep_split _ _ _ _ Rf1).
  (* set_free_uplevels only needs the focus and its surroundings *)
  unfold set_free_uplevels. rewrite (rep_split _ _ _ _ Rf1).
  destruct (up_sim cx 64 (set_full ns1 (cnode cx) false) j f (cnode cx) (psz (ca c) j)) as (ns2 & n1 & b & z & ns3 & E1 & E2 & E3 & E4); try assumption; try lia.
  - cbn [rep] in Rf1 |- *. destruct Rf1 as [R1 R2]. intros i Hi. unfold set_full, fupd. destruct (i =? cnode cx) eqn:Q.
    + rewrite R1. reflexivity.
    + apply Z.eqb_neq in Q. apply R2; assumption.
  - apply rctx_ext with ns1; [|exact Rc1]. intros i Hi. apply fupd_other. intros ->. apply Hi, sub_self.
  - rewrite E1, E2. assert (Q : (b =? cnode cx) || negb (z =? psz (ca c) j) = true).
    { destruct E4 as [->|E4]; [rewrite Z.eqb_refl; reflexivity|]. apply orb_true_iff. right. apply negb_true_iff. apply Z.eqb_neq. lia. }
    rewrite Q. eexists. split; [reflexivity|].
    split. { repeat split; auto. intros i Hi. cbn [nd].
      assert (N2 : cnode cx <> i) by (intros <-; apply Hi; rewrite <- E; apply sub_cnode, sub_self).
      assert (N3 : ~ (0 <= i <= parent (cnode cx))).
      { intros N3. apply Hi. apply sub_root_iff. pose proof (parent_lt _ (cnode_nonneg cx)).
        pose proof (sub_cnode cx j (cnode cx) (sub_self _ _)) as Q2. rewrite E in Q2. apply sub_root_iff in Q2. lia. }
      apply coalesce_frame in E1. destruct E1 as [E1 E1']. rewrite (clear_frame _ _ _ _ E2) by lia. rewrite E1' by exact N3.
      unfold set_full. rewrite fupd_other by auto. apply F1, Hi. }
    cbn [nd mem]. rewrite E in E3. auto.
Qed.

Lemma inv_range c h live b : good c -> inv c h live -> In b live ->
  0 <= fst b /\ fst b + snd b <= total c /\ exists j p, (j <= cK c)%nat /\ snd b = psz (ca c) j /\ fst b = p * psz (ca c) j.
Proof.
  intros G (_ & t & R & W & P) Hb. assert (Ha : 0 <= ca c) by (destruct G; tauto).
  destruct b as [x s]. apply (Permutation_in _ (Permutation_sym P)) in Hb. apply blocks_in in Hb; [|assumption].
  destruct Hb as (H1 & H2 & j & p & H3 & H4 & H5). cbn [fst snd]. rewrite total_psz. split; [lia|]. split; [lia|]. exists j, p. auto.
Qed.
Lemma inv_disjoint c h live b1 b2 : good c -> inv c h live -> In b1 live -> In b2 live -> b1 <> b2 -> disjoint b1 b2.
Proof.
  intros G (_ & t & R & W & P) H1 H2 N. assert (Ha : 0 <= ca c) by (destruct G; tauto).
  apply (Permutation_in _ (Permutation_sym P)) in H1, H2. unfold disjoint. eapply blocks_disjoint; eauto.
Qed.
Lemma inv_nodup c h live : good c -> inv c h live -> NoDup live.
Proof. intros G (_ & t & R & W & P). apply (Permutation_NoDup P), blocks_nodup. destruct G; tauto. Qed.

Definition exact_range (c : cfg) (live : list block) (r : block) : Prop :=
  In r live \/ forall b, In b live -> inside b r = true -> snd b = minimum c.

Lemma free_piece c h live r sp : good c -> inv c h live -> freeable c live r -> (sp = false -> In r live) ->
  exists h', internal_kfree h (fst r) (snd r) sp = Some h' /\ inv c h' (drop live r) /\
    (exact_range c live r -> mem h' - sum_sizes (drop live r) = mem h - sum_sizes live).
Proof.
  intros G I Fr Hsp. pose proof I as (C & t & R & W & P). assert (Ha : 0 <= ca c) by (destruct G; tauto).
  destruct r as [off sz]. cbn [fst snd] in *. destruct Fr as ((e & He & Ee) & H0 & H1 & (p & Hp) & (b & Hb & Ib) & Hall). cbn [fst snd] in *.
  set (j := Z.to_nat (e - ca c)). assert (Ej : sz = psz (ca c) j) by (rewrite Ee; unfold psz, j; f_equal; lia).
  assert (Hj : (j < cK c)%nat) by (unfold j; lia). clear Ee. subst sz. pose proof (psz_pos (ca c) j Ha) as Pj.
  assert (EK : psz (ca c) (cK c) = 2 ^ Z.of_nat (cK c - j) * psz (ca c) j).
  { rewrite <- psz_add by assumption. f_equal. lia. }
  assert (Hpr : 0 <= p < 2 ^ Z.of_nat (cK c - j)) by (rewrite total_psz, EK in H1; nia).
  apply inside_spec in Ib. cbn [fst snd] in Ib.
  destruct (locate (ca c) j Ha (cK c - j) t 0 p) as (cx & t0 & Et & Lc & Pc & N0).
  { replace (j + (cK c - j))%nat with (cK c) by lia. eapply rep_fits; eauto. }
  { exact Hpr. }
  { replace (j + (cK c - j))%nat with (cK c) by lia. exists b. split; [apply (Permutation_in _ (Permutation_sym P) Hb)|]. lia. }
  subst t. assert (Ec : (j + length cx = cK c)%nat) by lia.
  assert (Nx : cx <> []) by (intros ->; cbn in Lc; lia).
  destruct (blocks_plug (ca c) cx Ha j) as (Rst & HR & HD). rewrite Ec, Pc, <- Hp in *.
  assert (Pt0 : Permutation live (blocks (ca c) j off t0 ++ Rst)) by (rewrite <- HR; symmetry; exact P).
  assert (Hin : forall b', In b' (blocks (ca c) j off t0) -> inside b' (off, psz (ca c) j) = true).
  { intros [x s] H. apply inside_spec. apply blocks_in in H; [|assumption]. cbn [fst snd]. lia. }
  assert (Hout : forall b', In b' Rst -> inside b' (off, psz (ca c) j) = false).
  { intros [x s] H. destruct (inside (x, s) (off, psz (ca c) j)) eqn:Q; [|reflexivity]. exfalso. apply inside_spec in Q. cbn [fst snd] in Q.
    pose proof (HD _ H) as D. cbn [fst snd] in D.
    assert (In (x, s) live) by (apply (Permutation_in _ (Permutation_sym Pt0)), in_app_iff; auto).
    destruct (inv_range c h live _ G I H2) as (_ & _ & jj & q & _ & Es & _). cbn [snd] in Es. pose proof (psz_pos (ca c) jj Ha). lia. }
  assert (HU : In (off, psz (ca c) j) live -> t0 = TU).
  { intros Hin2. apply (Permutation_in _ Pt0) in Hin2. apply in_app_iff in Hin2. destruct Hin2 as [H|H].
    - apply block_whole in H; assumption.
    - apply Hout in H. unfold inside in H. cbn [fst snd] in H. rewrite !Z.leb_refl in H. discriminate. }
  destruct (ikfree_sim c h cx j t0 sp G C Ec Nx R N0) as (h' & K1 & K2 & K3 & K4).
  { destruct sp; [auto|right]. apply HU, Hsp. reflexivity. }
  rewrite Pc, <- Hp in K1. exists h'. split; [exact K1|].
  assert (PD : Permutation (drop live (off, psz (ca c) j)) Rst).
  { rewrite (drop_perm _ _ _ Pt0). unfold drop. rewrite filter_app.
    assert (F1 : forall l, (forall b', In b' l -> inside b' (off, psz (ca c) j) = true) -> filter (fun b' => negb (inside b' (off, psz (ca c) j))) l = []).
    { clear. induction l as [|y l IH]; intros H; [reflexivity|]. cbn [filter]. rewrite (H y) by (left; reflexivity). cbn. apply IH. intros. apply H. right. assumption. }
    assert (F2 : forall l, (forall b', In b' l -> inside b' (off, psz (ca c) j) = false) -> filter (fun b' => negb (inside b' (off, psz (ca c) j))) l = l).
    { clear. induction l as [|y l IH]; intros H; [reflexivity|]. cbn [filter]. rewrite (H y) by (left; reflexivity). cbn. f_equal. apply IH. intros. apply H. right. assumption. }
    rewrite F1, F2 by assumption. reflexivity. }
  split.
  - split; [exact K2|]. exists (join cx). split; [exact K3|]. split; [eapply wf_join; eauto|].
    rewrite PD. rewrite <- Ec, blocks_join, Ec by assumption. rewrite HR. reflexivity.
  - intros X. rewrite K4. rewrite (sum_perm _ _ PD), (sum_perm _ _ Pt0), sum_app.
    assert (ST : sum_sizes (blocks (ca c) j off t0) = psz (ca c) j - match t0 with TS _ _ => tfree j t0 * minimum c | _ => 0 end).
    { destruct X as [X|X].
      - apply HU in X. subst t0. cbn. lia.
      - destruct t0 as [| |l r]; [congruence|cbn; lia|].
        rewrite minimum_psz. rewrite (tfree_min (ca c) (TS l r) Ha j off).
        + change (total_of (blocks (ca c) j off (TS l r))) with (sum_sizes (blocks (ca c) j off (TS l r))). lia.
        + rewrite <- Ec in R. apply rep_plug in R. destruct R as [R _]. eapply rep_fits; eauto.
        + intros b' Hb'. rewrite <- minimum_psz. apply X; [apply (Permutation_in _ (Permutation_sym Pt0)), in_app_iff; auto|apply Hin, Hb']. }
    lia.
Qed.

(** ** Several pieces *)
Lemma mfree_S i' h off size tot sp : multi_free (S i') h off size tot sp =
      if tot <? size then
        if Z.testbit size (Z.of_nat i') then
          match internal_kfree h (off + tot) (2 ^ Z.of_nat i') sp with
          | None => None
          | Some h1 => multi_free i' h1 off size (tot + 2 ^ Z.of_nat i') sp
          end
        else multi_free i' h off size tot sp
      else Some (h, tot).
Proof. reflexivity. Qed.

Lemma pieces_ge : forall i off tot r, In r (pieces i off tot) -> off <= fst r.
Proof.
  induction i as [|i IH]; intros off tot r H; [destruct H|]. cbn [pieces] in H. pose proof (pow2pos i).
  destruct (Z.testbit tot (Z.of_nat i)); [|eauto]. destruct H as [<-|H]; [cbn; lia|]. apply IH in H. lia.
Qed.

Lemma keep c h live r r' : good c -> inv c h live -> fst r + snd r <= fst r' ->
  (freeable c live r' -> freeable c (drop live r) r') /\ (In r' live -> 0 < snd r' -> In r' (drop live r)) /\
  (exact_range c live r' -> 0 < snd r' -> exact_range c (drop live r) r').
Proof.
  intros G I Hd. assert (Ha : 0 <= ca c) by (destruct G; tauto).
  assert (K : forall b, In b live -> inside b r' = true -> inside b r = false).
  { intros b Hb Ib. apply inside_spec in Ib. destruct (inside b r) eqn:Q; [|reflexivity]. exfalso. apply inside_spec in Q.
    destruct (inv_range c h live b G I Hb) as (_ & _ & j & q & _ & Es & _). pose proof (psz_pos (ca c) j Ha). lia. }
  split; [|split].
  - intros (F1 & F2 & F3 & F4 & (b & Fb & Fi) & F6). repeat split; auto.
    + exists b. split; [apply in_drop; auto|exact Fi].
    + intros b' Hb'. apply in_drop in Hb'. apply F6, Hb'.
  - intros H S0. apply in_drop. split; [exact H|]. apply K; [exact H|]. apply inside_spec. lia.
  - intros [H|H] S0.
    + left. apply in_drop. split; [exact H|]. apply K; [exact H|]. apply inside_spec. lia.
    + right. intros b Hb Ib. apply in_drop in Hb. apply H; tauto.
Qed.

Lemma multi_free_sim c off size sp : good c -> 0 < size -> forall i h live tot, inv c h live ->
  tot = size / 2 ^ Z.of_nat i * 2 ^ Z.of_nat i ->
  Forall (fun r => freeable c live r /\ (sp = false -> In r live)) (pieces i (off + tot) size) ->
  exists h', multi_free i h off size tot sp = Some (h', size) /\
    inv c h' (fold_left drop (pieces i (off + tot) size) live) /\
    (Forall (exact_range c live) (pieces i (off + tot) size) ->
       mem h' - sum_sizes (fold_left drop (pieces i (off + tot) size) live) = mem h - sum_sizes live).
Proof.
  intros G Hs. induction i as [|i IH]; intros h live tot I Et F.
  - change (2 ^ Z.of_nat 0) with 1 in Et. rewrite Z.div_1_r, Z.mul_1_r in Et. subst tot. exists h. split; [reflexivity|]. cbn. auto.
  - rewrite mfree_S. assert (Hdv := testbit_div size (Z.of_nat i) ltac:(lia)).
    replace (Z.of_nat i + 1) with (Z.of_nat (S i)) in Hdv by lia.
    assert (Mt := Z.mul_div_le size (2 ^ Z.of_nat (S i)) (pow2pos (S i))). pose proof (pow2pos i) as Pi.
    destruct (tot <? size) eqn:L.
    + cbn [pieces] in *. destruct (Z.testbit size (Z.of_nat i)) eqn:Tb; cbn [Z.b2z] in Hdv.
      * apply Forall_cons_iff in F. destruct F as [[F1 F2] F3].
        destruct (free_piece c h live (off + tot, 2 ^ Z.of_nat i) sp G I F1 F2) as (h1 & K1 & K2 & K3). cbn [fst snd] in K1. rewrite K1.
        assert (Kp : forall r', In r' (pieces i (off + tot + 2 ^ Z.of_nat i) size) -> off + tot + 2 ^ Z.of_nat i <= fst r') by (intros; eapply pieces_ge; eauto).
        assert (Ksz : forall r' b, freeable c b r' -> 0 < snd r').
        { intros r' b ((e & He & ->) & _). apply Z.pow_pos_nonneg; [lia|]. destruct G; lia. }
        destruct (IH h1 (drop live (off + tot, 2 ^ Z.of_nat i)) (tot + 2 ^ Z.of_nat i)) as (h' & J1 & J2 & J3); auto.
        { rewrite Hdv, Et, pow2S. lia. }
        { rewrite Z.add_assoc. apply Forall_forall. intros r' Hr'. rewrite Forall_forall in F3. destruct (F3 r' Hr') as [A1 A2].
          destruct (keep c h live (off + tot, 2 ^ Z.of_nat i) r' G I (Kp _ Hr')) as (Q1 & Q2 & _).
          split; [auto|]. intros S0. apply Q2; [auto|]. eapply Ksz; eauto. }
        rewrite Z.add_assoc in *. exists h'. split; [exact J1|]. cbn [fold_left]. split; [exact J2|].
        intros X. apply Forall_cons_iff in X. destruct X as [X1 X2]. rewrite J3; [apply K3, X1|].
        apply Forall_forall. intros r' Hr'. rewrite Forall_forall in X2, F3.
        destruct (keep c h live (off + tot, 2 ^ Z.of_nat i) r' G I (Kp _ Hr')) as (_ & _ & Q3). apply Q3; [auto|].
        eapply Ksz. apply F3, Hr'.
      * apply IH; auto. rewrite Hdv, Et, pow2S. lia.
    + apply Z.ltb_ge in L. assert (tot = size) by (rewrite Et in *; lia). exists h. rewrite H. split; [reflexivity|].
      rewrite (pieces_zero (S i) _ size (size / 2 ^ Z.of_nat (S i))) by congruence. cbn. auto.
Qed.

Lemma pieces_ends : forall n off tot, 0 < tot < 2 ^ Z.of_nat n ->
  (exists r, In r (pieces n off tot) /\ fst r = off) /\ (exists r, In r (pieces n off tot) /\ fst r + snd r = off + tot).
Proof.
  assert (GG : forall n off tot, 0 < tot mod 2 ^ Z.of_nat n ->
    (exists r, In r (pieces n off tot) /\ fst r = off) /\ (exists r, In r (pieces n off tot) /\ fst r + snd r = off + tot mod 2 ^ Z.of_nat n)).
  { induction n as [|n IH]; intros off tot H; [change (2 ^ Z.of_nat 0) with 1 in H; rewrite Z.mod_1_r in H; lia|].
    assert (EM : tot mod 2 ^ Z.of_nat (S n) = Z.b2z (Z.testbit tot (Z.of_nat n)) * 2 ^ Z.of_nat n + tot mod 2 ^ Z.of_nat n).
    { rewrite pow2S, Z.mul_comm, Z.rem_mul_r by (pose proof (pow2pos n); lia). rewrite Z.testbit_spec' by lia. lia. }
    rewrite EM in *. cbn [pieces]. destruct (Z.testbit tot (Z.of_nat n)); cbn [Z.b2z] in *; [|rewrite Z.mul_0_l, Z.add_0_l in *; apply IH; lia].
    split; [eexists; split; [left; reflexivity|reflexivity]|].
    pose proof (Z.mod_pos_bound tot (2 ^ Z.of_nat n) (pow2pos n)).
    destruct (Z.eq_dec (tot mod 2 ^ Z.of_nat n) 0) as [Q|Q].
    - eexists. split; [left; reflexivity|]. cbn. lia.
    - destruct (IH (off + 2 ^ Z.of_nat n) tot) as [_ (r & R1 & R2)]; [lia|]. exists r. split; [right; exact R1|]. lia. }
  intros n off tot H. pose proof (GG n off tot) as Q. rewrite Z.mod_small in Q by lia. apply Q. lia.
Qed.

Lemma live_freeable c h live off b : good c -> inv c h live -> In (off, b) live -> b <> total c -> freeable c live (off, b).
Proof.
  intros G I H N. assert (Ha : 0 <= ca c) by (destruct G; tauto).
  destruct (inv_range c h live _ G I H) as (R1 & R2 & j & p & Hj & Es & Ef). cbn [fst snd] in *.
  repeat split; cbn [fst snd]; auto.
  - exists (ca c + Z.of_nat j). split; [|exact Es]. assert (j <> cK c) by (intros ->; rewrite total_psz in N; congruence). lia.
  - exists p. rewrite Es. exact Ef.
  - exists (off, b). split; [exact H|]. apply inside_spec. cbn. lia.
  - intros b' Hb'. destruct (inside b' (off, b)) eqn:Q; [auto|]. right. apply (inv_disjoint c h live); auto.
    intros ->. unfold inside in Q. cbn [fst snd] in Q. rewrite !Z.leb_refl in Q. discriminate.
Qed.

Lemma free_sim_all c h live off usize multi sp : good c -> inv c h live -> allowed c live (Free off usize multi sp) ->
  exists h' s, kfree h off usize multi sp = Some (h', s) /\
    inv c h' (fold_left drop (freed c (off, s) multi) live) /\
    ((sp = true -> Forall (exact_range c live) (freed c (off, s) multi)) ->
       mem h' - sum_sizes (fold_left drop (freed c (off, s) multi) live) = mem h - sum_sizes live) /\
    (multi = false -> sp = false -> In (off, s) live) /\
    (multi = true -> s = usize) /\
    (multi = false -> sp = true -> s = 2 ^ Z.log2_up (Z.max usize (minimum c))).
Proof.
  intros G I A. pose proof I as (C & t & R & W & P). pose proof C as (C1 & C2 & C3 & C4).
  pose proof G as (HW & Ha & HK & HS).
  assert (Pm : 0 < minimum c) by (unfold minimum; apply Z.pow_pos_nonneg; lia).
  assert (RU : forall u, 0 < u <= total c -> roundup_pow2 (cW c) (Z.max u (minimum c)) = 2 ^ Z.log2_up (Z.max u (minimum c))).
  { intros u Hu. apply roundup_exact; [exact HW|]. split; [lia|]. apply Z.max_lub.
    - apply Z.le_trans with (total c); [lia|]. unfold total. apply Z.pow_le_mono_r; lia.
    - unfold minimum. apply Z.pow_le_mono_r; lia. }
  unfold kfree. rewrite C1, C2, C3. destruct multi.
  - (* multi-step *)
    assert (A' : 0 < usize < total c /\ (minimum c | usize) /\
      Forall (fun r => freeable c live r /\ (sp = false -> In r live)) (pieces (bits c) off usize)) by (destruct sp; exact A).
    clear A. destruct A' as (Hu & (q & Hq) & F).
    assert (Hb : 0 < usize < 2 ^ Z.of_nat (bits c)).
    { split; [lia|]. apply Z.lt_le_trans with (total c); [lia|]. unfold total, bits. apply Z.pow_le_mono_r; lia. }
    destruct (pieces_ends (bits c) off usize Hb) as [(r1 & A1 & A2) (r2 & B1 & B2)].
    rewrite Forall_forall in F. destruct (F _ A1) as [(_ & O1 & _) _]. destruct (F _ B1) as [(_ & _ & O2 & _) _].
    rewrite A2 in O1. rewrite B2 in O2. rewrite <- Forall_forall in F.
    replace (off <? 0) with false by (symmetry; apply Z.ltb_ge; lia).
    replace (usize =? 0) with false by (symmetry; apply Z.eqb_neq; lia).
    replace (off + usize - 1 >? total c - 1) with false by (rewrite Z.gtb_ltb; symmetry; apply Z.ltb_ge; lia).
    assert (RA : pow2_round_up_at (cW c) usize (minimum c) = usize).
    { unfold minimum in *. rewrite round_up_at_exact; [|lia|lia|].
      - rewrite Hq. replace (q * 2 ^ ca c + 2 ^ ca c - 1) with (2 ^ ca c - 1 + q * 2 ^ ca c) by lia.
        rewrite Z.div_add, Z.div_small by lia. lia.
      - apply Z.lt_le_trans with (2 ^ (cW c - 1) + 2 ^ (cW c - 1)).
        + assert (total c <= 2 ^ (cW c - 1)) by (unfold total; apply Z.pow_le_mono_r; lia).
          assert (2 ^ ca c <= 2 ^ (cW c - 1)) by (apply Z.pow_le_mono_r; lia). lia.
        + replace (cW c) with (Z.succ (cW c - 1)) at 3 by lia. rewrite Z.pow_succ_r by lia. lia. }
    rewrite RA, Z.eqb_refl. cbn [orb negb].
    assert (Elog : Z.to_nat (Z.log2 (total c)) = Z.to_nat (ca c + Z.of_nat (cK c))).
    { rewrite total_psz, log2_psz by assumption. reflexivity. }
    rewrite Elog. set (i0 := Z.to_nat (ca c + Z.of_nat (cK c))).
    assert (EB : pieces (bits c) off usize = pieces i0 off usize).
    { unfold bits. replace (Z.to_nat (ca c + Z.of_nat (cK c) + 1)) with (S i0) by (unfold i0; lia). apply pieces_skip.
      rewrite Z.bits_above_log2; [reflexivity|lia|]. unfold i0. rewrite Z2Nat.id by lia.
      apply Z.log2_lt_pow2; [lia|]. fold (total c). lia. }
    destruct (multi_free_sim c off usize sp G ltac:(lia) i0 h live 0) as (h' & K1 & K2 & K3); auto.
    { rewrite Z.div_small; [reflexivity|]. unfold i0. rewrite Z2Nat.id by lia. fold (total c). lia. }
    { rewrite Z.add_0_r, <- EB. exact F. }
    rewrite K1, Z.eqb_refl. rewrite Z.add_0_r, <- EB in *. exists h', usize. split; [reflexivity|]. unfold freed. cbn [fst snd].
    split; [exact K2|]. split; [|repeat split; auto; discriminate].
    intros X. apply K3. destruct sp; [apply X; reflexivity|]. apply Forall_forall. intros r Hr. left.
    rewrite Forall_forall in F. apply F; auto.
  - assert (GO : forall s, freeable c live (off, s) -> (sp = false -> In (off, s) live) ->
      exists h', match (if off + s - 1 >? total c - 1 then None else match internal_kfree h off s sp with None => None | Some h1 => Some (h1, s) end) with x => x end = Some (h', s) /\
        inv c h' (fold_left drop (freed c (off, s) false) live) /\
        ((sp = true -> Forall (exact_range c live) (freed c (off, s) false)) ->
          mem h' - sum_sizes (fold_left drop (freed c (off, s) false) live) = mem h - sum_sizes live)).
    { intros s F Hl. destruct (free_piece c h live (off, s) sp G I F Hl) as (h' & K1 & K2 & K3). cbn [fst snd] in K1.
      destruct F as (_ & F1 & F2 & _). cbn [fst snd] in *.
      replace (off + s - 1 >? total c - 1) with false by (rewrite Z.gtb_ltb; symmetry; apply Z.ltb_ge; lia).
      rewrite K1. exists h'. split; [reflexivity|]. unfold freed. cbn [fold_left]. split; [exact K2|].
      intros X. apply K3. destruct sp; [specialize (X eq_refl); inversion X; assumption|left; apply Hl; reflexivity]. }
    destruct sp.
    + destruct A as (Hu & F). pose proof F as (_ & O1 & _). cbn [fst] in O1.
      replace (off <? 0) with false by (symmetry; apply Z.ltb_ge; lia).
      replace (usize =? 0) with false by (symmetry; apply Z.eqb_neq; lia).
      rewrite RU by lia. destruct (GO _ F) as (h' & K1 & K2 & K3); [discriminate|].
      exists h', (2 ^ Z.log2_up (Z.max usize (minimum c))). split; [exact K1|]. split; [exact K2|]. split; [exact K3|]. repeat split; auto; discriminate.
    + destruct A as (b & Hb & Nb & Hu). pose proof (live_freeable c h live off b G I Hb Nb) as F. pose proof F as (_ & O1 & _). cbn [fst] in O1.
      replace (off <? 0) with false by (symmetry; apply Z.ltb_ge; lia).
      assert (CB : calculate_block_size h off = Some b).
      { unfold calculate_block_size. rewrite C2, total_psz. eapply block_size_sim; eauto; [rewrite C3; apply minimum_psz|lia|].
        apply (Permutation_in _ (Permutation_sym P)), Hb. }
      rewrite CB.
      assert (ES : (if usize =? 0 then Some b else if b =? roundup_pow2 (cW c) (Z.max usize (minimum c)) then Some (roundup_pow2 (cW c) (Z.max usize (minimum c))) else None) = Some b).
      { destruct Hu as [->|[Hu Eu]]; [reflexivity|]. replace (usize =? 0) with false by (symmetry; apply Z.eqb_neq; lia).
        rewrite RU, Eu, Z.eqb_refl; [reflexivity|].
        destruct (inv_range c h live _ G I Hb) as (_ & Q & _). cbn [fst snd] in Q. lia. }
      cbv zeta. rewrite ES. destruct (GO b F) as (h' & K1 & K2 & K3); [auto|]. exists h', b. split; [exact K1|]. split; [exact K2|]. split; [exact K3|].
      repeat split; auto; discriminate.
Qed.

(** ** Histories *)
Lemma sum_pieces n off tot : 0 <= tot < 2 ^ Z.of_nat n -> sum_sizes (pieces n off tot) = tot.
Proof.
  assert (GG : forall n off tot, sum_sizes (pieces n off tot) = tot mod 2 ^ Z.of_nat n).
  { clear. induction n as [|n IH]; intros off tot; [change (2 ^ Z.of_nat 0) with 1; rewrite Z.mod_1_r; reflexivity|].
    assert (EM : tot mod 2 ^ Z.of_nat (S n) = Z.b2z (Z.testbit tot (Z.of_nat n)) * 2 ^ Z.of_nat n + tot mod 2 ^ Z.of_nat n).
    { rewrite pow2S, Z.mul_comm, Z.rem_mul_r by (pose proof (pow2pos n); lia). rewrite Z.testbit_spec' by lia. lia. }
    rewrite EM. cbn [pieces]. destruct (Z.testbit tot (Z.of_nat n)); cbn [Z.b2z].
    - change (2 ^ Z.of_nat n + sum_sizes (pieces n (off + 2 ^ Z.of_nat n) tot) = 1 * 2 ^ Z.of_nat n + tot mod 2 ^ Z.of_nat n). rewrite IH. lia.
    - rewrite IH. lia. }
  intros H. rewrite GG. apply Z.mod_small, H.
Qed.
Lemma sum_chunks n off leaf : sum_sizes (chunks n off leaf) = Z.of_nat n * leaf.
Proof.
  revert off. induction n as [|n IH]; intros off; [reflexivity|]. cbn [chunks].
  change (leaf + sum_sizes (chunks n (off + leaf) leaf) = Z.of_nat (S n) * leaf). rewrite IH. lia.
Qed.

Lemma sum_handed c h live size multi leaf act r : good c -> inv c h live -> allowed c live (Alloc size multi leaf act) ->
  size <= snd r -> snd r <= total c ->
  (multi = false -> snd r = block_of c size) -> (multi = true -> snd r = size) ->
  sum_sizes (handed_out c r leaf) = snd r.
Proof.
  intros G I (Hs & Hl & Hm) Hge Ht M1 M2. assert (Ha : 0 <= ca c) by (destruct G; tauto).
  unfold handed_out. destruct (leaf =? 0) eqn:L0.
  - apply sum_pieces. split; [lia|]. apply Z.le_lt_trans with (total c); [lia|]. unfold total, bits. apply Z.pow_lt_mono_r; lia.
  - apply Z.eqb_neq in L0. destruct Hl as [?|(e & He & El & Hl)]; [congruence|].
    assert (Pl : 0 < leaf) by (rewrite El; apply Z.pow_pos_nonneg; lia).
    assert (D : (leaf | snd r)).
    { destruct multi; [rewrite M2 by reflexivity; exact Hl|]. rewrite M1 by reflexivity. fold (block_of c size) in Hl.
      assert (Q : exists f, 0 <= f /\ block_of c size = 2 ^ f).
      { unfold block_of, minimum. destruct (Z.max_spec (2 ^ Z.log2_up size) (2 ^ ca c)) as [[_ ->]|[_ ->]]; [exists (ca c)|exists (Z.log2_up size)]; split; auto using Z.log2_up_nonneg. }
      destruct Q as (f & Hf & Q). rewrite Q in *. rewrite El in Hl |- *. apply Z.pow_le_mono_r_iff in Hl; [|lia|lia].
      exists (2 ^ (f - e)). rewrite <- Z.pow_add_r by lia. f_equal. lia. }
    destruct D as [q D]. rewrite sum_chunks, D, Z.div_mul by lia. rewrite Z2Nat.id by nia. reflexivity.
Qed.

Lemma block_of_le c size : good c -> 0 < size <= total c -> block_of c size <= total c.
Proof.
  intros G H. destruct (size_block c size G H) as (j & Hj & _ & _ & E). fold (block_of c size) in E. rewrite E, total_psz.
  apply psz_le; [destruct G; tauto|exact Hj].
Qed.

Definition sizes_ok (c : cfg) (live : list block) (o : op) (res : option block) : Prop :=
  match o, res with
  | Free off usize multi sp, Some r =>
      fst r = off /\ (multi = true -> snd r = usize) /\ (multi = false -> sp = false -> In r live) /\
      (multi = false -> sp = true -> snd r = 2 ^ Z.log2_up (Z.max usize (minimum c)))
  | Alloc size multi leaf act, Some r =>
      size <= snd r /\ 0 <= fst r /\ fst r + block_of c size <= total c /\ (block_of c size | fst r) /\
      snd r = (if multi then size else block_of c size) /\ forall b, In b live -> disjoint b r
  | Alloc size multi leaf act, None => total c < size \/ crowded c live (block_of c size)
  | Free _ _ _ _, None => False
  end.

Lemma step_sim c h live o : good c -> inv c h live -> allowed c live o ->
  exists h' res, step h o = Some (h', res) /\ inv c h' (live_after c live o res) /\ sizes_ok c live o res /\
    (exact_op c live o -> mem h' - sum_sizes (live_after c live o res) = mem h - sum_sizes live).
Proof.
  intros G I A. destruct o as [size multi leaf act|off usize multi sp].
  - destruct (alloc_sim c h live size multi leaf act G I A) as (h' & res & E & K). cbn [step]. rewrite E. exists h', res. split; [reflexivity|].
    destruct res as [r|].
    + destruct K as ((K1 & K2) & K3 & K4 & K5 & K6 & K7 & K8 & K9 & K10). cbn [live_after sizes_ok]. split; [exact K1|].
      split; [repeat split; auto; destruct multi; auto|].
      intros X. cbn [exact_op] in X. subst act. rewrite sum_app, K2.
      rewrite (sum_handed c h live size multi leaf true r); auto; lia.
    + destruct K as [-> K]. cbn [live_after sizes_ok]. auto.
  - destruct (free_sim_all c h live off usize multi sp G I A) as (h' & s & E & K1 & K2 & K3 & K4 & K5). cbn [step]. rewrite E.
    exists h', (Some (off, s)). split; [reflexivity|]. cbn [live_after sizes_ok fst snd]. split; [exact K1|]. split; [auto|].
    intros X. cbn [exact_op] in X. apply K2. intros ->. specialize (X eq_refl). unfold freed. cbn [fst snd].
    destruct multi; [rewrite K4 by reflexivity; exact X|]. rewrite K5 by reflexivity. exact X.
Qed.

Lemma inv_init c : good c -> inv c (heap_init (cW c) (total c) (minimum c)) [].
Proof.
  intros G. split; [repeat split; reflexivity|]. exists TF. split; [intros i _; reflexivity|]. split; [exact Logic.I|]. reflexivity.
Qed.

Lemma reach_inv c acct h live : good c -> reach c acct h live -> inv c h live.
Proof.
  intros G. induction 1 as [|h live o h' res R IH A X S]; [apply inv_init, G|].
  destruct (step_sim c h live o G IH A) as (h2 & r2 & E & K & _). rewrite S in E. injection E as <- <-. exact K.
Qed.
Lemma reach_exact c h live : good c -> reach c true h live -> mem h = sum_sizes live.
Proof.
  intros G H. remember true as b. induction H as [|h live o h' res R IH A X S]; [reflexivity|].
  destruct (step_sim c h live o G (reach_inv _ _ _ _ G R) A) as (h2 & r2 & E & _ & _ & K). rewrite S in E. injection E as <- <-.
  specialize (K (X Heqb)). lia.
Qed.

Lemma disjoint_inside_out c acct h live : good c -> reach c acct h live ->
  NoDup live /\
  (forall b, In b live -> 0 <= fst b /\ fst b + snd b <= total c /\ minimum c <= snd b /\ (exists e, 0 <= e /\ snd b = 2 ^ e) /\ (snd b | fst b)) /\
  (forall b1 b2, In b1 live -> In b2 live -> b1 <> b2 -> disjoint b1 b2).
Proof.
  intros G R. apply reach_inv in R; [|exact G]. assert (Ha : 0 <= ca c) by (destruct G; tauto).
  split; [eapply inv_nodup; eauto|]. split; [|intros; eapply inv_disjoint; eauto].
  intros b Hb. destruct (inv_range c h live b G R Hb) as (H1 & H2 & j & p & H3 & H4 & H5). split; [exact H1|]. split; [exact H2|].
  split; [|split].
  - rewrite minimum_psz, H4. apply psz_le; [assumption|lia].
  - exists (ca c + Z.of_nat j). split; [lia|exact H4].
  - exists p. rewrite H4. exact H5.
Qed.

Lemma alloc_result c acct h live size multi leaf act h' res : good c -> reach c acct h live ->
  allowed c live (Alloc size multi leaf act) -> step h (Alloc size multi leaf act) = Some (h', res) ->
  match res with
  | Some r => size <= snd r /\ 0 <= fst r /\ fst r + block_of c size <= total c /\ (block_of c size | fst r) /\
      snd r = (if multi then size else block_of c size) /\ forall b, In b live -> disjoint b r
  | None => total c < size \/ crowded c live (block_of c size)
  end.
Proof.
  intros G R A S. destruct (step_sim c h live _ G (reach_inv _ _ _ _ G R) A) as (h2 & r2 & E & _ & K & _). rewrite S in E. injection E as <- <-.
  exact K.
Qed.

Lemma no_assert c acct h live o : good c -> reach c acct h live -> allowed c live o -> step h o <> None.
Proof.
  intros G R A. destruct (step_sim c h live _ G (reach_inv _ _ _ _ G R) A) as (h2 & r2 & E & _). congruence.
Qed.

Lemma alloc_succeeds c acct h live size multi leaf act h' res off : good c -> reach c acct h live ->
  allowed c live (Alloc size multi leaf act) -> step h (Alloc size multi leaf act) = Some (h', res) ->
  0 <= off -> off + block_of c size <= total c -> (block_of c size | off) ->
  (forall b, In b live -> disjoint b (off, block_of c size)) -> res <> None.
Proof.
  intros G R A S H1 H2 H3 H4 ->. destruct (alloc_result c acct h live size multi leaf act h' None G R A S) as [K|K].
  - pose proof (Z.log2_up_nonneg size). destruct A as (Hs & _).
    assert (size <= block_of c size).
    { unfold block_of. destruct (Z.eq_dec size 1) as [->|N]; [cbn; lia|]. pose proof (Z.log2_up_spec size ltac:(lia)). lia. }
    lia.
  - destruct (K off H1 H2 H3) as (b & B1 & B2). apply B2, H4, B1.
Qed.

Lemma empty_again c acct h : good c -> reach c acct h [] -> forall i, 0 <= i < 2 ^ Z.of_nat (S (cK c)) - 1 -> nd h i = zero_node.
Proof.
  intros G R i Hi. apply reach_inv in R; [|exact G]. destruct R as (_ & t & R & W & P).
  assert (T : t = TF).
  { apply Permutation_sym, Permutation_nil in P. eapply blocks_nil; eauto using rep_fits. }
  subst t. apply R, sub_root_iff, Hi.
Qed.

Lemma size_found c acct h live off b : good c -> reach c acct h live -> In (off, b) live -> calculate_block_size h off = Some b.
Proof.
  intros G R Hb. apply reach_inv in R; [|exact G]. destruct R as ((C1 & C2 & C3 & C4) & t & R & W & P). assert (Ha : 0 <= ca c) by (destruct G; tauto).
  unfold calculate_block_size. rewrite C2, total_psz. eapply block_size_sim; eauto; [rewrite C3; apply minimum_psz|destruct G as (_ & _ & ? & _); lia|].
  apply (Permutation_in _ (Permutation_sym P)), Hb.
Qed.

Lemma free_result c acct h live off usize multi sp h' res : good c -> reach c acct h live ->
  allowed c live (Free off usize multi sp) -> step h (Free off usize multi sp) = Some (h', res) ->
  exists s, res = Some (off, s) /\ (multi = true -> s = usize) /\ (multi = false -> sp = false -> In (off, s) live).
Proof.
  intros G R A S. destruct (step_sim c h live _ G (reach_inv _ _ _ _ G R) A) as (h2 & r2 & E & _ & K & _). rewrite S in E. injection E as <- <-.
  destruct res as [[o s]|]; [|destruct K]. destruct K as (K1 & K2 & K3 & _). cbn [fst snd] in *. subst o. exists s. auto.
Qed.

Lemma mem_bounds c h live : good c -> reach c true h live -> 0 <= mem h <= total c.
Proof.
  intros G R. rewrite (reach_exact c h live G R). apply reach_inv in R; [|exact G]. destruct R as (_ & t & R & W & P).
  rewrite <- (sum_perm _ _ P). assert (Ha : 0 <= ca c) by (destruct G; tauto). rewrite total_psz. apply rep_fits in R. clear - R Ha.
  assert (GG : forall t k base, fits k t -> 0 <= sum_sizes (blocks (ca c) k base t) <= psz (ca c) k).
  { clear R. induction t0 as [| |l IHl r IHr]; intros k base F; cbn [blocks].
    - cbn. pose proof (psz_pos (ca c) k Ha). lia.
    - cbn. pose proof (psz_pos (ca c) k Ha). lia.
    - destruct k as [|k]; [destruct F|]. destruct F as [F1 F2]. cbn [blocks]. rewrite sum_app, psz_S by assumption.
      pose proof (IHl k base F1). pose proof (IHr k (base + psz (ca c) k) F2). lia. }
  apply GG, R.
Qed.

(** ** Counterexamples, on a heap of 256 bytes with blocks of at least 32 *)
Definition c0 : cfg := mk_cfg 32 5 3.
Lemma good_c0 : good c0.
Proof. unfold good, c0. cbn. lia. Qed.

Definition run (h : heap) (o : op) : heap := match step h o with Some (h', _) => h' | None => h end.
Definition h0 : heap := heap_init 32 256 32.

Lemma whole_heap : exists h, reach c0 true h [(0, 256)] /\
  step h (Free 0 256 false false) = None /\ step h (Free 0 0 false false) = None /\ step h (Free 0 256 true true) = None.
Proof.
  exists (run h0 (Alloc 200 false 0 true)). split.
  - refine (reach_step c0 true h0 [] (Alloc 200 false 0 true) _ (Some (0, 256)) (reach_init _ _) _ _ _).
    + cbn. repeat split; try lia; discriminate.
    + reflexivity.
    + vm_compute. reflexivity.
  - vm_compute. auto.
Qed.

Lemma freeable_c0 off e live : 5 <= e < 8 -> 0 <= off -> off + 2 ^ e <= 256 -> off mod 2 ^ e = 0 ->
  existsb (fun b => inside b (off, 2 ^ e)) live = true ->
  forallb (fun b => inside b (off, 2 ^ e) || (fst b + snd b <=? off) || (off + 2 ^ e <=? fst b)) live = true ->
  freeable c0 live (off, 2 ^ e).
Proof.
  intros H1 H2 H3 H4 H5 H6. unfold freeable. cbn [fst snd]. split; [exists e; cbn; split; [lia|reflexivity]|].
  split; [exact H2|]. split; [exact H3|]. split; [apply Z.mod_divide; [lia|exact H4]|].
  apply existsb_exists in H5. split; [exact H5|]. rewrite forallb_forall in H6. intros b Hb. apply H6 in Hb.
  rewrite !orb_true_iff in Hb. unfold disjoint. cbn [fst snd]. rewrite !Z.leb_le in Hb. tauto.
Qed.

Lemma split_drift : exists h, reach c0 false h [] /\ mem h = 128.
Proof.
  set (h1 := run h0 (Alloc 128 false 64 true)). exists (run h1 (Free 0 128 false true)). split; [|vm_compute; reflexivity].
  assert (R1 : reach c0 false h1 [(0, 64); (64, 64)]).
  { refine (reach_step c0 false h0 [] (Alloc 128 false 64 true) _ (Some (0, 128)) (reach_init _ _) _ _ _).
    - cbn. repeat split; try lia; try discriminate. right. exists 6. repeat split; try lia. vm_compute. congruence.
    - discriminate.
    - vm_compute. reflexivity. }
  refine (reach_step c0 false h1 _ (Free 0 128 false true) _ (Some (0, 128)) R1 _ _ _).
  - split; [vm_compute; split; congruence|]. apply (freeable_c0 0 7); try lia; reflexivity.
  - discriminate.
  - vm_compute. reflexivity.
Qed.

Lemma virtual_drift : exists h, reach c0 false h [] /\ mem h = -64.
Proof.
  set (h1 := run h0 (Alloc 64 false 0 false)). exists (run h1 (Free 0 64 false false)). split; [|vm_compute; reflexivity].
  assert (R1 : reach c0 false h1 [(0, 64)]).
  { refine (reach_step c0 false h0 [] (Alloc 64 false 0 false) _ (Some (0, 64)) (reach_init _ _) _ _ _).
    - cbn. repeat split; try lia; discriminate.
    - discriminate.
    - vm_compute. reflexivity. }
  refine (reach_step c0 false h1 _ (Free 0 64 false false) _ (Some (0, 64)) R1 _ _ _).
  - exists 64. split; [left; reflexivity|]. split; [vm_compute; congruence|]. right. split; [lia|reflexivity].
  - discriminate.
  - vm_compute. reflexivity.
Qed.

(** A range of live blocks that is not aligned to its biggest binary digit *)
Lemma unaligned_range : exists h, reach c0 true h [(0, 32); (32, 32); (64, 32); (96, 32)] /\
  step h (Free 32 64 true true) = None.
Proof.
  exists (run h0 (Alloc 128 false 32 true)). split; [|vm_compute; reflexivity].
  refine (reach_step c0 true h0 [] (Alloc 128 false 32 true) _ (Some (0, 128)) (reach_init _ _) _ _ _).
  - cbn. repeat split; try lia; try discriminate. right. exists 5. repeat split; lia.
  - reflexivity.
  - vm_compute. reflexivity.
Qed.

(** Multi-step allocation of a size that is no multiple of the minimum block
    writes node 415 of a metadata array of 15 nodes *)
Lemma odd_multi : exists h, step h0 (Alloc 161 true 0 true) = Some (h, Some (0, 161)) /\ nd h 415 <> zero_node.
Proof. eexists. split; [vm_compute; reflexivity|]. vm_compute. discriminate. Qed.

Lemma metadata_only c acct h live i : good c -> reach c acct h live -> ~ (0 <= i < 2 ^ Z.of_nat (S (cK c)) - 1) -> nd h i = zero_node.
Proof. intros G R H. apply reach_inv in R; [|exact G]. destruct R as ((_ & _ & _ & C4) & _). apply C4. intros Q. apply H, sub_root_iff, Q. Qed.
