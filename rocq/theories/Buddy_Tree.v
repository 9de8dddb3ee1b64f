(** The metadata array of a buddy heap represents a binary tree. *)
From Coq Require Import Permutation.
From Verif Require Import Lib Bits Buddy_Model.

Inductive tree := TF | TU | TS (l r : tree).

Fixpoint tfull (t : tree) : bool :=
  match t with TF => false | TU => true | TS l r => tfull l && tfull r end.

(** Rows below node [n], and all the nodes within [k] levels *)
Definition row (n : Z) (d : nat) (i : Z) : Prop := (n + 1) * 2 ^ Z.of_nat d <= i + 1 < (n + 2) * 2 ^ Z.of_nat d.
Definition sub (n : Z) (k : nat) (i : Z) : Prop := exists d, (d <= k)%nat /\ row n d i.

Definition clean (ns : nodes) (n : Z) (k : nat) : Prop := forall i, sub n k i -> ns i = zero_node.

Fixpoint rep (ns : nodes) (n : Z) (k : nat) (t : tree) {struct t} : Prop :=
  match t with
  | TF => clean ns n k
  | TU => ns n = mk_node false true /\ forall i, sub n k i -> i <> n -> ns i = zero_node
  | TS l r =>
      match k with
      | O => False
      | S k' => ns n = mk_node true (tfull l && tfull r) /\ rep ns (left n) k' l /\ rep ns (right n) k' r
      end
  end.

(** No two free buddies *)
Fixpoint wf (t : tree) : Prop :=
  match t with
  | TS l r => wf l /\ wf r /\ ~ (l = TF /\ r = TF)
  | _ => True
  end.

(** ** Node numbers *)
Lemma pow2S d : 2 ^ Z.of_nat (S d) = 2 * 2 ^ Z.of_nat d.
Proof. rewrite Nat2Z.inj_succ. apply Z.pow_succ_r. lia. Qed.
Lemma pow2pos d : 0 < 2 ^ Z.of_nat d.
Proof. apply Z.pow_pos_nonneg; lia. Qed.

Lemma row_0 n i : row n 0 i <-> i = n.
Proof. unfold row. change (2 ^ Z.of_nat 0) with 1. lia. Qed.

Lemma row_S n d i : row n (S d) i <-> row (left n) d i \/ row (right n) d i.
Proof. unfold row, left, right. rewrite pow2S. pose proof (pow2pos d). nia. Qed.

Lemma row_ge n d i : 0 <= n -> row n d i -> n <= i.
Proof. unfold row. intros Hn H. pose proof (pow2pos d). nia. Qed.

Lemma sub_self n k : sub n k n.
Proof. exists 0%nat. split; [lia|apply row_0; reflexivity]. Qed.

Lemma sub_ge n k i : 0 <= n -> sub n k i -> n <= i.
Proof. intros Hn (d & _ & H). eapply row_ge; eauto. Qed.

Lemma sub_S n k i : sub n (S k) i <-> i = n \/ sub (left n) k i \/ sub (right n) k i.
Proof.
  split.
  - intros (d & Hd & H). destruct d as [|d]; [left; apply row_0, H|]. right.
    apply row_S in H. destruct H; [left|right]; exists d; (split; [lia|assumption]).
  - intros [->|[(d & Hd & H)|(d & Hd & H)]]; [apply sub_self| |]; exists (S d); (split; [lia|apply row_S; auto]).
Qed.

Lemma sub_0 n i : sub n 0 i <-> i = n.
Proof.
  split; [|intros ->; apply sub_self]. intros (d & Hd & H). assert (d = 0)%nat by lia. subst d. apply row_0, H.
Qed.

Lemma sub_lr p k1 k2 i : 0 <= p -> sub (left p) k1 i -> sub (right p) k2 i -> False.
Proof.
  intros Hp (d1 & _ & H1) (d2 & _ & H2). unfold row, left, right in *.
  pose proof (pow2pos d1). pose proof (pow2pos d2).
  destruct (lt_eq_lt_dec d1 d2) as [[L|E]|L].
  - assert (2 ^ Z.of_nat d1 < 2 ^ Z.of_nat d2) by (apply Z.pow_lt_mono_r; lia). nia.
  - subst. nia.
  - assert (2 * 2 ^ Z.of_nat d2 <= 2 ^ Z.of_nat d1).
    { rewrite <- pow2S. apply Z.pow_le_mono_r; lia. }
    nia.
Qed.

Lemma parent_left p : parent (left p) = p.
Proof. unfold parent, left. replace (2 * p + 1 - 1) with (p * 2) by lia. rewrite Z.shiftr_div_pow2 by lia. change (2^1) with 2. apply Z.div_mul. lia. Qed.
Lemma parent_right p : parent (right p) = p.
Proof.
  unfold parent, right. rewrite Z.shiftr_div_pow2 by lia. change (2^1) with 2.
  replace (2 * p + 2 - 1) with (1 + p * 2) by lia. rewrite Z.div_add by lia. reflexivity.
Qed.

(** ** Representation *)
Lemma rep_ext ns ns' t : forall n k, (forall i, sub n k i -> ns' i = ns i) -> rep ns n k t -> rep ns' n k t.
Proof.
  induction t as [| |l IHl r IHr]; cbn [rep]; intros n k E R.
  - intros i Hi. rewrite E by assumption. apply R, Hi.
  - destruct R as [R1 R2]. split; [rewrite E by apply sub_self; exact R1|].
    intros i Hi N. rewrite E by assumption. apply R2; assumption.
  - destruct k as [|k]; [exact R|]. destruct R as (R1 & R2 & R3). split; [rewrite E by apply sub_self; exact R1|].
    split; [apply IHl|apply IHr]; auto; intros i Hi; apply E, sub_S; auto.
Qed.

Lemma rep_full ns n k t : rep ns n k t -> nfull (ns n) = tfull t.
Proof.
  destruct t; cbn [rep tfull].
  - intros H. rewrite (H n (sub_self n k)). reflexivity.
  - intros [H _]. rewrite H. reflexivity.
  - destruct k; [tauto|]. intros (H & _). rewrite H. reflexivity.
Qed.

Lemma rep_split ns n k t : rep ns n k t -> nsplit (ns n) = match t with TS _ _ => true | _ => false end.
Proof.
  destruct t; cbn [rep tfull].
  - intros H. rewrite (H n (sub_self n k)). reflexivity.
  - intros [H _]. rewrite H. reflexivity.
  - destruct k; [tauto|]. intros (H & _). rewrite H. reflexivity.
Qed.

Lemma rep_is_free ns n k t : rep ns n k t -> is_free (ns n) = match t with TF => true | _ => false end.
Proof.
  intros R. unfold is_free. rewrite (rep_full _ _ _ _ R), (rep_split _ _ _ _ R). destruct t; cbn; auto.
Qed.

Lemma clean_children ns n k : clean ns n (S k) -> clean ns (left n) k /\ clean ns (right n) k.
Proof. intros H. split; intros i Hi; apply H, sub_S; auto. Qed.

(** ** Blocks: address and size *)
Definition psz (a : Z) (k : nat) : Z := 2 ^ (a + Z.of_nat k).
Lemma psz_S a k : 0 <= a -> psz a (S k) = 2 * psz a k.
Proof. intros H. unfold psz. rewrite Nat2Z.inj_succ, <- Z.add_succ_comm, <- Z.pow_succ_r by lia. f_equal. lia. Qed.
Lemma psz_pos a k : 0 <= a -> 0 < psz a k.
Proof. intros. apply Z.pow_pos_nonneg; lia. Qed.
Lemma psz_half a k : 0 <= a -> psz a (S k) / 2 = psz a k.
Proof. intros. rewrite psz_S by assumption. rewrite Z.mul_comm. apply Z.div_mul. lia. Qed.
Lemma psz_add a k d : 0 <= a -> psz a (k + d) = 2 ^ Z.of_nat d * psz a k.
Proof. intros. unfold psz. rewrite <- Z.pow_add_r by lia. f_equal. lia. Qed.
Lemma psz_le a j k : 0 <= a -> (j <= k)%nat <-> psz a j <= psz a k.
Proof. intros. unfold psz. rewrite <- Z.pow_le_mono_r_iff by lia. lia. Qed.
Lemma psz_lt a j k : 0 <= a -> (j < k)%nat <-> psz a j < psz a k.
Proof. intros. unfold psz. rewrite <- Z.pow_lt_mono_r_iff by lia. lia. Qed.
Lemma psz_inj a j k : 0 <= a -> psz a j = psz a k -> j = k.
Proof. intros H E. assert (psz a j <= psz a k) by lia. assert (psz a k <= psz a j) by lia. apply psz_le in H0, H1; lia. Qed.

Fixpoint blocks (a : Z) (k : nat) (base : Z) (t : tree) {struct t} : list (Z * Z) :=
  match t with
  | TF => []
  | TU => [(base, psz a k)]
  | TS l r => match k with O => [] | S k' => blocks a k' base l ++ blocks a k' (base + psz a k') r end
  end.

(** A tree fits [k] levels *)
Fixpoint fits (k : nat) (t : tree) {struct t} : Prop :=
  match t with TS l r => match k with O => False | S k' => fits k' l /\ fits k' r end | _ => True end.

Lemma rep_fits ns t : forall n k, rep ns n k t -> fits k t.
Proof. induction t; cbn; auto. intros n [|k]; [tauto|]. intros (_ & R1 & R2). eauto. Qed.

Lemma blocks_in a t : 0 <= a -> forall k base x s, In (x, s) (blocks a k base t) ->
  base <= x /\ x + s <= base + psz a k /\ exists j p, (j <= k)%nat /\ s = psz a j /\ x = base + p * psz a j.
Proof.
  intros Ha. induction t as [| |l IHl r IHr]; cbn [blocks]; intros k base x s H.
  - destruct H.
  - destruct H as [E|[]]. inversion E; subst. split; [lia|]. split; [lia|]. exists k, 0. split; [lia|]. split; [reflexivity|lia].
  - destruct k as [|k]; [destruct H|]. rewrite psz_S by assumption. pose proof (psz_pos a k Ha).
    apply in_app_iff in H. destruct H as [H|H].
    + apply IHl in H. destruct H as (H1 & H2 & j & p & H3 & H4 & H5). split; [lia|]. split; [lia|]. exists j, p. repeat split; auto; lia.
    + apply IHr in H. destruct H as (H1 & H2 & j & p & H3 & H4 & H5). split; [lia|]. split; [lia|].
      exists j, (2 ^ Z.of_nat (k - j) + p). split; [lia|]. split; [exact H4|]. rewrite H5.
      replace k with (j + (k - j))%nat at 1 by lia. rewrite psz_add by assumption. lia.
Qed.

Lemma blocks_nil a t k base : wf t -> fits k t -> blocks a k base t = [] -> t = TF.
Proof.
  revert k base. induction t as [| |l IHl r IHr]; cbn [wf blocks fits]; intros k base W F E; [reflexivity|discriminate|].
  destruct k as [|k]; [tauto|]. apply app_eq_nil in E. destruct E as [E1 E2]. destruct W as (W1 & W2 & W3), F.
  exfalso. apply W3. split; [eapply IHl|eapply IHr]; eauto.
Qed.

(** ** Contexts *)
Definition ctx := list (bool * tree).
Fixpoint plug (c : ctx) (t : tree) : tree :=
  match c with
  | [] => t
  | (true, sib) :: c' => plug c' (TS t sib)
  | (false, sib) :: c' => plug c' (TS sib t)
  end.
Fixpoint pos (c : ctx) : Z :=
  match c with
  | [] => 0
  | (true, _) :: c' => 2 * pos c'
  | (false, _) :: c' => 2 * pos c' + 1
  end.
Definition cnode (c : ctx) : Z := 2 ^ Z.of_nat (length c) - 1 + pos c.

Lemma pos_range c : 0 <= pos c < 2 ^ Z.of_nat (length c).
Proof.
  induction c as [|[[|] t] c IH]; [cbn; lia| |]; cbn [pos length]; rewrite pow2S; lia.
Qed.
Lemma cnode_nonneg c : 0 <= cnode c.
Proof. unfold cnode. pose proof (pos_range c). pose proof (pow2pos (length c)). lia. Qed.
Lemma cnode_left s c : cnode ((true, s) :: c) = left (cnode c).
Proof. unfold cnode, left. cbn [pos length]. rewrite pow2S. lia. Qed.
Lemma cnode_right s c : cnode ((false, s) :: c) = right (cnode c).
Proof. unfold cnode, right. cbn [pos length]. rewrite pow2S. lia. Qed.

(** Everything around the focus, whose full flag is [f] *)
Fixpoint rctx (ns : nodes) (k : nat) (c : ctx) (f : bool) : Prop :=
  match c with
  | [] => True
  | (true, sib) :: c' =>
      ns (cnode c') = mk_node true (f && tfull sib) /\ rep ns (right (cnode c')) k sib /\ rctx ns (S k) c' (f && tfull sib)
  | (false, sib) :: c' =>
      ns (cnode c') = mk_node true (tfull sib && f) /\ rep ns (left (cnode c')) k sib /\ rctx ns (S k) c' (tfull sib && f)
  end.

Lemma rep_plug c : forall ns k t,
  rep ns 0 (k + length c) (plug c t) <-> rep ns (cnode c) k t /\ rctx ns k c (tfull t).
Proof.
  induction c as [|[[|] s] c IH]; intros ns k t.
  - cbn. rewrite Nat.add_0_r. unfold cnode. cbn. tauto.
  - cbn [plug length rctx]. rewrite cnode_left. replace (k + S (length c))%nat with (S k + length c)%nat by lia.
    rewrite IH. cbn [rep tfull]. tauto.
  - cbn [plug length rctx]. rewrite cnode_right. replace (k + S (length c))%nat with (S k + length c)%nat by lia.
    rewrite IH. cbn [rep tfull]. tauto.
Qed.

(** The context lives outside the focus *)
Lemma sub_up p k i (b : bool) : 0 <= p -> sub (if b then left p else right p) k i -> sub p (S k) i /\ p < i.
Proof.
  intros Hp H. split; [apply sub_S; destruct b; auto|].
  destruct b; apply sub_ge in H; unfold left, right in *; lia.
Qed.

Lemma rctx_ext c : forall ns ns' k f,
  (forall i, ~ sub (cnode c) k i -> ns' i = ns i) -> rctx ns k c f -> rctx ns' k c f.
Proof.
  induction c as [|[[|] s] c IH]; intros ns ns' k f E R; [exact Logic.I| |].
  - rewrite cnode_left in E. destruct R as (R1 & R2 & R3). pose proof (cnode_nonneg c) as P. cbn [rctx].
    split; [rewrite E; [exact R1|]|split].
    + intros H. apply sub_ge in H; unfold left in *; lia.
    + apply rep_ext with ns; [|exact R2]. intros i Hi. apply E. intros H. eapply sub_lr; eauto.
    + apply IH with ns; [|exact R3]. intros i Hi. apply E. intros H. apply Hi, sub_S. auto.
  - rewrite cnode_right in E. destruct R as (R1 & R2 & R3). pose proof (cnode_nonneg c) as P. cbn [rctx].
    split; [rewrite E; [exact R1|]|split].
    + intros H. apply sub_ge in H; unfold right in *; lia.
    + apply rep_ext with ns; [|exact R2]. intros i Hi. apply E. intros H. eapply sub_lr; eauto.
    + apply IH with ns; [|exact R3]. intros i Hi. apply E. intros H. apply Hi, sub_S. auto.
Qed.

(** Blocks of a plugged tree: the focus is at [pos c * psz a k] *)
Lemma blocks_plug a c : 0 <= a -> forall k, exists R,
  (forall t, Permutation (blocks a (k + length c) 0 (plug c t)) (blocks a k (pos c * psz a k) t ++ R)) /\
  (forall b, In b R -> fst b + snd b <= pos c * psz a k \/ pos c * psz a k + psz a k <= fst b).
Proof.
  intros Ha. induction c as [|[[|] s] c IH]; intros k.
  - exists []. split; [|intros b []]. intros t. cbn. rewrite Nat.add_0_r, app_nil_r. reflexivity.
  - destruct (IH (S k)) as (R & HR & HD). exists (blocks a k ((2 * pos c + 1) * psz a k) s ++ R).
    rewrite psz_S in HD by assumption. cbn [pos]. split.
    + intros t. cbn [plug length]. replace (k + S (length c))%nat with (S k + length c)%nat by lia.
      rewrite HR. cbn [blocks]. rewrite psz_S by assumption. rewrite app_assoc.
      apply Permutation_app_tail. replace (pos c * (2 * psz a k)) with (2 * pos c * psz a k) by lia.
      replace ((2 * pos c + 1) * psz a k) with (2 * pos c * psz a k + psz a k) by lia. reflexivity.
    + intros [x z] Hb. apply in_app_iff in Hb. destruct Hb as [Hb|Hb]; [|apply HD in Hb; pose proof (psz_pos a k Ha); lia].
      apply blocks_in in Hb; [|assumption]. cbn [fst snd]. lia.
  - destruct (IH (S k)) as (R & HR & HD). exists (blocks a k (2 * pos c * psz a k) s ++ R).
    rewrite psz_S in HD by assumption. cbn [pos]. split.
    + intros t. cbn [plug length]. replace (k + S (length c))%nat with (S k + length c)%nat by lia.
      rewrite HR. cbn [blocks]. rewrite psz_S by assumption. rewrite app_assoc.
      apply Permutation_app_tail. replace (pos c * (2 * psz a k)) with (2 * pos c * psz a k) by lia.
      replace ((2 * pos c + 1) * psz a k) with (2 * pos c * psz a k + psz a k) by lia. apply Permutation_app_comm.
    + intros [x z] Hb. apply in_app_iff in Hb. destruct Hb as [Hb|Hb]; [|apply HD in Hb; pose proof (psz_pos a k Ha); lia].
      apply blocks_in in Hb; [|assumption]. cbn [fst snd]. lia.
Qed.

Lemma blocks_plug_ext a c : forall k t t', (forall b, blocks a k b t = blocks a k b t') ->
  blocks a (k + length c) 0 (plug c t) = blocks a (k + length c) 0 (plug c t').
Proof.
  induction c as [|[[|] s] c IH]; intros k t t' E; cbn [plug length]; [rewrite Nat.add_0_r; apply E| |];
    replace (k + S (length c))%nat with (S k + length c)%nat by lia; apply IH; intros b; cbn [blocks]; rewrite E; reflexivity.
Qed.

Lemma plug_snoc c d s t : plug (c ++ [(d, s)]) t = if (d : bool) then TS (plug c t) s else TS s (plug c t).
Proof. revert t. induction c as [|[[|] s'] c IH]; intros t; cbn; [destruct d; reflexivity| |]; apply IH. Qed.
Lemma plug_app c1 c2 t : plug (c1 ++ c2) t = plug c2 (plug c1 t).
Proof. revert t. induction c1 as [|[[|] s] c1 IH]; intros t; cbn; [reflexivity| |]; apply IH. Qed.
Lemma pos_app c1 c2 : pos (c1 ++ c2) = pos c2 * 2 ^ Z.of_nat (length c1) + pos c1.
Proof.
  induction c1 as [|[[|] s] c1 IH]; [cbn; lia| |];
    change (((_, s) :: c1) ++ c2) with ((true, s) :: (c1 ++ c2)) || change (((_, s) :: c1) ++ c2) with ((false, s) :: (c1 ++ c2));
    cbn [pos length]; rewrite IH, pow2S; lia.
Qed.
Lemma pos_snoc c d s : pos (c ++ [(d, s)]) = if (d : bool) then pos c else 2 ^ Z.of_nat (length c) + pos c.
Proof. rewrite pos_app. destruct d; cbn [pos]; lia. Qed.
Lemma tfull_plug c t t' : tfull t = tfull t' -> tfull (plug c t) = tfull (plug c t').
Proof. revert t t'. induction c as [|[[|] s] c IH]; intros t t' E; cbn [plug]; [exact E| |]; apply IH; cbn; rewrite E; reflexivity. Qed.

(** Blocks do not overlap *)
Lemma blocks_nodup a t : 0 <= a -> forall k base, NoDup (blocks a k base t).
Proof.
  intros Ha. induction t as [| |l IHl r IHr]; intros k base; cbn [blocks]; [constructor|repeat constructor; auto|].
  destruct k as [|k]; [constructor|].
  assert (G : forall l1 l2 : list (Z * Z), NoDup l1 -> NoDup l2 -> (forall b, In b l1 -> In b l2 -> False) -> NoDup (l1 ++ l2)).
  { clear. induction l1 as [|x l1 IH]; intros l2 N1 N2 D; [exact N2|]. apply NoDup_cons_iff in N1. destruct N1 as [N0 N1].
    cbn. constructor; [rewrite in_app_iff; intros [H|H]; [auto|]; apply (D x); cbn; auto|apply IH; auto].
    intros b H1 H2. apply (D b); cbn; auto. }
  apply G; auto. intros [x s] H1 H2. apply blocks_in in H1, H2; try assumption.
  destruct H1 as (A & B & j & p & _ & E & _). destruct H2 as (C & _). pose proof (psz_pos a j Ha). lia.
Qed.
Lemma blocks_disjoint a t : 0 <= a -> forall k base b1 b2, In b1 (blocks a k base t) -> In b2 (blocks a k base t) -> b1 <> b2 ->
  fst b1 + snd b1 <= fst b2 \/ fst b2 + snd b2 <= fst b1.
Proof.
  intros Ha. induction t as [| |l IHl r IHr]; intros k base [x1 s1] [x2 s2] H1 H2 N; cbn [blocks] in *; [destruct H1| |].
  - destruct H1 as [E1|[]], H2 as [E2|[]]. congruence.
  - destruct k as [|k]; [destruct H1|]. apply in_app_iff in H1, H2. destruct H1 as [H1|H1], H2 as [H2|H2]; eauto;
      apply blocks_in in H1, H2; try assumption; cbn [fst snd]; lia.
Qed.
Lemma block_whole a t j base : 0 <= a -> In (base, psz a j) (blocks a j base t) -> t = TU.
Proof.
  intros Ha H. destruct t as [| |l r]; [destruct H|reflexivity|]. exfalso. cbn [blocks] in H. destruct j as [|j]; [destruct H|].
  rewrite psz_S in H by assumption. pose proof (psz_pos a j Ha). apply in_app_iff in H.
  destruct H as [H|H]; apply blocks_in in H; try assumption; lia.
Qed.

(** The subtree of a range that contains a block *)
Lemma locate a k : 0 <= a -> forall d t base p, fits (k + d) t -> 0 <= p < 2 ^ Z.of_nat d ->
  (exists b, In b (blocks a (k + d) base t) /\ base + p * psz a k <= fst b /\ fst b + snd b <= base + (p + 1) * psz a k) ->
  exists c t0, t = plug c t0 /\ length c = d /\ pos c = p /\ t0 <> TF.
Proof.
  intros Ha. induction d as [|d IH]; intros t base p F Hp ([x s] & B & B1 & B2); cbn [fst snd] in *.
  - exists [], t. change (2 ^ Z.of_nat 0) with 1 in Hp. split; [reflexivity|]. split; [reflexivity|]. split; [cbn; lia|].
    intros ->. destruct B.
  - rewrite pow2S in Hp. replace (k + S d)%nat with (S (k + d)) in * by lia.
    pose proof (blocks_in a t Ha _ _ _ _ B) as (I1 & I2 & j & q & _ & E & _). pose proof (psz_pos a j Ha).
    pose proof (psz_add a k d Ha) as Pd. pose proof (psz_pos a k Ha). pose proof (pow2pos d).
    destruct t as [| |l r]; [destruct B| |].
    + exfalso. cbn [blocks] in B. destruct B as [B|[]]. assert (base = x) by congruence. assert (Es : s = psz a (S (k + d))) by congruence. rewrite Es, psz_S in B2 by assumption. nia.
    + cbn [blocks fits] in *. destruct F as [Fl Fr]. apply in_app_iff in B. destruct (Z_lt_le_dec p (2 ^ Z.of_nat d)) as [L|L].
      * destruct B as [B|B].
        -- destruct (IH l base p Fl) as (c & t0 & E1 & E2 & E3 & E4); [lia|exists (x, s); auto|].
           exists (c ++ [(true, r)]), t0. rewrite plug_snoc, pos_snoc, app_length. cbn [length]. subst. split; [reflexivity|]. split; [lia|auto].
        -- exfalso. apply blocks_in in B; [|assumption]. nia.
      * destruct B as [B|B].
        -- exfalso. apply blocks_in in B; [|assumption]. nia.
        -- destruct (IH r (base + psz a (k + d)) (p - 2 ^ Z.of_nat d) Fr) as (c & t0 & E1 & E2 & E3 & E4); [lia|exists (x, s); cbn [fst snd]; split; [exact B|rewrite Pd; lia]|].
           exists (c ++ [(false, l)]), t0. rewrite plug_snoc, pos_snoc, app_length. cbn [length]. subst. split; [reflexivity|]. split; [lia|]. split; [lia|auto].
Qed.

(** ** wf *)
Lemma wf_plug c : forall t, wf (plug c t) -> wf t.
Proof. induction c as [|[[|] s] c IH]; intros t H; [exact H| |]; apply IH in H; cbn in H; tauto. Qed.
Lemma wf_plug_swap c : forall t t', wf (plug c t) -> wf t' -> t' <> TF -> wf (plug c t').
Proof.
  induction c as [|[[|] s] c IH]; intros t t' H W N; [exact W| |]; cbn [plug] in *.
  - apply IH with (TS t s); [exact H| |discriminate]. apply wf_plug in H. cbn in *. intuition.
  - apply IH with (TS s t); [exact H| |discriminate]. apply wf_plug in H. cbn in *. intuition.
Qed.

(** Free the focus: merge free buddies upwards *)
Fixpoint join (c : ctx) : tree :=
  match c with
  | [] => TF
  | (true, TF) :: c0 => join c0
  | (false, TF) :: c' => join c'
  | (true, s) :: c' => plug c' (TS TF s)
  | (false, s) :: c' => plug c' (TS s TF)
  end.

Lemma wf_join c : forall t, t <> TF -> wf (plug c t) -> wf (join c).
Proof.
  induction c as [|[[|] s] c IH]; intros t N W; cbn [join]; [exact Logic.I| |]; cbn [plug] in W.
  - assert (Ws := wf_plug _ _ W). cbn in Ws.
    destruct s; [apply IH in W; [exact W|discriminate]| |];
    (eapply wf_plug_swap; [exact W| |discriminate]); cbn in *; intuition discriminate.
  - assert (Ws := wf_plug _ _ W). cbn in Ws.
    destruct s; [apply IH in W; [exact W|discriminate]| |];
    (eapply wf_plug_swap; [exact W| |discriminate]); cbn in *; intuition discriminate.
Qed.

Lemma blocks_join a c : 0 <= a -> forall k, blocks a (k + length c) 0 (join c) = blocks a (k + length c) 0 (plug c TF).
Proof.
  intros Ha. induction c as [|[[|] s] c IH]; intros k; cbn [join plug length]; [reflexivity| |];
    replace (k + S (length c))%nat with (S k + length c)%nat by lia; destruct s; try reflexivity; rewrite IH;
    symmetry; apply blocks_plug_ext; auto.
Qed.

(** ** The metadata array has [2^(K+1) - 1] nodes *)
Lemma sub_root_iff k i : sub 0 k i <-> 0 <= i < 2 ^ Z.of_nat (S k) - 1.
Proof.
  split.
  - intros (d & Hd & H). unfold row in H. assert (2 ^ Z.of_nat (S d) <= 2 ^ Z.of_nat (S k)) by (apply Z.pow_le_mono_r; lia).
    rewrite (pow2S d) in *. pose proof (pow2pos d). lia.
  - intros H. exists (Z.to_nat (Z.log2 (i + 1))). pose proof (Z.log2_nonneg (i + 1)). unfold row.
    assert (S0 := Z.log2_spec (i + 1) ltac:(lia)). split.
    + assert (Z.log2 (i + 1) < Z.of_nat (S k)) by (apply Z.log2_lt_pow2; lia). lia.
    + rewrite Z2Nat.id by lia. rewrite <- Z.add_1_r, Z.pow_add_r in S0 by lia. change (2 ^ 1) with 2 in S0. lia.
Qed.
Lemma sub_cnode c k i : sub (cnode c) k i -> sub 0 (k + length c) i.
Proof.
  revert k. induction c as [|[[|] s] c IH]; intros k H.
  - rewrite Nat.add_0_r. exact H.
  - cbn [length]. rewrite Nat.add_succ_r. apply (IH (S k)). apply sub_S. rewrite cnode_left in H. auto.
  - cbn [length]. rewrite Nat.add_succ_r. apply (IH (S k)). apply sub_S. rewrite cnode_right in H. auto.
Qed.
