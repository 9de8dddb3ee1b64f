From Verif Require Import Lib Card Ringbuf_Model Ringbuf_Spec Ringbuf_Proofs Pipe_Model Pipe_Spec.

(** ** The ring buffer as a byte queue *)
Definition brep (N : Z) (r : ringbuf) (c : list Z) : Prop := rep N 1 r (map (fun v => [v]) c).

Lemma concat_map1 (c : list Z) : concat (map (fun v => [v]) c) = c.
Proof. induction c; cbn; congruence. Qed.

Lemma brep_len N r c : brep N r c -> rb_elems r = zlen c /\ zlen c <= N /\ rb_max r = N.
Proof.
  intros (H1 & _ & _ & _ & _ & H2 & H3 & _). rewrite zlen_map in *. auto.
Qed.

Lemma brep_empty N r c : brep N r c -> (rb_is_empty r = true <-> c = []).
Proof.
  intros H. destruct (brep_len _ _ _ H) as (E & _ & _). unfold rb_is_empty. rewrite E.
  destruct c; [rewrite zlen_nil; intuition|]. rewrite zlen_cons. pose proof (zlen_nonneg c).
  split; [lia|discriminate].
Qed.

Lemma brep_full N r c : brep N r c -> (rb_is_full r = true <-> zlen c = N).
Proof. intros H. destruct (brep_len _ _ _ H) as (E & _ & M). unfold rb_is_full. rewrite E, M. lia. Qed.

Lemma brep_init N buf : 1 <= N <= 2147483648 -> zlen buf = N -> brep N (ringbuf_init N 1 buf) [].
Proof. intros HN Hb. apply rep_init; unfold M32; lia. Qed.

Lemma brep_read N r c len : 1 <= N <= 2147483648 -> brep N r c -> 0 <= len ->
  exists r', rb_read_bytes r len = Some (r', firstn (Z.to_nat len) c) /\ brep N r' (skipn (Z.to_nat len) c).
Proof.
  intros HN H Hl. destruct (step_sim N 1 r _ (OpReadBytes len) HN ltac:(lia) ltac:(unfold M32; lia) H ltac:(cbn; auto)) as (r' & E & R).
  cbn [rb_step fifo_step fst snd] in *. destruct (rb_read_bytes r len) as [[r1 out]|] eqn:Er; [|discriminate].
  injection E as <- Eo. exists r1. rewrite Eo, zlen_map, firstn_map, concat_map1.
  assert (K : firstn (Z.to_nat (Z.min len (zlen c))) c = firstn (Z.to_nat len) c).
  { destruct (Z_le_gt_dec len (zlen c)) as [L|L].
    - rewrite Z.min_l by lia. reflexivity.
    - rewrite Z.min_r by lia. rewrite !firstn_all2; [reflexivity| |]; unfold zlen in *; lia. }
  rewrite K. split; [reflexivity|]. unfold brep. rewrite zlen_map in R. rewrite skipn_map in R.
  assert (K2 : skipn (Z.to_nat (Z.min len (zlen c))) c = skipn (Z.to_nat len) c).
  { destruct (Z_le_gt_dec len (zlen c)) as [L|L].
    - rewrite Z.min_l by lia. reflexivity.
    - rewrite Z.min_r by lia. rewrite !skipn_all2; [reflexivity| |]; unfold zlen in *; lia. }
  rewrite K2 in R. exact R.
Qed.

Lemma brep_write N r c d : 1 <= N <= 2147483648 -> brep N r c ->
  let n := Z.min (zlen d) (N - zlen c) in
  exists r', rb_write_bytes r d = Some (r', n) /\ brep N r' (c ++ firstn (Z.to_nat n) d).
Proof.
  intros HN H n. destruct (step_sim N 1 r _ (OpWriteBytes d) HN ltac:(lia) ltac:(unfold M32; lia) H ltac:(cbn; auto)) as (r' & E & R).
  cbn [rb_step fifo_step fst snd] in *. destruct (rb_write_bytes r d) as [[r1 k]|] eqn:Er; [|discriminate].
  injection E as <- Eo. rewrite zlen_map in *. exists r1. subst k. split; [reflexivity|].
  unfold brep. rewrite map_app. exact R.
Qed.

Lemma skipn_app_exact (a b : list Z) : skipn (length a) (a ++ b) = b.
Proof. rewrite skipn_app, skipn_all, Nat.sub_diag. reflexivity. Qed.

(** ** Classes of program counters *)
Definition canNE (p : pc) : bool :=
  match p with RWait _ _ => true | PGo w | PChk w | PWait w | PInt w => negb w | _ => false end.
Definition mustNE (p : pc) : bool := match p with RWait _ _ => true | PWait w => negb w | _ => false end.
Definition canNF (p : pc) : bool :=
  match p with WWait _ _ => true | PGo w | PChk w | PWait w | PInt w => w | _ => false end.
Definition mustNF (p : pc) : bool := match p with WWait _ _ => true | PWait w => w | _ => false end.
Definition isC (w : bool) (p : pc) : bool := match p with CGo v => Bool.eqb v w | _ => false end.
Definition isRW (p : pc) : bool := match p with RWait _ _ => true | _ => false end.
Definition isWW (p : pc) : bool := match p with WWait _ _ => true | _ => false end.
Definition isP (p : pc) : bool := match p with PGo _ | PChk _ | PWait _ | PWake _ | PInt _ => true | _ => false end.
Definition ready_size (p : pc) : Prop :=
  match p with RGo n _ _ | RWait n _ => 0 < n | WGo d _ _ | WWait d _ => d <> [] | _ => True end.

Definition wl (can must : pc -> bool) (l : list Z) (f : Z -> pc) : Prop :=
  NoDup l /\ (forall t, In t l -> can (f t) = true) /\ (forall t, must (f t) = true -> In t l).

Definition hnd (w : bool) (s : pipe) : Z := if w then wh s else rh s.

Record base (N : Z) (s : pipe) (tr : list event) : Prop := {
  b_rep : exists c, brep N (rb s) c /\ written tr = delivered tr ++ c;
  b_ne : wl canNE mustNE (neq s) (ppc s);
  b_nf : wl canNF mustNF (nfq s) (ppc s);
  b_h : forall w, card (fun t => isC w (ppc s t)) (hnd w s - live w tr) /\ 0 <= live w tr;
  b_np : no_pollers tr -> forall t, isP (ppc s t) = false;
  b_sz : forall t, ready_size (ppc s t)
}.

Record inv (N : Z) (s : pipe) (tr : list event) : Prop := {
  i_base :> base N s tr;
  i_er : forall t, isRW (ppc s t) = true -> wh s <> 0;
  i_ew : forall t, isWW (ppc s t) = true -> rh s <> 0;
  i_xne : no_pollers tr -> rb_is_empty (rb s) = false -> neq s = [] \/ reader_coming s;
  i_xnf : no_pollers tr -> rb_is_full (rb s) = false -> nfq s = [] \/ writer_coming s
}.

Ltac sp := cbn [rb rh wh neq nfq ppc set_pc pq set_pq hnd] in *.

Lemma written_app a b : written (a ++ b) = fold_left written1 b (written a).
Proof. apply fold_left_app. Qed.
Lemma delivered_app a b : delivered (a ++ b) = fold_left delivered1 b (delivered a).
Proof. apply fold_left_app. Qed.
Lemma live_app w a b : live w (a ++ b) = fold_left (live1 w) b (live w a).
Proof. apply fold_left_app. Qed.
Lemma no_pollers_app a b : no_pollers (a ++ b) -> no_pollers a.
Proof. intros H t w K. apply (H t w). apply in_or_app. auto. Qed.

(** ** Wait lists *)
Lemma wl_keep can must l f t q : wl can must l f -> can q = true \/ ~ In t l -> must q = false \/ In t l ->
  wl can must l (fupd f t q).
Proof.
  intros (A & B & C) H1 H2. split; [exact A|]. split.
  - intros u Hu. unfold fupd. destruct (u =? t) eqn:E; [|auto]. assert (u = t) by lia. subst u. destruct H1; [assumption|contradiction].
  - intros u. unfold fupd. destruct (u =? t) eqn:E; [|auto]. assert (u = t) by lia. subst u. intros K. destruct H2; [congruence|assumption].
Qed.

Lemma wl_snoc can must l f t q : wl can must l f -> ~ In t l -> can q = true -> wl can must (l ++ [t]) (fupd f t q).
Proof.
  intros (A & B & C) N K. split; [apply NoDup_snoc; assumption|]. split.
  - intros u Hu. apply in_app_or in Hu. unfold fupd. destruct (u =? t) eqn:E; [exact K|].
    destruct Hu as [Hu|[Hu|[]]]; [auto|lia].
  - intros u. unfold fupd. destruct (u =? t) eqn:E.
    + intros _. apply in_or_app. right. left. lia.
    + intros Hu. apply in_or_app. left. auto.
Qed.

Lemma wl_unlink can must l f t q : wl can must l f -> must q = false -> wl can must (unlink t l) (fupd f t q).
Proof.
  intros (A & B & C) K. split; [apply NoDup_filter, A|]. split.
  - intros u Hu. apply filter_neq_in in Hu. destruct Hu. rewrite fupd_other by assumption. auto.
  - intros u. unfold fupd. destruct (u =? t) eqn:E; [congruence|]. intros Hu. apply filter_neq_in. split; [auto|lia].
Qed.

Lemma wl_tail can must l f t q : wl can must (t :: l) f -> must q = false -> wl can must l (fupd f t q).
Proof.
  intros H K. pose proof (wl_unlink _ _ _ _ t q H K) as W. destruct H as (A & _ & _). apply NoDup_cons_iff in A.
  unfold unlink in W. cbn [filter] in W. rewrite Z.eqb_refl in W. cbn [negb] in W.
  rewrite filter_neq_notin in W by apply A. exact W.
Qed.

Lemma wl_out can must l f t : wl can must l f -> can (f t) = false -> ~ In t l.
Proof. intros (_ & B & _) K H. apply B in H. congruence. Qed.

Lemma linked_iff t l : linked t l = true <-> In t l.
Proof.
  unfold linked. rewrite existsb_exists. split; [intros (x & H & E); assert (t = x) by lia; congruence|].
  intros H. exists t. split; [exact H|lia].
Qed.

(** ** One task moves *)
Lemma base_upd N s tr s' evs t q :
  base N s tr -> ppc s' = fupd (ppc s) t q ->
  (exists c, brep N (rb s') c /\ written (tr ++ evs) = delivered (tr ++ evs) ++ c) ->
  wl canNE mustNE (neq s') (fupd (ppc s) t q) -> wl canNF mustNF (nfq s') (fupd (ppc s) t q) ->
  (forall w, hnd w s' - live w (tr ++ evs) = hnd w s - live w tr + b2z (isC w q) - b2z (isC w (ppc s t)) /\
             0 <= live w (tr ++ evs)) ->
  (no_pollers (tr ++ evs) -> isP q = false) -> ready_size q ->
  base N s' (tr ++ evs).
Proof.
  intros B Ep Hr Hne Hnf Hh Hp Hsz. constructor.
  - exact Hr.
  - rewrite Ep. exact Hne.
  - rewrite Ep. exact Hnf.
  - intros w. destruct (Hh w) as [H1 H2]. split; [|exact H2]. destruct (b_h _ _ _ B w) as [C _].
    eapply (card_upd _ _ _ t); [| |exact C].
    + intros u Nu. cbn. rewrite Ep, fupd_other by assumption. reflexivity.
    + cbn. rewrite Ep, fupd_same. exact H1.
  - intros K u. rewrite Ep. unfold fupd. destruct (u =? t); [auto|]. apply (b_np _ _ _ B). eapply no_pollers_app, K.
  - intros u. rewrite Ep. unfold fupd. destruct (u =? t); [exact Hsz|]. apply B.
Qed.

Lemma rep_same N s tr evs : base N s tr ->
  (forall acc, fold_left written1 evs acc = acc) -> (forall acc, fold_left delivered1 evs acc = acc) ->
  exists c, brep N (rb s) c /\ written (tr ++ evs) = delivered (tr ++ evs) ++ c.
Proof.
  intros B H1 H2. destruct (b_rep _ _ _ B) as (c & C1 & C2). exists c. split; [exact C1|].
  rewrite written_app, delivered_app, H1, H2. exact C2.
Qed.

(** ** Signals *)
Lemma woken_facts p : mustNE (woken p) = false \/ mustNF p = true.
Proof. destruct p as [| | | | | |[]|[]|[]|[]|[]]; cbn; auto. Qed.

Lemma base_signal_ne N s tr : base N s tr -> base N (signal_ne s) tr.
Proof.
  intros B. unfold signal_ne. destruct (neq s) as [|t l] eqn:E; [exact B|].
  destruct (b_ne _ _ _ B) as (A1 & A2 & A3). assert (Ct : canNE (ppc s t) = true) by (apply A2; rewrite E; left; reflexivity).
  rewrite <- (app_nil_r tr). eapply (base_upd N s tr _ [] t (woken (ppc s t))); sp; try reflexivity.
  - exact B.
  - apply rep_same; auto.
  - eapply (wl_tail _ _ _ _ t); [rewrite <- E; apply (b_ne _ _ _ B)|].
    destruct (ppc s t) as [| | | | | |[]|[]|[]|[]|[]]; cbn in *; congruence.
  - apply wl_keep; [apply B| |].
    + right. eapply wl_out; [apply (b_nf _ _ _ B)|].
      destruct (ppc s t) as [| | | | | |[]|[]|[]|[]|[]]; cbn in *; congruence.
    + left. destruct (ppc s t) as [| | | | | |[]|[]|[]|[]|[]]; cbn in *; congruence.
  - intros w. rewrite app_nil_r. split; [|apply B]. unfold hnd. sp.
    destruct (ppc s t); cbn in *; try discriminate; destruct w; lia.
  - rewrite app_nil_r. intros K. pose proof (b_np _ _ _ B K t) as P. destruct (ppc s t); cbn in *; congruence.
  - pose proof (b_sz _ _ _ B t) as P. destruct (ppc s t); cbn in *; auto.
Qed.

Lemma base_signal_nf N s tr : base N s tr -> base N (signal_nf s) tr.
Proof.
  intros B. unfold signal_nf. destruct (nfq s) as [|t l] eqn:E; [exact B|].
  destruct (b_nf _ _ _ B) as (A1 & A2 & A3). assert (Ct : canNF (ppc s t) = true) by (apply A2; rewrite E; left; reflexivity).
  rewrite <- (app_nil_r tr). eapply (base_upd N s tr _ [] t (woken (ppc s t))); sp; try reflexivity.
  - exact B.
  - apply rep_same; auto.
  - apply wl_keep; [apply B| |].
    + right. eapply wl_out; [apply (b_ne _ _ _ B)|].
      destruct (ppc s t) as [| | | | | |[]|[]|[]|[]|[]]; cbn in *; congruence.
    + left. destruct (ppc s t) as [| | | | | |[]|[]|[]|[]|[]]; cbn in *; congruence.
  - eapply (wl_tail _ _ _ _ t); [rewrite <- E; apply (b_nf _ _ _ B)|].
    destruct (ppc s t) as [| | | | | |[]|[]|[]|[]|[]]; cbn in *; congruence.
  - intros w. rewrite app_nil_r. split; [|apply B]. unfold hnd. sp.
    destruct (ppc s t); cbn in *; try discriminate; destruct w; lia.
  - rewrite app_nil_r. intros K. pose proof (b_np _ _ _ B K t) as P. destruct (ppc s t); cbn in *; congruence.
  - pose proof (b_sz _ _ _ B t) as P. destruct (ppc s t); cbn in *; auto.
Qed.

(** Task states after a signal: either unchanged, or woken from a wait *)
Definition mild (s s' : pipe) : Prop :=
  rb s' = rb s /\ rh s' = rh s /\ wh s' = wh s /\
  forall u, ppc s' u = ppc s u \/ ppc s' u = woken (ppc s u).

Lemma mild_refl s : mild s s.
Proof. unfold mild. auto. Qed.
Lemma woken_woken p : woken (woken p) = woken p.
Proof. destruct p; reflexivity. Qed.
Lemma mild_trans a b c : mild a b -> mild b c -> mild a c.
Proof.
  intros (A1 & A2 & A3 & A4) (B1 & B2 & B3 & B4). unfold mild. repeat split; try congruence.
  intros u. destruct (A4 u) as [E|E], (B4 u) as [F|F]; rewrite F, E, ?woken_woken; auto.
Qed.
Lemma mild_ne s : mild s (signal_ne s).
Proof.
  unfold signal_ne, mild. destruct (neq s); [auto|]. sp. repeat split. intros u. unfold fupd.
  destruct (u =? z) eqn:E; [|auto]. assert (u = z) by lia. subst. auto.
Qed.
Lemma mild_nf s : mild s (signal_nf s).
Proof.
  unfold signal_nf, mild. destruct (nfq s); [auto|]. sp. repeat split. intros u. unfold fupd.
  destruct (u =? z) eqn:E; [|auto]. assert (u = z) by lia. subst. auto.
Qed.

Lemma mild_er s s' : mild s s' -> (forall t, isRW (ppc s t) = true -> wh s <> 0) -> forall t, isRW (ppc s' t) = true -> wh s' <> 0.
Proof.
  intros (_ & _ & -> & P) H t K. apply (H t). destruct (P t) as [E|E]; rewrite E in K; [exact K|].
  destruct (ppc s t); cbn in *; congruence.
Qed.
Lemma mild_ew s s' : mild s s' -> (forall t, isWW (ppc s t) = true -> rh s <> 0) -> forall t, isWW (ppc s' t) = true -> rh s' <> 0.
Proof.
  intros (_ & -> & _ & P) H t K. apply (H t). destruct (P t) as [E|E]; rewrite E in K; [exact K|].
  destruct (ppc s t); cbn in *; congruence.
Qed.
Lemma mild_rc s s' : mild s s' -> reader_coming s -> reader_coming s'.
Proof.
  intros (_ & _ & _ & P) (t & n & nb & E). exists t, n, nb. destruct (P t) as [F|F]; rewrite F, E; reflexivity.
Qed.
Lemma mild_wc s s' : mild s s' -> writer_coming s -> writer_coming s'.
Proof.
  intros (_ & _ & _ & P) (t & n & nb & E). exists t, n, nb. destruct (P t) as [F|F]; rewrite F, E; reflexivity.
Qed.

Lemma signal_ne_done N s tr : base N s tr -> no_pollers tr -> neq (signal_ne s) = [] \/ reader_coming (signal_ne s).
Proof.
  intros B NP. unfold signal_ne. destruct (neq s) as [|t l] eqn:E; [auto|]. right.
  destruct (b_ne _ _ _ B) as (_ & A2 & _). assert (Ct : canNE (ppc s t) = true) by (apply A2; rewrite E; left; reflexivity).
  pose proof (b_np _ _ _ B NP t) as P. destruct (ppc s t) eqn:Et; cbn in *; try discriminate.
  exists t, size, nb. sp. rewrite fupd_same. reflexivity.
Qed.
Lemma signal_nf_done N s tr : base N s tr -> no_pollers tr -> nfq (signal_nf s) = [] \/ writer_coming (signal_nf s).
Proof.
  intros B NP. unfold signal_nf. destruct (nfq s) as [|t l] eqn:E; [auto|]. right.
  destruct (b_nf _ _ _ B) as (_ & A2 & _). assert (Ct : canNF (ppc s t) = true) by (apply A2; rewrite E; left; reflexivity).
  pose proof (b_np _ _ _ B NP t) as P. destruct (ppc s t) eqn:Et; cbn in *; try discriminate.
  exists t, data, nb. sp. rewrite fupd_same. reflexivity.
Qed.
Lemma signal_ne_nfq s : nfq (signal_ne s) = nfq s.
Proof. unfold signal_ne. destruct (neq s); reflexivity. Qed.
Lemma signal_nf_neq s : neq (signal_nf s) = neq s.
Proof. unfold signal_nf. destruct (nfq s); reflexivity. Qed.

Lemma read_exit_inv N s tr : base N s tr ->
  (forall t, isRW (ppc s t) = true -> wh s <> 0) -> (forall t, isWW (ppc s t) = true -> rh s <> 0) -> inv N (read_exit s) tr.
Proof.
  intros B ER EW. unfold read_exit. cbv zeta.
  pose proof (base_signal_nf _ _ _ B) as B1. pose proof (mild_nf s) as M1.
  destruct (rb_is_empty (rb (signal_nf s))) eqn:E.
  - constructor; [exact B1| | | |].
    + eapply mild_er; eassumption.
    + eapply mild_ew; eassumption.
    + congruence.
    + intros NP _. eapply signal_nf_done; eassumption.
  - pose proof (mild_ne (signal_nf s)) as M2. pose proof (mild_trans _ _ _ M1 M2) as M3.
    constructor; [apply base_signal_ne, B1| | | |].
    + eapply mild_er; eassumption.
    + eapply mild_ew; eassumption.
    + intros NP _. eapply signal_ne_done; eassumption.
    + intros NP _. rewrite signal_ne_nfq. destruct (signal_nf_done _ _ _ B NP) as [K|K]; [auto|].
      right. apply (mild_wc _ _ M2 K).
Qed.

Lemma write_exit_inv N s tr : base N s tr ->
  (forall t, isRW (ppc s t) = true -> wh s <> 0) -> (forall t, isWW (ppc s t) = true -> rh s <> 0) -> inv N (write_exit s) tr.
Proof.
  intros B ER EW. unfold write_exit. cbv zeta.
  pose proof (base_signal_ne _ _ _ B) as B1. pose proof (mild_ne s) as M1.
  destruct (rb_is_full (rb (signal_ne s))) eqn:E.
  - constructor; [exact B1| | | |].
    + eapply mild_er; eassumption.
    + eapply mild_ew; eassumption.
    + intros NP _. eapply signal_ne_done; eassumption.
    + congruence.
  - pose proof (mild_nf (signal_ne s)) as M2. pose proof (mild_trans _ _ _ M1 M2) as M3.
    constructor; [apply base_signal_nf, B1| | | |].
    + eapply mild_er; eassumption.
    + eapply mild_ew; eassumption.
    + intros NP _. rewrite signal_nf_neq. destruct (signal_ne_done _ _ _ B NP) as [K|K]; [auto|].
      right. apply (mild_rc _ _ M2 K).
    + intros NP _. eapply signal_nf_done; eassumption.
Qed.

(** kcond_signal_all on both lists: nobody is left waiting *)
Lemma base_signal_all N s tr : base N s tr -> base N (signal_all s) tr.
Proof.
  intros B. unfold signal_all.
  destruct (b_ne _ _ _ B) as (A1 & A2 & A3). destruct (b_nf _ _ _ B) as (F1 & F2 & F3).
  set (f := fun t => _).
  assert (Pf : forall t, f t = ppc s t /\ mustNE (ppc s t) = false /\ mustNF (ppc s t) = false \/ f t = woken (ppc s t)).
  { intros t. unfold f. destruct (linked t (nfq s) || linked t (neq s)) eqn:E; [auto|]. left.
    apply orb_false_iff in E. destruct E as [E1 E2]. split; [reflexivity|]. split.
    - destruct (mustNE (ppc s t)) eqn:K; [|reflexivity]. apply A3, linked_iff in K. congruence.
    - destruct (mustNF (ppc s t)) eqn:K; [|reflexivity]. apply F3, linked_iff in K. congruence. }
  constructor; sp.
  - apply B.
  - split; [constructor|]. split; [intros t []|]. intros t K. exfalso. revert K.
    destruct (Pf t) as [(-> & K & _)| ->]; [congruence|]. destruct (ppc s t); cbn; congruence.
  - split; [constructor|]. split; [intros t []|]. intros t K. exfalso. revert K.
    destruct (Pf t) as [(-> & _ & K)| ->]; [congruence|]. destruct (ppc s t); cbn; congruence.
  - intros w. destruct (b_h _ _ _ B w) as [C L]. split; [|exact L]. eapply card_ext; [|exact C].
    intros t. cbn. destruct (Pf t) as [(-> & _)| ->]; [reflexivity|]. destruct (ppc s t); reflexivity.
  - intros K t. pose proof (b_np _ _ _ B K t) as P. destruct (Pf t) as [(-> & _)| ->]; [exact P|]. destruct (ppc s t); cbn in *; congruence.
  - intros t. pose proof (b_sz _ _ _ B t) as P. destruct (Pf t) as [(-> & _)| ->]; [exact P|]. destruct (ppc s t); cbn in *; auto.
Qed.

Lemma signal_all_inv N s tr : base N s tr -> inv N (signal_all s) tr.
Proof.
  intros B. pose proof (base_signal_all _ _ _ B) as B1. constructor; [exact B1| | | |].
  - intros t K. destruct (b_ne _ _ _ B1) as (_ & _ & A3). assert (In t (neq (signal_all s))).
    { apply A3. destruct (ppc (signal_all s) t); cbn in *; congruence. } destruct H.
  - intros t K. destruct (b_nf _ _ _ B1) as (_ & _ & A3). assert (In t (nfq (signal_all s))).
    { apply A3. destruct (ppc (signal_all s) t); cbn in *; congruence. } destruct H.
  - auto.
  - auto.
Qed.

Lemma inv_init N buf : 1 <= N <= 2147483648 -> zlen buf = N -> inv N (pipe_init N buf) [].
Proof.
  intros HN Hb. constructor; [constructor| | | |]; sp; cbn; auto; try discriminate.
  - exists []. split; [apply brep_init; assumption|reflexivity].
  - split; [constructor|]. split; [intros t []|discriminate].
  - split; [constructor|]. split; [intros t []|discriminate].
  - intros w. split; [|destruct w; cbn; lia].
    replace (hnd w (pipe_init N buf) - 1) with 0 by (destruct w; reflexivity). apply card_none. reflexivity.
Qed.

(** Moves that touch neither the buffer nor the wake-ups *)
Lemma inv_keep N s tr s' evs t q :
  inv N s tr -> base N s' (tr ++ evs) -> ppc s' = fupd (ppc s) t q ->
  rb s' = rb s -> rh s' = rh s -> wh s' = wh s ->
  isRW q = false -> isWW q = false ->
  (forall n nb, ppc s t <> RGo n nb true) -> (forall d nb, ppc s t <> WGo d nb true) ->
  (no_pollers (tr ++ evs) -> neq s = [] -> neq s' = []) ->
  (no_pollers (tr ++ evs) -> nfq s = [] -> nfq s' = []) ->
  inv N s' (tr ++ evs).
Proof.
  intros I B Ep Eb Er Ew Q1 Q2 H1 H2 K1 K2. constructor; [exact B| | | |].
  - intros u. rewrite Ep, Ew. unfold fupd. destruct (u =? t); [congruence|]. apply (i_er _ _ _ I).
  - intros u. rewrite Ep, Er. unfold fupd. destruct (u =? t); [congruence|]. apply (i_ew _ _ _ I).
  - intros NP. rewrite Eb. intros E. destruct (i_xne _ _ _ I (no_pollers_app _ _ NP) E) as [K|(u & n & nb & K)]; [auto|].
    right. exists u, n, nb. rewrite Ep, fupd_other; [exact K|]. intros ->. eapply H1, K.
  - intros NP. rewrite Eb. intros E. destruct (i_xnf _ _ _ I (no_pollers_app _ _ NP) E) as [K|(u & n & nb & K)]; [auto|].
    right. exists u, n, nb. rewrite Ep, fupd_other; [exact K|]. intros ->. eapply H2, K.
Qed.

Lemma h_same w s s' tr evs q p : base 0 s tr \/ 0 <= live w tr -> hnd w s' = hnd w s ->
  (forall acc, fold_left (live1 w) evs acc = acc) -> isC w q = isC w p ->
  hnd w s' - live w (tr ++ evs) = hnd w s - live w tr + b2z (isC w q) - b2z (isC w p) /\ 0 <= live w (tr ++ evs).
Proof.
  intros L E F G. rewrite live_app, F, E, G. split; [lia|]. destruct L as [L|L]; [apply L|exact L].
Qed.

Lemma out_ne N s tr t : base N s tr -> canNE (ppc s t) = false -> ~ In t (neq s).
Proof. intros B. eapply wl_out, (b_ne _ _ _ B). Qed.
Lemma out_nf N s tr t : base N s tr -> canNF (ppc s t) = false -> ~ In t (nfq s).
Proof. intros B. eapply wl_out, (b_nf _ _ _ B). Qed.

(** Calls: the task was outside *)
Lemma inv_read N s tr t size nb : inv N s tr -> ppc s t = Out -> 0 < size -> inv N (set_pc s t (RGo size nb false)) (tr ++ []).
Proof.
  intros I E Hs. pose proof (i_base _ _ _ I) as B. eapply (inv_keep N s tr _ [] t (RGo size nb false)); sp; auto; try congruence.
  eapply (base_upd N s tr _ [] t (RGo size nb false)); sp; auto.
  - apply rep_same; auto.
  - apply wl_keep; [apply B| |left; reflexivity]. right. eapply out_ne; [exact B|]. rewrite E. reflexivity.
  - apply wl_keep; [apply B| |left; reflexivity]. right. eapply out_nf; [exact B|]. rewrite E. reflexivity.
  - intros w. apply h_same; [right; apply B|destruct w; reflexivity|auto|rewrite E; reflexivity].
Qed.

Lemma inv_write N s tr t d nb : inv N s tr -> ppc s t = Out -> d <> [] -> inv N (set_pc s t (WGo d nb false)) (tr ++ []).
Proof.
  intros I E Hs. pose proof (i_base _ _ _ I) as B. eapply (inv_keep N s tr _ [] t (WGo d nb false)); sp; auto; try congruence.
  eapply (base_upd N s tr _ [] t (WGo d nb false)); sp; auto.
  - apply rep_same; auto.
  - apply wl_keep; [apply B| |left; reflexivity]. right. eapply out_ne; [exact B|]. rewrite E. reflexivity.
  - apply wl_keep; [apply B| |left; reflexivity]. right. eapply out_nf; [exact B|]. rewrite E. reflexivity.
  - intros w. apply h_same; [right; apply B|destruct w; reflexivity|auto|rewrite E; reflexivity].
Qed.

Lemma inv_close N s tr t w : inv N s tr -> ppc s t = Out -> 0 < live w tr -> inv N (set_pc s t (CGo w)) (tr ++ [EClose w]).
Proof.
  intros I E Hs. pose proof (i_base _ _ _ I) as B. eapply (inv_keep N s tr _ _ t (CGo w)); sp; auto; try congruence.
  eapply (base_upd N s tr _ _ t (CGo w)); sp; auto.
  - apply rep_same; auto.
  - apply wl_keep; [apply B| |left; reflexivity]. right. eapply out_ne; [exact B|]. rewrite E. reflexivity.
  - apply wl_keep; [apply B| |left; reflexivity]. right. eapply out_nf; [exact B|]. rewrite E. reflexivity.
  - intros v. rewrite live_app, E. cbn [fold_left live1 isC]. pose proof (proj2 (b_h _ _ _ B v)).
    destruct (Bool.eqb w v) eqn:Ev.
    + apply Bool.eqb_prop in Ev. subst v. destruct w; cbn; lia.
    + destruct v; cbn; lia.
  - exact Logic.I.
Qed.

Lemma inv_dup N s tr w : inv N s tr -> 0 < live w tr ->
  inv N (mk_pipe (rb s) (if w then rh s else rh s + 1) (if w then wh s + 1 else wh s) (neq s) (nfq s) (ppc s)) (tr ++ [EDup w]).
Proof.
  intros I Hs. pose proof (i_base _ _ _ I) as B.
  assert (G : forall v, 0 <= hnd v s).
  { intros v. destruct (b_h _ _ _ B v) as [C L]. apply card_nonneg in C. lia. }
  constructor; [constructor|..]; sp.
  - apply (rep_same N s tr [EDup w]); auto.
  - apply B.
  - apply B.
  - intros v. destruct (b_h _ _ _ B v) as [C L]. rewrite live_app. cbn [fold_left live1].
    destruct w, v; cbn [Bool.eqb] in *; unfold hnd in *; sp; split; try lia; try exact C.
    + replace (wh s + 1 - (live true tr + 1)) with (wh s - live true tr) by lia. exact C.
    + replace (rh s + 1 - (live false tr + 1)) with (rh s - live false tr) by lia. exact C.
  - intros K. apply (b_np _ _ _ B). eapply no_pollers_app, K.
  - apply B.
  - intros t K. pose proof (i_er _ _ _ I t K). pose proof (G true). cbn in *. destruct w; lia.
  - intros t K. pose proof (i_ew _ _ _ I t K). pose proof (G false). cbn in *. destruct w; lia.
  - intros NP. apply (i_xne _ _ _ I). eapply no_pollers_app, NP.
  - intros NP. apply (i_xnf _ _ _ I). eapply no_pollers_app, NP.
Qed.

(** A reader finishes: the buffer loses what it returns *)
Lemma base_read N s tr t size nb again r' c evs :
  base N s tr -> ppc s t = RGo size nb again ->
  brep N r' c -> written (tr ++ evs) = delivered (tr ++ evs) ++ c ->
  (forall w acc, fold_left (live1 w) evs acc = acc) ->
  base N (mk_pipe r' (rh s) (wh s) (neq s) (nfq s) (fupd (ppc s) t Out)) (tr ++ evs).
Proof.
  intros B E R W L. eapply (base_upd N s tr _ evs t Out); sp; auto.
  - exists c. auto.
  - apply wl_keep; [apply B| |left; reflexivity]. right. eapply out_ne; [exact B|]. rewrite E. reflexivity.
  - apply wl_keep; [apply B| |left; reflexivity]. right. eapply out_nf; [exact B|]. rewrite E. reflexivity.
  - intros w. apply h_same; [right; apply B|destruct w; reflexivity|auto|rewrite E; reflexivity].
  - exact Logic.I.
Qed.
Lemma base_write N s tr t d nb again r' c evs :
  base N s tr -> ppc s t = WGo d nb again ->
  brep N r' c -> written (tr ++ evs) = delivered (tr ++ evs) ++ c ->
  (forall w acc, fold_left (live1 w) evs acc = acc) ->
  base N (mk_pipe r' (rh s) (wh s) (neq s) (nfq s) (fupd (ppc s) t Out)) (tr ++ evs).
Proof.
  intros B E R W L. eapply (base_upd N s tr _ evs t Out); sp; auto.
  - exists c. auto.
  - apply wl_keep; [apply B| |left; reflexivity]. right. eapply out_ne; [exact B|]. rewrite E. reflexivity.
  - apply wl_keep; [apply B| |left; reflexivity]. right. eapply out_nf; [exact B|]. rewrite E. reflexivity.
  - intros w. apply h_same; [right; apply B|destruct w; reflexivity|auto|rewrite E; reflexivity].
  - exact Logic.I.
Qed.

Lemma er_out N s tr t r' h : inv N s tr ->
  forall u, isRW (fupd (ppc s) t Out u) = true -> wh (mk_pipe r' h (wh s) (neq s) (nfq s) (ppc s)) <> 0.
Proof. intros I u. sp. unfold fupd. destruct (u =? t); [discriminate|]. apply (i_er _ _ _ I). Qed.
Lemma ew_out N s tr t r' h : inv N s tr ->
  forall u, isWW (fupd (ppc s) t Out u) = true -> rh (mk_pipe r' (rh s) h (neq s) (nfq s) (ppc s)) <> 0.
Proof. intros I u. sp. unfold fupd. destruct (u =? t); [discriminate|]. apply (i_ew _ _ _ I). Qed.

Lemma firstn_nil_inv n (c : list Z) : firstn n c = [] -> (0 < n)%nat -> c = [].
Proof. destruct n, c; cbn; try lia; try discriminate; auto. Qed.

(** What pipe_read does, all cases at once *)
Lemma read_cases N s tr t size nb again sig : 1 <= N <= 2147483648 -> inv N s tr -> ppc s t = RGo size nb again ->
  exists s' evs, read_body s t size nb again sig = Ok s' evs /\ inv N s' (tr ++ evs) /\
    if again && sig then evs = [EIntr t]
    else if negb (zlen (undelivered tr) =? 0) then evs = [ERead t (firstn (Z.to_nat size) (undelivered tr))]
    else if wh s =? 0 then evs = [EEof t]
    else if nb then evs = [EAgain t]
    else evs = [] /\ reader_asleep s' t.
Proof.
  intros HN I E. pose proof (i_base _ _ _ I) as B. destruct (b_rep _ _ _ B) as (c & R & W).
  assert (U : undelivered tr = c).
  { unfold undelivered. rewrite W. apply skipn_app_exact. }
  rewrite U. clear U. pose proof (b_sz _ _ _ B t) as Hs. rewrite E in Hs. cbn in Hs.
  unfold read_body. cbv zeta. destruct (again && sig).
  - do 2 eexists. split; [reflexivity|]. split; [|reflexivity]. apply read_exit_inv; sp.
    + apply (base_read N s tr t size nb again (rb s) c [EIntr t]); auto. rewrite written_app, delivered_app. exact W.
    + apply (er_out N s tr t (rb s) 0 I).
    + apply (ew_out N s tr t (rb s) 0 I).
  - destruct (brep_read N (rb s) c size HN R ltac:(lia)) as (r' & -> & R').
    destruct (firstn (Z.to_nat size) c) as [|x out] eqn:Eo.
    + assert (c = []) by (apply (firstn_nil_inv (Z.to_nat size)); [exact Eo|lia]). subst c.
      rewrite skipn_nil in R'. change (zlen (@nil Z) =? 0) with true. cbn [negb].
      destruct (wh s =? 0) eqn:Ew; [|destruct nb].
      * do 2 eexists. split; [reflexivity|]. split; [|reflexivity]. apply read_exit_inv; sp.
        -- apply (base_read N s tr t size nb again r' [] [EEof t]); auto. rewrite written_app, delivered_app. exact W.
        -- apply (er_out N s tr t r' 0 I).
        -- apply (ew_out N s tr t r' 0 I).
      * do 2 eexists. split; [reflexivity|]. split; [|reflexivity]. apply read_exit_inv; sp.
        -- apply (base_read N s tr t size true again r' [] [EAgain t]); auto. rewrite written_app, delivered_app. exact W.
        -- apply (er_out N s tr t r' 0 I).
        -- apply (ew_out N s tr t r' 0 I).
      * do 2 eexists. split; [reflexivity|]. split.
        2:{ split; [reflexivity|]. exists size, false. sp. apply fupd_same. }
        constructor; sp.
        -- eapply (base_upd N s tr _ [] t (RWait size false)); sp; auto.
           ++ exists []. split; [exact R'|]. rewrite !app_nil_r in *. exact W.
           ++ apply wl_snoc; [apply B| |reflexivity]. eapply out_ne; [exact B|]. rewrite E. reflexivity.
           ++ apply wl_keep; [apply B| |left; reflexivity]. right. eapply out_nf; [exact B|]. rewrite E. reflexivity.
           ++ intros w. apply h_same; [right; apply B|destruct w; reflexivity|auto|rewrite E; reflexivity].
        -- intros u. unfold fupd. destruct (u =? t); [lia|]. apply (i_er _ _ _ I).
        -- intros u. unfold fupd. destruct (u =? t); [discriminate|]. apply (i_ew _ _ _ I).
        -- intros _ K. pose proof (proj2 (brep_empty _ _ _ R') eq_refl). congruence.
        -- intros NP K. rewrite app_nil_r in NP.
           assert (Kf : rb_is_full (rb s) = false).
           { pose proof (brep_full _ _ _ R) as F1. rewrite zlen_nil in F1. destruct (rb_is_full (rb s)); [|reflexivity].
             destruct F1 as [F1 _]. specialize (F1 eq_refl). lia. }
           destruct (i_xnf _ _ _ I NP Kf) as [Q|(u & d & nb & Q)]; [auto|]. right. exists u, d, nb. sp.
           rewrite fupd_other; [exact Q|]. intros ->. congruence.
    + assert (Hz : zlen c =? 0 = false).
      { destruct c; [rewrite firstn_nil in Eo; discriminate|]. rewrite zlen_cons. pose proof (zlen_nonneg c). lia. }
      rewrite Hz. cbn [negb]. do 2 eexists. split; [reflexivity|]. split; [|reflexivity]. apply read_exit_inv; sp.
      * apply (base_read N s tr t size nb again r' (skipn (Z.to_nat size) c) [ERead t (x :: out)]); auto.
        rewrite written_app, delivered_app. cbn [fold_left written1 delivered1]. rewrite W, <- app_assoc, <- Eo, firstn_skipn. reflexivity.
      * apply (er_out N s tr t r' 0 I).
      * apply (ew_out N s tr t r' 0 I).
Qed.

(** What pipe_write does *)
Lemma write_cases N s tr t d nb again sig : 1 <= N <= 2147483648 -> inv N s tr -> ppc s t = WGo d nb again ->
  exists s' evs, write_body s t d nb again sig = Ok s' evs /\ inv N s' (tr ++ evs) /\
    if again && sig then evs = [EIntr t]
    else if rh s =? 0 then evs = [EPipe t]
    else if zlen (undelivered tr) <? N then evs = [EWrite t (firstn (Z.to_nat (N - zlen (undelivered tr))) d)]
    else if nb then evs = [EAgain t]
    else evs = [] /\ writer_asleep s' t.
Proof.
  intros HN I E. pose proof (i_base _ _ _ I) as B. destruct (b_rep _ _ _ B) as (c & R & W).
  assert (U : undelivered tr = c).
  { unfold undelivered. rewrite W. apply skipn_app_exact. }
  rewrite U. clear U. pose proof (b_sz _ _ _ B t) as Hs. rewrite E in Hs. cbn in Hs.
  assert (Hd : 0 < zlen d). { destruct d; [congruence|]. rewrite zlen_cons. pose proof (zlen_nonneg d). lia. }
  destruct (brep_len _ _ _ R) as (_ & Hc & _).
  unfold write_body. cbv zeta. destruct (again && sig).
  { do 2 eexists. split; [reflexivity|]. split; [|reflexivity]. apply write_exit_inv; sp.
    + apply (base_write N s tr t d nb again (rb s) c [EIntr t]); auto. rewrite written_app, delivered_app. exact W.
    + apply (er_out N s tr t (rb s) 0 I).
    + apply (ew_out N s tr t (rb s) 0 I). }
  destruct (rh s =? 0) eqn:Er.
  { do 2 eexists. split; [reflexivity|]. split; [|reflexivity]. apply write_exit_inv; sp.
    + apply (base_write N s tr t d nb again (rb s) c [EPipe t]); auto. rewrite written_app, delivered_app. exact W.
    + apply (er_out N s tr t (rb s) 0 I).
    + apply (ew_out N s tr t (rb s) 0 I). }
  destruct (brep_write N (rb s) c d HN R) as (r' & -> & R').
  destruct (zlen c <? N) eqn:Hz.
  - replace (Z.min (zlen d) (N - zlen c) =? 0) with false by lia. cbn [negb].
    assert (K : firstn (Z.to_nat (Z.min (zlen d) (N - zlen c))) d = firstn (Z.to_nat (N - zlen c)) d).
    { destruct (Z_le_gt_dec (N - zlen c) (zlen d)) as [L|L].
      - rewrite Z.min_r by lia. reflexivity.
      - rewrite Z.min_l by lia. rewrite !firstn_all2; [reflexivity| |]; unfold zlen in *; lia. }
    do 2 eexists. split; [reflexivity|]. split; [|rewrite K; reflexivity]. apply write_exit_inv; sp.
    + eapply (base_write N s tr t d nb again r' _ _); eauto.
      rewrite written_app, delivered_app. cbn [fold_left written1 delivered1]. rewrite W, <- app_assoc. reflexivity.
    + apply (er_out N s tr t r' 0 I).
    + apply (ew_out N s tr t r' 0 I).
  - replace (Z.min (zlen d) (N - zlen c)) with 0 in * by lia. cbn [Z.eqb negb Z.to_nat firstn] in *. rewrite app_nil_r in R'.
    destruct nb.
    + do 2 eexists. split; [reflexivity|]. split; [|reflexivity]. apply write_exit_inv; sp.
      * apply (base_write N s tr t d true again r' c [EAgain t]); auto. rewrite written_app, delivered_app. exact W.
      * apply (er_out N s tr t r' 0 I).
      * apply (ew_out N s tr t r' 0 I).
    + do 2 eexists. split; [reflexivity|]. split.
      2:{ split; [reflexivity|]. exists d, false. sp. apply fupd_same. }
      constructor; sp.
      * eapply (base_upd N s tr _ [] t (WWait d false)); sp; auto.
        -- exists c. split; [exact R'|]. rewrite !app_nil_r in *. exact W.
        -- apply wl_keep; [apply B| |left; reflexivity]. right. eapply out_ne; [exact B|]. rewrite E. reflexivity.
        -- apply wl_snoc; [apply B| |reflexivity]. eapply out_nf; [exact B|]. rewrite E. reflexivity.
        -- intros w. apply h_same; [right; apply B|destruct w; reflexivity|auto|rewrite E; reflexivity].
      * intros u. unfold fupd. destruct (u =? t); [discriminate|]. apply (i_er _ _ _ I).
      * intros u. unfold fupd. destruct (u =? t); [lia|]. apply (i_ew _ _ _ I).
      * intros NP K. rewrite app_nil_r in NP.
        assert (Ke : rb_is_empty (rb s) = false).
        { pose proof (brep_empty _ _ _ R) as F1. destruct (rb_is_empty (rb s)); [|reflexivity].
          destruct F1 as [F1 _]. specialize (F1 eq_refl). subst c. rewrite zlen_nil in Hz. lia. }
        destruct (i_xne _ _ _ I NP Ke) as [Q|(u & d' & nb & Q)]; [auto|]. right. exists u, d', nb. sp.
        rewrite fupd_other; [exact Q|]. intros ->. congruence.
      * intros _ K. pose proof (proj2 (brep_full _ _ _ R') ltac:(lia)). congruence.
Qed.

Lemma inv_close_body N s tr t w : inv N s tr -> ppc s t = CGo w ->
  exists s' evs, close_body s t w = Ok s' evs /\ inv N s' (tr ++ evs).
Proof.
  intros I E. pose proof (i_base _ _ _ I) as B. unfold close_body. cbv zeta.
  destruct (b_h _ _ _ B w) as [C L].
  assert (Hp : 0 < hnd w s - live w tr).
  { eapply (card_pos _ _ t); [exact C|]. cbn. rewrite E. cbn. apply Bool.eqb_reflx. }
  assert (Hh : (if w then wh s else rh s) = hnd w s) by reflexivity. rewrite Hh.
  destruct (hnd w s <=? 0) eqn:E0; [lia|].
  set (s1 := mk_pipe _ _ _ _ _ _).
  assert (B1 : base N s1 (tr ++ [])).
  { eapply (base_upd N s tr _ [] t Out); unfold s1; sp; auto.
    - apply rep_same; auto.
    - apply wl_keep; [apply B| |left; reflexivity]. right. eapply out_ne; [exact B|]. rewrite E. reflexivity.
    - apply wl_keep; [apply B| |left; reflexivity]. right. eapply out_nf; [exact B|]. rewrite E. reflexivity.
    - intros v. rewrite app_nil_r. split; [|apply B]. rewrite E. cbn [isC].
      destruct w, v; cbn; lia.
    - exact Logic.I. }
  do 2 eexists. split; [reflexivity|].
  destruct (hnd w s =? 1) eqn:E1; [apply signal_all_inv, B1|].
  constructor; [exact B1|..]; unfold s1; sp.
  - intros u. unfold fupd. destruct (u =? t); [discriminate|]. intros K. pose proof (i_er _ _ _ I u K).
    destruct w; cbn in *; lia.
  - intros u. unfold fupd. destruct (u =? t); [discriminate|]. intros K. pose proof (i_ew _ _ _ I u K).
    destruct w; cbn in *; lia.
  - rewrite app_nil_r. intros NP K. destruct (i_xne _ _ _ I NP K) as [Q|(u & d' & nb & Q)]; [auto|]. right. exists u, d', nb. sp.
    rewrite fupd_other; [exact Q|]. intros ->. congruence.
  - rewrite app_nil_r. intros NP K. destruct (i_xnf _ _ _ I NP K) as [Q|(u & d' & nb & Q)]; [auto|]. right. exists u, d', nb. sp.
    rewrite fupd_other; [exact Q|]. intros ->. congruence.
Qed.

(** Poller moves *)
Lemma base_poll N s tr evs t (w : bool) q l : base N s tr ->
  (forall v, isC v (ppc s t) = false) -> (forall v, isC v q = false) -> ready_size q ->
  (forall acc, fold_left written1 evs acc = acc) -> (forall acc, fold_left delivered1 evs acc = acc) ->
  (forall v acc, fold_left (live1 v) evs acc = acc) ->
  (no_pollers (tr ++ evs) -> isP q = false) ->
  (if w then wl canNF mustNF l (fupd (ppc s) t q) else wl canNE mustNE l (fupd (ppc s) t q)) ->
  (if w then canNE (ppc s t) = false /\ mustNE q = false else canNF (ppc s t) = false /\ mustNF q = false) ->
  base N (set_pc (set_pq s w l) t q) (tr ++ evs).
Proof.
  intros B C1 C2 Hz W D L P H1 H2. destruct w; (eapply (base_upd N s tr _ evs t q); sp; auto;
    [apply rep_same; auto| |intros v; apply h_same; [right; apply B|destruct v; reflexivity|auto|rewrite C1, C2; reflexivity]]).
  - apply wl_keep; [apply B| |left; apply H2]. right. eapply out_ne; [exact B|apply H2].
  - apply wl_keep; [apply B| |left; apply H2]. right. eapply out_nf; [exact B|apply H2].
Qed.

Lemma inv_poller N s tr evs t (w : bool) q l : inv N s tr ->
  (forall v, isC v (ppc s t) = false) -> (forall v, isC v q = false) -> ready_size q ->
  (forall acc, fold_left written1 evs acc = acc) -> (forall acc, fold_left delivered1 evs acc = acc) ->
  (forall v acc, fold_left (live1 v) evs acc = acc) ->
  ~ no_pollers (tr ++ evs) -> isRW q = false -> isWW q = false ->
  (if w then wl canNF mustNF l (fupd (ppc s) t q) else wl canNE mustNE l (fupd (ppc s) t q)) ->
  (if w then canNE (ppc s t) = false /\ mustNE q = false else canNF (ppc s t) = false /\ mustNF q = false) ->
  inv N (set_pc (set_pq s w l) t q) (tr ++ evs).
Proof.
  intros I C1 C2 Hz W D L P R1 R2 H1 H2. constructor.
  - apply base_poll; auto. apply I. intros K. contradiction.
  - destruct w; sp; intros u; unfold fupd; (destruct (u =? t); [congruence|]); apply (i_er _ _ _ I).
  - destruct w; sp; intros u; unfold fupd; (destruct (u =? t); [congruence|]); apply (i_ew _ _ _ I).
  - intros K. contradiction.
  - intros K. contradiction.
Qed.

Lemma poller_np N s tr evs t : inv N s tr -> isP (ppc s t) = true -> ~ no_pollers (tr ++ evs).
Proof. intros I H K. pose proof (b_np _ _ _ I (no_pollers_app _ _ K) t). congruence. Qed.

Lemma set_pq_same s w : set_pq s w (pq s w) = s.
Proof. destruct s, w; reflexivity. Qed.
Lemma pq_wl N s tr (w : bool) : base N s tr ->
  if w then wl canNF mustNF (pq s w) (ppc s) else wl canNE mustNE (pq s w) (ppc s).
Proof. intros B. destruct w; apply B. Qed.

Lemma inv_step N s tr a s' evs : 1 <= N <= 2147483648 -> inv N s tr -> allowed tr a -> step s a = Ok s' evs -> inv N s' (tr ++ evs).
Proof.
  intros HN I A S. pose proof (i_base _ _ _ I) as B. destruct a; cbn [step allowed] in *.
  - destruct (ppc s t) eqn:E; try discriminate. destruct (size <=? 0) eqn:Hs; [discriminate|]. injection S as <- <-.
    apply inv_read; auto. lia.
  - destruct (ppc s t) eqn:E; try discriminate. destruct data; [discriminate|]. injection S as <- <-.
    apply inv_write; auto. discriminate.
  - destruct (ppc s t) eqn:E; try discriminate. injection S as <- <-. apply inv_close; auto.
  - injection S as <- <-. apply inv_dup; auto.
  - destruct (ppc s t) eqn:E; try discriminate. injection S as <- <-.
    apply inv_poller; auto; try (intros; rewrite E; reflexivity).
    + intros K. apply (K t w). apply in_or_app. right. left. reflexivity.
    + pose proof (pq_wl _ _ _ w B). destruct w; apply wl_snoc; auto.
      * eapply out_nf; [exact B|]. rewrite E. reflexivity.
      * eapply out_ne; [exact B|]. rewrite E. reflexivity.
    + rewrite E. destruct w; auto.
  - destruct (ppc s t) eqn:E; try discriminate.
    + destruct (read_cases N s tr t size nb again sig HN I E) as (x & y & R & J & _). rewrite R in S. injection S as <- <-. exact J.
    + destruct (write_cases N s tr t data nb again sig HN I E) as (x & y & R & J & _). rewrite R in S. injection S as <- <-. exact J.
    + destruct (inv_close_body N s tr t w I E) as (x & y & R & J). rewrite R in S. injection S as <- <-. exact J.
    + destruct (ready s w); injection S as <- <-.
      * apply inv_poller; auto; try (intros; rewrite E; reflexivity); try exact Logic.I.
        -- eapply poller_np; [exact I|]. rewrite E. reflexivity.
        -- pose proof (pq_wl _ _ _ w B). destruct w; apply wl_unlink; auto.
        -- rewrite E. destruct w; auto.
      * rewrite <- (set_pq_same s w) at 1. apply inv_poller; auto; try (intros; rewrite E; reflexivity); try exact Logic.I.
        -- eapply poller_np; [exact I|]. rewrite E. reflexivity.
        -- pose proof (pq_wl _ _ _ w B). destruct w; apply wl_keep; auto.
        -- rewrite E. destruct w; auto.
    + destruct (linked t (pq s w)) eqn:Lk.
      * apply linked_iff in Lk. injection S as <- <-. rewrite <- (set_pq_same s w) at 1.
        apply inv_poller; auto; try (intros; rewrite E; reflexivity); try exact Logic.I.
        -- eapply poller_np; [exact I|]. rewrite E. reflexivity.
        -- pose proof (pq_wl _ _ _ w B). destruct w; apply wl_keep; auto.
        -- rewrite E. destruct w; auto.
      * injection S as <- <-. unfold rearm. rewrite Lk. assert (~ In t (pq s w)) by (rewrite <- linked_iff; congruence).
        apply inv_poller; auto; try (intros; rewrite E; reflexivity); try exact Logic.I.
        -- eapply poller_np; [exact I|]. rewrite E. reflexivity.
        -- pose proof (pq_wl _ _ _ w B). destruct w; apply wl_snoc; auto.
        -- rewrite E. destruct w; auto.
    + destruct sig; injection S as <- <-.
      * apply inv_poller; auto; try (intros; rewrite E; reflexivity); try exact Logic.I.
        -- eapply poller_np; [exact I|]. rewrite E. reflexivity.
        -- pose proof (pq_wl _ _ _ w B). destruct w; apply wl_unlink; auto.
        -- rewrite E. destruct w; auto.
      * unfold rearm. assert (H : ~ In t (pq s w)).
        { destruct w; [eapply out_nf|eapply out_ne]; try exact B; rewrite E; reflexivity. }
        destruct (linked t (pq s w)) eqn:Lk; [apply linked_iff in Lk; contradiction|].
        apply inv_poller; auto; try (intros; rewrite E; reflexivity); try exact Logic.I.
        -- eapply poller_np; [exact I|]. rewrite E. reflexivity.
        -- pose proof (pq_wl _ _ _ w B). destruct w; apply wl_snoc; auto.
        -- rewrite E. destruct w; auto.
    + injection S as <- <-. apply inv_poller; auto; try (intros; rewrite E; reflexivity); try exact Logic.I.
        -- eapply poller_np; [exact I|]. rewrite E. reflexivity.
        -- pose proof (pq_wl _ _ _ w B). destruct w; apply wl_unlink; auto.
        -- rewrite E. destruct w; auto.
  - destruct (ppc s t) eqn:E; try discriminate; injection S as <- <-.
    + constructor; sp.
      * eapply (base_upd N s tr _ [] t (RGo size nb true)); sp; auto.
        -- apply rep_same; auto.
        -- apply wl_unlink; [apply B|reflexivity].
        -- apply wl_keep; [apply B| |left; reflexivity]. right. eapply out_nf; [exact B|]. rewrite E. reflexivity.
        -- intros w. apply h_same; [right; apply B|destruct w; reflexivity|auto|rewrite E; reflexivity].
        -- pose proof (b_sz _ _ _ B t) as Q. rewrite E in Q. exact Q.
      * intros u. unfold fupd. destruct (u =? t); [discriminate|]. apply (i_er _ _ _ I).
      * intros u. unfold fupd. destruct (u =? t); [discriminate|]. apply (i_ew _ _ _ I).
      * intros _ _. right. exists t, size, nb. sp. apply fupd_same.
      * rewrite app_nil_r. intros NP K. destruct (i_xnf _ _ _ I NP K) as [Q|(u & d' & nb' & Q)]; [auto|].
        right. exists u, d', nb'. sp. rewrite fupd_other; [exact Q|]. intros ->. congruence.
    + constructor; sp.
      * eapply (base_upd N s tr _ [] t (WGo data nb true)); sp; auto.
        -- apply rep_same; auto.
        -- apply wl_keep; [apply B| |left; reflexivity]. right. eapply out_ne; [exact B|]. rewrite E. reflexivity.
        -- apply wl_unlink; [apply B|reflexivity].
        -- intros w. apply h_same; [right; apply B|destruct w; reflexivity|auto|rewrite E; reflexivity].
        -- pose proof (b_sz _ _ _ B t) as Q. rewrite E in Q. exact Q.
      * intros u. unfold fupd. destruct (u =? t); [discriminate|]. apply (i_er _ _ _ I).
      * intros u. unfold fupd. destruct (u =? t); [discriminate|]. apply (i_ew _ _ _ I).
      * rewrite app_nil_r. intros NP K. destruct (i_xne _ _ _ I NP K) as [Q|(u & d' & nb' & Q)]; [auto|].
        right. exists u, d', nb'. sp. rewrite fupd_other; [exact Q|]. intros ->. congruence.
      * intros _ _. right. exists t, data, nb. sp. apply fupd_same.
    + rewrite <- (set_pq_same s w) at 1. apply inv_poller; auto; try (intros; rewrite E; reflexivity); try exact Logic.I.
      * eapply poller_np; [exact I|]. rewrite E. reflexivity.
      * pose proof (pq_wl _ _ _ w B) as Q. destruct w; apply wl_keep; auto.
      * rewrite E. destruct w; auto.
Qed.

Lemma reach_inv N buf s tr : 1 <= N <= 2147483648 -> zlen buf = N -> reach N buf s tr -> inv N s tr.
Proof. intros HN Hb. induction 1; [apply inv_init; assumption|]. eapply inv_step; eauto. Qed.

(** ** Consequences *)
Definition sane (N : Z) (buf : list Z) : Prop := 1 <= N <= 2147483648 /\ zlen buf = N.

Lemma stream N buf s tr : sane N buf -> reach N buf s tr ->
  written tr = delivered tr ++ undelivered tr /\ zlen (undelivered tr) <= N /\
  rb_elems (rb s) = zlen (undelivered tr) /\
  forall len, 0 <= len -> option_map snd (rb_read_bytes (rb s) len) = Some (firstn (Z.to_nat len) (undelivered tr)).
Proof.
  intros [HN Hb] R. pose proof (i_base _ _ _ (reach_inv _ _ _ _ HN Hb R)) as B. destruct (b_rep _ _ _ B) as (c & Rc & W).
  assert (U : undelivered tr = c) by (unfold undelivered; rewrite W; apply skipn_app_exact).
  rewrite U. destruct (brep_len _ _ _ Rc) as (E1 & E2 & _). split; [exact W|]. split; [exact E2|]. split; [exact E1|].
  intros len Hl. destruct (brep_read N (rb s) c len HN Rc Hl) as (r' & -> & _). reflexivity.
Qed.

Lemma no_assert_fail N buf s tr a : sane N buf -> reach N buf s tr -> allowed tr a -> step s a <> AssertFail.
Proof.
  intros [HN Hb] R A E. pose proof (reach_inv _ _ _ _ HN Hb R) as I. destruct a; cbn [step] in E.
  - destruct (ppc s t); try discriminate. destruct (size <=? 0); discriminate.
  - destruct (ppc s t); try discriminate. destruct data; discriminate.
  - destruct (ppc s t); discriminate.
  - discriminate.
  - destruct (ppc s t); discriminate.
  - destruct (ppc s t) eqn:Et; try discriminate.
    + destruct (read_cases N s tr t size nb again sig HN I Et) as (x & y & Q & _). congruence.
    + destruct (write_cases N s tr t data nb again sig HN I Et) as (x & y & Q & _). congruence.
    + destruct (inv_close_body N s tr t w I Et) as (x & y & Q & _). congruence.
    + destruct (ready s w); discriminate.
    + destruct (linked t (pq s w)); discriminate.
    + destruct sig; discriminate.
  - destruct (ppc s t); discriminate.
Qed.

Lemma read_result N buf s tr t size nb again sig : sane N buf -> reach N buf s tr -> ppc s t = RGo size nb again ->
  exists s' evs, step s (Go t sig) = Ok s' evs /\
    if again && sig then evs = [EIntr t]
    else if negb (zlen (undelivered tr) =? 0) then evs = [ERead t (firstn (Z.to_nat size) (undelivered tr))]
    else if wh s =? 0 then evs = [EEof t]
    else if nb then evs = [EAgain t]
    else evs = [] /\ reader_asleep s' t.
Proof.
  intros [HN Hb] R Et. pose proof (reach_inv _ _ _ _ HN Hb R) as I. cbn [step]. rewrite Et.
  destruct (read_cases N s tr t size nb again sig HN I Et) as (x & y & Q & _ & P). exists x, y. auto.
Qed.

Lemma write_result N buf s tr t d nb again sig : sane N buf -> reach N buf s tr -> ppc s t = WGo d nb again ->
  exists s' evs, step s (Go t sig) = Ok s' evs /\
    if again && sig then evs = [EIntr t]
    else if rh s =? 0 then evs = [EPipe t]
    else if zlen (undelivered tr) <? N then evs = [EWrite t (firstn (Z.to_nat (N - zlen (undelivered tr))) d)]
    else if nb then evs = [EAgain t]
    else evs = [] /\ writer_asleep s' t.
Proof.
  intros [HN Hb] R Et. pose proof (reach_inv _ _ _ _ HN Hb R) as I. cbn [step]. rewrite Et.
  destruct (write_cases N s tr t d nb again sig HN I Et) as (x & y & Q & _ & P). exists x, y. auto.
Qed.

Lemma handles N buf s tr (w : bool) : sane N buf -> reach N buf s tr ->
  live w tr <= (if w then wh s else rh s) /\
  ((forall t, ppc s t <> CGo w) -> (if w then wh s else rh s) = live w tr) /\ 0 <= live w tr.
Proof.
  intros [HN Hb] R. pose proof (reach_inv _ _ _ _ HN Hb R) as I. destruct (b_h _ _ _ I w) as [C L].
  change (if w then wh s else rh s) with (hnd w s). pose proof (card_nonneg _ _ C).
  split; [lia|]. split; [|exact L]. intros K. destruct (Z.eq_dec (hnd w s - live w tr) 0) as [Q|Q]; [lia|].
  destruct (card_ex _ _ C) as (t & Ht); [lia|]. exfalso. apply (K t). destruct (ppc s t); cbn in Ht; try discriminate.
  apply Bool.eqb_prop in Ht. congruence.
Qed.

Lemma event_go N buf s tr a s' evs e : sane N buf -> reach N buf s tr -> step s a = Ok s' evs -> In e evs ->
  (forall w, e <> EClose w) -> (forall w, e <> EDup w) -> (forall t w, e <> EPoll t w) -> exists t sig, a = Go t sig.
Proof.
  intros _ _ E Hin H1 H2 H3. destruct a; cbn [step] in E.
  - destruct (ppc s t); try discriminate. destruct (size <=? 0); [discriminate|]. injection E as <- <-. destruct Hin.
  - destruct (ppc s t); try discriminate. destruct data; [discriminate|]. injection E as <- <-. destruct Hin.
  - destruct (ppc s t); try discriminate. injection E as <- <-. destruct Hin as [<-|[]]. destruct (H1 w). reflexivity.
  - injection E as <- <-. destruct Hin as [<-|[]]. destruct (H2 w). reflexivity.
  - destruct (ppc s t); try discriminate. injection E as <- <-. destruct Hin as [<-|[]]. destruct (H3 t w). reflexivity.
  - eauto.
  - destruct (ppc s t); try discriminate; injection E as <- <-; destruct Hin.
Qed.

Lemma eof_only N buf s tr a s' evs t : sane N buf -> reach N buf s tr -> step s a = Ok s' evs -> In (EEof t) evs ->
  live true tr = 0 /\ undelivered tr = [].
Proof.
  intros HN R E Hin. destruct (event_go _ _ _ _ _ _ _ _ HN R E Hin) as (u & sig & ->); try congruence.
  assert (F : wh s = 0 /\ undelivered tr = []).
  { destruct (ppc s u) eqn:Eu.
    2:{ destruct (read_result N buf s tr u size nb again sig HN R Eu) as (x & y & Q & P). rewrite Q in E. injection E as <- <-.
        destruct (again && sig); [subst y; destruct Hin as [Hin|[]]; discriminate|].
        destruct (zlen (undelivered tr) =? 0) eqn:Z0; cbn [negb] in P; [|subst y; destruct Hin as [Hin|[]]; discriminate].
        destruct (wh s =? 0) eqn:W0; [|destruct nb; [subst y; destruct Hin as [Hin|[]]; discriminate|destruct P as [-> _]; destruct Hin]].
        split; [lia|]. destruct (undelivered tr); [reflexivity|]. rewrite zlen_cons in Z0. pose proof (zlen_nonneg l). lia. }
    3:{ exfalso. destruct (write_result N buf s tr u data nb again sig HN R Eu) as (x & y & Q & P). rewrite Q in E. injection E as <- <-.
        destruct (again && sig); [subst y; destruct Hin as [Hin|[]]; discriminate|].
        destruct (rh s =? 0); [subst y; destruct Hin as [Hin|[]]; discriminate|].
        destruct (zlen (undelivered tr) <? N); [subst y; destruct Hin as [Hin|[]]; discriminate|].
        destruct nb; [subst y; destruct Hin as [Hin|[]]; discriminate|destruct P as [-> _]; destruct Hin]. }
    all: exfalso; cbn [step] in E; rewrite Eu in E; try discriminate.
    - unfold close_body in E. cbv zeta in E. destruct ((if w then wh s else rh s) <=? 0); [discriminate|]. injection E as _ <-. destruct Hin.
    - destruct (ready s w); injection E as _ <-; [destruct Hin as [Hin|[]]; discriminate|destruct Hin].
    - destruct (linked u (pq s w)); injection E as _ <-; destruct Hin.
    - destruct sig; injection E as _ <-; [destruct Hin as [Hin|[]]; discriminate|destruct Hin].
    - injection E as _ <-; destruct Hin as [Hin|[]]; discriminate. }
  destruct F as [F1 F2]. split; [|exact F2]. destruct (handles N buf s tr true HN R) as (A & _ & C). lia.
Qed.

Lemma epipe_only N buf s tr a s' evs t : sane N buf -> reach N buf s tr -> step s a = Ok s' evs -> In (EPipe t) evs ->
  live false tr = 0.
Proof.
  intros HN R E Hin. destruct (event_go _ _ _ _ _ _ _ _ HN R E Hin) as (u & sig & ->); try congruence.
  assert (F : rh s = 0).
  { destruct (ppc s u) eqn:Eu.
    2:{ exfalso. destruct (read_result N buf s tr u size nb again sig HN R Eu) as (x & y & Q & P). rewrite Q in E. injection E as <- <-.
        destruct (again && sig); [subst y; destruct Hin as [Hin|[]]; discriminate|].
        destruct (zlen (undelivered tr) =? 0) eqn:Z0; cbn [negb] in P; [|subst y; destruct Hin as [Hin|[]]; discriminate].
        destruct (wh s =? 0) eqn:W0; [subst y; destruct Hin as [Hin|[]]; discriminate|].
        destruct nb; [subst y; destruct Hin as [Hin|[]]; discriminate|destruct P as [-> _]; destruct Hin]. }
    3:{ destruct (write_result N buf s tr u data nb again sig HN R Eu) as (x & y & Q & P). rewrite Q in E. injection E as <- <-.
        destruct (again && sig); [subst y; destruct Hin as [Hin|[]]; discriminate|].
        destruct (rh s =? 0) eqn:W0; [lia|]. exfalso.
        destruct (zlen (undelivered tr) <? N); [subst y; destruct Hin as [Hin|[]]; discriminate|].
        destruct nb; [subst y; destruct Hin as [Hin|[]]; discriminate|destruct P as [-> _]; destruct Hin]. }
    all: exfalso; cbn [step] in E; rewrite Eu in E; try discriminate.
    - unfold close_body in E. cbv zeta in E. destruct ((if w then wh s else rh s) <=? 0); [discriminate|]. injection E as _ <-. destruct Hin.
    - destruct (ready s w); injection E as _ <-; [destruct Hin as [Hin|[]]; discriminate|destruct Hin].
    - destruct (linked u (pq s w)); injection E as _ <-; destruct Hin.
    - destruct sig; injection E as _ <-; [destruct Hin as [Hin|[]]; discriminate|destruct Hin].
    - injection E as _ <-; destruct Hin as [Hin|[]]; discriminate. }
  destruct (handles N buf s tr false HN R) as (A & _ & C). lia.
Qed.

Lemma no_wait_after_close N buf s tr t : sane N buf -> reach N buf s tr ->
  (reader_asleep s t -> 0 < live true tr \/ exists u, ppc s u = CGo true) /\
  (writer_asleep s t -> 0 < live false tr \/ exists u, ppc s u = CGo false).
Proof.
  intros HS R. assert (HS2 := HS). destruct HS2 as [HN Hb]. pose proof (reach_inv _ _ _ _ HN Hb R) as I.
  assert (G : forall w : bool, (if w then wh s else rh s) <> 0 -> 0 < live w tr \/ exists u, ppc s u = CGo w).
  { intros w K. change (hnd w s <> 0) in K. destruct (b_h _ _ _ I w) as [C L].
    destruct (Z.eq_dec (live w tr) 0) as [E|E]; [|lia]. right.
    pose proof (card_nonneg _ _ C).
    destruct (card_ex _ _ C) as (u & Hu); [lia|]. exists u. destruct (ppc s u); cbn in Hu; try discriminate.
    apply Bool.eqb_prop in Hu. congruence. }
  split.
  - intros (n & nb & E). apply (G true). apply (i_er _ _ _ I t). rewrite E. reflexivity.
  - intros (n & nb & E). apply (G false). apply (i_ew _ _ _ I t). rewrite E. reflexivity.
Qed.

Lemma no_forgotten N buf s tr t : sane N buf -> reach N buf s tr -> no_pollers tr ->
  (reader_asleep s t -> undelivered tr <> [] -> reader_coming s) /\
  (writer_asleep s t -> zlen (undelivered tr) < N -> writer_coming s).
Proof.
  intros [HN Hb] R NP. pose proof (reach_inv _ _ _ _ HN Hb R) as I. destruct (b_rep _ _ _ I) as (c & Rc & W).
  assert (U : undelivered tr = c) by (unfold undelivered; rewrite W; apply skipn_app_exact). rewrite U. split.
  - intros (n & nb & E) K. assert (Ke : rb_is_empty (rb s) = false).
    { pose proof (brep_empty _ _ _ Rc) as F. destruct (rb_is_empty (rb s)); [|reflexivity]. exfalso. apply K, F. reflexivity. }
    destruct (i_xne _ _ _ I NP Ke) as [Q|Q]; [|exact Q]. destruct (b_ne _ _ _ I) as (_ & _ & M).
    exfalso. assert (In t (neq s)) by (apply M; rewrite E; reflexivity). rewrite Q in H. destruct H.
  - intros (n & nb & E) K. assert (Ke : rb_is_full (rb s) = false).
    { pose proof (brep_full _ _ _ Rc) as F. destruct (rb_is_full (rb s)); [|reflexivity]. exfalso.
      destruct F as [F _]. specialize (F eq_refl). lia. }
    destruct (i_xnf _ _ _ I NP Ke) as [Q|Q]; [|exact Q]. destruct (b_nf _ _ _ I) as (_ & _ & M).
    exfalso. assert (In t (nfq s)) by (apply M; rewrite E; reflexivity). rewrite Q in H. destruct H.
Qed.

(** ** Runs *)
Definition allowedb (tr : list event) (a : action) : bool :=
  match a with Close _ w | Dup w => 0 <? live w tr | _ => true end.
Lemma allowedb_ok tr a : allowedb tr a = true -> allowed tr a.
Proof. destruct a; cbn; auto; lia. Qed.
Fixpoint runc (s : pipe) (tr : list event) (l : list action) : option (pipe * list event) :=
  match l with
  | [] => Some (s, tr)
  | a :: l' => if allowedb tr a then match step s a with Ok s' evs => runc s' (tr ++ evs) l' | _ => None end else None
  end.
Lemma runc_reach N buf l : forall s tr s' tr', reach N buf s tr -> runc s tr l = Some (s', tr') -> reach N buf s' tr'.
Proof.
  induction l as [|a l IH]; cbn [runc]; intros s tr s' tr' H E; [injection E as <- <-; exact H|].
  destruct (allowedb tr a) eqn:EA; [|discriminate]. destruct (step s a) eqn:ES; try discriminate.
  eapply IH; [|exact E]. eapply reach_step; [exact H|apply allowedb_ok, EA|exact ES].
Qed.

(** Task 1 polls the read end, task 2 blocks in read, task 3 writes a byte *)
Definition poller_steals : list action :=
  [Poll 1 false; Go 1 false; Go 1 false; Read 2 10 false; Go 2 false; Write 3 [7] false; Go 3 false; Go 1 false; Go 1 false].
Lemma forgotten_reader : exists s tr, reach 4 [0;0;0;0] s tr /\
  reader_asleep s 2 /\ undelivered tr = [7] /\ (forall u, u <> 2 -> ppc s u = Out).
Proof.
  destruct (runc (pipe_init 4 [0;0;0;0]) [] poller_steals) as [[s tr]|] eqn:E; [|vm_compute in E; discriminate].
  exists s, tr. split; [eapply runc_reach; [apply reach_init|exact E]|].
  vm_compute in E. injection E as <- <-. split; [exists 10, false; reflexivity|]. split; [reflexivity|].
  intros u Hu. cbn [ppc]. destruct (u =? 1) eqn:E1; [assert (u = 1) by lia; subst; reflexivity|].
  destruct (u =? 2) eqn:E2; [lia|]. destruct (u =? 3) eqn:E3; [assert (u = 3) by lia; subst; reflexivity|].
  repeat match goal with |- context [match ?x with _ => _ end] => destruct x eqn:?; try reflexivity; try lia end;
  destruct u as [|[[?|?|]|[?|?|]|]|]; cbn in *; congruence.
Qed.

(** Two pollers and one byte: the second sleeps on although the pipe is readable *)
Definition second_poller : list action :=
  [Poll 1 false; Go 1 false; Go 1 false; Poll 2 false; Go 2 false; Go 2 false; Write 3 [7] false; Go 3 false; Go 1 false; Go 1 false].
Lemma forgotten_poller : exists s tr, reach 4 [0;0;0;0] s tr /\
  ppc s 2 = PWait false /\ ready s false = true /\ (forall u, u <> 2 -> ppc s u = Out).
Proof.
  destruct (runc (pipe_init 4 [0;0;0;0]) [] second_poller) as [[s tr]|] eqn:E; [|vm_compute in E; discriminate].
  exists s, tr. split; [eapply runc_reach; [apply reach_init|exact E]|].
  vm_compute in E. injection E as <- <-. split; [reflexivity|]. split; [reflexivity|].
  intros u Hu. cbn [ppc]. destruct (u =? 1) eqn:E1; [assert (u = 1) by lia; subst; reflexivity|].
  destruct (u =? 2) eqn:E2; [lia|]. destruct (u =? 3) eqn:E3; [assert (u = 3) by lia; subst; reflexivity|].
  repeat match goal with |- context [match ?x with _ => _ end] => destruct x eqn:?; try reflexivity; try lia end;
  destruct u as [|[[?|?|]|[?|?|]|]|]; cbn in *; congruence.
Qed.

Lemma poll_result N buf s tr t (w sig : bool) s' evs : sane N buf -> reach N buf s tr -> ppc s t = PGo w ->
  step s (Go t sig) = Ok s' evs ->
  (In (EPollReady t w) evs <->
   if w then zlen (undelivered tr) < N \/ rh s = 0 else undelivered tr <> [] \/ wh s = 0).
Proof.
  intros Hs R P E. pose proof (stream N buf s tr Hs R) as (_ & Hle & He & _). destruct Hs as [HN Hb].
  pose proof (i_base _ _ _ (reach_inv _ _ _ _ HN Hb R)) as B. destruct (b_rep _ _ _ B) as (c & Rc & _).
  destruct (brep_len _ _ _ Rc) as (_ & _ & M). cbn [step] in E. rewrite P in E.
  assert (Q : In (EPollReady t w) evs <-> ready s w = true).
  { destruct (ready s w); inversion E; subst; cbn; split; auto; try discriminate; tauto. }
  rewrite Q. unfold ready, rb_is_full, rb_is_empty. rewrite He, M. destruct w; rewrite orb_true_iff, negb_true_iff.
  - rewrite Z.eqb_neq, Z.eqb_eq. lia.
  - rewrite Z.eqb_neq, Z.eqb_eq. destruct (undelivered tr) as [|x l]; [rewrite zlen_nil; intuition congruence|].
    rewrite zlen_cons. pose proof (zlen_nonneg l). split; [|intros; left; lia]. intros _. left. discriminate.
Qed.
