From Coq Require Import Permutation.
From Verif Require Import Lib List_Model List_Spec.

Lemma chain_ext m m' x l y : (forall z, In z (x :: l) -> nx m' z = nx m z) -> (forall z, In z (l ++ [y]) -> pv m' z = pv m z) -> chain m x l y -> chain m' x l y.
Proof.
  revert x. induction l as [|z l IH]; intros x N P H; cbn in *.
  - rewrite N, P; auto.
  - destruct H as (A & B & C). rewrite N, P by auto. split; [exact A|]. split; [exact B|]. apply IH; auto.
Qed.
Lemma chain_app m x p z q y : chain m x (p ++ z :: q) y <-> chain m x p z /\ chain m z q y.
Proof.
  revert x. induction p as [|w p IH]; intros x; cbn.
  - tauto.
  - rewrite IH. tauto.
Qed.
Lemma ring_rotate m h p c q : ring m h (p ++ c :: q) <-> ring m c (q ++ h :: p).
Proof. unfold ring. rewrite !chain_app. tauto. Qed.
Lemma nodup_rotate (h : Z) p c q : NoDup (h :: p ++ c :: q) -> NoDup (c :: q ++ h :: p).
Proof.
  intros N. change (NoDup ((h :: p) ++ c :: q)) in N. change (NoDup ((c :: q) ++ h :: p)).
  apply (@Permutation_NoDup _ ((h :: p) ++ c :: q)); [apply Permutation_app_comm|exact N].
Qed.
Lemma in_rotate (h : Z) p c q x : In x (h :: p ++ c :: q) <-> In x (c :: q ++ h :: p).
Proof. cbn. rewrite !in_app_iff. cbn. tauto. Qed.

Ltac upd := unfold set_pv, set_nx, fupd in *; cbn [nx pv] in *; repeat match goal with |- context [?a =? ?b] => destruct (Z.eqb_spec a b); subst; cbn [nx pv] end.
Lemma ring_add m c r e : ring m c r -> NoDup (c :: r) -> ~ In e (c :: r) -> ring (add_after c e m) c (e :: r).
Proof.
  intros H N E. inversion N as [|? ? Nc Nr]; subst. unfold ring in *. destruct r as [|w r]; cbn [chain] in *.
  - destruct H as [A B]. unfold add_after. rewrite A. cbn in E. split; [upd; try reflexivity; intuition congruence|]. split; [upd; try reflexivity; intuition congruence|]. split; upd; try reflexivity; intuition congruence.
  - destruct H as (A & B & C). unfold add_after. rewrite A. cbn in E, Nc. inversion Nr as [|? ? Nw Nr']; subst. split; [upd; try reflexivity; intuition congruence|]. split; [upd; try reflexivity; intuition congruence|]. split; [upd; try reflexivity; intuition congruence|]. split; [upd; try reflexivity; intuition congruence|].
    apply chain_ext with (m := m); [| |exact C].
    + intros z Z. cbn in Z. upd; try reflexivity; exfalso; intuition congruence.
    + intros z Z. rewrite in_app_iff in Z. cbn in Z. upd; try reflexivity; exfalso; intuition congruence.
Qed.
Lemma remove_eq e m : pv m e <> e -> remove e m = set_pv (set_nx m (pv m e) (nx m e)) (nx m e) (pv m e).
Proof. intros H. unfold remove. cbn [set_nx nx pv]. rewrite fupd_other by auto. reflexivity. Qed.
Lemma ring_remove m c e r : ring m c (e :: r) -> NoDup (c :: e :: r) -> ring (remove e m) c r.
Proof.
  intros H N. inversion N as [|? ? Nc Nr]; subst. inversion Nr as [|? ? Ne Nr']; subst. unfold ring in *. cbn in Nc, Ne. cbn [chain] in H. destruct H as (A & B & H). rewrite remove_eq by (rewrite B; intuition congruence). rewrite B. destruct r as [|w r]; cbn [chain] in *.
  - destruct H as (C & D). rewrite C. split; upd; try reflexivity; intuition congruence.
  - destruct H as (C & D & F). rewrite C. inversion Nr' as [|? ? Nw Nr'']; subst.
    split; [upd; try reflexivity; intuition congruence|]. split; [upd; try reflexivity; intuition congruence|].
    apply chain_ext with (m := m); [| |exact F].
    + intros z Z. cbn in *. upd; try reflexivity; exfalso; intuition congruence.
    + intros z Z. rewrite in_app_iff in Z. cbn in *. upd; try reflexivity; exfalso; intuition congruence.
Qed.
Lemma ring_add_mid m h p c q e : ring m h (p ++ c :: q) -> NoDup (h :: p ++ c :: q) -> ~ In e (h :: p ++ c :: q) -> ring (add_after c e m) h (p ++ c :: e :: q).
Proof.
  intros H N E. apply ring_rotate. change ((e :: q) ++ h :: p) with (e :: q ++ h :: p). apply ring_add; [apply ring_rotate, H|apply nodup_rotate, N|]. rewrite <- in_rotate. exact E.
Qed.
Lemma ring_prev m h l : ring m h l -> pv m h = last l h.
Proof.
  destruct l as [|x l] using rev_ind; unfold ring; [cbn; tauto|]. rewrite chain_app, last_last. cbn. tauto.
Qed.
Lemma ring_add_end m h l e : ring m h l -> NoDup (h :: l) -> ~ In e (h :: l) -> ring (add_after (pv m h) e m) h (l ++ [e]).
Proof.
  intros H N E. rewrite (ring_prev m h l H). destruct l as [|x l] using rev_ind; [apply ring_add; assumption|]. rewrite last_last, <- app_assoc. apply (ring_add_mid m h l x [] e); assumption.
Qed.
Lemma ring_pv_mid m h p c q : ring m h (p ++ c :: q) -> pv m c = last p h.
Proof. unfold ring. rewrite chain_app. intros [H _]. revert H. destruct p as [|x p] using rev_ind; [cbn; tauto|]. rewrite chain_app, last_last. cbn. tauto. Qed.
Lemma ring_before m h p c q e : ring m h (p ++ c :: q) -> NoDup (h :: p ++ c :: q) -> ~ In e (h :: p ++ c :: q) -> ring (add_after (pv m c) e m) h (p ++ e :: c :: q).
Proof.
  intros H N E. rewrite (ring_pv_mid m h p c q H). destruct p as [|x p] using rev_ind; [apply ring_add; assumption|]. rewrite last_last. rewrite <- app_assoc in *. cbn [app] in *. apply (ring_add_mid m h p x (c :: q) e); assumption.
Qed.
Lemma ring_remove_mid m h p e q : ring m h (p ++ e :: q) -> NoDup (h :: p ++ e :: q) -> ring (remove e m) h (p ++ q).
Proof.
  intros H N. destruct p as [|x p] using rev_ind; [apply ring_remove; assumption|]. rewrite <- app_assoc in *. cbn [app] in *. apply ring_rotate. apply ring_remove; [apply (ring_rotate m h p x (e :: q)), H|apply (nodup_rotate h p x (e :: q)), N].
Qed.

(** other lists are not touched *)
Lemma ring_other_add m h l c e : ring m h l -> ~ In c (h :: l) -> ~ In e (h :: l) -> ~ In (nx m c) (h :: l) -> ring (add_after c e m) h l.
Proof.
  intros H C E X. apply chain_ext with (m := m); [| |exact H]; unfold add_after; intros z Z.
  - cbn in *. upd; try reflexivity; exfalso; intuition congruence.
  - rewrite in_app_iff in Z. cbn in *. upd; try reflexivity; exfalso; intuition congruence.
Qed.
Lemma ring_other_remove m h l e : ring m h l -> ~ In (nx m e) (h :: l) -> ~ In (pv m e) (h :: l) -> pv m e <> e -> ring (remove e m) h l.
Proof.
  intros H C E X. rewrite remove_eq by exact X. apply chain_ext with (m := m); [| |exact H]; intros z Z.
  - cbn in *. upd; try reflexivity; exfalso; intuition congruence.
  - rewrite in_app_iff in Z. cbn in *. upd; try reflexivity; exfalso; intuition congruence.
Qed.
Lemma ring_nx_in m h l c : ring m h l -> In c (h :: l) -> In (nx m c) (h :: l).
Proof.
  intros H [->|C].
  - destruct l as [|x l]; unfold ring in H; cbn in H; [destruct H as [-> _]; cbn; auto|destruct H as [-> _]; cbn; auto].
  - apply in_split in C. destruct C as (p & q & ->). apply chain_app in H. destruct H as [_ H]. destruct q as [|w q]; cbn in H; [destruct H as [-> _]; left; reflexivity|destruct H as [-> _]; right; rewrite in_app_iff; cbn; auto].
Qed.
Lemma ring_pv_in m h l c : ring m h l -> In c (h :: l) -> In (pv m c) (h :: l).
Proof.
  intros H [->|C].
  - rewrite (ring_prev m c l H). destruct l as [|x l] using rev_ind; [left; reflexivity|]. rewrite last_last. right. rewrite in_app_iff. cbn. auto.
  - apply in_split in C. destruct C as (p & q & ->). rewrite (ring_pv_mid m h p c q H). destruct p as [|x p] using rev_ind; [left; reflexivity|]. rewrite last_last. right. rewrite !in_app_iff. cbn. auto.
Qed.

(** one operation *)
Lemma apart_set a h l : apart a -> NoDup (h :: l) -> (forall h' l' x, h' <> h -> a h' = Some l' -> In x (h' :: l') -> ~ In x (h :: l)) -> apart (fupd a h (Some l)).
Proof.
  intros [A1 A2] N D. split.
  - intros h1 l1 E. unfold fupd in E. destruct (Z.eqb_spec h1 h) as [->|X]; [injection E as <-; exact N|exact (A1 h1 l1 E)].
  - intros h1 l1 h2 l2 x E1 E2 I1 I2. unfold fupd in E1, E2. destruct (Z.eqb_spec h1 h) as [->|X1]; destruct (Z.eqb_spec h2 h) as [->|X2].
    + reflexivity.
    + injection E1 as <-. exfalso. exact (D h2 l2 x X2 E2 I2 I1).
    + injection E2 as <-. exfalso. exact (D h1 l1 x X1 E1 I1 I2).
    + exact (A2 h1 l1 h2 l2 x E1 E2 I1 I2).
Qed.
Lemma rep_add m a h l l' c e : rep m a -> a h = Some l -> ~ used a e -> In c (h :: l) -> (forall x, In x l' <-> x = e \/ In x l) -> NoDup (h :: l') -> ring (add_after c e m) h l' -> rep (add_after c e m) (fupd a h (Some l')).
Proof.
  intros [[A1 A2] R] E U C L N H. split.
  - apply apart_set; [split; assumption|exact N|]. intros h' l2 x X E' I1 I2. assert (I3 : x = e \/ In x (h :: l)) by (cbn in *; rewrite L in I2; tauto). destruct I3 as [->|I3]; [apply U; exists h', l2; auto|]. apply X. exact (A2 h' l2 h l x E' E I1 I3).
  - intros h' l2 E'. unfold fupd in E'. destruct (Z.eqb_spec h' h) as [->|X]; [injection E' as <-; exact H|]. apply ring_other_add; [exact (R h' l2 E')| | |].
    + intros I. apply X. exact (A2 h' l2 h l c E' E I C).
    + intros I. apply U. exists h', l2. auto.
    + intros I. apply X. exact (A2 h' l2 h l _ E' E I (ring_nx_in m h l c (R h l E) C)).
Qed.
Lemma fresh_cons a h l e : a h = Some l -> ~ used a e -> ~ In e (h :: l).
Proof. intros E U I. apply U. exists h, l. auto. Qed.
Lemma nodup_ins (h : Z) p q e : NoDup (h :: p ++ q) -> ~ In e (h :: p ++ q) -> NoDup (h :: p ++ e :: q).
Proof.
  intros N E. apply (@Permutation_NoDup _ (e :: h :: p ++ q)); [|constructor; assumption].
  etransitivity; [apply perm_swap|]. apply perm_skip. apply Permutation_middle.
Qed.
Lemma rep_step m a o a' : rep m a -> sstep a o a' -> rep (exec m o) a'.
Proof.
  intros RP S. pose proof RP as [[A1 A2] R]. destruct S as [h U|h l e E U|h p c q e E U|h l e E U|h p c q e E U|h l e E U|h l e E U|h p e q E]; cbn [exec].
  - split.
    + apply apart_set; [split; assumption|constructor; [tauto|constructor]|]. intros h' l' x X E I [->|[]]. apply U. exists h', l'. auto.
    + intros h' l' E. unfold fupd in E. destruct (Z.eqb_spec h' h) as [->|X].
      * injection E as <-. unfold ring. cbn. rewrite !fupd_same. auto.
      * apply chain_ext with (m := m); [| |exact (R h' l' E)]; intros z Z; cbn; rewrite fupd_other; auto; intros ->; apply U; exists h', l'; split; auto; rewrite ?in_app_iff in *; cbn in *; tauto.
  - pose proof (fresh_cons a h l e E U) as F. apply (rep_add m a h l (e :: l) h e RP E U); [left; reflexivity|intros x; cbn; intuition congruence| |apply ring_add; auto].
    apply (nodup_ins h [] l e); [apply A1, E|exact F].
  - pose proof (fresh_cons a h _ e E U) as F. apply (rep_add m a h (p ++ c :: q) _ c e RP E U); [right; rewrite in_app_iff; cbn; auto|intros x; rewrite !in_app_iff; cbn; intuition congruence| |apply ring_add_mid; auto].
    change (p ++ c :: e :: q) with (p ++ [c] ++ e :: q). rewrite app_assoc. apply nodup_ins; rewrite <- app_assoc; cbn [app]; [apply A1, E|exact F].
  - pose proof (fresh_cons a h l e E U) as F. unfold add_before. rewrite (ring_prev m h l (R h l E)) at 1. apply (rep_add m a h l (l ++ [e]) (last l h) e RP E U).
    + rewrite <- (ring_prev m h l (R h l E)). apply ring_pv_in; [apply R, E|left; reflexivity].
    + intros x. rewrite in_app_iff. cbn. intuition congruence.
    + apply nodup_ins; rewrite app_nil_r; [apply A1, E|exact F].
    + rewrite <- (ring_prev m h l (R h l E)). apply ring_add_end; auto.
  - pose proof (fresh_cons a h _ e E U) as F. apply (rep_add m a h (p ++ c :: q) _ (pv m c) e RP E U).
    + apply ring_pv_in; [apply R, E|right; rewrite in_app_iff; cbn; auto].
    + intros x. rewrite !in_app_iff. cbn. intuition congruence.
    + apply nodup_ins; [apply A1, E|exact F].
    + apply ring_before; auto.
  - pose proof (fresh_cons a h l e E U) as F. apply (rep_add m a h l (l ++ [e]) (pv m h) e RP E U).
    + apply ring_pv_in; [apply R, E|left; reflexivity].
    + intros x. rewrite in_app_iff. cbn. intuition congruence.
    + apply nodup_ins; rewrite app_nil_r; [apply A1, E|exact F].
    + apply ring_add_end; auto.
  - pose proof (fresh_cons a h l e E U) as F. apply (rep_add m a h l (e :: l) h e RP E U); [left; reflexivity|intros x; cbn; intuition congruence| |apply ring_add; auto].
    apply (nodup_ins h [] l e); [apply A1, E|exact F].
  - pose proof (A1 h _ E) as N. pose proof (R h _ E) as Rh. assert (In' : In e (h :: p ++ e :: q)) by (right; rewrite in_app_iff; cbn; auto). split.
    + apply apart_set; [split; assumption|change (h :: p ++ q) with ((h :: p) ++ q); apply NoDup_remove_1 with (a := e); exact N|]. intros h' l' x X E' I1 I2. apply X. refine (A2 h' l' h _ x E' E I1 _). cbn in *. rewrite in_app_iff in *. cbn. tauto.
    + intros h' l' E'. unfold fupd in E'. destruct (Z.eqb_spec h' h) as [->|X]; [injection E' as <-; apply ring_remove_mid; auto|]. apply ring_other_remove; [exact (R h' l' E')| | |].
      * intros I. apply X. exact (A2 h' l' h _ _ E' E I (ring_nx_in m h _ e Rh In')).
      * intros I. apply X. exact (A2 h' l' h _ _ E' E I (ring_pv_in m h _ e Rh In')).
      * rewrite (ring_pv_mid m h p e q Rh). intros X'. change (NoDup ((h :: p) ++ e :: q)) in N. apply NoDup_remove_2 in N. apply N. rewrite in_app_iff. left. rewrite <- X'. destruct p as [|x p] using rev_ind; [left; reflexivity|]. rewrite last_last. right. rewrite in_app_iff. cbn. auto.
Qed.
Lemma rep_runs a os a' : sruns a os a' -> forall m, rep m a -> rep (fold_left exec os m) a'.
Proof. induction 1 as [|a o a1 os a2 S R IH]; intros m H; cbn; [exact H|]. apply IH. apply (rep_step m a o a1 H S). Qed.
Lemma rep_empty m : rep m no_lists.
Proof. split; [split; discriminate|discriminate]. Qed.
Lemma represents m os a : sruns no_lists os a -> rep (fold_left exec os m) a.
Proof. intros H. apply (rep_runs _ _ _ H), rep_empty. Qed.

(** enumeration *)
Lemma kp_ok m h l x fuel : chain m x l h -> ~ In h l -> (length l <= fuel)%nat -> for_each_ro_kp fuel (nx m x) h m = Some l.
Proof.
  revert x fuel. induction l as [|z l IH]; intros x fuel H N L; cbn in *.
  - destruct H as [-> _]. destruct fuel; cbn; rewrite Z.eqb_refl; reflexivity.
  - destruct H as (-> & _ & H). destruct fuel as [|f]; [lia|]. cbn. replace (z =? h) with false by (symmetry; apply Z.eqb_neq; tauto). rewrite (IH z f); [reflexivity|exact H|tauto|lia].
Qed.
Definition swap (m : mem) : mem := Mem (pv m) (nx m).
Lemma chain_swap m x l y : chain m x l y -> chain (swap m) y (rev l) x.
Proof.
  revert x. induction l as [|z l IH]; intros x H; cbn in *; [tauto|]. destruct H as (A & B & C). apply chain_app. split; [apply IH, C|]. cbn. auto.
Qed.
Lemma ring_swap m h l : ring m h l -> ring (swap m) h (rev l).
Proof. apply chain_swap. Qed.
Section Each.
Variable body : Z -> mem -> mem.
Variable h : Z.
Lemma each_ok : body_ok body h -> forall l2 l1 m fuel, ring m h (l1 ++ l2) -> NoDup (h :: l1 ++ l2) -> (length l2 <= fuel)%nat ->
  exists m' l', each body nx fuel (hd h l2) (nx m (hd h l2)) h m = Some (l2, m') /\ ring m' h l' /\ NoDup (h :: l').
Proof.
  intros B. induction l2 as [|pos l2 IH]; intros l1 m fuel R N L.
  - exists m, (l1 ++ []). cbn [hd]. destruct fuel; cbn; rewrite Z.eqb_refl; auto.
  - destruct fuel as [|fuel]; [cbn in L; lia|]. cbn [hd each]. assert (P : pos <> h) by (intros ->; inversion N; subst; rewrite in_app_iff in *; cbn in *; tauto). replace (pos =? h) with false by (symmetry; apply Z.eqb_neq, P).
    destruct (B m l1 pos l2 R N) as (l1' & R' & N'). destruct (IH l1' (body pos m) fuel R' N' ltac:(cbn in L; lia)) as (m' & l' & E & R2 & N2).
    assert (T : nx m pos = hd h l2). { apply chain_app in R. destruct R as [_ R]. destruct l2; cbn in *; tauto. }
    rewrite T, E. exists m', l'. cbn. auto.
Qed.
Lemma for_each_ok m l fuel : body_ok body h -> ring m h l -> NoDup (h :: l) -> (length l <= fuel)%nat ->
  exists m' l', for_each body fuel h m = Some (l, m') /\ ring m' h l' /\ NoDup (h :: l').
Proof.
  intros B R N L. unfold for_each. replace (nx m h) with (hd h l); [apply (each_ok B l [] m fuel R N L)|]. unfold ring in R. destruct l; cbn in *; symmetry; tauto.
Qed.
End Each.
Definition swapped (body : Z -> mem -> mem) (x : Z) (m : mem) : mem := swap (body x (swap m)).
Lemma swap2 m : swap (swap m) = m.
Proof. destruct m. reflexivity. Qed.
Lemma each_swap body fuel : forall pos tp h m, each body pv fuel pos tp h m = option_map (fun r => (fst r, swap (snd r))) (each (swapped body) nx fuel pos tp h (swap m)).
Proof.
  induction fuel as [|f IH]; intros; cbn; destruct (pos =? h); cbn; rewrite ?swap2; try reflexivity. rewrite IH. replace (swapped body pos (swap m)) with (swap (body pos m)) by (unfold swapped; rewrite swap2; reflexivity). cbn [swap nx]. fold (swap (body pos m)). destruct (each (swapped body) nx f tp (pv (body pos m) tp) h (swap (body pos m))) as [[? ?]|]; reflexivity.
Qed.
Lemma nodup_rev (h : Z) l : NoDup (h :: l) -> NoDup (h :: rev l).
Proof. intros N. apply (@Permutation_NoDup _ (h :: l)); [apply perm_skip, Permutation_rev|exact N]. Qed.
Lemma body_swap body h : body_ok_reverse body h -> body_ok (swapped body) h.
Proof.
  intros B m l1 pos l2 R N. apply ring_swap in R. apply nodup_rev in N. rewrite rev_app_distr in *. cbn in *. rewrite <- app_assoc in *. cbn in *.
  destruct (B (swap m) (rev l2) pos (rev l1) R N) as (l2' & R' & N'). exists (rev l2'). apply ring_swap in R'. apply nodup_rev in N'. rewrite rev_app_distr, rev_involutive in *. auto.
Qed.
Lemma for_each_reverse_ok body h m l fuel : body_ok_reverse body h -> ring m h l -> NoDup (h :: l) -> (length l <= fuel)%nat ->
  exists m' l', for_each_reverse body fuel h m = Some (rev l, m') /\ ring m' h l' /\ NoDup (h :: l').
Proof.
  intros B R N L. unfold for_each_reverse. rewrite each_swap. pose proof (for_each_ok (swapped body) h (swap m) (rev l) fuel (body_swap body h B) (ring_swap m h l R) (nodup_rev h l N) ltac:(rewrite rev_length; exact L)) as (m' & l' & E & R' & N').
  unfold for_each in E. cbn [swap nx] in *. rewrite E. exists (swap m'), (rev l'). cbn. split; [reflexivity|]. split; [apply ring_swap, R'|apply nodup_rev, N'].
Qed.

(** the theorems on represented lists *)
Lemma enumerates m a h l fuel : rep m a -> a h = Some l -> (length l <= fuel)%nat ->
  for_each_ro fuel h m = Some l /\ for_each (fun _ m => m) fuel h m = Some (l, m) /\ for_each_reverse (fun _ m => m) fuel h m = Some (rev l, m).
Proof.
  intros [[A1 _] R] E L. specialize (R h l E). specialize (A1 h l E). split; [|split].
  - apply kp_ok; [exact R|inversion A1; assumption|exact L].
  - destruct (for_each_ok (fun _ m => m) h m l fuel) as (m' & l' & F & _); auto.
    { intros m1 l1 pos l2 R1 N1. exists (l1 ++ [pos]). rewrite <- app_assoc. auto. }
    rewrite F. assert (G : forall f p t m0 v m1, each (fun _ m => m) nx f p t h m0 = Some (v, m1) -> m1 = m0).
    { induction f as [|f IH]; intros p t m0 v m1 G; cbn in G; destruct (p =? h); try discriminate; try (injection G as _ <-; reflexivity). destruct (each _ nx f t (nx m0 t) h m0) as [[v' m2]|] eqn:G2; [|discriminate]. cbn in G. injection G as _ <-. apply (IH _ _ _ _ _ G2). }
    rewrite (G _ _ _ _ _ _ F). reflexivity.
  - destruct (for_each_reverse_ok (fun _ m => m) h m l fuel) as (m' & l' & F & _); auto.
    { intros m1 l1 pos l2 R1 N1. exists (pos :: l2). auto. }
    rewrite F. assert (G : forall f p t m0 v m1, each (fun _ m => m) pv f p t h m0 = Some (v, m1) -> m1 = m0).
    { induction f as [|f IH]; intros p t m0 v m1 G; cbn in G; destruct (p =? h); try discriminate; try (injection G as _ <-; reflexivity). destruct (each _ pv f t (pv m0 t) h m0) as [[v' m2]|] eqn:G2; [|discriminate]. cbn in G. injection G as _ <-. apply (IH _ _ _ _ _ G2). }
    rewrite (G _ _ _ _ _ _ F). reflexivity.
Qed.
Lemma loop_visits_all m a h l fuel body : rep m a -> a h = Some l -> (length l <= fuel)%nat -> body_ok body h ->
  exists m' l', for_each body fuel h m = Some (l, m') /\ ring m' h l' /\ NoDup (h :: l').
Proof. intros [[A1 _] R] E L B. apply for_each_ok; auto. Qed.
Lemma reverse_loop_visits_all m a h l fuel body : rep m a -> a h = Some l -> (length l <= fuel)%nat -> body_ok_reverse body h ->
  exists m' l', for_each_reverse body fuel h m = Some (rev l, m') /\ ring m' h l' /\ NoDup (h :: l').
Proof. intros [[A1 _] R] E L B. apply for_each_reverse_ok; auto. Qed.
Lemma ring_junk m h l e v w : ring m h l -> ~ In e (h :: l) -> ring (set_pv (set_nx m e v) e w) h l.
Proof.
  intros R N. apply chain_ext with (m := m); [| |exact R]; intros z Z; cbn; rewrite fupd_other; auto; intros ->; apply N; rewrite ?in_app_iff in *; cbn in *; tauto.
Qed.
Lemma drain_ok v w h : body_ok (drain v w) h /\ body_ok_reverse (drain v w) h.
Proof.
  assert (G : forall m l1 pos l2, ring m h (l1 ++ pos :: l2) -> NoDup (h :: l1 ++ pos :: l2) -> ring (drain v w pos m) h (l1 ++ l2) /\ NoDup (h :: l1 ++ l2)).
  { intros m l1 pos l2 R N. pose proof N as N2. change (NoDup ((h :: l1) ++ pos :: l2)) in N2. split; [|apply (NoDup_remove_1 (h :: l1) l2 pos N2)]. apply ring_junk; [apply ring_remove_mid; assumption|]. apply (NoDup_remove_2 (h :: l1) l2 pos N2). }
  split; intros m l1 pos l2 R N; [exists l1|exists l2]; apply G; assumption.
Qed.

Lemma tests m a : rep m a ->
  (forall h l, a h = Some l -> is_empty h m = match l with [] => true | _ => false end) /\
  (forall h l x, a h = Some l -> In x l -> in_list x m = true) /\
  (forall h p x q, a h = Some (p ++ x :: q) -> in_list x (remove x m) = false) /\
  (forall x, in_list x (node_init x m) = false).
Proof.
  intros [[A1 A2] R]. split; [|split; [|split]].
  - intros h l E. specialize (R h l E). specialize (A1 h l E). unfold is_empty, ring in *. destruct l as [|x l]; cbn in R; [destruct R as [-> ->]; rewrite Z.eqb_refl; reflexivity|].
    destruct R as [-> _]. replace (x =? h) with false; [reflexivity|]. symmetry. apply Z.eqb_neq. intros ->. inversion A1; subst. cbn in *. tauto.
  - intros h l x E I. specialize (R h l E). specialize (A1 h l E). apply in_split in I. destruct I as (p & q & ->). apply ring_rotate in R. apply nodup_rotate in A1. unfold in_list, is_empty. 
    assert (X : nx m x <> x /\ pv m (nx m x) = x /\ nx m (pv m x) = x). { rewrite (ring_prev m x _ R). destruct (q ++ h :: p) as [|y l] eqn:El; [destruct q; discriminate|]. split; [|split].
      - unfold ring in R. cbn in R. destruct R as [-> _]. intros ->. inversion A1; subst. cbn in *. tauto.
      - unfold ring in R. cbn in R. destruct R as (-> & R & _). exact R.
      - clear El A1. destruct l as [|z l] using rev_ind; [unfold ring in R; cbn in *; tauto|]. clear IHl. change (y :: l ++ [z]) with ((y :: l) ++ [z]) in *. rewrite last_last. apply chain_app in R. destruct R as [_ R]. cbn in R. tauto. }
    destruct X as (X1 & -> & ->). rewrite Z.eqb_refl. replace (nx m x =? x) with false by (symmetry; apply Z.eqb_neq, X1). reflexivity.
  - intros h p x q E. specialize (R h _ E). specialize (A1 h _ E). apply ring_rotate in R. apply nodup_rotate in A1. destruct (q ++ h :: p) as [|y l] eqn:El; [destruct q; discriminate|].
    assert (P : pv m x <> x). { rewrite (ring_prev m x _ R). intros X. assert (I : In x (y :: l)) by (rewrite <- X at 1; clear; revert y; induction l as [|z l IH]; intros y; [left; reflexivity|right; apply (IH z)]). inversion A1; subst. tauto. }
    unfold ring in R. cbn in R. destruct R as (R1 & R2 & _). assert (Y : y <> x) by (intros ->; inversion A1; subst; cbn in *; tauto).
    unfold in_list, remove, set_pv, set_nx. cbn [nx pv]. rewrite (fupd_other (nx m)) by congruence. rewrite R1. rewrite (fupd_other (pv m)) by congruence. rewrite fupd_same. replace (y =? x) with false by (symmetry; apply Z.eqb_neq; congruence). rewrite andb_false_r. reflexivity.
  - intros x. unfold in_list, is_empty, node_init. cbn. rewrite !fupd_same, Z.eqb_refl. reflexivity.
Qed.

(** a loop body must not remove the node after the current one *)
Lemma remove_next_hangs : exists m l body, rep m (fupd no_lists 1 (Some l)) /\
  (forall x m', body x m' = if x =? 2 then node_init 3 (remove 3 m') else m') /\ forall fuel, for_each body fuel 1 m = None.
Proof.
  set (body := fun x m' => if x =? 2 then node_init 3 (remove 3 m') else m').
  set (m := fold_left exec [Init 1; Tail 1 2; Tail 1 3] (Mem (fun _ => 0) (fun _ => 0))).
  assert (R : rep m (fupd no_lists 1 (Some [2; 3]))).
  { split; [split|].
    - intros h l E. unfold fupd, no_lists in E. destruct (h =? 1) eqn:X; [|discriminate]. injection E as <-. assert (h = 1) by lia. subst. repeat constructor; cbn; lia.
    - intros h1 l1 h2 l2 x E1 E2 _ _. unfold fupd, no_lists in *. destruct (h1 =? 1) eqn:X1; destruct (h2 =? 1) eqn:X2; try discriminate. lia.
    - intros h l E. unfold fupd, no_lists in E. destruct (h =? 1) eqn:X; [|discriminate]. injection E as <-. assert (h = 1) by lia. subst. vm_compute. auto 10. }
  exists m, [2; 3], body. split; [exact R|]. split; [reflexivity|].
  set (m2 := body 2 m). assert (G : forall f, each body nx f 3 3 1 m2 = None).
  { induction f as [|f IH]; [reflexivity|]. cbn [each]. change (3 =? 1) with false. cbv iota. change (body 3 m2) with m2. change (nx m2 3) with 3. rewrite IH. reflexivity. }
  intros fuel. unfold for_each. change (nx m 1) with 2. change (nx m 2) with 3. destruct fuel as [|f]; [reflexivity|]. cbn [each]. change (2 =? 1) with false. cbv iota. fold m2. change (nx m2 3) with 3. rewrite G. reflexivity.
Qed.
