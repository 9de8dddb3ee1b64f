From Verif Require Import Lib Flock_Model Flock_Spec Flock_Proofs.

Lemma kept_ok o s s' : reach_alone s -> 0 < held s o -> kept o s s' ->
  reach_alone s' /\ 0 < held s' o /\ own s' o = own s o /\ ino s' o = ino s o.
Proof.
  intros R H K. induction K as [|s1 a s2 K IH A D E]; [auto|]. destruct IH as (R1 & H1 & O1 & I1).
  split; [exact (AS s1 a s2 R1 A E)|]. pose proof (reach_inv s1 R1) as V. destruct (Iheld s1 V o) as [_ Ho]. destruct (Ho H1) as (L & _ & _).
  pose proof (Ilive s1 V o L) as NX. rewrite <- O1, <- I1. clear O1 I1 K.
  destruct a as [t i u|t m|t|x|t x|t]; cbn in E.
  - destruct (pc s1 t); try discriminate. injection E as <-. unfold acq_find. destruct (tree s1 i) as [y|]; [|auto]. destruct (own s1 y =? u); [|auto].
    cbn. unfold fupd. destruct (Z.eqb_spec o y) as [<-|]; repeat split; lia.
  - destruct (pc s1 t); try discriminate. injection E as <-. unfold acq_alloc. destruct m; [|auto]. cbn. unfold fupd.
    replace (o =? next s1) with false by lia. auto.
  - destruct (pc s1 t); try discriminate. injection E as <-. cbn. unfold fupd. destruct (Z.eqb_spec o o0) as [<-|]; repeat split; lia.
  - destruct (0 <? held s1 x); [|discriminate]. injection E as <-. cbn. unfold fupd. destruct (Z.eqb_spec o x) as [<-|]; repeat split; lia.
  - destruct (pc s1 t); try discriminate. destruct (0 <? held s1 x); [|discriminate]. injection E as <-. unfold rel_dec. cbn [refs].
    assert (G : 0 < fupd (held s1) x (held s1 x - 1) o).
    { unfold fupd. destruct (Z.eqb_spec o x) as [<-|]; [pose proof (D t eq_refl); lia|exact H1]. }
    destruct (0 <? _); cbn; auto.
  - destruct (pc s1 t); try discriminate. injection E as <-. cbn. auto.
Qed.
Lemma for_ever o s s' t u : reach_alone s -> 0 < held s o -> kept o s s' -> u <> own s o -> snd (acq_find s' t (ino s o) u) = Busy.
Proof.
  intros R H K N. destruct (kept_ok o s s' R H K) as (R' & H' & O & I). destruct (Iheld s' (reach_inv s' R') o) as [_ Ho]. destruct (Ho H') as (_ & _ & T).
  unfold acq_find. rewrite <- I, T, O. replace (own s o =? u) with false by lia. reflexivity.
Qed.
Lemma exec_for_ever s t i rest : reach_alone s -> (forall t, pc s t = Idle) -> (forall o, ino s o = i -> held s o = 0) ->
  let (s', r) := load_elf s t i false rest in r = None /\ exists o, ino s' o = i /\ forall s'' t', kept o s' s'' -> snd (acq_find s'' t' i VFS) = Busy.
Proof.
  intros R P H. assert (N : ~ inside s i) by (intros [t' X]; rewrite P in X; exact X).
  pose proof (acquire_ok s t i PROCMGNT true R (P t) N) as A. cbv zeta in A.
  destruct (fresh_acquire s t i PROCMGNT VFS ltac:(discriminate) R P H) as (s1 & o & E & F1 & F2 & F3). rewrite E in A. cbn [fst snd] in A.
  unfold load_elf. rewrite E. split; [reflexivity|]. exists o. split; [exact F1|]. intros s'' t' K.
  destruct A as (A1 & _ & (A3 & A4 & _) & _). rewrite <- F1. apply (for_ever o s1 s'' t' VFS A1); [lia|exact K|]. rewrite A4. discriminate.
Qed.

(** The lock of a running program does not keep its file *)
Lemma unlinked : forall s t i f, reach_alone s -> (forall t, pc s t = Idle) -> (forall o, ino s o = i -> held s o = 0) ->
  exists_ f i = true -> nlink f i = 1 -> handles f i = 0 ->
  exists s' o, load_elf s t i true true = (s', Some o) /\ 0 < held s' o /\ ino s' o = i /\ exists_ (unlink f i) i = false /\
    snd (create_file s' t i true true) = None.
Proof.
  intros s t i f R P H E L HN. destruct (fresh_acquire s t i PROCMGNT VFS ltac:(discriminate) R P H) as (s1 & o & EA & F1 & F2 & F3).
  exists s1, o. unfold load_elf, create_file. rewrite EA. split; [reflexivity|]. split; [lia|]. split; [exact F1|]. split.
  - unfold unlink. rewrite L, HN. change (1 - 1) with 0. rewrite !Z.eqb_refl. cbn [andb exists_]. unfold fupd. rewrite Z.eqb_refl. reflexivity.
  - destruct (acquire s1 t i VFS true) as [s2 r]. cbn in F3. rewrite F3. reflexivity.
Qed.
