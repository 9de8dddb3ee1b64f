From Coq Require Import ZArith List Bool Lia.
From Verif Require Import Lib Paging_Model Paging_Spec Paging_Proofs Paging_Proofs2 Paging_Proofs3.
From Verif Require Import Paging_Proofs4 Paging_Proofs5 Paging_Proofs6.
Import ListNotations.
Open Scope Z_scope.

(* page directories only change when they are worked on *)
Lemma get_pt_inv s pd i o : get_pt s pd i = Ok o -> o = de s pd i.
Proof.
  unfold get_pt. destruct (kd s pd); try discriminate. destruct (de s pd i) as [p|]; [|congruence].
  destruct (kd s p); congruence.
Qed.

Lemma rc_inc_de c s f : de (rc_inc c s f) = de s.
Proof. unfold rc_inc. destruct (lim c <=? f); reflexivity. Qed.

Lemma rc_dec_de c s f s' n : rc_dec c s f = Ok (s', n) -> de s' = de s.
Proof.
  unfold rc_dec. destruct (lim c <=? f); [congruence|].
  destruct (rc s f <=? 0); [discriminate|]. intros [= <- _]. reflexivity.
Qed.

Lemma kfree_de s f s' : kfree s f = Ok s' -> de s' = de s.
Proof. unfold kfree. destruct (kd s f); try discriminate; intros [= <-]; reflexivity. Qed.

Lemma map_int_de c al s pd v e s' r x i :
  map_int c al s pd v e = Ok (s', r) -> x <> pd -> de s' x i = de s x i.
Proof.
  intros E N. unfold map_int in E. destruct (get_pt s pd (v / NPT)) as [o| | |]; try discriminate.
  cbn [bind] in E. destruct o as [p|].
  - destruct (te s p (v mod NPT)); injection E as <- _; [reflexivity|]. rewrite rc_inc_de. reflexivity.
  - destruct (al s) as [p|]; [|injection E as <- _; reflexivity].
    cbv zeta in E. destruct (te _ p (v mod NPT)); injection E as <- _; [|rewrite rc_inc_de];
      unfold set_te, set_de; cbn [de]; rewrite fupd_other by exact N; reflexivity.
Qed.

Lemma map_new_de c al s pd v rw sh zero s' r x i :
  map_new c al s pd v rw sh zero = Ok (s', r) -> x <> pd -> de s' x i = de s x i.
Proof.
  intros E N. unfold map_new in E. destruct (al s) as [f|]; [|injection E as <- _; reflexivity].
  cbv zeta in E. set (s1 := if zero then _ else _) in E.
  assert (D1 : de s1 = de s) by (unfold s1; destruct zero; reflexivity).
  destruct (map_int _ _ _ _ _ _) as [[s2 r2]| | |] eqn:M; try discriminate. cbn [bind] in E.
  pose proof (map_int_de _ _ _ _ _ _ _ _ x i M N) as D2. rewrite D1 in D2.
  destruct (r2 =? 0); [injection E as <- _; exact D2|].
  destruct (kfree s2 f) as [s3| | |] eqn:K; try discriminate. cbn [bind] in E. injection E as <- _.
  rewrite (kfree_de _ _ _ K). exact D2.
Qed.

Lemma unmap_de c s pd v fr perm s' r : unmap c s pd v fr perm = Ok (s', r) -> de s' = de s.
Proof.
  unfold unmap. destruct (get_pt s pd (v / NPT)) as [o| | |]; try discriminate. cbn [bind].
  destruct o as [p|]; [|destruct perm; [intros [= <- _]; reflexivity|discriminate]].
  destruct (te s p (v mod NPT)) as [e|]; [|destruct perm; [intros [= <- _]; reflexivity|discriminate]].
  destruct (rc_dec _ _ _) as [[s1 n]| | |] eqn:R; try discriminate. cbn [bind].
  apply rc_dec_de in R. cbn [set_te de] in R.
  destruct ((n =? 0) && fr); [|intros [= <- _]; exact R].
  destruct (p_f e =? zf c); [discriminate|].
  destruct (kfree _ _) as [s2| | |] eqn:K; try discriminate. cbn [bind]. intros [= <- _].
  rewrite (kfree_de _ _ _ K). exact R.
Qed.

Lemma set_ro_de s pd v s' : set_ro s pd v = Ok s' -> de s' = de s.
Proof.
  unfold set_ro. destruct (get_pt s pd (v / NPT)) as [o| | |]; try discriminate. cbn [bind].
  destruct o as [p|]; [|discriminate]. destruct (te s p (v mod NPT)); intros [= <-]; reflexivity.
Qed.

Lemma cow_de c al s pd v s' r : cow c al s pd v = Ok (s', r) -> de s' = de s.
Proof.
  unfold cow. destruct (get_pt s pd (v / NPT)) as [o| | |]; try discriminate. cbn [bind].
  destruct o as [p|]; [|intros [= <- _]; reflexivity].
  destruct (te s p (v mod NPT)) as [e|]; [|intros [= <- _]; reflexivity].
  destruct (negb (p_cow e)); [intros [= <- _]; reflexivity|].
  destruct (rc_get c s (p_f e) =? 1).
  - destruct (p_f e =? zf c); [discriminate|]. intros [= <- _]. reflexivity.
  - destruct (al s) as [f|]; [|intros [= <- _]; reflexivity]. cbv zeta.
    destruct (negb _); [discriminate|].
    destruct (rc_dec _ _ _) as [[s1 n]| | |] eqn:R; try discriminate. cbn [bind].
    intros [= <- _]. apply rc_dec_de in R. rewrite rc_inc_de in R. exact R.
Qed.

Lemma write_de c al s pd v off b s' r : write c al s pd v off b = Ok (s', r) -> de s' = de s.
Proof.
  unfold write. destruct (get_pt s pd (v / NPT)) as [o| | |]; try discriminate. cbn [bind].
  destruct o as [p|]; [|intros [= <- _]; reflexivity].
  destruct (te s p (v mod NPT)) as [e|]; [|intros [= <- _]; reflexivity].
  destruct (p_rw e); [intros [= <- _]; reflexivity|].
  destruct (cow c al s pd v) as [[s1 q]| | |] eqn:C; try discriminate. cbn [bind].
  apply cow_de in C. destruct q; [|intros [= <- _]; exact C|intros [= <- _]; exact C].
  destruct (te s1 p (v mod NPT)) as [e1|]; [|intros [= <- _]; exact C].
  destruct (p_rw e1); intros [= <- _]; exact C.
Qed.

Lemma undo_de pd : forall l s s', clone_undo s pd l = Ok s' -> de s' = de s.
Proof.
  induction l as [|i l IH]; intros s s'; cbn [clone_undo]; [congruence|].
  destruct (de s pd i) as [p|]; [|apply IH].
  destruct (kfree s p) as [s1| | |] eqn:K; try discriminate. cbn [bind]. intros E.
  apply IH in E. rewrite E. eapply kfree_de; exact K.
Qed.

Lemma alloc_de al pd new x i : x <> new -> forall l d s s' r,
  clone_alloc al s pd new l d = Ok (s', r) -> de s' x i = de s x i.
Proof.
  intros N. induction l as [|k l IH]; intros d s s' r; cbn [clone_alloc]; [congruence|].
  destruct (de s pd k) as [p0|]; [|apply IH]. destruct (al s) as [p|].
  - intros E. apply IH in E. rewrite E. cbn [set_de set_kd de]. rewrite fupd_other by exact N. reflexivity.
  - destruct (clone_undo s pd d) as [s1| | |] eqn:U; try discriminate. cbn [bind].
    destruct (kfree s1 new) as [s2| | |] eqn:K; try discriminate. cbn [bind]. intros [= <- _].
    rewrite (kfree_de _ _ _ K), (undo_de _ _ _ _ U). reflexivity.
Qed.

Lemma mark_de c p : forall l s s', clone_mark c s p l = Ok s' -> de s' = de s.
Proof.
  induction l as [|j l IH]; intros s s'; cbn [clone_mark]; [congruence|].
  destruct (te s p j) as [e|]; [|apply IH]. destruct (rc_get c s (p_f e) <=? 0); [discriminate|].
  intros E. apply IH in E. rewrite E, rc_inc_de. reflexivity.
Qed.

Lemma pts_de c pd new : forall l s s', clone_pts c s pd new l = Ok s' -> de s' = de s.
Proof.
  induction l as [|i l IH]; intros s s'; cbn [clone_pts]; [congruence|].
  destruct (get_pt s pd i) as [o| | |]; try discriminate. cbn [bind].
  destruct o as [p|]; [|apply IH].
  destruct (get_pt s new i) as [o| | |]; try discriminate. cbn [bind].
  destruct o as [q|]; [|discriminate].
  destruct (clone_mark c s p (idx NPT)) as [s1| | |] eqn:M; try discriminate. cbn [bind].
  intros E. apply IH in E. rewrite E. cbn [de]. eapply mark_de; exact M.
Qed.

Lemma clone_de c al s pd s' r x i :
  al_ok c al -> clone c al s pd = Ok (s', r) -> kd s x <> KFree -> de s' x i = de s x i.
Proof.
  intros AL E N. unfold clone in E. generalize dependent (idx NPD). intros L E. destruct (kd s pd); try discriminate.
  destruct (al s) as [new|] eqn:A; [|injection E as <- _; reflexivity].
  assert (NX : x <> new) by (intros ->; destruct (AL _ _ A); contradiction).
  cbv zeta in E. destruct (clone_alloc _ _ _ _ _ _) as [[s1 k]| | |] eqn:C; try discriminate.
  cbn [bind] in E. apply (alloc_de _ _ _ x i NX) in C. cbn [set_kd de] in C.
  rewrite fupd_other in C by exact NX.
  destruct k; cbn [negb] in E; [|injection E as <- _; exact C].
  destruct (clone_pts _ _ _ _ _) as [s2| | |] eqn:P; try discriminate. cbn [bind] in E.
  injection E as <- _. rewrite (pts_de _ _ _ _ _ _ P). exact C.
Qed.

Lemma destroy_pt_de c p : forall l s s', destroy_pt c s p l = Ok s' -> de s' = de s.
Proof.
  induction l as [|j l IH]; intros s s'; cbn [destroy_pt]; [congruence|].
  destruct (te s p j) as [e|]; [|apply IH].
  destruct (rc_dec _ _ _) as [[s1 n]| | |] eqn:R; try discriminate. cbn [bind]. apply rc_dec_de in R.
  destruct (n =? 0).
  - destruct (kfree _ _) as [s2| | |] eqn:K; try discriminate. cbn [bind]. intros E. apply IH in E.
    rewrite E, (kfree_de _ _ _ K). exact R.
  - intros E. apply IH in E. rewrite E. exact R.
Qed.

Lemma destroy_de c s pd s' : destroy c s pd = Ok s' -> de s' = de s.
Proof.
  unfold destroy. generalize (idx NPD). intros L. assert (P : forall l s s', destroy_pts c s pd l = Ok s' -> de s' = de s).
  { induction l as [|i l IH]; intros s0 s1; cbn [destroy_pts]; [congruence|].
    destruct (get_pt s0 pd i) as [o| | |]; try discriminate. cbn [bind].
    destruct o as [p|]; [|apply IH].
    destruct (destroy_pt c s0 p (idx NPT)) as [s2| | |] eqn:D; try discriminate. cbn [bind].
    destruct (kfree s2 p) as [s3| | |] eqn:K; try discriminate. cbn [bind]. intros E. apply IH in E.
    rewrite E, (kfree_de _ _ _ K). eapply destroy_pt_de; exact D. }
  destruct (destroy_pts c s pd L) as [s1| | |] eqn:D; try discriminate. cbn [bind].
  intros K. rewrite (kfree_de _ _ _ K). eapply P; exact D.
Qed.

(* the zero page is never written *)
Lemma write_zf c al s pd v off b s' r :
  inv c (-1) s -> al_ok c al -> kd s pd = KPd -> write c al s pd v off b = Ok (s', r) ->
  dt s' (zf c) = dt s (zf c).
Proof.
  intros H AL K. pose proof (i_t _ _ _ H) as HT. unfold write.
  rewrite (get_pt_ok c) by assumption. cbn [bind].
  destruct (de s pd (v / NPT)) as [p|] eqn:D; [|intros [= <- _]; reflexivity].
  destruct (te s p (v mod NPT)) as [e|] eqn:E; [|intros [= <- _]; reflexivity].
  assert (PE : pte_at s pd v = Some e) by (rewrite (pte_at_of c) by assumption; rewrite D; exact E).
  destruct (p_rw e) eqn:W.
  - intros [= <- _]. unfold set_dt; cbn [dt]. rewrite fupd_other; [reflexivity|]. intros Q.
    pose proof (i_zf _ _ _ H) as Z. pose proof (f_kind _ _ _ _ _ (i_f _ _ _ H) _ _ _ PE) as FK.
    rewrite <- Q, Z in FK. destruct FK as [X|[_ [(_ & _ & X)|(X & _)]]]; congruence.
  - unfold cow. rewrite (get_pt_ok c) by assumption. cbn [bind]. rewrite D, E.
    destruct (negb (p_cow e)); [cbn [bind]; intros [= <- _]; reflexivity|].
    destruct (rc_get c s (p_f e) =? 1).
    + destruct (Z.eqb_spec (p_f e) (zf c)) as [Z|Z]; [discriminate|]. cbn [bind].
      unfold set_te; cbn [te]. rewrite !fupd_same. cbn [p_rw p_f dt]. intros [= <- _].
      unfold set_dt; cbn [dt]. rewrite fupd_other by congruence. reflexivity.
    + destruct (al s) as [f|] eqn:A; [|cbn [bind]; intros [= <- _]; reflexivity]. cbv zeta.
      destruct (AL _ _ A) as [KF RF].
      assert (NZ : zf c <> f) by (intros <-; rewrite (i_zf _ _ _ H) in KF; discriminate).
      destruct (negb _); [discriminate|].
      destruct (rc_dec _ _ _) as [[s1 n]| | |] eqn:R; try discriminate. cbn [bind].
      assert (DT : dt s1 (zf c) = dt s (zf c)).
      { unfold rc_dec in R. destruct (lim c <=? p_f e).
        - injection R as <- _. unfold rc_inc. destruct (lim c <=? f); cbn [set_rc set_dt dt];
            rewrite fupd_other by exact NZ; reflexivity.
        - destruct (_ <=? 0); [discriminate|]. injection R as <- _. unfold rc_inc.
          destruct (lim c <=? f); cbn [set_rc set_dt dt]; rewrite fupd_other by exact NZ; reflexivity. }
      unfold set_te; cbn [te]. rewrite !fupd_same. cbn [p_rw p_f]. intros [= <- _].
      unfold set_dt; cbn [dt]. rewrite fupd_other by exact NZ. exact DT.
Qed.

Record Sinv (c : cfg) (kp : Z) (s : st) : Prop := {
  s_i : inv c (-1) s;
  s_kp : kd s kp = KPd;
  s_de : forall i, de s kp i = None;
  s_zero : forall o, dt s (zf c) o = 0 }.

(* what others see *)
Definition keep (s s' : st) (a b : Z) : Prop :=
  forall off, match see s a b off with
              | None => see s' a b off = None
              | Some (w, sh, z) => exists z', see s' a b off = Some (w, sh, z') /\ (sh = None -> z' = z)
              end.

Lemma keep_same c s s' a b :
  inv c (-1) s -> pte_at s' a b = pte_at s a b ->
  (forall f, kd s f <> KFree -> dt s' f = dt s f) ->
  forall off, see s' a b off = see s a b off.
Proof.
  intros H E D off. unfold see. rewrite E. destruct (pte_at s a b) as [e|] eqn:P; [|reflexivity].
  rewrite D; [reflexivity|].
  destruct (f_kind _ _ _ _ _ (i_f _ _ _ H) _ _ _ P) as [->|[-> _]]; discriminate.
Qed.

Lemma keep_of s s' a b : (forall off, see s' a b off = see s a b off) -> keep s s' a b.
Proof. intros E off. rewrite E. destruct (see s a b off) as [[[w sh] z]|]; eauto. Qed.

Lemma see_mark c s s' a b a' b' off :
  pte_at s' a' b' = omark (pte_at s a b) -> (forall f, dt s' f = dt s f) -> inv c (-1) s ->
  see s' a' b' off = see s a b off.
Proof.
  intros E D _. unfold see. rewrite E. destruct (pte_at s a b) as [e|]; [|reflexivity].
  cbn [omark]. rewrite mark_w, mark_sh, mark_f, D. reflexivity.
Qed.

Lemma step_ok c kp al s o :
  Sinv c kp s -> al_ok c al -> allowed c kp al s o ->
  exists s', step c al s o = Ok s' /\ Sinv c kp s' /\
    (forall a, kd s a = KPd -> o <> OExit a -> kd s' a = KPd) /\
    (forall a b, kd s a = KPd -> ~ touches o a b -> keep s s' a b).
Proof.
  intros [H KP DN ZP] AL A.
  assert (ZK : kd s (zf c) <> KFree) by (rewrite (i_zf _ _ _ H); discriminate).
  destruct o as [pd v rw sh zero|pd v rw|pd v f rw|pd v fr perm|pd v|pd v off b|pd|pd| |f]; cbn [step allowed touches] in *.
  - destruct A as [[K NK] U].
    destruct (map_new_ok c al s pd v rw sh zero H AL K U) as (s' & r & E & H' & KK & R).
    rewrite E. cbn [bind]. exists s'. split; [reflexivity|]. split; [|split].
    + constructor; [exact H'| | |].
      * destruct (KK kp) as [-> _]; [congruence|exact KP].
      * intros i. rewrite (map_new_de _ _ _ _ _ _ _ _ _ _ kp i E) by congruence. apply DN.
      * intros o. destruct (KK _ ZK) as [_ ->]. apply ZP.
    + intros a KA _. destruct (KK a) as [-> _]; [congruence|exact KA].
    + intros a b KA NT. apply keep_of. apply (keep_same c); [exact H| |intros f NF; apply KK; exact NF].
      destruct R as [(_ & _ & f & _ & _ & _ & _ & P)|(_ & P)]; rewrite P; [|reflexivity].
      apply upd2_other. destruct (pair_dec a b pd v) as [[-> ->]|X]; [exfalso; apply NT; auto|exact X].
  - destruct A as [[K NK] U].
    destruct (map_zero_ok c al s pd v rw H AL K U) as (s' & r & E & H' & DD & KK & R).
    rewrite E. cbn [bind]. exists s'. split; [reflexivity|]. split; [|split].
    + constructor; [exact H'| | |].
      * rewrite KK; [exact KP|congruence].
      * intros i. unfold map_zero in E. rewrite (map_int_de _ _ _ _ _ _ _ _ kp i E) by congruence. apply DN.
      * intros o. rewrite DD. apply ZP.
    + intros a KA _. rewrite KK; [exact KA|congruence].
    + intros a b KA NT. apply keep_of. apply (keep_same c); [exact H| |intros f NF; apply DD].
      destruct R as [(_ & _ & P)|(_ & P)]; rewrite P; [|reflexivity].
      apply upd2_other. destruct (pair_dec a b pd v) as [[-> ->]|X]; [exfalso; apply NT; auto|exact X].
  - destruct A as ([K NK] & U & KE & NZ).
    destruct (map_ext_ok c al s pd v f rw H AL K U KE NZ) as (s' & r & E & H' & DD & KK & R).
    rewrite E. cbn [bind]. exists s'. split; [reflexivity|]. split; [|split].
    + constructor; [exact H'| | |].
      * rewrite KK; [exact KP|congruence].
      * intros i. unfold map_ext in E. rewrite (map_int_de _ _ _ _ _ _ _ _ kp i E) by congruence. apply DN.
      * intros o. rewrite DD. apply ZP.
    + intros a KA _. rewrite KK; [exact KA|congruence].
    + intros a b KA NT. apply keep_of. apply (keep_same c); [exact H| |intros g NF; apply DD].
      destruct R as [(_ & _ & P)|(_ & P)]; rewrite P; [|reflexivity].
      apply upd2_other. destruct (pair_dec a b pd v) as [[-> ->]|X]; [exfalso; apply NT; auto|exact X].
  - destruct A as ([K NK] & U & PM & FR).
    destruct (unmap_ok c s pd v fr perm H K PM FR) as (s' & r & E & H' & DD & KK & P & _).
    rewrite E. cbn [bind]. exists s'. split; [reflexivity|]. split; [|split].
    + constructor; [exact H'| | |].
      * destruct (KK kp) as [->|[X _]]; congruence.
      * intros i. rewrite (unmap_de _ _ _ _ _ _ _ _ E). apply DN.
      * intros o. rewrite DD. apply ZP.
    + intros a KA _. destruct (KK a) as [->|[X _]]; congruence.
    + intros a b KA NT. apply keep_of. apply (keep_same c); [exact H| |intros g NF; apply DD]. rewrite P.
      apply upd2_other. destruct (pair_dec a b pd v) as [[-> ->]|X]; [exfalso; apply NT; auto|exact X].
  - destruct A as ([K NK] & U & PM).
    destruct (set_ro_ok c s pd v H K PM) as (s' & e & E & H' & PE & DD & KK & P).
    rewrite E. exists s'. split; [reflexivity|]. split; [|split].
    + constructor; [exact H'| | |].
      * rewrite KK. exact KP.
      * intros i. rewrite (set_ro_de _ _ _ _ E). apply DN.
      * intros o. rewrite DD. apply ZP.
    + intros a KA _. rewrite KK. exact KA.
    + intros a b KA NT. apply keep_of. apply (keep_same c); [exact H| |intros g NF; apply DD]. rewrite P.
      apply upd2_other. destruct (pair_dec a b pd v) as [[-> ->]|X]; [exfalso; apply NT; auto|exact X].
  - destruct A as [[K NK] U].
    destruct (write_ok c al s pd v off b H AL K) as (s' & r & E & H' & KK & R).
    rewrite E. cbn [bind]. exists s'. split; [reflexivity|]. split; [|split].
    + constructor; [exact H'| | |].
      * rewrite KK; [exact KP|congruence].
      * intros i. rewrite (write_de _ _ _ _ _ _ _ _ _ E). apply DN.
      * intros o. rewrite (write_zf _ _ _ _ _ _ _ _ _ H AL K E). apply ZP.
    + intros a KA _. rewrite KK; [exact KA|congruence].
    + intros a b' KA NT. destruct r.
      * destruct R as [(sh & z & S) W]. intros o. rewrite W by exact KA.
        destruct (see s a b' o) as [[[w sh'] z']|] eqn:SA; [|reflexivity].
        eexists. split; [reflexivity|]. intros ->.
        destruct (same_page s pd v a b') eqn:SP; [|reflexivity].
        exfalso. unfold same_page in SP. apply orb_true_iff in SP. destruct SP as [SP|SP].
        -- apply andb_true_iff in SP. destruct SP as [S1 S2]. apply NT.
           apply Z.eqb_eq in S1, S2. auto.
        -- unfold see in SA, SP. destruct (pte_at s a b') as [e|]; [|discriminate].
           injection SA as _ SH _. rewrite SH in SP.
           destruct (pte_at s pd v) as [e'|]; [|discriminate]. destruct (p_sh e'); discriminate.
      * destruct R as [-> _]. apply keep_of. reflexivity.
      * destruct R as [-> _]. apply keep_of. reflexivity.
  - destruct A as [K NN].
    destruct (clone_ok c al s pd H AL K) as (s' & r & E & NM & G).
    rewrite E. cbn [bind]. exists s'. split; [reflexivity|]. destruct r as [new|].
    + destruct (G new eq_refl) as (H' & KF & KN & KK & DD & P1 & P2 & P3).
      split; [|split].
      * constructor; [exact H'| | |].
        -- rewrite KK; [exact KP|congruence].
        -- intros i. rewrite (clone_de _ _ _ _ _ _ kp i AL E) by congruence. apply DN.
        -- intros o. rewrite DD. apply ZP.
      * intros a KA _. rewrite KK; [exact KA|congruence].
      * intros a b KA _. apply keep_of. intros off.
        destruct (Z.eq_dec a pd) as [->|NA]; [eapply see_mark; eauto|].
        apply (keep_same c); [exact H| |intros f NF; apply DD]. apply P3; congruence.
    + destruct (NM (NN _ E)) as [-> _]. split; [constructor; assumption|]. split; [auto|].
      intros a b _ _. apply keep_of. reflexivity.
  - destruct A as [K NK].
    destruct (destroy_ok c s pd H K) as (s' & E & H' & KF & KK & DD & P).
    rewrite E. exists s'. split; [reflexivity|]. split; [|split].
    + constructor; [exact H'| | |].
      * destruct (KK kp) as [->|[[X|X] _]]; congruence.
      * intros i. rewrite (destroy_de _ _ _ _ E). apply DN.
      * intros o. rewrite DD. apply ZP.
    + intros a KA NE. assert (a <> pd) by congruence. destruct (KK a) as [->|[[X|X] _]]; congruence.
    + intros a b KA NT. apply keep_of. apply (keep_same c); [exact H| |intros g NF; apply DD].
      apply P. congruence.
  - destruct (block_new_ok c al s H AL) as (s' & r & E & H' & KK & P & _).
    rewrite E. cbn [fst]. exists s'. split; [reflexivity|]. split; [|split].
    + constructor; [exact H'| | |].
      * destruct (KK kp) as [-> _]; [congruence|exact KP].
      * intros i. unfold block_new in E. destruct (al s); injection E as <- _; apply DN.
      * intros o. destruct (KK _ ZK) as [_ ->]. apply ZP.
    + intros a KA _. destruct (KK a) as [-> _]; [congruence|exact KA].
    + intros a b KA NT. apply keep_of. apply (keep_same c); [exact H|apply P|intros f NF; apply KK; exact NF].
  - destruct A as (KE & NZ & NM).
    destruct (block_free_ok c s f H KE NZ NM) as (s' & E & H' & KK & KF & DD & P).
    rewrite E. exists s'. split; [reflexivity|]. split; [|split].
    + constructor; [exact H'| | |].
      * rewrite KK by congruence. exact KP.
      * intros i. unfold block_free in E. rewrite KE in E. destruct (rc s f <=? 0); [discriminate|].
        injection E as <-. apply DN.
      * intros o. rewrite DD. apply ZP.
    + intros a KA _. rewrite KK by congruence. exact KA.
    + intros a b KA NT. apply keep_of. apply (keep_same c); [exact H|apply P|intros g NF; apply DD].
Qed.

Lemma init_Sinv c kp s : init c kp s -> Sinv c kp s.
Proof.
  intros [A B C D E G Z].
  assert (NP : forall a b, pte_at s a b = None).
  { intros a b. unfold pte_at. destruct (Z.eq_dec a kp) as [->|N].
    - rewrite B, C. reflexivity.
    - destruct (D a N) as [-> | ->]; reflexivity. }
  assert (KD : forall f, kd s f = KPd -> f = kp).
  { intros f K. destruct (Z.eq_dec f kp) as [|N]; [assumption|]. destruct (D f N); congruence. }
  assert (KT : forall f, kd s f <> KPt /\ kd s f <> KPage).
  { intros f. destruct (Z.eq_dec f kp) as [->|N]; [rewrite B; split; discriminate|].
    destruct (D f N) as [-> | ->]; split; discriminate. }
  constructor; auto. constructor; [exact A| |].
  - constructor.
    + exact E.
    + intros pd i p K X. rewrite (KD _ K), C in X. discriminate.
    + intros pd i pd' i' p K _ X. rewrite (KD _ K), C in X. discriminate.
    + intros p K. destruct (KT p); contradiction.
    + intros p j e K. destruct (KT p); contradiction.
  - constructor; try (intros pd v e X; rewrite NP in X; discriminate).
    + intros pd v e pd' v' e' X. rewrite NP in X. discriminate.
    + intros f. exists []. split.
      * split; [constructor|]. intros pd v. rewrite NP. split; [intros []|]. intros (e & X & _). discriminate.
      * rewrite G. unfold pin. destruct (kd s f); reflexivity.
    + intros f K. destruct (KT f); contradiction.
Qed.

Lemma runs_Sinv c kp l s s' : runs c kp l s s' -> Sinv c kp s -> Sinv c kp s'.
Proof.
  induction 1 as [|o l al s s1 s2 AL A E R IH]; intros H; [exact H|]. apply IH.
  destruct (step_ok c kp al s o H AL A) as (s' & E' & H' & _). congruence.
Qed.

Lemma reach_Sinv c kp s : reach c kp s -> Sinv c kp s.
Proof. intros (s0 & l & I0 & R). eapply runs_Sinv; [exact R|]. apply init_Sinv. exact I0. Qed.
