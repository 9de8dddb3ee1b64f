From Coq Require Import ZArith List Bool Lia.
From Verif Require Import Lib Paging_Model Paging_Spec Paging_Proofs.
Import ListNotations.
Open Scope Z_scope.

Record T (c : cfg) (s : st) : Prop := {
  t_ram : forall f, kd s f <> KFree -> 0 <= f < lim c;
  t_de : forall pd i p, kd s pd = KPd -> de s pd i = Some p -> 0 <= i < NPD /\ kd s p = KPt;
  t_own : forall pd i pd' i' p, kd s pd = KPd -> kd s pd' = KPd ->
    de s pd i = Some p -> de s pd' i' = Some p -> pd = pd' /\ i = i';
  t_pt : forall p, kd s p = KPt -> exists pd i, kd s pd = KPd /\ de s pd i = Some p;
  t_te : forall p j e, kd s p = KPt -> te s p j = Some e -> 0 <= j < NPT }.

Record inv (c : cfg) (x : Z) (s : st) : Prop := {
  i_zf : kd s (zf c) = KExt;
  i_t : T c s;
  i_f : F c x (pte_at s) (kd s) (rc s) }.

Record eqv (s g : st) : Prop := {
  e_kd : forall f, kd s f = kd g f;
  e_de : forall pd i, kd g pd = KPd -> de s pd i = de g pd i;
  e_te : forall p j, kd g p = KPt -> te s p j = te g p j;
  e_rc : forall f, rc s f = rc g f;
  e_dt : forall f o, dt s f o = dt g f o }.

Lemma eqv_refl s : eqv s s.
Proof. constructor; auto. Qed.

Lemma eqv_pte s g a b : eqv s g -> pte_at s a b = pte_at g a b.
Proof.
  intros [K D E R W]. unfold pte_at. rewrite K. destruct (kd g a) eqn:KA; try reflexivity.
  rewrite D by exact KA. destruct (de g a (b / NPT)) as [p|]; [|reflexivity].
  rewrite K. destruct (kd g p) eqn:KP; try reflexivity. apply E. exact KP.
Qed.

Lemma eqv_see s g a b o : eqv s g -> see s a b o = see g a b o.
Proof.
  intros H. unfold see. rewrite (eqv_pte _ _ _ _ H). destruct (pte_at g a b); [|reflexivity].
  rewrite (e_dt _ _ H). reflexivity.
Qed.

Lemma inv_eqv c x s g : inv c x g -> eqv s g -> inv c x s.
Proof.
  intros [Z [A B C D E] Ff] Q. pose proof Q as [QK QD QE QR QW]. constructor.
  - rewrite QK. exact Z.
  - constructor.
    + intros f. rewrite QK. apply A.
    + intros pd i p. rewrite QK. intros K. rewrite QD by exact K. rewrite QK. eauto.
    + intros pd i pd' i' p. rewrite !QK. intros K K'. rewrite !QD by assumption. eauto.
    + intros p. rewrite QK. intros K. destruct (D p K) as (pd & i & G & G'). exists pd, i.
      rewrite QK. split; [exact G|]. rewrite QD by exact G. exact G'.
    + intros p j e. rewrite QK. intros K. rewrite QE by exact K. eauto.
  - eapply F_ext; [exact Ff| | |]; auto. intros a b. apply eqv_pte. exact Q.
Qed.

Lemma pti_eq a b : a / NPT = b / NPT -> a mod NPT = b mod NPT -> a = b.
Proof. intros. unfold NPT in *. rewrite (Z.div_mod a 1024), (Z.div_mod b 1024) by lia. congruence. Qed.

Lemma user_div v : user v -> 0 <= v / NPT < NPD.
Proof. unfold user, NPD, NPT. intros. split; [apply Z.div_pos; lia|apply Z.div_lt_upper_bound; lia]. Qed.

Lemma mod_NPT v : 0 <= v mod NPT < NPT.
Proof. unfold NPT. apply Z.mod_pos_bound. lia. Qed.

Lemma div_ij i j : 0 <= j < NPT -> (i * NPT + j) / NPT = i.
Proof. unfold NPT. intros. rewrite Z.div_add_l by lia. rewrite Z.div_small by lia. lia. Qed.

Lemma mod_ij i j : 0 <= j < NPT -> (i * NPT + j) mod NPT = j.
Proof.
  unfold NPT. intros. rewrite Z.add_comm, Z.mod_add by lia. apply Z.mod_small. lia.
Qed.

(* reading a page-table entry *)
Lemma get_pt_ok c s pd i : T c s -> kd s pd = KPd -> get_pt s pd i = Ok (de s pd i).
Proof.
  intros H K. unfold get_pt. rewrite K. destruct (de s pd i) as [p|] eqn:D; [|reflexivity].
  destruct (t_de _ _ H _ _ _ K D) as [_ ->]. reflexivity.
Qed.

Lemma pte_at_of c s pd v : T c s -> kd s pd = KPd ->
  pte_at s pd v = match de s pd (v / NPT) with Some p => te s p (v mod NPT) | None => None end.
Proof.
  intros H K. unfold pte_at. rewrite K. destruct (de s pd (v / NPT)) as [p|] eqn:D; [|reflexivity].
  destruct (t_de _ _ H _ _ _ K D) as [_ ->]. reflexivity.
Qed.

(* writing one *)
Lemma pte_set c s pd v p x a b :
  T c s -> kd s pd = KPd -> de s pd (v / NPT) = Some p ->
  pte_at (set_te s p (v mod NPT) x) a b = upd2 (pte_at s) pd v x a b.
Proof.
  intros H K D. destruct (t_de _ _ H _ _ _ K D) as [_ KP].
  unfold pte_at, set_te, upd2; cbn [kd de te].
  destruct (kd s a) eqn:KA; try (destruct (Z.eqb_spec a pd); [congruence|reflexivity]).
  destruct (de s a (b / NPT)) as [q|] eqn:DA.
  - destruct (t_de _ _ H _ _ _ KA DA) as [_ KQ]. rewrite KQ.
    destruct (Z.eq_dec q p) as [->|N].
    + destruct (t_own _ _ H _ _ _ _ _ KA K DA D) as [-> DV]. rewrite fupd_same, Z.eqb_refl.
      destruct (Z.eqb_spec b v) as [->|NB]; cbn [andb].
      * rewrite fupd_same. reflexivity.
      * rewrite fupd_other; [reflexivity|]. intros Q. apply NB. apply pti_eq; assumption.
    + rewrite fupd_other by exact N. destruct (Z.eqb_spec a pd) as [->|]; [|reflexivity].
      destruct (Z.eqb_spec b v) as [->|]; [congruence|reflexivity].
  - destruct (Z.eqb_spec a pd) as [->|]; [|reflexivity].
    destruct (Z.eqb_spec b v) as [->|]; [congruence|reflexivity].
Qed.

Lemma T_set c s p j x : T c s -> (x = None \/ 0 <= j < NPT) -> T c (set_te s p j x).
Proof.
  intros [A B C D E] J. constructor; auto. unfold set_te; cbn [kd te]. intros q i e K G.
  destruct (Z.eq_dec q p) as [->|N].
  - rewrite fupd_same in G. destruct (Z.eq_dec i j) as [->|M].
    + rewrite fupd_same in G. destruct J as [J|J]; [congruence|exact J].
    + rewrite fupd_other in G by exact M. eauto.
  - rewrite fupd_other in G by exact N. eauto.
Qed.

(* the states that differ in the counters and the data only *)
Lemma pte_rc s r w a b : pte_at (St (kd s) (de s) (te s) r w) a b = pte_at s a b.
Proof. reflexivity. Qed.

Lemma T_rc c s r w : T c s -> T c (St (kd s) (de s) (te s) r w).
Proof. intros [A B C D E]. constructor; auto. Qed.

(* the kind of a frame that is neither a page table nor a page directory *)
Lemma T_kd c s f k :
  T c s -> kd s f <> KPt -> kd s f <> KPd -> k <> KPt -> k <> KPd -> (k = KFree \/ 0 <= f < lim c) ->
  T c (set_kd s f k).
Proof.
  intros [A B C D E] K1 K2 K3 K4 R. constructor; unfold set_kd; cbn [kd de te].
  - intros g. destruct (Z.eq_dec g f) as [->|N].
    + rewrite fupd_same. destruct R as [R|R]; [congruence|auto].
    + rewrite fupd_other by exact N. apply A.
  - intros pd i p K G. destruct (Z.eq_dec pd f) as [->|N]; [rewrite fupd_same in K; congruence|].
    rewrite fupd_other in K by exact N. destruct (B _ _ _ K G) as [B1 B2]. split; [exact B1|].
    destruct (Z.eq_dec p f) as [->|M]; [congruence|]. rewrite fupd_other by exact M. exact B2.
  - intros pd i pd' i' p K K'.
    destruct (Z.eq_dec pd f) as [->|N]; [rewrite fupd_same in K; congruence|].
    destruct (Z.eq_dec pd' f) as [->|N']; [rewrite fupd_same in K'; congruence|].
    rewrite fupd_other in K by exact N. rewrite fupd_other in K' by exact N'. eauto.
  - intros p K. destruct (Z.eq_dec p f) as [->|N]; [rewrite fupd_same in K; congruence|].
    rewrite fupd_other in K by exact N. destruct (D p K) as (pd & i & G & G'). exists pd, i.
    split; [|exact G']. rewrite fupd_other; [exact G|]. intros ->. congruence.
  - intros p j e K. destruct (Z.eq_dec p f) as [->|N]; [rewrite fupd_same in K; congruence|].
    rewrite fupd_other in K by exact N. eauto.
Qed.

Lemma pte_kd s f k a b :
  kd s f <> KPt -> kd s f <> KPd -> k <> KPt -> k <> KPd ->
  pte_at (set_kd s f k) a b = pte_at s a b.
Proof.
  intros K1 K2 K3 K4. unfold pte_at, set_kd; cbn [kd de te].
  destruct (Z.eq_dec a f) as [->|N].
  - rewrite fupd_same. destruct k; try contradiction; destruct (kd s f); try contradiction; reflexivity.
  - rewrite fupd_other by exact N. destruct (kd s a); try reflexivity.
    destruct (de s a (b / NPT)) as [p|]; [|reflexivity].
    destruct (Z.eq_dec p f) as [->|M].
    + rewrite fupd_same. destruct k; try contradiction; destruct (kd s f); try contradiction; reflexivity.
    + rewrite fupd_other by exact M. reflexivity.
Qed.

(* a page table more *)
Definition add_pt (s : st) (pd i p : Z) : st :=
  St (fupd (kd s) p KPt) (fupd (de s) pd (fupd (de s pd) i (Some p)))
     (fupd (te s) p (fun _ => None)) (rc s) (dt s).

Lemma pte_add c s pd i p a b :
  T c s -> kd s pd = KPd -> de s pd i = None -> kd s p = KFree ->
  pte_at (add_pt s pd i p) a b = pte_at s a b.
Proof.
  intros H K D KP. unfold pte_at, add_pt; cbn [kd de te].
  destruct (Z.eq_dec a p) as [->|N].
  - rewrite fupd_same, KP. reflexivity.
  - rewrite fupd_other by exact N. destruct (kd s a) eqn:KA; try reflexivity.
    destruct (Z.eq_dec a pd) as [->|M].
    + rewrite fupd_same. destruct (Z.eq_dec (b / NPT) i) as [->|Q].
      * rewrite !fupd_same, D. reflexivity.
      * rewrite fupd_other by exact Q. destruct (de s pd (b / NPT)) as [q|] eqn:DQ; [|reflexivity].
        assert (q <> p) by (intros ->; destruct (t_de _ _ H _ _ _ K DQ); congruence).
        rewrite !fupd_other by assumption. reflexivity.
    + rewrite fupd_other by exact M. destruct (de s a (b / NPT)) as [q|] eqn:DQ; [|reflexivity].
      assert (q <> p) by (intros ->; destruct (t_de _ _ H _ _ _ KA DQ); congruence).
      rewrite !fupd_other by assumption. reflexivity.
Qed.

Lemma T_add c s pd i p :
  T c s -> kd s pd = KPd -> de s pd i = None -> kd s p = KFree -> 0 <= i < NPD -> 0 <= p < lim c ->
  T c (add_pt s pd i p).
Proof.
  intros H KD DN KP I R. pose proof H as [A B C D E].
  assert (PN : p <> pd) by congruence.
  assert (QN : forall a k, kd s a = KPd -> de s a k = Some p -> False)
    by (intros a k K G; destruct (B _ _ _ K G); congruence).
  constructor; unfold add_pt; cbn [kd de te].
  - intros g. destruct (Z.eq_dec g p) as [->|N]; [auto|]. rewrite fupd_other by exact N. apply A.
  - intros a k q K G. destruct (Z.eq_dec a p) as [->|N]; [rewrite fupd_same in K; congruence|].
    rewrite fupd_other in K by exact N. destruct (Z.eq_dec a pd) as [->|M].
    + rewrite fupd_same in G. destruct (Z.eq_dec k i) as [->|Q].
      * rewrite fupd_same in G. injection G as <-. rewrite fupd_same. auto.
      * rewrite fupd_other in G by exact Q. destruct (B _ _ _ K G) as [B1 B2]. split; [exact B1|].
        rewrite fupd_other; [exact B2|]. congruence.
    + rewrite fupd_other in G by exact M. destruct (B _ _ _ K G) as [B1 B2]. split; [exact B1|].
      rewrite fupd_other; [exact B2|]. congruence.
  - assert (DD : forall a k q, fupd (kd s) p KPt a = KPd ->
       fupd (de s) pd (fupd (de s pd) i (Some p)) a k = Some q ->
       kd s a = KPd /\ ((a = pd /\ k = i /\ q = p) \/ (de s a k = Some q))).
    { intros a k q K G. destruct (Z.eq_dec a p) as [->|N]; [rewrite fupd_same in K; congruence|].
      rewrite fupd_other in K by exact N. split; [exact K|].
      destruct (Z.eq_dec a pd) as [->|M].
      - rewrite fupd_same in G. destruct (Z.eq_dec k i) as [->|Q].
        + rewrite fupd_same in G. injection G as <-. left; auto.
        + rewrite fupd_other in G by exact Q. right; exact G.
      - rewrite fupd_other in G by exact M. right; exact G. }
    intros a k a' k' q K K' G G'. destruct (DD _ _ _ K G) as [KA [(-> & -> & ->)|X]];
      destruct (DD _ _ _ K' G') as [KA' [(-> & -> & Q)|X']]; auto.
    + exfalso. exact (QN _ _ KA' X').
    + subst q. exfalso. exact (QN _ _ KA X).
    + eapply C; eauto.
  - intros q K. destruct (Z.eq_dec q p) as [->|N].
    + exists pd, i. rewrite (fupd_other _ _ _ pd) by congruence. rewrite !fupd_same. auto.
    + rewrite fupd_other in K by exact N. destruct (D q K) as (a & k & G & G').
      exists a, k. rewrite fupd_other by congruence. split; [exact G|].
      destruct (Z.eq_dec a pd) as [->|M]; [|rewrite fupd_other by exact M; exact G'].
      rewrite fupd_same. rewrite fupd_other; [exact G'|]. intros ->. congruence.
  - intros q j e K G. destruct (Z.eq_dec q p) as [->|N].
    + rewrite fupd_same in G. discriminate.
    + rewrite fupd_other in K by exact N. rewrite fupd_other in G by exact N. eauto.
Qed.

Lemma inv_add c x s pd i p :
  inv c x s -> kd s pd = KPd -> de s pd i = None -> kd s p = KFree -> 0 <= i < NPD -> 0 <= p < lim c ->
  inv c x (add_pt s pd i p).
Proof.
  intros [Z H Ff] KD DN KP I R. constructor.
  - cbn [add_pt kd]. rewrite fupd_other; [exact Z|]. congruence.
  - apply T_add; assumption.
  - eapply F_ext with (kd := fupd (kd s) p KPt) (pm := pte_at s).
    + eapply F_kd; [exact Ff|]. intros f. destruct (Z.eq_dec f p) as [->|N].
      * right. rewrite fupd_same, KP. unfold plain. auto.
      * left. apply fupd_other. exact N.
    + intros a b. eapply pte_add; eassumption.
    + reflexivity.
    + reflexivity.
Qed.

(* a page directory more, without page tables *)
Definition add_pd (s : st) (n : Z) : st :=
  St (fupd (kd s) n KPd) (fupd (de s) n (fun _ => None)) (te s) (rc s) (dt s).

Lemma pte_addpd c s n a b : T c s -> kd s n = KFree -> pte_at (add_pd s n) a b = pte_at s a b.
Proof.
  intros H KN. unfold pte_at, add_pd; cbn [kd de te].
  destruct (Z.eq_dec a n) as [->|N]; [rewrite !fupd_same, KN; reflexivity|].
  rewrite !fupd_other by exact N. destruct (kd s a) eqn:KA; try reflexivity.
  destruct (de s a (b / NPT)) as [q|] eqn:DQ; [|reflexivity].
  rewrite fupd_other; [reflexivity|]. intros ->. destruct (t_de _ _ H _ _ _ KA DQ); congruence.
Qed.

Lemma inv_addpd c x s n : inv c x s -> kd s n = KFree -> 0 <= n < lim c -> inv c x (add_pd s n).
Proof.
  intros [Z H Ff] KN R. constructor.
  - cbn [add_pd kd]. rewrite fupd_other; [exact Z|]. congruence.
  - pose proof H as [A B C D E]. constructor; unfold add_pd; cbn [kd de te].
    + intros g. destruct (Z.eq_dec g n) as [->|N]; [auto|]. rewrite fupd_other by exact N. apply A.
    + intros a k q K G. destruct (Z.eq_dec a n) as [->|N]; [rewrite fupd_same in G; discriminate|].
      rewrite fupd_other in K by exact N. rewrite fupd_other in G by exact N. destruct (B _ _ _ K G) as [B1 B2]. split; [exact B1|].
      rewrite fupd_other; [exact B2|]. congruence.
    + intros a k a' k' q K K' G G'.
      destruct (Z.eq_dec a n) as [->|N]; [rewrite fupd_same in G; discriminate|].
      destruct (Z.eq_dec a' n) as [->|N']; [rewrite fupd_same in G'; discriminate|].
      rewrite fupd_other in K by exact N. rewrite fupd_other in G by exact N. rewrite fupd_other in K' by exact N'. rewrite fupd_other in G' by exact N'.
      eapply C; eauto.
    + intros q K. destruct (Z.eq_dec q n) as [->|N]; [rewrite fupd_same in K; discriminate|].
      rewrite fupd_other in K by exact N. destruct (D q K) as (a & k & G & G'). exists a, k.
      rewrite !fupd_other by congruence. auto.
    + intros q j e K. destruct (Z.eq_dec q n) as [->|N]; [rewrite fupd_same in K; discriminate|].
      rewrite fupd_other in K by exact N. eauto.
  - eapply F_ext with (kd := fupd (kd s) n KPd) (pm := pte_at s); try reflexivity.
    + eapply F_kd; [exact Ff|]. intros f. destruct (Z.eq_dec f n) as [->|N].
      * right. rewrite fupd_same, KN. unfold plain. auto.
      * left. apply fupd_other. exact N.
    + intros a b. eapply pte_addpd; eassumption.
Qed.

(* an empty page table less *)
Definition del_pt (s : st) (pd i p : Z) : st :=
  St (fupd (kd s) p KFree) (fupd (de s) pd (fupd (de s pd) i None)) (te s) (rc s) (dt s).

Lemma pte_del c s pd i p a b :
  T c s -> kd s pd = KPd -> de s pd i = Some p -> (forall j, te s p j = None) ->
  pte_at (del_pt s pd i p) a b = pte_at s a b.
Proof.
  intros H K D EM. destruct (t_de _ _ H _ _ _ K D) as [_ KP].
  unfold pte_at, del_pt; cbn [kd de te].
  destruct (Z.eq_dec a p) as [->|N]; [rewrite fupd_same, KP; reflexivity|].
  rewrite fupd_other by exact N. destruct (kd s a) eqn:KA; try reflexivity.
  destruct (Z.eq_dec a pd) as [->|M].
  - rewrite fupd_same. destruct (Z.eq_dec (b / NPT) i) as [->|Q].
    + rewrite fupd_same, D, KP, EM. reflexivity.
    + rewrite fupd_other by exact Q. destruct (de s pd (b / NPT)) as [q|] eqn:DQ; [|reflexivity].
      rewrite fupd_other; [reflexivity|]. intros ->.
      destruct (t_own _ _ H _ _ _ _ _ K K DQ D). contradiction.
  - rewrite fupd_other by exact M. destruct (de s a (b / NPT)) as [q|] eqn:DQ; [|reflexivity].
    rewrite fupd_other; [reflexivity|]. intros ->.
    destruct (t_own _ _ H _ _ _ _ _ KA K DQ D). contradiction.
Qed.

Lemma inv_del c x s pd i p :
  inv c x s -> kd s pd = KPd -> de s pd i = Some p -> (forall j, te s p j = None) ->
  inv c x (del_pt s pd i p).
Proof.
  intros [Z H Ff] KD DP EM. pose proof H as [A B C D E].
  destruct (B _ _ _ KD DP) as [I KP].
  assert (DD : forall a k q, fupd (kd s) p KFree a = KPd ->
       fupd (de s) pd (fupd (de s pd) i None) a k = Some q ->
       kd s a = KPd /\ de s a k = Some q /\ q <> p).
  { intros a k q K G. destruct (Z.eq_dec a p) as [->|N]; [rewrite fupd_same in K; congruence|].
    rewrite fupd_other in K by exact N. split; [exact K|].
    destruct (Z.eq_dec a pd) as [->|M].
    - rewrite fupd_same in G. destruct (Z.eq_dec k i) as [->|Q].
      + rewrite fupd_same in G. discriminate.
      + rewrite fupd_other in G by exact Q. split; [exact G|]. intros ->.
        destruct (C _ _ _ _ _ K K G DP). contradiction.
    - rewrite fupd_other in G by exact M. split; [exact G|]. intros ->.
      destruct (C _ _ _ _ _ K KD G DP). contradiction. }
  constructor.
  - cbn [del_pt kd]. rewrite fupd_other; [exact Z|]. congruence.
  - constructor; unfold del_pt; cbn [kd de te].
    + intros g. destruct (Z.eq_dec g p) as [->|N]; [rewrite fupd_same; congruence|].
      rewrite fupd_other by exact N. apply A.
    + intros a k q K G. destruct (DD _ _ _ K G) as (K' & G' & N). destruct (B _ _ _ K' G').
      rewrite fupd_other by exact N. auto.
    + intros a k a' k' q K K' G G'. destruct (DD _ _ _ K G) as (X & Y & _).
      destruct (DD _ _ _ K' G') as (X' & Y' & _). eapply C; eauto.
    + intros q K. destruct (Z.eq_dec q p) as [->|N]; [rewrite fupd_same in K; discriminate|].
      rewrite fupd_other in K by exact N. destruct (D q K) as (a & k & G & G'). exists a, k.
      rewrite fupd_other by congruence. split; [exact G|].
      destruct (Z.eq_dec a pd) as [->|M]; [|rewrite fupd_other by exact M; exact G'].
      rewrite fupd_same. rewrite fupd_other; [exact G'|]. intros ->. congruence.
    + intros q j e K. destruct (Z.eq_dec q p) as [->|N]; [rewrite fupd_same in K; discriminate|].
      rewrite fupd_other in K by exact N. eauto.
  - eapply F_ext with (kd := fupd (kd s) p KFree) (pm := pte_at s); try reflexivity.
    + eapply F_kd; [exact Ff|]. intros f. destruct (Z.eq_dec f p) as [->|N].
      * right. rewrite fupd_same, KP. unfold plain. auto.
      * left. apply fupd_other. exact N.
    + intros a b. eapply pte_del; eassumption.
Qed.

(* a page directory without page tables less *)
Lemma pte_delpd s n a b : kd s n = KPd -> (forall i, de s n i = None) ->
  (forall a i, kd s a = KPd -> de s a i <> Some n) ->
  pte_at (set_kd s n KFree) a b = pte_at s a b.
Proof.
  intros K D N'. unfold pte_at, set_kd; cbn [kd de te].
  destruct (Z.eq_dec a n) as [->|N]; [rewrite fupd_same, K, D; reflexivity|].
  rewrite fupd_other by exact N. destruct (kd s a) eqn:KA; try reflexivity.
  destruct (de s a (b / NPT)) as [q|] eqn:DQ; [|reflexivity].
  rewrite fupd_other; [reflexivity|]. intros ->. eapply N'; eauto.
Qed.

Lemma inv_delpd c x s n : inv c x s -> kd s n = KPd -> (forall i, de s n i = None) ->
  inv c x (set_kd s n KFree).
Proof.
  intros [Z H Ff] KN DN. pose proof H as [A B C D E].
  assert (KK : forall a k, k <> KFree -> fupd (kd s) n KFree a = k -> kd s a = k /\ a <> n).
  { intros a k NK Q. destruct (Z.eq_dec a n) as [->|N]; [rewrite fupd_same in Q; congruence|].
    rewrite fupd_other in Q by exact N. auto. }
  constructor.
  - cbn [set_kd kd]. rewrite fupd_other; [exact Z|]. congruence.
  - constructor; unfold set_kd; cbn [kd de te].
    + intros g. destruct (Z.eq_dec g n) as [->|N]; [rewrite fupd_same; congruence|].
      rewrite fupd_other by exact N. apply A.
    + intros a k q K G. apply KK in K; [|discriminate]. destruct K as [K _].
      destruct (B _ _ _ K G) as [B1 B2]. split; [exact B1|]. rewrite fupd_other; [exact B2|congruence].
    + intros a k a' k' q K K' G G'. apply KK in K; [|discriminate]. apply KK in K'; [|discriminate].
      eapply C; [apply K|apply K'|exact G|exact G'].
    + intros q K. apply KK in K; [|discriminate]. destruct K as [K _].
      destruct (D q K) as (a & k & G & G'). exists a, k. split; [|exact G'].
      rewrite fupd_other; [exact G|]. intros ->. rewrite DN in G'. discriminate.
    + intros q j e K. apply KK in K; [|discriminate]. destruct K as [K _]. eauto.
  - eapply F_ext with (kd := fupd (kd s) n KFree) (pm := pte_at s); try reflexivity.
    + eapply F_kd; [exact Ff|]. intros f. destruct (Z.eq_dec f n) as [->|N].
      * right. rewrite fupd_same, KN. unfold plain. auto.
      * left. apply fupd_other. exact N.
    + intros a b. apply pte_delpd; auto. intros a' i K G. destruct (B _ _ _ K G); congruence.
Qed.
