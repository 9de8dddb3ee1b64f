From Verif Require Import Lib User_Model User_Spec.

Lemma mod_pos c : good_cfg c -> 0 < modulus c.
Proof. intros (_ & A & B & _). lia. Qed.

(** C33 *)
Lemma range_exact c p n : good_cfg c -> 0 <= p -> 0 <= n -> p + n < modulus c ->
  out_of_range c p n = false <-> p <> 0 /\ p + n <= base c.
Proof.
  intros G P N S. unfold out_of_range. rewrite Z.mod_small by lia. rewrite orb_false_iff, Z.eqb_neq, Z.ltb_ge. reflexivity.
Qed.
Lemma range_short c p n : good_cfg c -> 0 <= p < base c -> 0 <= n <= 4096 -> out_of_range c p n = false -> p + n <= base c.
Proof. intros G P N H. apply range_exact in H; [tauto|exact G|lia|lia|]. destruct G as (_ & _ & X & _). lia. Qed.
Lemma range_wraps c : good_cfg c -> out_of_range c (modulus c - 4096) 4096 = false /\ base c <= modulus c - 4096.
Proof.
  intros (W & A & B & _). unfold out_of_range. replace (modulus c - 4096 + 4096) with (1 * modulus c) by lia. rewrite Z.mod_mul by lia. split; [|lia].
  apply orb_false_iff. split; [apply Z.eqb_neq|apply Z.ltb_ge]; lia.
Qed.
Lemma run_bytes rd l : forall p, run rd p l -> bytes_at rd p l.
Proof. induction l as [|b l IH]; cbn; [auto|]. intros p (A & _ & B). auto. Qed.
Lemma bytes_app rd l1 : forall p l2, bytes_at rd p (l1 ++ l2) <-> bytes_at rd p l1 /\ bytes_at rd (p + zlen l1) l2.
Proof.
  induction l1 as [|b l1 IH]; intros p l2; cbn [app bytes_at].
  - rewrite zlen_nil, Z.add_0_r. tauto.
  - rewrite IH, zlen_cons. replace (p + 1 + zlen l1) with (p + (1 + zlen l1)) by lia. tauto.
Qed.
Lemma run_app rd l1 : forall p l2, run rd p (l1 ++ l2) <-> run rd p l1 /\ run rd (p + zlen l1) l2.
Proof.
  induction l1 as [|b l1 IH]; intros p l2; cbn [app run].
  - rewrite zlen_nil, Z.add_0_r. tauto.
  - rewrite IH, zlen_cons. replace (p + 1 + zlen l1) with (p + (1 + zlen l1)) by lia. tauto.
Qed.
Lemma ucopy_ok c rd n : forall p, 0 <= p -> p + Z.of_nat n <= modulus c ->
  let '(l, ok) := ucopy c rd p n in
  bytes_at rd p l /\ (if ok then zlen l = Z.of_nat n else zlen l < Z.of_nat n /\ rd (p + zlen l) = None).
Proof.
  induction n as [|n IH]; intros p P B; cbn [ucopy]; [split; [exact Logic.I|reflexivity]|].
  destruct (rd p) as [b|] eqn:E.
  - destruct (Z.eq_dec (Z.of_nat n) 0) as [Z0|NZ].
    + assert (n = O) by lia. subst n. cbn. auto.
    + rewrite Z.mod_small by lia. specialize (IH (p + 1) ltac:(lia) ltac:(lia)). destruct (ucopy c rd (p + 1) n) as [l ok]. cbn [bytes_at]. rewrite zlen_cons.
      destruct IH as [A D]. split; [auto|]. destruct ok; [lia|]. destruct D as [D F]. split; [lia|]. replace (p + (1 + zlen l)) with (p + 1 + zlen l) by lia. exact F.
  - cbn [bytes_at]. rewrite zlen_nil, Z.add_0_r. split; [exact Logic.I|]. split; [lia|exact E].
Qed.
Lemma ustore_ok c wr n : forall p, 0 <= p -> p + Z.of_nat n <= modulus c ->
  let '(l, ok) := ustore c wr p n in (forall a, In a l -> p <= a < p + Z.of_nat n) /\ (ok = true -> zlen l = Z.of_nat n /\ forall a, p <= a < p + Z.of_nat n -> In a l).
Proof.
  induction n as [|n IH]; intros p P B; cbn [ustore]; [split; [intros a []|intros _; split; [reflexivity|lia]]|].
  destruct (wr p) eqn:E.
  - destruct (Z.eq_dec (Z.of_nat n) 0) as [Z0|NZ].
    + assert (n = O) by lia. subst n. cbn. split; [intros a [<-|[]]; lia|]. intros _. split; [reflexivity|]. intros a H. left. lia.
    + rewrite Z.mod_small by lia. specialize (IH (p + 1) ltac:(lia) ltac:(lia)). destruct (ustore c wr (p + 1) n) as [l ok]. rewrite zlen_cons. destruct IH as [A D]. split.
      * intros a [<-|H]; [lia|]. specialize (A a H). lia.
      * intros Ho. destruct (D Ho) as [D1 D2]. split; [lia|]. intros a H. destruct (Z.eq_dec p a) as [->|Ne]; [left; reflexivity|right; apply D2; lia].
  - split; [intros a []|discriminate].
Qed.
Lemma from_user c rd p n rc l : good_cfg c -> 0 <= p -> 0 <= n -> p + n < modulus c -> copy_from_user c rd p n = (rc, l) ->
  bytes_at rd p l /\ p + zlen l <= Z.max p (base c) /\
  (rc = 0 <-> p <> 0 /\ p + n <= base c /\ zlen l = n) /\ (rc <> 0 -> rc = EFAULT /\ (p = 0 \/ base c < p + n \/ (zlen l < n /\ rd (p + zlen l) = None))).
Proof.
  intros G P N S. unfold copy_from_user. pose proof (range_exact c p n G P N S) as R. destruct (out_of_range c p n) eqn:O.
  - intros H. inversion H. subst. cbn. rewrite zlen_nil. split; [exact Logic.I|]. split; [lia|].
    assert (X : p = 0 \/ base c < p + n) by (destruct (Z.eq_dec p 0), (Z_le_dec (p + n) (base c)); try lia; exfalso; assert (Y : true = false) by tauto; discriminate).
    split; [split; [discriminate|]; intros (A & B & _); lia|]. intros _. split; [reflexivity|]. tauto.
  - destruct (proj1 R eq_refl) as [P0 B0]. pose proof (ucopy_ok c rd (Z.to_nat n) p P ltac:(destruct G as (_ & _ & X & _); lia)) as U.
    destruct (ucopy c rd p (Z.to_nat n)) as [l' ok]. rewrite Z2Nat.id in U by exact N. destruct U as [U1 U2]. intros H. inversion H. subst. split; [exact U1|]. pose proof (zlen_nonneg l).
    destruct ok; [split; [lia|]; split; [split; auto|congruence]|]. destruct U2 as [U2 U3]. split; [lia|]. split; [split; [discriminate|lia]|]. intros _. split; [reflexivity|]. auto.
Qed.
Lemma to_user c wr p n rc l : good_cfg c -> 0 <= p -> 0 <= n -> p + n < modulus c -> copy_to_user c wr p n = (rc, l) ->
  (forall a, In a l -> p <= a < p + n /\ a < base c) /\ (rc = 0 -> forall a, p <= a < p + n -> In a l).
Proof.
  intros G P N S. unfold copy_to_user. pose proof (range_exact c p n G P N S) as R. destruct (out_of_range c p n) eqn:O.
  - intros H. inversion H. split; [intros a []|discriminate].
  - destruct (proj1 R eq_refl) as [P0 B0]. pose proof (ustore_ok c wr (Z.to_nat n) p P ltac:(destruct G as (_ & _ & X & _); lia)) as U.
    destruct (ustore c wr p (Z.to_nat n)) as [l' ok]. rewrite Z2Nat.id in U by exact N. destruct U as [U1 U2]. intros H. inversion H. subst. split.
    + intros a H1. specialize (U1 a H1). lia.
    + destruct ok; [|discriminate]. intros _. apply U2. reflexivity.
Qed.

(** C34 *)
Lemma find0_none l : find0 l = None -> forall rd p, bytes_at rd p l -> run rd p l.
Proof.
  induction l as [|b l IH]; cbn [find0 bytes_at run]; [auto|]. destruct (b =? 0) eqn:E; [discriminate|]. destruct (find0 l); [discriminate|]. intros _ rd p [A B].
  split; [exact A|]. split; [lia|]. apply IH; auto.
Qed.
Lemma find0_some l : forall i, find0 l = Some i -> exists l1 l2, l = l1 ++ 0 :: l2 /\ zlen l1 = i /\ forall rd p, bytes_at rd p l -> run rd p l1 /\ rd (p + i) = Some 0.
Proof.
  induction l as [|b l IH]; cbn [find0]; [discriminate|]. intros i. destruct (b =? 0) eqn:E.
  - intros H. inversion H. subst i. assert (b = 0) by lia. subst b. exists [], l. split; [reflexivity|]. split; [reflexivity|]. intros rd p [A _]. cbn. rewrite Z.add_0_r. auto.
  - destruct (find0 l) as [j|]; [|discriminate]. intros H. inversion H. subst i. destruct (IH j eq_refl) as (l1 & l2 & -> & L & F). exists (b :: l1), l2. split; [reflexivity|]. split; [rewrite zlen_cons; lia|].
    intros rd p [A B]. destruct (F rd (p + 1) B) as [F1 F2]. cbn [run]. split; [split; [exact A|]; split; [lia|exact F1]|]. replace (p + (j + 1)) with (p + 1 + j) by lia. exact F2.
Qed.
Lemma page_room p : 0 <= p -> 1 <= 4096 - Z.land p 4095 /\ forall k, 1 <= k <= 4096 - Z.land p 4095 -> forall j, 0 <= j < k -> (p + j) / 4096 = p / 4096.
Proof.
  intros P. change 4095 with (Z.ones 12). rewrite Z.land_ones by lia. change (2 ^ 12) with 4096. pose proof (Z.mod_pos_bound p 4096 ltac:(lia)). split; [lia|].
  intros k K j J. pose proof (Z.div_mod p 4096 ltac:(lia)). symmetry. apply (Z.div_unique _ _ _ (p mod 4096 + j)); [left; lia|lia].
Qed.
Lemma copy_str_ok c rd p0 max : good_cfg c -> paged rd -> 0 <= p0 -> forall fuel p room acc tr,
  (Z.to_nat room < fuel)%nat -> run rd p0 acc -> p = p0 + zlen acc -> room = max - zlen acc -> 0 <= room -> (0 < zlen acc -> p <= base c) -> Forall (good_range c rd p0) tr ->
  exists rc dest w tr', copy_str c rd fuel p room acc tr = Some (rc, dest, w, tr') /\ zlen dest <= max /\ str_result c rd p0 max rc dest w /\ Forall (good_range c rd p0) tr'.
Proof.
  intros G PG P0. induction fuel as [|fuel IH]; intros p room acc tr Fu R Ep Er Hr Hb Ht; [lia|]. cbn [copy_str].
  pose proof (zlen_nonneg acc) as La. destruct (room <=? 0) eqn:E1.
  - exists 1, acc, 0, tr. split; [reflexivity|]. split; [lia|]. split; [|exact Ht]. right. left. split; [reflexivity|]. split; [reflexivity|]. exists acc. split; [exact R|]. split; [lia|].
    destruct (Z.eq_dec (zlen acc) 0); [lia|]. specialize (Hb ltac:(lia)). lia.
  - destruct (base c <=? p) eqn:E2.
    + exists (-1), acc, 0, tr. split; [reflexivity|]. split; [lia|]. split; [|exact Ht]. right. right. split; [reflexivity|]. split; [reflexivity|]. exists acc. split; [exact R|]. split; [lia|]. left. lia.
    + destruct (page_room p ltac:(lia)) as [PR PS]. set (chunk := Z.min (Z.min room (Z.min (4096 - Z.land p 4095) (base c - p))) 64).
      assert (C1 : 1 <= chunk) by (unfold chunk; lia). assert (C2 : chunk <= room) by (unfold chunk; lia). assert (C3 : chunk <= 4096 - Z.land p 4095) by (unfold chunk; lia). assert (C4 : p + chunk <= base c) by (unfold chunk; lia). clearbody chunk.
      pose proof (ucopy_ok c rd (Z.to_nat chunk) p ltac:(lia) ltac:(destruct G as (_ & _ & X & _); lia)) as U. destruct (ucopy c rd p (Z.to_nat chunk)) as [l ok]. rewrite Z2Nat.id in U by lia. destruct U as [U1 U2].
      assert (Ht' : Forall (good_range c rd p0) (tr ++ [(p, chunk)])).
      { apply Forall_app. split; [exact Ht|]. constructor; [|constructor]. cbn. split; [lia|]. split; [lia|]. split; [lia|]. split; [|exists acc; split; [exact R|lia]].
        symmetry. replace (p + chunk - 1) with (p + (chunk - 1)) by lia. apply (PS chunk); lia. }
      destruct ok.
      * destruct (find0 l) as [i|] eqn:Fi.
        -- destruct (find0_some l i Fi) as (l1 & l2 & El & Li & F). destruct (F rd p U1) as [F1 F2]. assert (Ii : i < chunk) by (subst l; rewrite zlen_app, zlen_cons in U2; pose proof (zlen_nonneg l2); lia).
           exists 0, (acc ++ l), (zlen acc + i + 1), (tr ++ [(p, chunk)]). split; [reflexivity|]. split; [rewrite zlen_app; lia|]. split; [|exact Ht']. left. split; [reflexivity|]. exists (acc ++ l1), l2. split; [|split; [|split]].
           ++ split; [|split].
              ** apply run_app. split; [exact R|]. rewrite <- Ep. exact F1.
              ** rewrite zlen_app. replace (p0 + (zlen acc + zlen l1)) with (p + i) by lia. exact F2.
              ** rewrite zlen_app. lia.
           ++ rewrite zlen_app. lia.
           ++ subst l. rewrite <- app_assoc. reflexivity.
           ++ rewrite zlen_app. lia.
        -- apply IH; try (rewrite ?zlen_app; lia); [|exact Ht']. apply run_app. split; [exact R|]. rewrite <- Ep. apply (find0_none l Fi), U1.
      * exists (-1), (acc ++ l), 0, (tr ++ [(p, chunk)]). split; [reflexivity|]. destruct U2 as [U2 U3]. split; [rewrite zlen_app; lia|]. split; [|exact Ht']. right. right. split; [reflexivity|]. split; [reflexivity|].
        exists acc. split; [exact R|]. split; [lia|]. right. rewrite <- Ep. apply (PG (p + zlen l)); [|exact U3]. apply (PS chunk); [lia|]. pose proof (zlen_nonneg l). lia.
Qed.
Lemma str_ok c rd p max : good_cfg c -> paged rd -> 0 <= p -> 0 <= max ->
  exists rc dest w tr, copy_str_from_user c rd p max = Some (rc, dest, w, tr) /\ zlen dest <= max /\ str_result c rd p max rc dest w /\ Forall (good_range c rd p) tr.
Proof.
  intros G PG P M. apply (copy_str_ok c rd p max G PG P); [lia|exact Logic.I|unfold zlen; cbn [length]; lia|unfold zlen; cbn [length]; lia|exact M|unfold zlen; cbn [length]; lia|constructor].
Qed.
(** the three outcomes exclude each other and the string is unique *)
Lemma run_cmp rd l1 : forall p l2, run rd p l1 -> run rd p l2 -> zlen l1 <= zlen l2 -> exists l3, l2 = l1 ++ l3.
Proof.
  induction l1 as [|b l1 IH]; intros p l2 R1 R2 L; [exists l2; reflexivity|]. destruct l2 as [|b2 l2]; [rewrite zlen_cons, zlen_nil in L; pose proof (zlen_nonneg l1); lia|].
  cbn in R1, R2. destruct R1 as (A & _ & B), R2 as (A' & _ & B'). rewrite !zlen_cons in L. destruct (IH (p + 1) l2 B B' ltac:(lia)) as (l3 & ->). exists l3. cbn. congruence.
Qed.
Lemma run_stop rd p l1 l2 : run rd p l1 -> run rd p l2 -> (forall b, rd (p + zlen l1) = Some b -> b = 0) -> zlen l2 <= zlen l1.
Proof.
  intros R1 R2 S. destruct (Z_le_dec (zlen l2) (zlen l1)) as [|N]; [assumption|exfalso]. destruct (run_cmp rd l1 p l2 R1 R2 ltac:(lia)) as (l3 & ->). apply run_app in R2. destruct R2 as [_ R2].
  destruct l3 as [|b l3]; [rewrite app_nil_r in N; lia|]. cbn in R2. destruct R2 as (A & B & _). apply B, S, A.
Qed.
Lemma is_str_unique c rd p l1 l2 : is_str c rd p l1 -> is_str c rd p l2 -> l1 = l2.
Proof.
  intros (A & B & _) (A' & B' & _). assert (L : zlen l1 = zlen l2).
  { apply Z.le_antisymm; [apply (run_stop rd p l2 l1)|apply (run_stop rd p l1 l2)]; auto; intros b H; congruence. }
  destruct (run_cmp rd l1 p l2 A A' ltac:(lia)) as (l3 & ->). destruct l3; [rewrite app_nil_r; reflexivity|]. rewrite zlen_app, zlen_cons in L. pose proof (zlen_nonneg l3). lia.
Qed.
Lemma str_found c rd p max l : good_cfg c -> paged rd -> 0 <= p -> is_str c rd p l -> zlen l < max ->
  exists rest tr, copy_str_from_user c rd p max = Some (0, l ++ 0 :: rest, zlen l + 1, tr) /\ zlen rest + zlen l + 1 <= max.
Proof.
  intros G PG P S L. pose proof (zlen_nonneg l). destruct (str_ok c rd p max G PG P ltac:(lia)) as (rc & dest & w & tr & E & B & Rz & _). pose proof S as (S1 & S2 & S3).
  destruct Rz as [(-> & l' & rest & S' & L' & -> & ->)|[(-> & -> & l' & R' & L' & X)|(-> & -> & l' & R' & L' & X)]].
  - rewrite (is_str_unique c rd p l' l S' S) in *. exists rest, tr. split; [exact E|]. rewrite zlen_app, zlen_cons in B. lia.
  - exfalso. pose proof (run_stop rd p l l' S1 R' ltac:(intros; congruence)). lia.
  - exfalso. pose proof (run_stop rd p l l' S1 R' ltac:(intros; congruence)) as Y.
    destruct X as [X|X]; [lia|]. pose proof (run_stop rd p l' l R' S1 ltac:(intros; congruence)) as Y'. assert (Ez : zlen l' = zlen l) by lia. rewrite Ez in X. congruence.
Qed.

(** arrays of strings *)
Lemma read_ptr_ok c rd a : good_cfg c -> 0 <= a -> a + word c <= base c -> (forall u, read_ptr c rd a = Some u <-> ptr_at c rd a u).
Proof.
  intros G A B u. assert (W : 0 < word c) by (destruct G as ([?|?] & _); lia). unfold read_ptr. pose proof (ucopy_ok c rd (Z.to_nat (word c)) a A ltac:(destruct G as (_ & _ & X & _); lia)) as U.
  destruct (ucopy c rd a (Z.to_nat (word c))) as [l ok]. rewrite Z2Nat.id in U by lia. destruct U as [U1 U2].
  assert (Det : forall l1 l2 p, bytes_at rd p l1 -> bytes_at rd p l2 -> zlen l1 = zlen l2 -> l1 = l2).
  { induction l1 as [|b l1 IH]; intros [|b2 l2] p H1 H2 L; rewrite ?zlen_cons, ?zlen_nil in L; try (pose proof (zlen_nonneg l1)); try (pose proof (zlen_nonneg l2)); try lia; [reflexivity|].
    destruct H1 as [X1 Y1], H2 as [X2 Y2]. f_equal; [congruence|]. apply (IH l2 (p + 1)); auto. lia. }
  destruct ok.
  - split.
    + intros H. inversion H. exists l. auto.
    + intros (l' & L' & B' & -> & _). rewrite (Det l l' a U1 B' ltac:(lia)). reflexivity.
  - split; [discriminate|]. intros (l' & L' & B' & -> & _). exfalso. destruct U2 as [U2 U3]. pose proof (zlen_nonneg l).
    assert (E : l' = firstn (length l) l' ++ skipn (length l) l') by (symmetry; apply firstn_skipn). rewrite E in B'. apply bytes_app in B'. destruct B' as [_ B'].
    rewrite zlen_firstn in B'. unfold zlen in B', U2, L'. replace (Z.min (Z.of_nat (length l)) (Z.of_nat (length l'))) with (zlen l) in B' by (unfold zlen; lia).
    destruct (skipn (length l) l') as [|b r] eqn:Sk; [|cbn in B'; destruct B'; congruence]. assert (length (skipn (length l) l') = 0)%nat by (rewrite Sk; reflexivity). rewrite skipn_length in H0. lia.
Qed.
Lemma in_range_word c a : good_cfg c -> 0 <= a -> a + word c < modulus c -> out_of_range c a (word c) = false <-> a <> 0 /\ a + word c <= base c.
Proof. intros G A B. apply range_exact; auto. destruct G as ([?|?] & _); lia. Qed.

Lemma ptr_at_range c rd a u : ptr_at c rd a u -> a + word c <= base c.
Proof. intros (l & _ & _ & _ & H). exact H. Qed.
Lemma count_ok c rd arr : good_cfg c -> 0 < arr -> arr + word c < modulus c -> forall fuel i, 0 <= i -> arr + word c * i <= base c ->
  match count_args c rd fuel arr i with
  | Count n => exists us, ptrs_at c rd (arr + word c * i) us /\ n = i + zlen us
  | Fault => forall us, ~ ptrs_at c rd (arr + word c * i) us
  | OutOfFuel => arr + word c * (i + Z.of_nat fuel) <= base c
  end.
Proof.
  intros G A B. assert (W : 4 <= word c <= 8) by (destruct G as ([?|?] & _); lia). assert (Bm : base c + 4096 <= modulus c) by (destruct G as (_ & _ & X & _); exact X).
  induction fuel as [|fuel IH]; intros i I Hi; cbn [count_args]; [lia|]. rewrite Z.mod_small by nia.
  destruct (out_of_range c (arr + word c * i) (word c)) eqn:O.
  - intros us H. assert (R : arr + word c * i + word c <= base c) by (destruct us; cbn in H; [apply (ptr_at_range _ _ _ _ H)|destruct H as (_ & H & _); apply (ptr_at_range _ _ _ _ H)]).
    assert (X : out_of_range c (arr + word c * i) (word c) = false) by (apply in_range_word; [exact G|nia|nia|split; [nia|exact R]]). congruence.
  - apply in_range_word in O; [|exact G|nia|nia]. destruct O as [_ R]. pose proof (read_ptr_ok c rd (arr + word c * i) G ltac:(nia) R) as Rd.
    destruct (read_ptr c rd (arr + word c * i)) as [u|].
    + assert (Pu : ptr_at c rd (arr + word c * i) u) by (apply Rd; reflexivity). destruct (u =? 0) eqn:U0.
      * exists []. assert (u = 0) by lia. subst u. split; [exact Pu|unfold zlen; cbn [length]; lia].
      * specialize (IH (i + 1) ltac:(lia) ltac:(nia)). replace (arr + word c * (i + 1)) with (arr + word c * i + word c) in IH by lia.
        destruct (count_args c rd fuel arr (i + 1)) as [n| |].
        -- destruct IH as (us & H & ->). exists (u :: us). rewrite zlen_cons. split; [cbn; split; [lia|]; split; assumption|lia].
        -- intros [|u' us] H; cbn in H; [apply Rd in H; inversion H; lia|]. destruct H as (_ & _ & H). exact (IH us H).
        -- lia.
    + intros [|u us] H; cbn in H; [|destruct H as (_ & H & _)]; apply Rd in H; discriminate.
Qed.
Lemma offsets_len strs : forall off, zlen (offsets off strs) = zlen strs.
Proof. induction strs as [|l strs IH]; intros off; cbn [offsets]; [reflexivity|]. rewrite !zlen_cons, IH. reflexivity. Qed.
Lemma flat_cons l strs : flat (l :: strs) = l ++ 0 :: flat strs.
Proof. unfold flat. cbn. rewrite <- app_assoc. reflexivity. Qed.

Lemma le_bytes rd : (forall a b, rd a = Some b -> 0 <= b < 256) -> forall l p, bytes_at rd p l -> 0 <= le l.
Proof. intros Hb. induction l as [|b l IH]; intros p; cbn [bytes_at le]; [lia|]. intros [A B]. specialize (Hb p b A). specialize (IH (p + 1) B). lia. Qed.

Lemma copy_args_ok c rd arr max : good_cfg c -> paged rd -> (forall a b, rd a = Some b -> 0 <= b < 256) -> 0 < arr ->
  forall us i off, 0 <= i -> ptrs_at c rd (arr + word c * i) us -> off <= max ->
  exists rc ptrs data, copy_args c rd (length us) arr i off max = Some (rc, ptrs, data) /\ off + zlen data <= max /\ zlen ptrs <= zlen us /\
    (rc = 0 -> exists strs, zlen strs = zlen us /\ strings_at c rd (arr + word c * i) strs /\ data = flat strs /\ ptrs = offsets off strs) /\
    (forall strs, strings_at c rd (arr + word c * i) strs -> off + zlen (flat strs) <= max -> rc = 0).
Proof.
  intros G PG Hb A. assert (W : 4 <= word c <= 8) by (destruct G as ([?|?] & _); lia). assert (Bm : base c + 4096 <= modulus c) by (destruct G as (_ & _ & X & _); exact X).
  induction us as [|u us IH]; intros i off I H Ho; cbn [copy_args length].
  - exists 0, [], []. change (zlen (@nil Z)) with 0. split; [reflexivity|]. split; [lia|]. split; [lia|]. split; [|reflexivity]. intros _. exists []. cbn. auto.
  - cbn [ptrs_at] in H. destruct H as (U0 & Pu & H). pose proof (ptr_at_range _ _ _ _ Pu) as R. rewrite Z.mod_small by nia.
    assert (Er : read_ptr c rd (arr + word c * i) = Some u) by (apply read_ptr_ok; [exact G|nia|exact R|exact Pu]). rewrite Er.
    assert (Up : 0 <= u) by (destruct Pu as (l & _ & B & -> & _); apply (le_bytes rd Hb l _ B)).
    assert (Uu : forall u', ptr_at c rd (arr + word c * i) u' -> u' = u) by (intros u' Q; apply read_ptr_ok in Q; [congruence|exact G|nia|exact R]).
    destruct (str_ok c rd u (max - off) G PG Up ltac:(lia)) as (rc & d & w & tr & E & L & Rz & _). rewrite E.
    destruct (rc =? 0) eqn:R0.
    + apply Z.eqb_eq in R0. subst rc. destruct Rz as [(_ & l & rest & S & Sl & -> & ->)|[(? & _)|(? & _)]]; try discriminate.
      replace (arr + word c * i + word c) with (arr + word c * (i + 1)) in * by lia.
      destruct (IH (i + 1) (off + (zlen l + 1)) ltac:(lia) H ltac:(lia)) as (rc & ptrs & data & E2 & L2 & L3 & F & F'). rewrite E2.
      assert (Fn : firstn (Z.to_nat (zlen l + 1)) (l ++ 0 :: rest) = l ++ [0]).
      { replace (l ++ 0 :: rest) with ((l ++ [0]) ++ rest) by (rewrite <- app_assoc; reflexivity). rewrite firstn_app. replace (Z.to_nat (zlen l + 1)) with (length (l ++ [0])) by (rewrite app_length; unfold zlen; cbn; lia).
        rewrite firstn_all, Nat.sub_diag. cbn. apply app_nil_r. }
      exists rc, (off :: ptrs), ((l ++ [0]) ++ data). rewrite Fn. split; [reflexivity|]. split; [rewrite !zlen_app, zlen_cons, zlen_nil; lia|]. split; [rewrite !zlen_cons; lia|]. split.
      * intros ->. destruct (F eq_refl) as (strs & Ls & Ss & -> & ->). exists (l :: strs). split; [rewrite !zlen_cons; lia|]. split; [|split].
        -- cbn [strings_at]. replace (arr + word c * i + word c) with (arr + word c * (i + 1)) by lia. split; [exists u; auto|exact Ss].
        -- rewrite flat_cons, <- app_assoc. reflexivity.
        -- cbn [offsets]. replace (off + (zlen l + 1)) with (off + zlen l + 1) by lia. reflexivity.
      * intros strs Ss Fit. destruct strs as [|l' strs]; cbn [strings_at] in Ss; [apply Uu in Ss; lia|]. destruct Ss as ((u' & _ & Pu' & S') & Ss). apply Uu in Pu'. subst u'.
        rewrite (is_str_unique c rd u l' l S' S) in *. replace (arr + word c * i + word c) with (arr + word c * (i + 1)) in Ss by lia. apply (F' strs Ss). rewrite flat_cons, zlen_app, zlen_cons in Fit. lia.
    + exists rc, [off], []. split; [reflexivity|]. split; [change (zlen (@nil Z)) with 0; lia|]. split; [rewrite !zlen_cons, zlen_nil; pose proof (zlen_nonneg us); lia|]. split; [lia|].
      intros strs Ss Fit. exfalso. destruct strs as [|l' strs]; cbn [strings_at] in Ss; [apply Uu in Ss; lia|]. destruct Ss as ((u' & _ & Pu' & S') & Ss). apply Uu in Pu'. subst u'.
      rewrite flat_cons, zlen_app, zlen_cons in Fit. pose proof (zlen_nonneg (flat strs)). destruct (str_found c rd u (max - off) l' G PG Up S' ltac:(lia)) as (rest & tr' & E' & _). rewrite E' in E. inversion E. subst. discriminate.
Qed.
Lemma strings_ptrs c rd strs : forall arr, strings_at c rd arr strs -> exists us, zlen us = zlen strs /\ ptrs_at c rd arr us.
Proof.
  induction strs as [|l strs IH]; intros arr; cbn [strings_at]; [exists []; auto|]. intros [(u & U0 & Pu & _) S]. destruct (IH _ S) as (us & L & H). exists (u :: us). rewrite !zlen_cons. split; [lia|]. cbn. auto.
Qed.
Lemma ptrs_unique c rd us : good_cfg c -> forall arr us', 0 < arr -> ptrs_at c rd arr us -> ptrs_at c rd arr us' -> us = us'.
Proof.
  intros G. assert (W : 4 <= word c <= 8) by (destruct G as ([?|?] & _); lia).
  assert (Det : forall a u u', 0 < a -> ptr_at c rd a u -> ptr_at c rd a u' -> u = u').
  { intros a u u' A P P'. pose proof (ptr_at_range _ _ _ _ P). apply read_ptr_ok in P; [|exact G|lia|assumption]. apply read_ptr_ok in P'; [congruence|exact G|lia|assumption]. }
  induction us as [|u us IH]; intros arr us' A H H'; destruct us' as [|u' us']; cbn in H, H'.
  - reflexivity.
  - exfalso. destruct H' as (N & P & _). apply N, (Det arr); assumption.
  - exfalso. destruct H as (N & P & _). apply N, (Det arr); assumption.
  - destruct H as (_ & P & H), H' as (_ & P' & H'). f_equal; [apply (Det arr); assumption|]. apply (IH (arr + word c)); auto. lia.
Qed.
Lemma ptrs_range c rd us : forall arr, ptrs_at c rd arr us -> arr + word c * (zlen us + 1) <= base c.
Proof.
  induction us as [|u us IH]; intros arr H; cbn in H.
  - apply ptr_at_range in H. change (zlen (@nil Z)) with 0. lia.
  - destruct H as (_ & _ & H). apply IH in H. rewrite zlen_cons. nia.
Qed.
Lemma array_ok c rd fuel dest arr max : good_cfg c -> paged rd -> (forall a b, rd a = Some b -> 0 <= b < 256) -> 0 < arr -> arr + word c < modulus c -> 0 <= max ->
  0 <= dest -> short_array c rd dest arr -> base c < arr + word c * Z.of_nat fuel -> (0 < fuel)%nat ->
  exists rc argc ptrs data w, copy_str_array c rd fuel dest arr max = Res rc argc ptrs data w /\
    w <= max /\ (ptrs <> [] -> word c * (argc + 1) + zlen data <= max /\ zlen ptrs <= argc) /\
    (rc = 0 <-> exists strs, strings_at c rd arr strs /\ word c * (zlen strs + 1) + zlen (flat strs) <= max) /\
    (rc = 0 -> exists strs, strings_at c rd arr strs /\ argc = zlen strs /\ data = flat strs /\ ptrs = offsets (word c * (argc + 1)) strs /\ w = word c * (argc + 1) + zlen data).
Proof.
  intros G PG Hb A Aw M D Dw Fu Fu0. assert (W : 4 <= word c <= 8) by (destruct G as ([?|?] & _); lia). assert (Bm : base c + 4096 <= modulus c) by (destruct G as (_ & _ & X & _); exact X).
  unfold copy_str_array.
  assert (Bad : base c < arr + word c -> forall strs, ~ strings_at c rd arr strs).
  { intros H [|l strs] S; cbn in S; [apply ptr_at_range in S; lia|]. destruct S as ((u & _ & P & _) & _). apply ptr_at_range in P. lia. }
  destruct (Z_le_dec (arr + word c * 0) (base c)) as [Hi|Hi].
  - pose proof (count_ok c rd arr G A Aw fuel 0 ltac:(lia) Hi) as Cn. rewrite Z.mul_0_r, Z.add_0_r in Cn. destruct (count_args c rd fuel arr 0) as [n| |]; [| |exfalso; lia].
    + destruct Cn as (us & Pu & ->). rewrite Z.add_0_l. assert (Same : forall strs, strings_at c rd arr strs -> zlen strs = zlen us).
      { intros strs S. destruct (strings_ptrs c rd strs arr S) as (us' & L & P'). rewrite (ptrs_unique c rd us G arr us' A Pu P'). lia. }
      pose proof (Dw us Pu) as Rg. pose proof (zlen_nonneg us) as Lu. cbv zeta. rewrite (Z.mod_small (dest + word c * zlen us)) by nia.
      replace (dest + max - word c <? dest + word c * zlen us) with (max - word c <? word c * zlen us) by (destruct (Z.ltb_spec (max - word c) (word c * zlen us)), (Z.ltb_spec (dest + max - word c) (dest + word c * zlen us)); try reflexivity; lia).
      destruct (max - word c <? word c * zlen us) eqn:Fit.
      * exists 1, (zlen us), [], [], 0. split; [reflexivity|]. split; [lia|]. split; [congruence|]. split; [|discriminate]. split; [discriminate|]. intros (strs & S & F). exfalso. rewrite (Same strs S) in F. pose proof (zlen_nonneg (flat strs)). lia.
      * replace (Z.to_nat (zlen us)) with (length us) by (unfold zlen; lia). assert (Pu0 : ptrs_at c rd (arr + word c * 0) us) by (rewrite Z.mul_0_r, Z.add_0_r; exact Pu).
        destruct (copy_args_ok c rd arr max G PG Hb A us 0 (word c * (zlen us + 1)) ltac:(lia) Pu0 ltac:(lia)) as (rc & ptrs & data & E & L & Lp & F & F'). rewrite Z.mul_0_r, Z.add_0_r in F, F'. rewrite E.
        exists rc, (zlen us), ptrs, data, (word c * (zlen us + 1) + zlen data). split; [reflexivity|]. split; [lia|]. split; [intros _; split; lia|]. split.
        -- split.
           ++ intros R0. destruct (F R0) as (strs & Ls & S & -> & _). exists strs. split; [exact S|]. rewrite Ls. lia.
           ++ intros (strs & S & Ft). apply (F' strs S). rewrite (Same strs S) in Ft. lia.
        -- intros R0. destruct (F R0) as (strs & Ls & S & -> & ->). exists strs. auto 10.
    + exists (-1), 0, [], [], 0. split; [reflexivity|]. split; [lia|]. split; [congruence|]. split; [|discriminate]. split; [discriminate|]. intros (strs & S & _). exfalso. destruct (strings_ptrs c rd strs arr S) as (us & _ & P). exact (Cn us P).
  - destruct fuel as [|fuel]; [lia|]. cbn [count_args]. rewrite Z.mul_0_r, Z.add_0_r, Z.mod_small by lia.
    assert (O : out_of_range c arr (word c) = true) by (destruct (out_of_range c arr (word c)) eqn:O; [reflexivity|]; apply in_range_word in O; [lia|exact G|lia|lia]). rewrite O.
    exists (-1), 0, [], [], 0. split; [reflexivity|]. split; [lia|]. split; [congruence|]. split; [|discriminate]. split; [discriminate|]. intros (strs & S & _). exfalso. apply (Bad ltac:(lia) strs S).
Qed.
Lemma archs_good : good_cfg i386 /\ good_cfg x86_64 /\ good_cfg riscv64.
Proof. split; [|split]; (split; [cbn; auto|]); vm_compute; repeat split; discriminate. Qed.
Lemma wrap_all c : good_cfg c -> exists p n, 0 <= p < modulus c /\ 0 < n < 8192 /\ base c <= p /\ out_of_range c p n = false /\ forall rd, (forall a, rd a = Some 1) -> fst (copy_from_user c rd p n) = 0 /\ exists l, snd (copy_from_user c rd p n) = 1 :: l.
Proof.
  intros G. pose proof (range_wraps c G) as [A B]. exists (modulus c - 4096), 4096. pose proof G as (_ & G1 & G2 & _). split; [lia|]. split; [lia|]. split; [exact B|]. split; [exact A|].
  intros rd R. unfold copy_from_user. rewrite A. pose proof (ucopy_ok c rd (Z.to_nat 4096) (modulus c - 4096) ltac:(lia) ltac:(lia)) as U. destruct (ucopy c rd (modulus c - 4096) (Z.to_nat 4096)) as [l ok]. destruct U as [U1 U2].
  destruct ok; [|destruct U2; rewrite R in *; discriminate]. split; [reflexivity|]. rewrite Z2Nat.id in U2 by lia. destruct l as [|b l]; [discriminate|]. exists l. cbn in U1. rewrite R in U1. destruct U1 as [U1 _]. inversion U1. reflexivity.
Qed.

Lemma le_digits l : Forall (fun b => 0 <= b < 256) l -> 0 <= le l < 256 ^ zlen l /\ forall k, (k < length l)%nat -> le l / 256 ^ Z.of_nat k mod 256 = nth k l 0.
Proof.
  induction 1 as [|b l B F IH]; [split; [change (0 <= 0 < 256 ^ 0); lia|intros k K; cbn in K; lia]|]. destruct IH as [R IH]. cbn [le]. split.
  - rewrite zlen_cons. replace (1 + zlen l) with (Z.succ (zlen l)) by lia || replace (zlen l + 1) with (Z.succ (zlen l)) by lia. rewrite Z.pow_succ_r by apply zlen_nonneg. lia.
  - intros k K. destruct k as [|k]; cbn [nth].
    + cbn [Z.of_nat]. rewrite Z.pow_0_r. lia.
    + rewrite Nat2Z.inj_succ, Z.pow_succ_r by lia. rewrite <- Z.div_div by (try lia; apply Z.pow_nonneg || (apply Z.pow_pos_nonneg; lia)). replace ((b + 256 * le l) / 256) with (le l) by lia. apply IH. cbn in K. lia.
Qed.

(** The comparison of pointers wraps *)
Definition ones (z w : Z) : mem := fun a => Some (if (z <=? a) && (a <? z + w) then 0 else 1).
Lemma ones_bytes z w n : forall p, 0 <= w -> p + Z.of_nat n <= z -> bytes_at (ones z w) p (repeat 1 n).
Proof.
  induction n as [|n IH]; intros p W H; cbn [repeat bytes_at]; [exact I|]. split; [|apply IH; lia].
  unfold ones. replace (z <=? p) with false by (symmetry; apply Z.leb_gt; lia). reflexivity.
Qed.
Lemma zero_bytes z w n : forall p, z <= p -> p + Z.of_nat n <= z + w -> bytes_at (ones z w) p (repeat 0 n).
Proof.
  induction n as [|n IH]; intros p A H; cbn [repeat bytes_at]; [exact I|]. split; [|apply IH; lia].
  unfold ones. replace (z <=? p) with true by (symmetry; apply Z.leb_le; lia). replace (p <? z + w) with true by (symmetry; apply Z.ltb_lt; lia). reflexivity.
Qed.
Lemma le_zero n : le (repeat 0 n) = 0.
Proof. induction n as [|n IH]; cbn [repeat le]; [reflexivity|]. rewrite IH. reflexivity. Qed.
Lemma le_ones n : (0 < n)%nat -> le (repeat 1 n) <> 0.
Proof.
  intros H. destruct n as [|n]; [lia|]. cbn [repeat le]. assert (0 <= le (repeat 1 n)); [|lia].
  clear. induction n as [|n IH]; cbn [repeat le]; lia.
Qed.
Lemma ones_ptrs c z n : good_cfg c -> forall arr, arr + word c * Z.of_nat n = z -> z + word c <= base c ->
  ptrs_at c (ones z (word c)) arr (repeat (le (repeat 1 (Z.to_nat (word c)))) n).
Proof.
  intros G. assert (W : 4 <= word c <= 8) by (destruct G as ([?|?] & _); lia).
  induction n as [|n IH]; intros arr E B; cbn [repeat ptrs_at].
  - exists (repeat 0 (Z.to_nat (word c))). split; [unfold zlen; rewrite repeat_length; lia|]. split; [apply zero_bytes; lia|]. split; [rewrite le_zero; reflexivity|lia].
  - split; [apply le_ones; lia|]. split; [|apply IH; [nia|exact B]].
    exists (repeat 1 (Z.to_nat (word c))). split; [unfold zlen; rewrite repeat_length; lia|]. split; [apply ones_bytes; nia|]. split; [reflexivity|nia].
Qed.
Lemma array_wraps c dest max : good_cfg c -> base c <= dest -> dest + max <= modulus c -> word c <= max -> modulus c + 8192 <= base c + dest ->
  exists rd arr, paged rd /\ (forall a b, rd a = Some b -> 0 <= b < 256) /\ 0 < arr /\ arr + word c < modulus c /\
    forall fuel, base c < arr + word c * Z.of_nat fuel -> exists a, copy_str_array c rd fuel dest arr max = Wild a /\ 0 <= a < word c.
Proof.
  intros G B E M H. pose proof G as (G0 & G1 & G2 & _). assert (W : 4 <= word c <= 8) by (destruct G0; lia).
  set (k := (modulus c - dest + word c - 1) / word c).
  assert (K : word c * k < modulus c - dest + word c /\ modulus c - dest <= word c * k /\ 0 <= k).
  { subst k. pose proof (Z.div_mod (modulus c - dest + word c - 1) (word c) ltac:(lia)) as DM. pose proof (Z.mod_pos_bound (modulus c - dest + word c - 1) (word c) ltac:(lia)). split; [lia|]. split; [lia|]. apply Z.div_pos; lia. }
  clearbody k. destruct K as (K1 & K2 & K0). set (z := 4096 + word c * k).
  exists (ones z (word c)), 4096. split; [intros a b _ X; discriminate X|]. split.
  { intros a b X. unfold ones in X. destruct ((z <=? a) && (a <? z + word c)); inversion X; lia. }
  split; [lia|]. split; [lia|]. intros fuel Fu.
  pose proof (ones_ptrs c z (Z.to_nat k) G 4096 ltac:(subst z; lia) ltac:(subst z; lia)) as P.
  set (us := repeat (le (repeat 1 (Z.to_nat (word c)))) (Z.to_nat k)) in *.
  assert (L : zlen us = k) by (subst us; unfold zlen; rewrite repeat_length; lia).
  pose proof (count_ok c (ones z (word c)) 4096 G ltac:(lia) ltac:(lia) fuel 0 ltac:(lia) ltac:(lia)) as C.
  rewrite Z.mul_0_r, Z.add_0_r, Z.add_0_l in C. unfold copy_str_array.
  destruct (count_args c (ones z (word c)) fuel 4096 0) as [n| |]; [|exfalso; exact (C us P)|exfalso; lia].
  destruct C as (us' & P' & ->). rewrite <- (ptrs_unique c _ us G 4096 us' ltac:(lia) P P'), L, Z.add_0_l. cbv zeta.
  replace ((dest + word c * k) mod modulus c) with (dest + word c * k - modulus c).
  2:{ apply Zmod_unique with 1; lia. }
  replace (dest + max - word c <? dest + word c * k - modulus c) with false by (symmetry; apply Z.ltb_ge; lia).
  replace (max - word c <? word c * k) with true by (symmetry; apply Z.ltb_lt; lia).
  eexists. split; [reflexivity|]. lia.
Qed.
Lemma array_wraps_i386 dest max : base i386 <= dest -> dest + max <= modulus i386 -> 4 <= max ->
  exists rd arr, paged rd /\ (forall a b, rd a = Some b -> 0 <= b < 256) /\ 0 < arr /\ arr + 4 < modulus i386 /\
    forall fuel, base i386 < arr + 4 * Z.of_nat fuel -> exists a, copy_str_array i386 rd fuel dest arr max = Wild a /\ 0 <= a < 4.
Proof.
  intros B E M. apply (array_wraps i386 dest max); try assumption; [exact (proj1 archs_good)|].
  change (modulus i386) with 4294967296. change (base i386) with 3221225472 in *. lia.
Qed.
