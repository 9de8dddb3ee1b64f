(** The walk as a walk over a list of entries; what it sees. *)
From Verif Require Import Lib Fat_Model Fat_Spec Fat_Proofs Fat_Proofs2 Fatdir_Model Fatdir_Spec
  Fatdir_Proofs.

Section WL.
  Context {S : Type}.
  Variable cb : S -> vol -> Z -> option (list Z) -> res (S * vol * bool).

  Fixpoint walk_list (es : list Z) (s : S) (v : vol) (x : option lctx)
      : res (S * vol * option lctx * bool) :=
    match es with
    | [] => Ok (s, v, x, false)
    | e :: r =>
        bnd (s1, v1, x1, stop) <- walk_entries cb 1 e s v x;
        if stop then Ok (s1, v1, x1, true) else walk_list r s1 v1 x1
    end.
  Definition from (slot : Z -> Z) (i : Z) (n : nat) : list Z :=
    map (fun j => slot (i + Z.of_nat j)) (seq 0 n).

  Lemma walk_list_app a b s v x :
    walk_list (a ++ b) s v x =
    bnd (s1, v1, x1, stop) <- walk_list a s v x;
    if stop then Ok (s1, v1, x1, true) else walk_list b s1 v1 x1.
  Proof.
    revert s v x. induction a as [|e r IH]; intros s v x; [reflexivity|].
    cbn [app walk_list]. destruct (walk_entries cb 1 e s v x) as [[[[s1 v1] x1] st]| | |]; cbn [bind];
      try reflexivity.
    destruct st; [reflexivity|]. apply IH.
  Qed.
  Lemma from_app slot i a b : from slot i (a + b) = from slot i a ++ from slot (i + Z.of_nat a) b.
  Proof.
    unfold from. rewrite seq_app, map_app. f_equal. cbn [Nat.add].
    replace (seq a b) with (map (fun j => (a + j)%nat) (seq 0 b)).
    - rewrite map_map. apply map_ext. intros j. f_equal. lia.
    - clear. revert a. induction b as [|b IH]; intros a; [reflexivity|].
      cbn [seq map]. f_equal; [lia|]. rewrite <- (IH (Datatypes.S a)). rewrite <- seq_shift.
      rewrite map_map. apply map_ext. intros j. lia.
  Qed.
  Lemma from_S slot i n : from slot i (Datatypes.S n) = slot i :: from slot (i + 1) n.
  Proof.
    change (Datatypes.S n) with (1 + n)%nat. rewrite from_app. cbn [from seq map app].
    replace (i + Z.of_nat 0) with i by lia. reflexivity.
  Qed.
  Lemma walk_entries_list n : forall e s v x,
    walk_entries cb n e s v x = walk_list (from (fun i => e + 32 * i) 0 n) s v x.
  Proof.
    induction n as [|n IH]; intros e s v x; [reflexivity|].
    rewrite from_S. replace (e + 32 * 0) with e by lia.
    assert (Q : forall s v x, walk_entries cb n (e + 32) s v x =
                walk_list (from (fun i => e + 32 * i) (0 + 1) n) s v x).
    { intros s' v' x'. rewrite IH. f_equal. unfold from. apply map_ext. intros j. lia. }
    cbn [walk_list walk_entries].
    destruct (e_byte v e 11) as [at1| | |]; try reflexivity. cbn [bind].
    destruct (e_byte v e 0) as [b0| | |]; try reflexivity. cbn [bind]. cbv zeta.
    destruct x as [c|].
    - destruct (_ =? 15).
      { destruct (handle_long v c e); cbn [bind]; try reflexivity. apply Q. }
      destruct (is_volid at1); [cbn [bind]; apply Q|].
      destruct (b0 =? 229); [cbn [bind]; apply Q|].
      destruct (b0 =? 0); [reflexivity|].
      match goal with |- context[bind ?y _] => destruct y as [nm| | |]; cbn [bind]; try reflexivity end.
      destruct (cb s v e nm) as [[[s1 v1] st]| | |]; cbn [bind]; try reflexivity.
      destruct st; cbn [bind]; [reflexivity|]. apply Q.
    - destruct (is_volid at1); [cbn [bind]; apply Q|].
      destruct (b0 =? 229); [cbn [bind]; apply Q|].
      destruct (b0 =? 0); [reflexivity|].
      destruct (cb s v e None) as [[[s1 v1] st]| | |]; cbn [bind]; try reflexivity.
      destruct st; cbn [bind]; [reflexivity|]. apply Q.
  Qed.

  (** * One entry *)
  Lemma one_lfn v e r s c : in_image v e -> bytes (vm v) e 32 = r -> attr r mod 16 = 15 ->
    walk_entries cb 1 e s v (Some c) = bnd c1 <- handle_long v c e; Ok (s, v, Some c1, false).
  Proof.
    intros I E A. cbn [walk_entries]. rewrite !(e_byte_ok v e r) by (auto; lia). cbn [bind].
    rewrite land15. fold (attr r). rewrite A. reflexivity.
  Qed.
  Lemma one_skip v e r s c : in_image v e -> bytes (vm v) e 32 = r -> skipped r ->
    walk_entries cb 1 e s v (Some c) = Ok (s, v, Some c, false).
  Proof.
    intros I E (_ & A & B). cbn [walk_entries]. rewrite !(e_byte_ok v e r) by (auto; lia). cbn [bind].
    rewrite land15. fold (attr r). replace (attr r mod 16 =? 15) with false by lia.
    unfold is_volid. destruct (Z.testbit (attr r) 3); [reflexivity|].
    destruct B as [B|B]; [discriminate|]. rewrite B. reflexivity.
  Qed.
  Lemma not_lfn r : Z.testbit (attr r) 3 = false -> attr r mod 16 =? 15 = false.
  Proof.
    intros T. apply Z.eqb_neq. intros Q. apply bit3_15 in Q. rewrite Q in T. discriminate.
  Qed.
  Lemma one_end v e s c : in_image v e -> vm v e = 0 -> Z.testbit (vm v (e + 11)) 3 = false ->
    walk_entries cb 1 e s v (Some c) = Ok (s, v, Some c, true).
  Proof.
    intros I B0 A. cbn [walk_entries]. rewrite !(e_byte_ok v e _ _ I eq_refl) by lia. cbn [bind].
    rewrite !bytes_nth by lia. replace (e + 0) with e by lia. rewrite B0.
    rewrite land15.
    assert (Q : vm v (e + 11) mod 16 =? 15 = false).
    { apply Z.eqb_neq. intros Q. apply bit3_15 in Q. rewrite Q in A. discriminate. }
    rewrite Q. unfold is_volid. rewrite A. reflexivity.
  Qed.
  Definition seen (c : lctx) (r : list Z) : option (list Z) :=
    if negb (zlen (l_buf c) =? 0) && l_valid c && (l_chk c =? short_sum r)
    then Some (rev (l_buf c)) else None.
  Lemma one_live v e r s c : in_image v e -> bytes (vm v) e 32 = r -> live r ->
    zlen (l_buf c) < 256 ->
    walk_entries cb 1 e s v (Some c) =
    bnd (s1, v1, stop) <- cb s v e (seen c r); Ok (s1, v1, Some (L (l_valid c) [] (-1)), stop).
  Proof.
    intros I E (_ & B0 & B1 & A) B. cbn [walk_entries].
    rewrite !(e_byte_ok v e r) by (auto; lia). cbn [bind]. rewrite land15. fold (attr r).
    rewrite (not_lfn r A). unfold is_volid. rewrite A.
    replace (znth 0 r 0 =? 229) with false by lia. replace (znth 0 r 0 =? 0) with false by lia.
    unfold seen, finalize. rewrite (name_ok11 v e r I E). cbn [bind]. rewrite checksum_eq.
    replace (zlen (l_buf c) <? 256) with true by lia.
    assert (Q : (if negb (zlen (l_buf c) =? 0) && l_valid c
                 then if l_chk c =? short_sum r then Ok (Some (rev (l_buf c))) else Ok None
                 else Ok None) =
                Ok (if negb (zlen (l_buf c) =? 0) && l_valid c && (l_chk c =? short_sum r)
                    then Some (rev (l_buf c)) else None)).
    { destruct (negb _ && _); cbn [andb]; [destruct (_ =? short_sum r)|]; reflexivity. }
    rewrite Q. cbn [bind].
    destruct (cb s v e _) as [[[s1 v1] st]| | |]; cbn [bind]; try reflexivity.
    destruct st; reflexivity.
  Qed.

  (** * The long-name entries of an item *)
  Lemma part_len i n : (length (part i n) <= 13)%nat.
  Proof. unfold part. rewrite firstn_length. lia. Qed.
  Lemma part_chars i n : Forall char_ok n -> Forall char_ok (part i n).
  Proof.
    intros F. unfold part. apply Forall_forall. intros c C. rewrite Forall_forall in F. apply F.
    assert (X : In c (skipn (13 * i) n)).
    { rewrite <- (firstn_skipn 13 (skipn (13 * i) n)). apply in_or_app. auto. }
    rewrite <- (firstn_skipn (13 * i) n). apply in_or_app. auto.
  Qed.
  Lemma skipn_parts m (n : list Z) : skipn (13 * m) n = part m n ++ skipn (13 * Datatypes.S m) n.
  Proof.
    unfold part. rewrite <- (firstn_skipn 13 (skipn (13 * m) n)) at 1. f_equal.
    revert m. induction n as [|a n IH]; intros m; [rewrite !skipn_nil; reflexivity|].
    clear IH. replace (13 * Datatypes.S m)%nat with (13 + 13 * m)%nat by lia.
    generalize (a :: n) (13 * m)%nat. intros l k. revert l. induction k as [|k IH]; intros l.
    - rewrite Nat.add_0_r. reflexivity.
    - replace (13 + Datatypes.S k)%nat with (Datatypes.S (13 + k)) by lia.
      destruct l as [|y l]; [rewrite !skipn_nil; reflexivity|]. rewrite !skipn_cons. apply IH.
  Qed.
  Lemma walk_lfn name k v slot s : Forall char_ok name -> zlen name <= 255 ->
    forall m i c,
    (forall j, 0 <= j < Z.of_nat m -> in_image v (slot (i + j))) ->
    (forall j, 0 <= j < Z.of_nat m -> exists o,
       bytes (vm v) (slot (i + j)) 32 = lfn_raw o k (part (m - 1 - Z.to_nat j) name)) ->
    (l_chk c = k -> c = L true (rev (skipn (13 * m) name)) k) ->
    (l_chk c <> k -> skipn (13 * m) name = [] /\ (0 < m)%nat) ->
    walk_list (from slot i m) s v (Some c) = Ok (s, v, Some (L true (rev name) k), false).
  Proof.
    intros F Z. induction m as [|m IH]; intros i c IM RW C1 C2.
    - cbn [from seq map walk_list]. destruct (Z.eq_dec (l_chk c) k) as [Q|Q].
      + rewrite (C1 Q). reflexivity.
      + destruct (C2 Q). lia.
    - rewrite from_S. cbn [walk_list].
      assert (I0 : in_image v (slot i)) by (specialize (IM 0); rewrite Z.add_0_r in IM; apply IM; lia).
      destruct (RW 0 ltac:(lia)) as (o & R0). rewrite Z.add_0_r in R0.
      replace (Datatypes.S m - 1 - Z.to_nat 0)%nat with m in R0 by lia.
      destruct (raw_units o k (part m name) (part_len m name)) as (_ & _ & A & _).
      rewrite (one_lfn v (slot i) _ s c I0 R0) by (unfold attr; rewrite A; reflexivity).
      rewrite (handle_part v (slot i) o k (part m name) c I0 (part_len m name)
                 (part_chars m name F) R0).
      2:{ intros Q. rewrite (C1 Q). cbn [l_valid l_buf]. split; [reflexivity|].
          unfold zlen in *. rewrite rev_length, skipn_length. pose proof (part_len m name) as PL.
          unfold part in *. rewrite firstn_length, skipn_length in *. lia. }
      cbn [bind].
      replace ((if l_chk c =? k then l_buf c else []) ++ rev (part m name))
        with (rev (skipn (13 * m) name)).
      2:{ rewrite (skipn_parts m name), rev_app_distr. f_equal.
          destruct (Z.eqb_spec (l_chk c) k) as [Q|Q].
          - rewrite (C1 Q). reflexivity.
          - destruct (C2 Q) as [E _]. rewrite E. reflexivity. }
      apply IH.
      + intros j J. replace (i + 1 + j) with (i + (1 + j)) by lia. apply IM. lia.
      + intros j J. destruct (RW (1 + j) ltac:(lia)) as (o2 & R2). exists o2.
        replace (i + 1 + j) with (i + (1 + j)) by lia. rewrite R2. f_equal. f_equal. lia.
      + reflexivity.
      + intros Q. cbn [l_chk] in Q. congruence.
  Qed.
  Lemma walk_junk k v slot s : forall rs i c,
    (forall j, 0 <= j < zlen rs -> in_image v (slot (i + j))) ->
    (forall j, 0 <= j < zlen rs -> bytes (vm v) (slot (i + j)) 32 = znth [] rs j) ->
    Forall (junk_ok k) rs -> l_chk c = k -> zlen (l_buf c) + 13 * zlen rs <= 256 ->
    exists b u, walk_list (from slot i (length rs)) s v (Some c) = Ok (s, v, Some (L b u k), false) /\
      zlen u <= zlen (l_buf c) + 13 * zlen rs.
  Proof.
    induction rs as [|r rs IH]; intros i c IM RW F C B.
    - exists (l_valid c), (l_buf c). cbn [length from seq map walk_list]. destruct c as [cv cb' ck].
      cbn [l_chk l_buf l_valid] in *. subst. split; [reflexivity|].
      rewrite (zlen_nil (A:=list Z)). lia.
    - cbn [length]. rewrite from_S. cbn [walk_list]. rewrite zlen_cons in *.
      pose proof (zlen_nonneg rs) as NN.
      assert (I0 : in_image v (slot i)) by (specialize (IM 0); rewrite Z.add_0_r in IM; apply IM; lia).
      assert (R0 : bytes (vm v) (slot i) 32 = r).
      { specialize (RW 0). rewrite Z.add_0_r in RW. rewrite RW by lia. reflexivity. }
      inversion F as [|? ? J F']; subst.
      rewrite (one_lfn v (slot i) _ s c I0 eq_refl) by apply J.
      destruct (handle_junk v (slot i) (l_chk c) _ c I0 eq_refl J) as (b & u & H & Q); [lia|].
      rewrite H. cbn [bind]. rewrite Z.eqb_refl in Q.
      destruct (IH (i + 1) (L b u (l_chk c))) as (b2 & u2 & H2 & Q2).
      + intros j JJ. replace (i + 1 + j) with (i + (1 + j)) by lia. apply IM. lia.
      + intros j JJ. replace (i + 1 + j) with (i + (1 + j)) by lia. rewrite RW by lia.
        rewrite znth_cons_pos by lia. f_equal. lia.
      + exact F'.
      + reflexivity.
      + cbn [l_buf]. lia.
      + exists b2, u2. split; [exact H2|]. cbn [l_buf] in Q2. lia.
  Qed.
  Lemma walk_junk1 k v slot s rs i c :
    (forall j, 0 <= j < zlen rs -> in_image v (slot (i + j))) ->
    (forall j, 0 <= j < zlen rs -> bytes (vm v) (slot (i + j)) 32 = znth [] rs j) ->
    Forall (junk_ok k) rs -> l_chk c <> k -> (1 <= length rs <= 19)%nat ->
    exists b u, walk_list (from slot i (length rs)) s v (Some c) = Ok (s, v, Some (L b u k), false) /\
      zlen u <= 247.
  Proof.
    destruct rs as [|r rs]; intros IM RW F C B; [cbn [length] in B; lia|].
    cbn [length] in *. rewrite from_S. cbn [walk_list]. rewrite zlen_cons in *.
    pose proof (zlen_nonneg rs) as NN.
    assert (I0 : in_image v (slot i)) by (specialize (IM 0); rewrite Z.add_0_r in IM; apply IM; lia).
    assert (R0 : bytes (vm v) (slot i) 32 = r).
    { specialize (RW 0). rewrite Z.add_0_r in RW. rewrite RW by lia. reflexivity. }
    inversion F as [|? ? J F']; subst.
    rewrite (one_lfn v (slot i) _ s c I0 eq_refl) by apply J.
    destruct (handle_junk v (slot i) k _ c I0 eq_refl J) as (b & u & H & Q); [congruence|].
    rewrite H. cbn [bind]. replace (l_chk c =? k) with false in Q by lia.
    destruct (walk_junk k v slot s rs (i + 1) (L b u k)) as (b2 & u2 & H2 & Q2).
    - intros j JJ. replace (i + 1 + j) with (i + (1 + j)) by lia. apply IM. lia.
    - intros j JJ. replace (i + 1 + j) with (i + (1 + j)) by lia. rewrite RW by lia.
      rewrite znth_cons_pos by lia. f_equal. lia.
    - exact F'.
    - reflexivity.
    - cbn [l_buf]. unfold zlen in *. lia.
    - exists b2, u2. split; [exact H2|]. cbn [l_buf] in Q2. unfold zlen in *. lia.
  Qed.

  (** * The items *)
  Definition ctx_ok (p : option Z) (c : lctx) : Prop :=
    match p with
    | None => l_chk c = -1 /\ l_buf c = []
    | Some k => l_chk c = k /\ zlen (l_buf c) <= 247
    end.
  Lemma ctx_short p c : ctx_ok p c -> zlen (l_buf c) < 256.
  Proof. destruct p; cbn [ctx_ok]; intros [A B]; [|rewrite B, (zlen_nil (A:=Z))]; lia. Qed.
  Lemma sum_nonneg r : 0 <= short_sum r.
  Proof.
    unfold short_sum. assert (H : forall l a, 0 <= a -> 0 <= sp_sum a l).
    { induction l as [|c l IH]; intros a A; cbn [sp_sum]; [exact A|]. apply IH.
      apply Z.mod_pos_bound. lia. }
    apply H. lia.
  Qed.
  Lemma ctx_chk p c k : ctx_ok p c -> 0 <= k -> p <> Some k -> l_chk c <> k.
  Proof.
    destruct p; cbn [ctx_ok]; intros [A B] K N; [congruence|lia].
  Qed.
  Lemma seen_none p c r : ctx_ok p c -> p <> Some (short_sum r) -> seen c r = None.
  Proof.
    intros C N. unfold seen. pose proof (ctx_chk p c _ C (sum_nonneg r) N) as Q.
    replace (l_chk c =? short_sum r) with false by lia. rewrite andb_false_r. reflexivity.
  Qed.
  Lemma lfn_set_len n k : length (lfn_set n k) = parts n.
  Proof. unfold lfn_set. rewrite map_length, rev_length, seq_length. reflexivity. Qed.
  Lemma lfn_set_nth n k j : 0 <= j < Z.of_nat (parts n) ->
    exists o, znth [] (lfn_set n k) j = lfn_raw o k (part (parts n - 1 - Z.to_nat j) n).
  Proof.
    intros J. unfold lfn_set, znth.
    set (f := fun i => lfn_raw (ord n i) k (part i n)).
    rewrite (nth_indep _ [] (f 0%nat)) by (rewrite map_length, rev_length, seq_length; lia).
    rewrite map_nth, rev_nth by (rewrite seq_length; lia). rewrite seq_length, seq_nth by lia.
    unfold f. exists (ord n (0 + (parts n - Datatypes.S (Z.to_nat j)))). f_equal. f_equal. lia.
  Qed.
  Lemma parts_bounds n : 1 <= zlen n -> (1 <= parts n)%nat /\ (length n <= 13 * parts n)%nat.
  Proof. unfold parts, zlen. intros H. lia. Qed.

  Definition out1 (x : res (S * vol * option lctx * bool)) : res (S * vol) :=
    bnd (s1, v1, _, _) <- x; Ok (s1, v1).

  Lemma walk_items v slot
    (P : forall s e n s1 v1 st, cb s v e n = Ok (s1, v1, st) -> v1 = v) :
    forall l p i n c s,
    ok p l -> ctx_ok p c -> (length (raws l) <= n)%nat ->
    (forall j, 0 <= j < Z.of_nat n -> in_image v (slot (i + j))) ->
    (forall j, 0 <= j < zlen (raws l) -> bytes (vm v) (slot (i + j)) 32 = znth [] (raws l) j) ->
    ((length (raws l) < n)%nat -> vm v (slot (i + zlen (raws l))) = 0 /\
       Z.testbit (vm v (slot (i + zlen (raws l)) + 11)) 3 = false) ->
    out1 (walk_list (from slot i n) s v (Some c)) =
    bnd s' <- visit cb s v (listing slot i l); Ok (s', v).
  Proof.
    induction l as [|x l IH]; intros p i n c s OK C LE IM RW EN.
    - cbn [raws flat_map listing visit bind length] in *. destruct n as [|n]; [reflexivity|].
      rewrite from_S. cbn [walk_list]. change (zlen (@nil (list Z))) with 0 in EN.
      rewrite Z.add_0_r in EN. destruct EN as [E1 E2]; [lia|].
      rewrite one_end; [reflexivity| |exact E1|exact E2].
      specialize (IM 0). rewrite Z.add_0_r in IM. apply IM. lia.
    - assert (RS : raws (x :: l) = enc x ++ raws l) by reflexivity.
      rewrite RS in *. rewrite app_length in LE.
      assert (N : n = (length (enc x) + (n - length (enc x)))%nat) by lia.
      set (n' := (n - length (enc x))%nat) in *.
      assert (RE : forall j, 0 <= j < zlen (enc x) ->
                bytes (vm v) (slot (i + j)) 32 = znth [] (enc x) j).
      { intros j J. rewrite RW by (rewrite zlen_app; pose proof (zlen_nonneg (raws l)); lia).
        apply znth_app1. lia. }
      assert (REST : forall p' c' s', ok p' l -> ctx_ok p' c' ->
        out1 (walk_list (from slot (i + Z.of_nat (length (enc x))) n') s' v (Some c')) =
        bnd s'' <- visit cb s' v (listing slot (i + zlen (enc x)) l); Ok (s'', v)).
      { intros p' c' s' OK' C'. fold (zlen (enc x)). apply (IH p'); auto.
        - unfold n'. lia.
        - intros j J. rewrite <- Z.add_assoc. apply IM. unfold zlen, n' in *. lia.
        - intros j J. rewrite <- Z.add_assoc. pose proof (zlen_nonneg (enc x)).
          rewrite RW by (rewrite zlen_app; lia). rewrite znth_app2 by lia. f_equal. lia.
        - intros J. rewrite zlen_app in EN. rewrite <- Z.add_assoc. apply EN.
          rewrite app_length. unfold n' in J. lia. }
      rewrite N, from_app, walk_list_app. clearbody n'. clear IH.
      assert (IE : forall j, 0 <= j < zlen (enc x) -> in_image v (slot (i + j))).
      { intros j J. apply IM. rewrite N. unfold zlen in J. lia. }
      assert (I0 : 0 < zlen (enc x) -> in_image v (slot i)).
      { intros J. specialize (IE 0). rewrite Z.add_0_r in IE. apply IE. lia. }
      assert (ONE : forall c1 s1 e r name, in_image v e -> bytes (vm v) e 32 = r -> live r ->
        zlen (l_buf c1) < 256 -> seen c1 r = name -> ok None l ->
        out1 (bnd (s2, v2, x2, stop) <- walk_list [e] s1 v (Some c1);
              if stop then Ok (s2, v2, x2, true)
              else walk_list (from slot (i + Z.of_nat (length (enc x))) n') s2 v2 x2) =
        bnd s' <- (bnd (s2, _, stop) <- cb s1 v e name;
                   if stop then Ok s2 else visit cb s2 v (listing slot (i + zlen (enc x)) l));
        Ok (s', v)).
      { intros c1 s1 e r name IM1 R1 LV B SN OKL. cbn [walk_list].
        rewrite (one_live v e r s1 c1 IM1 R1 LV B), SN.
        destruct (cb s1 v e name) as [[[s2 v2] st]| | |] eqn:CB; cbn [bind]; try reflexivity.
        rewrite (P _ _ _ _ _ _ CB). destruct st; cbn [bind]; [reflexivity|].
        rewrite <- (REST None (L (l_valid c1) [] (-1)) s2 OKL); [|split; reflexivity].
        reflexivity. }
      destruct x as [r|name r|r|k rs]; cbn [ok listing visit] in *.
      + destruct OK as (LV & NS & OKL). cbn [enc length from seq map] in *.
        replace (slot (i + Z.of_nat 0)) with (slot i) by (f_equal; lia).
        apply (ONE c s (slot i) r None); auto.
        * apply I0. reflexivity.
        * specialize (RE 0 ltac:(split; reflexivity)). rewrite Z.add_0_r in RE. exact RE.
        * apply (ctx_short p c C).
        * apply (seen_none p c r C NS).
      + destruct OK as (LV & [NL NC] & NS & OKL).
        assert (LE2 : length (enc (Long name r)) = (parts name + 1)%nat).
        { cbn [enc]. rewrite app_length, lfn_set_len. reflexivity. }
        assert (ZE : zlen (enc (Long name r)) = Z.of_nat (parts name) + 1) by (unfold zlen; lia).
        destruct (parts_bounds name ltac:(lia)) as [P1 P2].
        rewrite LE2 at 1. rewrite from_app, walk_list_app.
        rewrite (walk_lfn name (short_sum r) v slot s NC ltac:(lia) (parts name) i c).
        * cbn [bind from seq map]. rewrite Z.add_0_r.
          replace (i + Z.of_nat (parts name) + 1) with (i + zlen (enc (Long name r))) by lia.
          apply (ONE (L true (rev name) (short_sum r)) s _ r (Some name)); auto.
          -- apply IE. lia.
          -- rewrite RE by lia. cbn [enc]. rewrite znth_app2 by (unfold zlen; rewrite lfn_set_len; lia).
             unfold zlen. rewrite lfn_set_len, Z.sub_diag. reflexivity.
          -- cbn [l_buf]. unfold zlen in *. rewrite rev_length. lia.
          -- unfold seen. cbn [l_buf l_valid l_chk]. rewrite Z.eqb_refl, rev_involutive.
             replace (zlen (rev name) =? 0) with false; [reflexivity|].
             symmetry. apply Z.eqb_neq. unfold zlen in *. rewrite rev_length. lia.
        * intros j J. apply IE. lia.
        * intros j J. rewrite RE by lia. cbn [enc].
          rewrite znth_app1 by (unfold zlen; rewrite lfn_set_len; lia). apply lfn_set_nth. lia.
        * intros Q. exfalso. apply (ctx_chk p c _ C (sum_nonneg r) NS). exact Q.
        * intros _. split; [|lia]. apply skipn_all2. exact P2.
      + destruct OK as (SK & OKL). cbn [enc length from seq map walk_list] in *.
        replace (slot (i + Z.of_nat 0)) with (slot i) by (f_equal; lia).
        rewrite (one_skip v (slot i) r s c); [|apply I0; reflexivity| |exact SK].
        * cbn [bind]. rewrite (REST p c s OKL C). reflexivity.
        * specialize (RE 0 ltac:(split; reflexivity)). rewrite Z.add_0_r in RE. exact RE.
      + destruct OK as (F & B & K & NS & OKL). cbn [enc] in *.
        destruct (walk_junk1 k v slot s rs i c IE RE F (ctx_chk p c k C K NS) B) as (b & u & H & Q).
        rewrite H. cbn [bind]. apply (REST (Some k)); [exact OKL|].
        split; [reflexivity|exact Q].
  Qed.
End WL.
