From Coq Require Import ssreflect.
From Verif Require Import Lib List_Model List_Spec List_Proofs Itoa_Model Sysfs_Model Sysfs_Spec.
Ltac Zify.zify_post_hook ::= Z.to_euclidean_division_equations.

Section P.
Variable w : Z.
Variable size : Z -> Z.
Variable junk : nat -> Z.
Notation load_data := (load_data size junk).
Notation loaded := (loaded size junk).

Definition drel (sz : Z) (d : option (list Z)) (n : Z) (l : option (list Z)) : Prop :=
  match d, l with
  | None, None => n = 0
  | Some d, Some l => zlen d = sz /\ n = zlen l /\ zlen l <= sz /\ firstn (length l) d = l
  | _, _ => False
  end.
Definition nrel (m : mem) (h : Z) (x : ah) : Prop :=
  if adirty x then snap x <> None /\ aorig x = None
  else match aorig x with
       | None => nx m h = h /\ pv m h = h
       | Some o => nx m h = o /\ pv m h = o /\ 0 < o < h
       end.
Definition hrel (s : st) (h : Z) (y : hd) (x : ah) : Prop :=
  hp y = ap x /\ fpos y = apos x /\ 0 <= apos x < 2 ^ (w - 1) /\ 0 < h < nxt s /\
  drel (size (ap x)) (data y) (dlen y) (snap x) /\ nrel (mm s) h x.
Definition dirty (a : ast) (h : Z) : Prop := exists x, ahs a h = Some x /\ adirty x = true.
Record inv (s : st) (a : ast) (L : list Z) : Prop := Inv {
  i_n : nxt s = anxt a; i_pos : 0 < nxt s;
  i_c : forall p, props s p = cont a p;
  i_sz : sizes_ok w size (cont a);
  i_ring : ring (mm s) 0 L; i_nd : NoDup (0 :: L);
  i_d : forall h, In h L <-> dirty a h;
  i_h : forall h, match hs s h, ahs a h with None, None => True | Some y, Some x => hrel s h y x | _, _ => False end }.

Lemma i_open s a L h x : inv s a L -> ahs a h = Some x -> exists y, hs s h = Some y /\ hrel s h y x.
Proof. move=> I E. move: (i_h _ _ _ I h). rewrite E. case: (hs s h) => [y|] // R. by exists y. Qed.
Lemma i_closed s a L h : inv s a L -> ahs a h = None -> hs s h = None.
Proof. move=> I E. move: (i_h _ _ _ I h). rewrite E. by case: (hs s h). Qed.
Lemma i_alive s a L h : inv s a L -> ahs a h <> None -> alive s h = true.
Proof. move=> I E. rewrite /alive. move: (i_h _ _ _ I h) E. case: (ahs a h) => [x|]; case: (hs s h) => [y|] //; by rewrite orb_true_r. Qed.
Lemma l_alive s a L h : inv s a L -> In h (0 :: L) -> alive s h = true.
Proof. move=> I [<-|/(i_d _ _ _ I) [x [E _]]] //. apply: (i_alive _ _ _ _ I). by rewrite E. Qed.
Lemma l_pos s a L h : inv s a L -> In h L -> 0 < h < nxt s.
Proof. move=> I /(i_d _ _ _ I) [x [E _]]. have [y [_ R]] := i_open _ _ _ _ _ I E. move: R => [_ [_ [_ [R _]]]]. done. Qed.

Lemma ring_self m h L e : ring m h L -> NoDup (h :: L) -> In e L -> nx m (pv m e) = e /\ pv m (nx m e) = e /\ nx m e <> e.
Proof.
  move=> R N IN. have [p [q E]] := in_split _ _ IN. subst L.
  move/ring_rotate: R => R. have N' := nodup_rotate _ _ _ _ N.
  have [z [t Ez]] : exists z t, q ++ h :: p = z :: t by case: (q) => [|z t]; [exists h, p | exists z, (t ++ h :: p)].
  rewrite Ez in R N'. move: (R) => [R1 [R2 _]].
  have P := ring_prev _ _ _ R.
  split; [|split].
  - rewrite P. have [u Eu] : exists u, z :: t = u ++ [last (z :: t) e] by exists (removelast (z :: t)); apply: app_removelast_last.
    move: (R). rewrite {1}Eu /ring. move/chain_app => [_ [C _]]. exact C.
  - by rewrite R1.
  - rewrite R1 => Ee. apply: (proj1 (proj1 (NoDup_cons_iff _ _) N')). by left.
Qed.

Lemma in_list_ok s a L h x : inv s a L -> ahs a h = Some x -> (forall o, aorig x = Some o -> ahs a o <> None) ->
  node_in_list s h = Some (adirty x).
Proof.
  move=> I E S. have [y [Ey R]] := i_open _ _ _ _ _ I E.
  move: R => [_ [_ [_ [Rb [_ R]]]]]. rewrite /node_in_list /in_list. move: R. rewrite /nrel.
  case D: (adirty x).
  - move=> _. have IL : In h L by apply/(i_d _ _ _ I); exists x.
    have [S1 [S2 S3]] := ring_self _ _ _ _ (i_ring _ _ _ I) (i_nd _ _ _ I) IL.
    have A1 := l_alive _ _ _ _ I (ring_pv_in _ _ _ _ (i_ring _ _ _ I) (or_intror IL)).
    have A2 := l_alive _ _ _ _ I (ring_nx_in _ _ _ _ (i_ring _ _ _ I) (or_intror IL)).
    have -> : is_empty h (mm s) = false by rewrite /is_empty; lia.
    rewrite A1 A2 S1 S2 /=. by rewrite Z.eqb_refl.
  - case O: (aorig x) => [o|].
    + move=> [R1 [R2 R3]]. have A := i_alive _ _ _ _ I (S _ O).
      have EF : is_empty h (mm s) = false by rewrite /is_empty; lia.
      rewrite EF R1 R2 A /=. f_equal.
      have [x' Ex'] : exists x', ahs a o = Some x' by case Eo: (ahs a o) (S _ O) => [x'|] // _; exists x'.
      have [y' [Ey' Q]] := i_open _ _ _ _ _ I Ex'. move: Q => [_ [_ [_ [_ [_ Q]]]]].
      suff : nx (mm s) o <> h by lia.
      move: Q. rewrite /nrel. case D': (adirty x').
      * move=> _ Ez. have IL : In o L by apply/(i_d _ _ _ I); exists x'.
        have := ring_nx_in _ _ _ _ (i_ring _ _ _ I) (or_intror IL). rewrite Ez => [[?|]]; first lia.
        move/(i_d _ _ _ I) => [x2 [E2 D2]]. rewrite E in E2. case: E2 => E2. subst x2. by rewrite D in D2.
      * case: (aorig x') => [o'|]; lia.
    + move=> [R1 R2]. have -> // : is_empty h (mm s) = true by rewrite /is_empty R1 R2 Z.eqb_refl.
Qed.

(** Changes of one handle *)
Lemma inv_seth s a L h x y : inv s a L -> ahs a h <> None ->
  hrel s h y x -> (adirty x = true <-> In h L) -> inv (set_h s h (Some y)) (set_ah a h (Some x)) L.
Proof.
  move=> [N P C Sz R ND D H] O Hr Dx. split=> //=.
  - move=> k. rewrite D /dirty /=. rewrite /fupd. case: (Z.eqb_spec k h) => [->|//].
    rewrite -[exists _, ahs a h = _ /\ _]/(dirty a h) -D -Dx. split; [by exists x | by move=> [z [[<-] ?]]].
  - move=> k. rewrite /fupd. case: (Z.eqb_spec k h) => [->|_] //. exact: H.
Qed.
Lemma nrel_ext m m' h x : (adirty x = false -> nx m' h = nx m h /\ pv m' h = pv m h) -> nrel m h x -> nrel m' h x.
Proof. rewrite /nrel. case: (adirty x) => // E. have [-> ->] := E eq_refl. done. Qed.

Lemma load_rel s a L x y : inv s a L -> hp y = ap x -> fpos y = apos x -> drel (size (ap x)) (data y) (dlen y) (snap x) ->
  dlen (loaded s y) = zlen (copy_of a x) /\
  hp (loaded s y) = ap x /\ fpos (loaded s y) = apos x /\
  drel (size (ap x)) (data (loaded s y)) (dlen (loaded s y)) (Some (copy_of a x)).
Proof.
  move=> I E1 E2 D. move: D. rewrite /loaded /copy_of.
  case Ed: (data y) => [d|]; case Es: (snap x) => [l|] //=.
  - rewrite Ed => [[D1 [D2 [D3 D4]]]]. by rewrite E1 E2.
  - move=> _. rewrite /load_data /load E1 (i_c _ _ _ I) /=.
    have [W K] := i_sz _ _ _ I. have [K1 K2] := K (ap x).
    have -> : Z.min (size (ap x)) (zlen (cont a (ap x))) = zlen (cont a (ap x)) by lia.
    have -> : firstn (Z.to_nat (zlen (cont a (ap x)))) (cont a (ap x)) = cont a (ap x).
    { rewrite /zlen Nat2Z.id. apply: firstn_all. }
    repeat split=> //.
    + rewrite zlen_app zlen_skipn zlen_map /zlen seq_length. rewrite /zlen in K2. lia.
    + rewrite firstn_app Nat.sub_diag firstn_O app_nil_r firstn_all. done.
Qed.

Lemma read_ok s a L h x n : inv s a L -> ahs a h = Some x -> 0 <= n -> apos x <= zlen (copy_of a x) ->
  exists s', step w size junk s (Read h n) = Some (Bytes (piece (copy_of a x) (apos x) n), s') /\
    inv s' (set_ah a h (Some (AH (ap x) (Some (copy_of a x)) (apos x + zlen (piece (copy_of a x) (apos x) n)) (adirty x) (aorig x)))) L.
Proof.
  move=> I E Hn Hp. have [y [Ey Hr]] := i_open _ _ _ _ _ I E.
  move: (Hr) => [E1 [E2 [E3 [E4 [E5 E6]]]]].
  have [F1 [F2 [F3 F4]]] := load_rel _ _ _ _ _ I E1 E2 E5.
  rewrite /step /with_h Ey /read. set z := loaded s y in F1 F2 F3 F4 *.
  have -> : (dlen z - fpos z <? 0) = false by lia.
  move: F4. rewrite /drel. case Ed: (data z) => [d|] //. move=> [G1 [_ [G3 G4]]].
  rewrite /bytes Ed /mem_read /clamp.
  set l := copy_of a x in F1 Hp G3 G4 *.
  set rc := Z.min (Z.max (dlen z - fpos z) 0) n.
  have -> : (0 <=? fpos z) && (0 <=? rc) && (fpos z + rc <=? zlen d) = true by rewrite /rc; lia.
  have EP : firstn (Z.to_nat rc) (skipn (Z.to_nat (fpos z)) d) = piece l (apos x) n.
  { rewrite /piece -G4 F3 skipn_firstn_comm firstn_firstn. f_equal. rewrite /rc F1 F3 /zlen. lia. }
  rewrite EP /=. eexists; split; first done.
  have ER : zlen (piece l (apos x) n) = rc.
  { rewrite /piece zlen_firstn zlen_skipn /rc. lia. }
  apply: inv_seth => //; first by rewrite E.
  - rewrite /hrel /= F2 F3 ER. split; first done. split; first done.
    have [W K] := i_sz _ _ _ I. have [K1 K2] := K (ap x).
    split; first by rewrite /rc; lia. split; first done. split; last first.
    + move: E6. rewrite /nrel /=. case: (adirty x) => // [[_ ?]]. done.
    + rewrite /drel. by rewrite F1.
  - rewrite (i_d _ _ _ I) /dirty. split; [move=> ?; by exists x | move=> [x' [Ex' ?]]].
    move: Ex'. rewrite E. by move=> [->].
Qed.

Lemma inv_ext s a a' L : inv s a L -> anxt a' = anxt a -> (forall p, cont a' p = cont a p) -> (forall h, ahs a' h = ahs a h) -> inv s a' L.
Proof.
  move=> [N P C Sz R ND D H] E1 E2 E3. split=> //.
  - by rewrite E1.
  - move=> p. by rewrite E2.
  - move: Sz => [W K]. split=> // p. rewrite E2. exact: K.
  - move=> h. by rewrite D /dirty E3.
  - move=> h. rewrite E3. exact: H.
Qed.
Lemma put_firstn (d : list Z) n p b : (p <= n)%nat -> (n <= length d)%nat -> (p + length b <= length d)%nat ->
  firstn (Nat.max n (p + length b)) (firstn p d ++ b ++ skipn (p + length b) d) =
  firstn p (firstn n d) ++ b ++ skipn (p + length b) (firstn n d).
Proof.
  move=> H1 H2 H3. rewrite firstn_firstn Nat.min_l //.
  rewrite firstn_app firstn_length Nat.min_l; first lia.
  rewrite firstn_firstn Nat.min_r; first lia. f_equal.
  rewrite firstn_app firstn_all2; first lia. f_equal.
  rewrite skipn_firstn_comm. f_equal. lia.
Qed.
Lemma add_other m L h k : ring m 0 L -> ~ In k (0 :: L) -> k <> h ->
  nx (add_tail 0 h m) k = nx m k /\ pv (add_tail 0 h m) k = pv m k.
Proof.
  move=> R NI Nk. rewrite /add_tail /add_before /add_after /=.
  have A := ring_pv_in _ _ _ _ R (or_introl eq_refl).
  have B := ring_nx_in _ _ _ _ R A.
  rewrite !fupd_other //; move=> Ek; subst k; contradiction.
Qed.
Lemma remove_other m L h k : ring m 0 L -> NoDup (0 :: L) -> In h L -> ~ In k (0 :: L) ->
  nx (node_init h (remove h m)) k = nx m k /\ pv (node_init h (remove h m)) k = pv m k.
Proof.
  move=> R N IN NI. have [S1 [S2 S3]] := ring_self _ _ _ _ R N IN.
  have A := ring_pv_in _ _ _ _ R (or_intror IN).
  have B := ring_nx_in _ _ _ _ R (or_intror IN).
  rewrite remove_eq; first by move=> Ep; rewrite Ep in S1.
  have Nk : k <> h by move=> Ek; subst k; apply: NI; right.
  rewrite /node_init /= !fupd_other //; move=> Ek; subst k; contradiction.
Qed.
Lemma not_dirty_out s a L h x : inv s a L -> ahs a h = Some x -> adirty x = false -> ~ In h (0 :: L).
Proof.
  move=> I E D [E0|IL].
  - have [y [_ R]] := i_open _ _ _ _ _ I E. move: R => [_ [_ [_ [R _]]]]. lia.
  - move: (proj1 (i_d _ _ _ I _) IL) => [x' [E' D']]. rewrite E in E'. case: E' => E'. subst x'. by rewrite D in D'.
Qed.

Lemma write_ok s a L h x b b' : inv s a L -> ahs a h = Some x -> adirty x = false -> apos x <= zlen (copy_of a x) ->
  b' = firstn (Z.to_nat (size (ap x) - apos x)) b ->
  exists s', step w size junk s (Write h b) = Some (Num (zlen b'), s') /\
    inv s' (set_ah a h (Some (AH (ap x) (Some (put (copy_of a x) (apos x) b')) (apos x + zlen b') true None))) (L ++ [h]).
Proof.
  move=> I E D Hp Eb. have [y [Ey Hr]] := i_open _ _ _ _ _ I E.
  move: (Hr) => [E1 [E2 [E3 [E4 [E5 E6]]]]].
  have [F1 [F2 [F3 F4]]] := load_rel _ _ _ _ _ I E1 E2 E5.
  have NI := not_dirty_out _ _ _ _ _ I E D.
  rewrite /step /with_h Ey /write. set z := loaded s y in F1 F2 F3 F4 *.
  move: F4. rewrite /drel. case Ed: (data z) => [d|] //. move=> [G1 [_ [G3 G4]]].
  set l := copy_of a x in F1 Hp G3 G4 *.
  rewrite F2 F3. have -> : (size (ap x) - apos x <? 0) = false by lia.
  rewrite /bytes Ed /clamp.
  set rc := Z.min (Z.max (size (ap x) - apos x) 0) (zlen b).
  have Lb : zlen b' = rc by rewrite Eb zlen_firstn /rc; lia.
  have Eb' : firstn (Z.to_nat rc) b = b'.
  { rewrite Eb. case: (Z.le_gt_cases (size (ap x) - apos x) (zlen b)) => Hb.
    - f_equal. rewrite /rc. lia.
    - rewrite /rc /zlen in Hb *. rewrite !firstn_all2 //; lia. }
  have Zb := zlen_nonneg b. rewrite Eb' /mem_write.
  have -> : (0 <=? apos x) && (apos x + zlen b' <=? zlen d) = true by rewrite Lb /rc; lia.
  rewrite /=. eexists; split; first by rewrite Lb.
  have [W K] := i_sz _ _ _ I. have [K1 K2] := K (ap x).
  have Pl : zlen (put l (apos x) b') = Z.max (zlen l) (apos x + zlen b').
  { rewrite /put !zlen_app zlen_firstn zlen_skipn. rewrite /zlen. rewrite /zlen in Hp. lia. }
  split=> /=.
  - exact: (i_n _ _ _ I).
  - exact: (i_pos _ _ _ I).
  - exact: (i_c _ _ _ I).
  - done.
  - apply: ring_add_end => //; [exact: (i_ring _ _ _ I) | exact: (i_nd _ _ _ I)].
  - rewrite -(app_nil_r (L ++ [h])) -app_assoc /=. apply: nodup_ins; rewrite app_nil_r //. exact: (i_nd _ _ _ I).
  - move=> k. rewrite in_app_iff /dirty /= /fupd. case: (Z.eqb_spec k h) => [->|Nk].
    + split=> _; [by eexists; split | by right; left].
    + rewrite -[exists _, _]/(dirty a k) -(i_d _ _ _ I). split; [move=> [//|[//|//]] | by left]. move=> Ek. by rewrite Ek in Nk.
  - move=> k. rewrite /fupd. case: (Z.eqb_spec k h) => [->|Nk].
    + rewrite /hrel /=. split; first done. split; first by rewrite Lb.
      split; first by rewrite Lb /rc; lia. split; first done. split; last first. { rewrite /nrel /=. done. }
      split; last split; last split.
      * rewrite !zlen_app zlen_firstn zlen_skipn /zlen. rewrite /zlen in G1 Lb. rewrite /rc /zlen in Lb. lia.
      * rewrite F1 Pl Lb. case: (Z.ltb_spec (zlen l) (apos x + rc)); lia.
      * rewrite Pl Lb /rc. lia.
      * have EL : length (put l (apos x) b') = Nat.max (length l) (Z.to_nat (apos x) + length b') by move: Pl; rewrite /zlen; lia.
        rewrite EL put_firstn; rewrite /zlen in Hp G1 G3 Lb; rewrite /rc /zlen in Lb; try lia.
        by rewrite G4.
    + move: (i_h _ _ _ I k). case: (hs s k) => [y'|]; case Ek: (ahs a k) => [x'|] //.
      move=> [A1 [A2 [A3 [A4 [A5 A6]]]]]. split=> //. split=> //. split=> //. split=> //. split=> //.
      apply: nrel_ext A6 => D'. apply: (add_other _ _ _ _ (i_ring _ _ _ I)) => //.
      exact: (not_dirty_out _ _ _ _ _ I Ek D').
Qed.

Lemma flush_ok s a L h x y d : inv s a L -> ahs a h = Some x -> hs s h = Some y -> data y = Some d -> (forall o, aorig x = Some o -> ahs a o <> None) ->
  exists s' L', flush_data size s h y d = Some s' /\ hs s' = hs s /\ nxt s' = nxt s /\ ~ In h L' /\
    inv s' (A (anxt a) (saved a x) (fupd (ahs a) h (Some (AH (ap x) (snap x) (apos x) false (aorig x))))) L'.
Proof.
  move=> I E Ey Ed S. rewrite /flush_data (in_list_ok _ _ _ _ _ I E S) /saved.
  have [y0 [Ey0 Hr]] := i_open _ _ _ _ _ I E. rewrite Ey in Ey0. case: Ey0 => Ey0. subst y0.
  case D: (adirty x).
  - have IL : In h L by apply/(i_d _ _ _ I); exists x.
    have [p [q EL]] := in_split _ _ IL.
    have R := i_ring _ _ _ I. have N := i_nd _ _ _ I.
    have NI : ~ In h (p ++ q). { rewrite EL in N. move: N => /NoDup_cons_iff [_ N]. exact: (NoDup_remove_2 _ _ _ N). }
    have H0 := l_pos _ _ _ _ I IL.
    exists (set_mm (store size s (hp y) d (dlen y)) (node_init h (remove h (mm s)))), (p ++ q).
    split; first done. split; first done. split; first done. split; first done.
    move: (Hr) => [E1 [E2 [E3 [E4 [E5 E6]]]]].
    have [l El] : exists l, snap x = Some l by move: E5; rewrite Ed /drel; case: (snap x) => [l|] //; exists l.
    move: E5. rewrite Ed El /drel => [[G1 [G2 [G3 G4]]]].
    have Est : firstn (Z.to_nat (Z.min (dlen y) (size (hp y)))) d = copy_of a x.
    { rewrite /copy_of El G2 E1 Z.min_l; first lia. by rewrite /zlen Nat2Z.id. }
    have Nd : NoDup (0 :: p ++ q).
    { move: N. rewrite EL => N. exact: (NoDup_remove_1 (0 :: p) q h N). }
    split=> /=.
    + exact: (i_n _ _ _ I).
    + exact: (i_pos _ _ _ I).
    + move=> k. rewrite Est E1 /fupd. case: (k =? ap x) => //. exact: (i_c _ _ _ I).
    + have [W K] := i_sz _ _ _ I. split=> // k. have [K1 K2] := K k. rewrite /fupd. case: (Z.eqb_spec k (ap x)) => [->|] //.
      rewrite /copy_of El. split=> //. have [] := K (ap x). lia.
    + apply: ring_junk; last by move=> [?|//]; lia.
      apply: ring_remove_mid; rewrite -EL //.
    + done.
    + move=> k. rewrite /dirty /= /fupd. case: (Z.eqb_spec k h) => [->|Nk].
      * split=> // [[x' [[<-] //]]].
      * rewrite -[exists _, _]/(dirty a k) -(i_d _ _ _ I) EL !in_app_iff /=. split; first by case; auto. move=> [|[Ek|]]; auto. by rewrite Ek in Nk.
    + move=> k. rewrite /fupd. case: (Z.eqb_spec k h) => [->|Nk].
      * rewrite Ey. split=> //=. split=> //. split=> //. split=> //. split; first by rewrite Ed.
        rewrite /nrel /=. move: E6. rewrite /nrel D => [[_ ->]]. by rewrite /node_init /= !fupd_same.
      * move: (i_h _ _ _ I k). case: (hs s k) => [y'|]; case Ek: (ahs a k) => [x'|] //.
        move=> [A1 [A2 [A3 [A4 [A5 A6]]]]]. split=> //. split=> //. split=> //. split=> //. split=> //.
        apply: nrel_ext A6 => D'. apply: (remove_other _ _ _ _ R N IL).
        exact: (not_dirty_out _ _ _ _ _ I Ek D').
  - exists s, L. split; first done. split; first done. split; first done.
    split. { have := not_dirty_out _ _ _ _ _ I E D. by move=> H IL; apply: H; right. }
    apply: (inv_ext _ _ _ _ I) => //= k. rewrite /fupd. case: (Z.eqb_spec k h) => [->|] //. rewrite E. by case: x D {E S Hr} => ? ? ? ? ? /= ->.
Qed.
Lemma inv_close s a L h x : inv s a L -> ahs a h = Some x -> adirty x = false -> inv (set_h s h None) (set_ah a h None) L.
Proof.
  move=> I E Dx. have NI := not_dirty_out _ _ _ _ _ I E Dx. move: I => [N P C Sz R ND D H]. split=> //=.
  - move=> k. rewrite D /dirty /= /fupd. case: (Z.eqb_spec k h) => [->|//].
    split; last by move=> [? []]. move=> Dh. exfalso. apply: NI. right. by apply/D.
  - move=> k. rewrite /fupd. case: (Z.eqb_spec k h) => [Ek|_] //. exact: H.
Qed.
Lemma inv_new s a L y x m : inv s a L -> (forall k, k <> nxt s -> nx m k = nx (mm s) k /\ pv m k = pv (mm s) k) ->
  adirty x = false -> hp y = ap x -> fpos y = apos x -> 0 <= apos x < 2 ^ (w - 1) -> drel (size (ap x)) (data y) (dlen y) (snap x) -> nrel m (nxt s) x ->
  inv (St (nxt s + 1) m (props s) (fupd (hs s) (nxt s) (Some y))) (A (anxt a + 1) (cont a) (fupd (ahs a) (anxt a) (Some x))) L.
Proof.
  move=> I M Dx E1 E2 E3 E4 E5.
  have P := i_pos _ _ _ I.
  have LP : forall k, In k (0 :: L) -> k <> nxt s. { move=> k [<-|IL]; first lia. have := l_pos _ _ _ _ I IL. lia. }
  move: (I) => [N _ C Sz R ND D H]. rewrite -N. split=> //=.
  - lia.
  - apply: (chain_ext (mm s)) R => k Hk; [exact: (proj1 (M _ (LP _ Hk)))|].
    apply: (proj2 (M _ _)). apply: LP. rewrite in_app_iff in Hk. case: Hk => [|[<-|//]]; [by right | by left].
  - move=> k. rewrite D /dirty /= /fupd. case: (Z.eqb_spec k (nxt s)) => [->|//].
    split; last by move=> [x' [[<-]]]; rewrite Dx.
    move=> Dn. exfalso. have := LP (nxt s). rewrite /= D. tauto.
  - move=> k. rewrite /fupd. case: (Z.eqb_spec k (nxt s)) => [->|Nk].
    + by split=> //; split=> //; split=> //; split=> //=; lia.
    + move: (H k). case: (hs s k) => [y'|]; case Ek: (ahs a k) => [x'|] //.
      move=> [A1 [A2 [A3 [A4 [A5 A6]]]]]. split=> //. split=> //. split=> //. split; first by rewrite /=; lia. split=> //.
      apply: nrel_ext A6 => D'. exact: M.
Qed.
End P.
