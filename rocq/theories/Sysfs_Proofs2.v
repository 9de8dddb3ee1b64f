From Coq Require Import ssreflect.
From Verif Require Import Lib List_Model List_Spec List_Proofs Itoa_Model Sysfs_Model Sysfs_Spec Sysfs_Proofs.
Ltac Zify.zify_post_hook ::= Z.to_euclidean_division_equations.

Section P.
Variable w : Z.
Variable size : Z -> Z.
Variable junk : nat -> Z.
Notation inv := (inv w size).
Notation step := (step w size junk).

Lemma soff_in x : 0 < w -> - 2 ^ (w - 1) <= x < 2 ^ (w - 1) -> soff w x = x.
Proof.
  move=> W H. rewrite /soff. have E : 2 ^ w = 2 * 2 ^ (w - 1) by rewrite -Z.pow_succ_r; [lia | f_equal; lia].
  rewrite Z.mod_small; lia.
Qed.
Lemma soff_over x : 0 < w -> 2 ^ (w - 1) <= x < 2 * 2 ^ (w - 1) -> soff w x < 0.
Proof.
  move=> W H. rewrite /soff. have E : 2 ^ w = 2 * 2 ^ (w - 1) by rewrite -Z.pow_succ_r; [lia | f_equal; lia].
  have -> : x + 2 ^ (w - 1) = (x - 2 ^ (w - 1)) + 1 * 2 ^ w by lia.
  rewrite Z_mod_plus_full Z.mod_small; lia.
Qed.

Lemma i_nodata s a L h x y : inv s a L -> ahs a h = Some x -> hs s h = Some y -> data y = None -> snap x = None /\ adirty x = false.
Proof.
  move=> I E Ey Ed. have [y0 [Ey0 Hr]] := i_open _ _ _ _ _ _ _ I E. rewrite Ey in Ey0. case: Ey0 => Ey0. subst y0.
  move: Hr => [_ [_ [_ [_ [H1 H2]]]]]. move: H1. rewrite Ed /drel. case Es: (snap x) => [l|] // _. split=> //.
  move: H2. rewrite /nrel Es. by case: (adirty x) => // [[]].
Qed.
Lemma i_data s a L h x y d : inv s a L -> ahs a h = Some x -> hs s h = Some y -> data y = Some d -> snap x <> None.
Proof.
  move=> I E Ey Ed. have [y0 [Ey0 Hr]] := i_open _ _ _ _ _ _ _ I E. rewrite Ey in Ey0. case: Ey0 => Ey0. subst y0.
  move: Hr => [_ [_ [_ [_ [H1 H2]]]]]. move: H1. rewrite Ed /drel. by case: (snap x).
Qed.

Lemma seek_ok s a L h x wh off : inv s a L -> ahs a h = Some x -> - 2 ^ (w - 1) <= off < 2 ^ (w - 1) ->
  (exists t, target size x wh off = Some t /\ 0 <= t < 2 ^ (w - 1) /\ exists s', step s (Seek h wh off) = Some (Num t, s') /\
     inv s' (set_ah a h (Some (AH (ap x) (snap x) t (adirty x) (aorig x)))) L) \/
  ((forall t, target size x wh off = Some t -> ~ 0 <= t < 2 ^ (w - 1)) /\ step s (Seek h wh off) = Some (Num (-22), s)).
Proof.
  move=> I E Ho. have [y [Ey Hr]] := i_open _ _ _ _ _ _ _ I E.
  move: (Hr) => [E1 [E2 [E3 [E4 [E5 E6]]]]].
  have [W K] := i_sz _ _ _ _ _ I. have [K1 K2] := K (ap x).
  rewrite /step /with_h Ey /seek E1 E2 /target.
  have Z0 : (size (ap x) =? 0) = false by lia. rewrite Z0 /=.
  have OK : forall t, 0 <= t < 2 ^ (w - 1) -> inv (set_h s h (Some (Hd (ap x) (data y) (dlen y) t))) (set_ah a h (Some (AH (ap x) (snap x) t (adirty x) (aorig x)))) L.
  { move=> t Ht. apply: inv_seth => //; first by rewrite E.
    - rewrite (i_d _ _ _ _ _ I). split; [move=> ?; by exists x | move=> [x' [Ex' ?]]]. move: Ex'. rewrite E. by move=> [->]. }
  have G : forall T, - 2 ^ (w - 1) <= T < 2 * 2 ^ (w - 1) ->
    (0 <= T < 2 ^ (w - 1) /\ soff w T = T) \/ (~ 0 <= T < 2 ^ (w - 1) /\ soff w T < 0).
  { move=> T HT. case: (Z.lt_ge_cases T (2 ^ (w - 1))) => HT1.
    - rewrite soff_in //; lia.
    - right. split; first lia. apply: soff_over => //; lia. }
  case: (wh =? 0); [|case: (wh =? 1); [|case: (wh =? 2)]].
  - case: (Z.ltb_spec off 0) => H0 /=.
    + right. split=> // t [<-]. lia.
    + left. exists off. split; first done. split; first lia. eexists. split; first done. apply: OK. lia.
  - have := G (apos x + off). case; first lia.
    + move=> [HT ->]. have -> : (apos x + off <? 0) = false by lia. left. eexists. split; first done. split; first done. eexists. split; first done. exact: OK.
    + move=> [HT H0]. right. split; first by move=> t [<-]. have -> // : (soff w (apos x + off) <? 0) = true by lia.
  - have := G (size (ap x) + off). case; first lia.
    + move=> [HT ->]. have -> : (size (ap x) + off <? 0) = false by lia. left. eexists. split; first done. split; first done. eexists. split; first done. exact: OK.
    + move=> [HT H0]. right. split; first by move=> t [<-]. have -> // : (soff w (size (ap x) + off) <? 0) = true by lia.
  - by right.
Qed.

Lemma step_ok s a L o r a' : inv s a L -> astep w size a o r a' -> exists s' L', step s o = Some (r, s') /\ inv s' a' L'.
Proof.
  move=> I St. case: St I => {o r a'}.
  - move=> p I. exists (open size junk s p), L. split; first by rewrite /= (i_n _ _ _ _ _ I).
    have D0 : drel (size p) (data (Hd p None 0 0)) 0 (snap (AH p None 0 false None)) by [].
    have [F1 [F2 [F3 F4]]] := load_rel _ _ junk _ _ _ (AH p None 0 false None) (Hd p None 0 0) I eq_refl eq_refl D0.
    have [W K] := i_sz _ _ _ _ _ I. have [K1 K2] := K p.
    apply: inv_new => //=.
    + move=> k Hk. by rewrite !fupd_other.
    + lia.
    + rewrite /nrel /=. by rewrite !fupd_same.
  - move=> h x n l E Hn -> Hp I. have [s' [H1 H2]] := read_ok w size junk _ _ _ _ _ _ I E Hn Hp. by exists s', L.
  - move=> h x b b' l E D -> Hp Eb I. have [s' [H1 H2]] := write_ok w size junk _ _ _ _ _ _ _ I E D Hp Eb. by exists s', (L ++ [h]).
  - move=> h x wh off t E Ho Ht Hr I. case: (seek_ok _ _ _ _ _ wh off I E Ho).
    + move=> [t' [E1 [_ [s' [H1 H2]]]]]. rewrite Ht in E1. case: E1 => E1. subst t'. by exists s', L.
    + move=> [H _]. by case: (H _ Ht).
  - move=> h x wh off E Ho Ht I. case: (seek_ok _ _ _ _ _ wh off I E Ho).
    + move=> [t [E1 [E2 _]]]. by case: (Ht _ E1).
    + move=> [_ H]. by exists s, L.
  - move=> h x E S I. have [y [Ey Hr]] := i_open _ _ _ _ _ _ _ I E.
    rewrite /step /with_h Ey /fsync Ey. case Ed: (data y) => [d|].
    + have [s' [L' [H1 [_ [_ [_ H2]]]]]] := flush_ok _ _ _ _ _ _ _ _ _ I E Ey Ed (fun o Ho => S o (i_data _ _ _ _ _ _ _ I E Ey Ed) Ho).
      rewrite H1. by exists s', L'.
    + have [S1 S2] := i_nodata _ _ _ _ _ _ I E Ey Ed. exists s, L. split=> //. apply: (inv_ext _ _ _ _ _ _ I) => //=.
      * move=> p. by rewrite /saved S2.
      * move=> k. rewrite /fupd. case: (Z.eqb_spec k h) => [->|] //. rewrite E. by case: x S2 {E S Hr S1} => ? ? ? ? ? /= ->.
  - move=> h x E D S I. have [y [Ey Hr]] := i_open _ _ _ _ _ _ _ I E.
    move: (Hr) => [E1 [E2 [E3 [E4 [E5 E6]]]]].
    set o := match aorig x with Some o => o | None => h end.
    rewrite /step /with_h Ey /dup.
    set m := set_pv _ _ _.
    have N1 : nrel m (nxt s) (AH (ap x) (snap x) (apos x) false (Some o)).
    { rewrite /nrel /= !fupd_same. move: E6. rewrite /nrel D /o. case: (aorig x) => [o'|]; lia. }
    have M : forall k, k <> nxt s -> nx m k = nx (mm s) k /\ pv m k = pv (mm s) k by move=> k Hk; rewrite /m /= !fupd_other.
    have I1 := inv_new _ _ _ _ _ y (AH (ap x) (snap x) (apos x) false (Some o)) m I M eq_refl E1 E2 E3 E5 N1.
    set s1 := St _ _ _ _ in I1 *. set a1 := A _ _ _ in I1.
    have Eh1 : ahs a1 (nxt s) = Some (AH (ap x) (snap x) (apos x) false (Some o)) by rewrite /a1 /= (i_n _ _ _ _ _ I) fupd_same.
    case Ed: (data y) => [d|].
    + have Ey1 : hs s1 (nxt s) = Some y by rewrite /s1 /= fupd_same.
      have SO : forall o', Some o = Some o' -> ahs a1 o' <> None.
      { move=> o' [<-]. rewrite /a1 /= /fupd. case: (o =? anxt a) => //. rewrite /o. case Eo: (aorig x) => [o2|]; last by rewrite E.
        exact: (S _ (i_data _ _ _ _ _ _ _ I E Ey Ed) Eo). }
      rewrite /flush_data (in_list_ok _ _ _ _ _ _ _ I1 Eh1 SO) /= (in_list_ok _ _ _ _ _ _ _ I1 Eh1 SO) /=.
      eexists _, L. split; first by rewrite (i_n _ _ _ _ _ I).
      have NI := not_dirty_out _ _ _ _ _ _ _ I1 Eh1 eq_refl.
      have I2 : inv (set_h s1 (nxt s) (Some (Hd (hp y) None 0 (fpos y)))) (set_ah a1 (nxt s) (Some (AH (ap x) None (apos x) false (Some o)))) L.
      { apply: inv_seth => //; first by rewrite Eh1.
        - rewrite /hrel /=. split; first done. split; first done. split; first done. split; last by split. have := i_pos _ _ _ _ _ I. lia.
        - split=> // IL. exfalso. apply: NI. by right. }
      rewrite -(i_n _ _ _ _ _ I). apply: (inv_ext _ _ _ _ _ _ I2) => //=; first by rewrite (i_n _ _ _ _ _ I).
      move=> k. rewrite /fupd -(i_n _ _ _ _ _ I). by case: (k =? nxt s).
    + have [S1 S2] := i_nodata _ _ _ _ _ _ I E Ey Ed. exists s1, L. rewrite /= (i_n _ _ _ _ _ I). split=> //. by rewrite -S1.
  - move=> h x E S I. have [y [Ey Hr]] := i_open _ _ _ _ _ _ _ I E.
    rewrite /step /with_h Ey /close. case Ed: (data y) => [d|].
    + have SO := fun o Ho => S o (i_data _ _ _ _ _ _ _ I E Ey Ed) Ho.
      have [s' [L' [H1 [H3 [H4 [H5 H2]]]]]] := flush_ok _ _ _ _ _ _ _ _ _ I E Ey Ed SO.
      rewrite H1. set x' := AH _ _ _ _ _ in H2. set a1 := A _ _ _ in H2.
      have Eh1 : ahs a1 h = Some x' by rewrite /a1 /= fupd_same.
      have SO1 : forall o, aorig x' = Some o -> ahs a1 o <> None.
      { move=> o Ho. rewrite /a1 /= /fupd. case: (o =? h) => //. exact: SO. }
      rewrite (in_list_ok _ _ _ _ _ _ _ H2 Eh1 SO1) /=. eexists _, L'. split; first done.
      have I2 := inv_close _ _ _ _ _ _ _ H2 Eh1 eq_refl.
      apply: (inv_ext _ _ _ _ _ _ I2) => //= k. rewrite /fupd. by case: (k =? h).
    + have [S1 S2] := i_nodata _ _ _ _ _ _ I E Ey Ed. eexists _, L. split; first done.
      have I2 := inv_close _ _ _ _ _ _ _ I E S2. apply: (inv_ext _ _ _ _ _ _ I2) => //= p. by rewrite /saved S2.
  - move=> ND I. have L0 : L = [].
    { case: L I => [//|k t] I. have [x [E D]] := proj1 (i_d _ _ _ _ _ I k) (or_introl eq_refl). by rewrite (ND _ _ E) in D. }
    subst L. exists s, []. split=> //. rewrite /step. have [R1 R2] := i_ring _ _ _ _ _ I.
    have EE : is_empty 0 (mm s) = true by rewrite /is_empty R1 R2.
    by case: (Z.to_nat (nxt s)) => [|f]; rewrite /= EE.
  - move=> o h Ho E I. exists s, L. split=> //. have Eh := i_closed _ _ _ _ _ _ I E.
    case: o Ho => [p|k n|k b|k wh off|k|k|k|] //= [->]; by rewrite /with_h Eh.
Qed.

Lemma inv_init c : sizes_ok w size c -> inv (init c) (ainit c) [].
Proof. move=> H. split=> //=. - constructor=> //. constructor. - move=> h. split=> // [[x []]] //. Qed.
Lemma run_inv os : forall s a L rs a', inv s a L -> asteps w size a os rs a' ->
  exists s' L', run w size junk s os = Some (rs, s') /\ inv s' a' L'.
Proof.
  elim: os => [|o os IH] s a L rs a' I H.
  - inversion H; subst. by exists s, L.
  - inversion H as [|o0 r a1 os0 rs0 a2 Ha Hb]; subst. have [s1 [L1 [H1 I1]]] := step_ok _ _ _ _ _ _ I Ha. rewrite /= H1.
    have [s2 [L2 [H2 I2]]] := IH _ _ _ _ _ I1 Hb. rewrite H2. by exists s2, L2.
Qed.
Lemma files_ok c os rs a : sizes_ok w size c -> asteps w size (ainit c) os rs a ->
  exists s, run w size junk (init c) os = Some (rs, s) /\ forall p, props s p = cont a p.
Proof. move=> Sz H. have [s [L [H1 I]]] := run_inv _ _ _ _ _ _ (inv_init _ Sz) H. exists s. split=> //. exact: (i_c _ _ _ _ _ I). Qed.
End P.
