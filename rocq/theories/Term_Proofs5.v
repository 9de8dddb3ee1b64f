From Verif Require Import Lib Term_Model Term_Spec Term_Proofs Term_Proofs2 Term_Proofs3 Term_Proofs4.
From Coq Require Import ssreflect.
Set Warnings "-all".

Lemma cell_in w h i j : 0 <= i < h -> 0 <= j < w ->
  (0 <=? i * w + j) && (i * w + j <? h * w) = true.
Proof. move=> Hi Hj. apply andb_true_iff. rewrite Z.leb_le Z.ltb_lt. nia. Qed.

Lemma back_off g a k : off (a_back g a k) = off a.
Proof. rewrite /a_back. case: (_ && _) => //. by case: (_ =? 0). Qed.

Lemma del_while_ok g sp k : wf g -> forall fuel s a, corr g s a -> off a = 0 ->
  exists s', del_while g sp k fuel s = Some s' /\ corr g s' (a_while g sp k fuel a) /\
    off (a_while g sp k fuel a) = 0.
Proof.
  move=> W. elim=> [| f IH] s a HC O /=; first by exists s.
  have [H D] := HC. have RB := k_rb _ _ _ H. have CB := k_cb _ _ _ H.
  rewrite (k_r _ _ _ H) (k_c _ _ _ H). case: (Z.leb_spec (ac a) 0) => L; first by exists s.
  have [e [-> Ee]] := get_entry_ok g s a (ar a) (ac a - 1) W H RB ltac:(lia). cbn [obind].
  rewrite Ee //; first lia. case: (Bool.eqb _ _); last by exists s.
  have [s1 [-> H1]] := backspace_ok g s a k W HC O. cbn [obind].
  apply IH => //. by rewrite back_off.
Qed.

Lemma del_word_ok g s a k : wf g -> corr g s a -> off a = 0 ->
  exists s', del_word g s k = Some s' /\ corr g s' (a_word g a k).
Proof.
  move=> W HC O. have [H D] := HC. rewrite /del_word /a_word (k_c _ _ _ H).
  have [s1 [-> [H1 O1]]] := del_while_ok g true k W (S (Z.to_nat (ac a))) s a HC O.
  cbn [obind]. rewrite (k_c _ _ _ (proj1 H1)).
  have [s2 [-> [H2 _]]] := del_while_ok g false k W
    (S (Z.to_nat (ac (a_while g true k (S (Z.to_nat (ac a))) a)))) s1 _ H1 O1.
  by exists s2.
Qed.

Lemma corr_clear g k d s a : wf g -> corr g s a -> off a = 0 -> 0 <= d ->
  d + Z.of_nat k <= rows g ->
  exists s', clear g k d s = Some s' /\ corr g s' (a_rows g a (wipe d (d + Z.of_nat k))).
Proof.
  move=> W [H D] O Hd Hb. have [s1 [E1 [H1 D1]]] := clear_ok g W k d s a H O Hd Hb.
  exists s1. split; first done. split; first done. move=> ON i j Hi. rewrite D1 //.
  have := rows_ln g a (wipe d (d + Z.of_nat k)) i j (proj1 Hi) O.
  cbn [top off a_rows a_tb a_scr a_ln] => ->. rewrite /wipe. case: (_ && _) => //.
  rewrite D //. f_equal. lia.
Qed.

Lemma erase_line_ok g s a m : wf g -> corr g s a -> off a = 0 ->
  exists s', erase_line g s m = Some s' /\ corr g s' (a_erase_line g a m).
Proof.
  move=> W HC O. have [H D] := HC. have RB := k_rb _ _ _ H. have CB := k_cb _ _ _ H.
  rewrite /erase_line /a_erase_line (k_r _ _ _ H) (k_c _ _ _ H).
  case: (m =? 0); first by apply cells_ok => //; lia.
  case: (m =? 1); first by apply cells_ok => //; lia.
  case: (m =? 2); last by exists s.
  have [s1 [E1 H1]] := corr_clear g 1 (ar a) s a W HC O ltac:(lia) ltac:(lia).
  exists s1. split; last done. move: E1 => /=. by case: (clear_row _ _ _).
Qed.

Lemma core_scr0 g s a : wf g -> core g s a ->
  core g (set_scr s 0 0)
    (a_off (a_ln a (fun n j => buf s (n mod tot g * cols g + j)) 0) 0).
Proof.
  move=> W H. have Wn := W. rewrite /wf in Wn. destruct H. constructor => //=; rewrite /off_max /=; lia.
Qed.

Lemma reset_ok g s a : wf g -> corr g s a ->
  exists s', reset g s = Some s' /\ corr g s' (a_reset g a).
Proof.
  move=> W HC. have Wn := W. rewrite /wf in Wn. rewrite /reset.
  have [s1 [-> H1]] := move_cur_ok g _ a 0 0 W (corr_hcur g s a true HC). cbn [obind].
  have H2 := core_scr0 g s1 _ W (proj1 H1).
  have [s3 [-> [H3 D3]]] := clear_ok g W (Z.to_nat (rows g)) 0 _ _ H2 eq_refl ltac:(lia) ltac:(lia).
  cbn [obind]. eexists. split; first reflexivity.
  have H4 := core_tabs g s3 _ (fun k => if (0 <=? k) && (k <? rows g * cols g) then 0 else tabs s3 k)
    (fun _ _ => 0) H3.
  have H5 : core g (set_tabs s3 (fun k => if (0 <=? k) && (k <? rows g * cols g) then 0 else tabs s3 k))
    (a_reset g a).
  { apply: (core_same _ _ _ _ (H4 _ _)).
    - move=> i j [Hi Hj]. have -> : (0 <=? i * cols g + j) && (i * cols g + j <? rows g * cols g) = true; last done.
      by apply cell_in.
    - move=> i j [Hi Hj]. lia.
    - constructor => //=; try by rewrite /clamp; lia.
      rewrite /off_max /wipe /=. move=> n j Hn Hj. zb; lia || done. }
  split; first done. rewrite disp_tabs. move=> ON i j Hi. rewrite D3 //=.
  case: Hi => Hi Hj. zb; lia || done.
Qed.

Lemma erase_display_ok g s a m : wf g -> corr g s a -> off a = 0 ->
  exists s', erase_display g s m = Some s' /\ corr g s' (a_erase_display g a m).
Proof.
  move=> W HC O. have [H D] := HC. have RB := k_rb _ _ _ H.
  rewrite /erase_display /a_erase_display (k_r _ _ _ H).
  case: (m =? 0).
  { have [s1 [-> H1]] := erase_line_ok g s a 0 W HC O. cbn [obind].
    have := corr_clear g (Z.to_nat (rows g - (ar a + 1))) (ar a + 1) s1 _ W H1 O ltac:(lia) ltac:(lia).
    by have -> : ar a + 1 + Z.of_nat (Z.to_nat (rows g - (ar a + 1))) = rows g by lia. }
  case: (m =? 1).
  { have [s1 [-> H1]] := corr_clear g (Z.to_nat (ar a)) 0 s _ W HC O ltac:(lia) ltac:(lia).
    cbn [obind].
    have X : 0 + Z.of_nat (Z.to_nat (ar a)) = ar a by lia. rewrite X in H1.
    by apply erase_line_ok. }
  case: (m =? 2).
  { have := corr_clear g (Z.to_nat (rows g)) 0 s _ W HC O ltac:(lia) ltac:(lia).
    by have -> : 0 + Z.of_nat (Z.to_nat (rows g)) = rows g by lia. }
  case: (m =? 3); [by apply reset_ok | by exists s].
Qed.

Lemma row_val g s a j : wf g -> core g s a -> off a = 0 -> 0 <= j < cols g ->
  buf s (brow g s (ar a) + j) = scrn a (ar a) j.
Proof.
  move=> W H O Hj. have RB := k_rb _ _ _ H. rewrite (brow_eq _ _ _ _ W H RB) (k_buf _ _ _ H) //.
  - have := off_max0 _ _ _ H. lia.
  - rewrite /scrn. f_equal. lia.
Qed.

Lemma ins_chars_ok g s a n : wf g -> corr g s a -> off a = 0 -> 0 <= n ->
  exists s', ins_chars g s n = Some s' /\ corr g s' (a_exec g 0 a (IInsChars n)).
Proof.
  move=> W HC O Hn. have [H D] := HC. have RB := k_rb _ _ _ H. have CB := k_cb _ _ _ H.
  rewrite /ins_chars (k_r _ _ _ H) (k_c _ _ _ H). apply cells_ok => //; try lia.
  move=> j Hj. case: (Z.ltb_spec j (ac a + n)) => L.
  - have -> : (j <? ac a + Z.min n (cols g - ac a)) = true by apply Z.ltb_lt; lia.
    rewrite row_val //. lia.
  - have -> : (j <? ac a + Z.min n (cols g - ac a)) = false by apply Z.ltb_ge; lia.
    have -> : Z.min n (cols g - ac a) = n by lia. rewrite row_val //. lia.
Qed.

Lemma del_chars_ok g s a n : wf g -> corr g s a -> off a = 0 -> 0 <= n ->
  exists s', del_chars g s n = Some s' /\ corr g s' (a_exec g 0 a (IDelChars n)).
Proof.
  move=> W HC O Hn. have [H D] := HC. have RB := k_rb _ _ _ H. have CB := k_cb _ _ _ H.
  rewrite /del_chars (k_r _ _ _ H) (k_c _ _ _ H). apply cells_ok => //; try lia.
  move=> j Hj. case: (Z.ltb_spec (j + n) (cols g)) => L.
  - have -> : (j <? cols g - Z.min n (cols g - ac a)) = true by apply Z.ltb_lt; lia.
    have -> : Z.min n (cols g - ac a) = n by lia. rewrite row_val //. lia.
  - have -> : (j <? cols g - Z.min n (cols g - ac a)) = false by apply Z.ltb_ge; lia.
    rewrite row_val //. lia.
Qed.

Lemma erase_chars_ok g s a n : wf g -> corr g s a -> off a = 0 -> 0 <= n ->
  exists s', erase_chars g s n = Some s' /\ corr g s' (a_exec g 0 a (IEraseChars n)).
Proof.
  move=> W HC O Hn. have [H D] := HC. have RB := k_rb _ _ _ H. have CB := k_cb _ _ _ H.
  rewrite /erase_chars (k_r _ _ _ H) (k_c _ _ _ H). apply cells_ok => //; try lia.
  move=> j Hj. rewrite row_val //. lia.
Qed.

Lemma core_cen g s a b : core g s a -> core g (set_cen s b) (a_cen a b).
Proof. move=> H. by destruct H. Qed.

Lemma enable_cursor_ok g s a b : wf g -> corr g s a ->
  exists s', enable_cursor g s b = Some s' /\ corr g s' (a_cen a b).
Proof.
  move=> W [H D]. rewrite /enable_cursor. case: b.
  - rewrite (move_cursor_ok g _ a W (core_hcur g s a true H)). cbn [obind].
    eexists. split; first reflexivity. split; last done. by apply core_cen, core_hcur.
  - eexists. split; first reflexivity. split; last done. by apply core_cen, core_hcur.
Qed.

Lemma cen_id g a : same g (a_cen a (acen a)) a.
Proof. by constructor. Qed.

Lemma use_alt_ok g s a b ok : wf g -> corr g s a -> off a = 0 ->
  exists s', use_alt g s b ok = Some s' /\ corr g s' (a_alt g a b ok).
Proof.
  move=> W HC O. have [H D] := HC. have Wn := W. rewrite /wf in Wn.
  rewrite /use_alt /a_alt (k_alt _ _ _ H) (k_have _ _ _ H).
  case: (Bool.eqb _ _) (Bool.eqb_prop (aalt a) b) (Bool.eqb_false_iff (aalt a) b) => [_ _ | _ NE];
    first by exists s.
  have {}NE := proj1 NE eq_refl.
  have FIN : forall s1 a1, core g s1 a1 -> off a1 = 0 ->
    exists s', obind (redraw_all g (set_hcur s1 false))
                 (fun s2 => enable_cursor g s2 (cen s2)) = Some s' /\ corr g s' a1.
  { move=> s1 a1 H1 O1.
    have [s2 [E2 [H2 D2]]] := redraw_ok g (set_hcur s1 false) a1 0 (rows g) W (core_hcur g s1 a1 false H1)
      ltac:(lia) ltac:(lia).
    have HC2 : corr g s2 a1.
    { split; first done. move=> ON i j Hi. rewrite D2 //. case: Hi => Hi Hj. zb; lia || done. }
    rewrite /redraw_all E2. cbn [obind]. rewrite (k_cen _ _ _ H2).
    have [s3 [E3 H3]] := enable_cursor_ok g s2 a1 (acen a1) W HC2.
    exists s3. split; first done. apply (corr_same _ _ _ _ H3). apply cen_id. }
  case: b NE => NE; cbn [andb].
  - have AF : aalt a = false by case: (aalt a) NE.
    case: (negb (ahave a) && negb ok); first by exists s.
    cbn [obind]. apply FIN; last done.
    destruct H. rewrite /tabs /otabs /sR /eR /osR /oeR k_alt AF in k_tb k_otb k_s k_e k_os k_oe.
    have ROW : forall i, 0 <= i < rows g -> brow g s i = (top a + i) mod tot g * cols g.
    { move=> i Hi. rewrite /brow k_scr u32_small; first lia.
      by have -> : i + (top a - off a) = top a + i by lia. }
    constructor => //=.
    { move=> _ i j [Hi Hj].
      have -> : (0 <=? i * cols g + j) && (i * cols g + j <? rows g * cols g) = true
        by apply cell_in.
      rewrite div_row // mod_row // ROW // /scrn. apply k_buf => //. lia. }
  - have AF : aalt a = true by case: (aalt a) NE.
    rewrite (k_ah _ _ _ H AF). cbn [obind]. apply FIN; last done.
    destruct H. rewrite /tabs /otabs /sR /eR /osR /oeR k_alt AF in k_tb k_otb k_s k_e k_os k_oe.
    constructor => //=; try exact (proj1 k_sb); try exact (proj2 k_sb).
    { move=> n j Hn Hj. have Hn' : top a - off_max g a <= n < top a + rows g by [].
      have B := Z.mod_pos_bound n (tot g) ltac:(lia).
      rewrite div_row // mod_row //.
      have -> : (0 <=? n mod tot g * cols g + j) && (n mod tot g * cols g + j <? tot g * cols g) = true
        by apply cell_in.
      cbn [andb]. rewrite k_scr O.
      have -> : (n mod tot g - (top a - 0)) mod tot g = (n - top a) mod tot g.
      { rewrite Z.sub_0_r Zminus_mod Z.mod_mod; first lia. by rewrite -Zminus_mod. }
      have OM : off_max g a <= tot g - rows g by rewrite /off_max; lia.
      case: (Z_lt_ge_dec n (top a)) => L.
      - have -> : (n - top a) mod tot g = n - top a + tot g.
        { symmetry. apply (Z.mod_unique _ _ (-1)); lia. }
        have -> : (n - top a + tot g <? rows g) = false by apply Z.ltb_ge; lia.
        have -> : (top a <=? n) = false by apply Z.leb_gt; lia. cbn [andb]. by apply k_buf.
      - rewrite (Z.mod_small (n - top a)); first lia.
        have -> : (n - top a <? rows g) = true by apply Z.ltb_lt; lia.
        have -> : (top a <=? n) && (n <? top a + rows g) = true.
        { apply andb_true_iff. rewrite Z.leb_le Z.ltb_lt. lia. }
        apply k_sv; first by auto. split; lia. }
    { move=> _. apply k_sv. auto. }
Qed.

Lemma set_region_ok g s a x y : wf g -> corr g s a ->
  exists s', set_scroll_region g s x y = Some s' /\ corr g s' (a_exec g 0 a (IRegion x y)).
Proof.
  move=> W [H D]. have Wn := W. rewrite /wf in Wn. rewrite /set_scroll_region. cbn [a_exec].
  have X := clamp_in x 0 (rows g - 1) ltac:(lia). have Y := clamp_in y 0 (rows g - 1) ltac:(lia).
  case: (Z.leb_spec (clamp y 0 (rows g - 1)) (clamp x 0 (rows g - 1))) => L; first by exists s.
  apply move_cur_ok => //. split; last first.
  { rewrite /set_region. by case: (alt s). }
  clear D. set x' := clamp x 0 _ in X L *. set y' := clamp y 0 _ in Y L *. clearbody x' y'.
  destruct H. rewrite /tabs /otabs /sR /eR /osR /oeR in k_tb k_otb k_s k_e k_os k_oe.
  rewrite /set_region.
  case Z: (alt s) in k_tb k_otb k_s k_e k_os k_oe k_alt *;
  constructor; rewrite /tabs /otabs /sR /eR /osR /oeR;
    cbn [alt r c buf scroll maxs ms me als ale tm ta have copy svr svc cen on disp hcur a_reg ar ac top off tb otb rs re ors ore aalt ahave sv sr sc acen aon ln] => //; lia.
Qed.
