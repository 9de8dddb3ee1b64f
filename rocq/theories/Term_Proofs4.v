From Verif Require Import Lib Term_Model Term_Spec Term_Proofs Term_Proofs2 Term_Proofs3.
From Coq Require Import ssreflect.
Set Warnings "-all".

Lemma clamp_in x lo hi : lo <= hi -> lo <= clamp x lo hi <= hi.
Proof. rewrite /clamp. lia. Qed.

Lemma move_cur_ok g s a y x : wf g -> corr g s a ->
  exists s', move_cur g s y x = Some s' /\ corr g s' (a_move g a y x).
Proof.
  move=> W HC. rewrite /move_cur /a_move.
  have Y := clamp_in y 0 (rows g - 1) ltac:(move: W; rewrite /wf; lia).
  have X := clamp_in x 0 (cols g - 1) ltac:(move: W; rewrite /wf; lia).
  have -> : u16 (clamp y 0 (rows g - 1)) = clamp y 0 (rows g - 1)
    by apply u16_small; move: W; rewrite /wf; lia.
  have -> : u16 (clamp x 0 (cols g - 1)) = clamp x 0 (cols g - 1)
    by apply u16_small; move: W; rewrite /wf; lia.
  have HC' := corr_cur g s a (clamp y 0 (rows g - 1)) (clamp x 0 (cols g - 1)) HC
    ltac:(lia) ltac:(lia).
  eexists. split; last exact HC'. case: (cen _) => //.
  by apply (move_cursor_ok g _ _ W (proj1 HC')).
Qed.

Lemma core_tabs g s a t T : core g s a ->
  (forall i j, inrow g i j -> t (i * cols g + j) = T i j) ->
  (forall i j, inrow g i j -> 0 <= T i j <= j + 1) ->
  core g (set_tabs s t) (a_tb a T).
Proof.
  move=> H E B. destruct H. rewrite /tabs /otabs /sR /eR /osR /oeR in k_tb k_otb k_s k_e k_os k_oe.
  rewrite /set_tabs.
  case X: (alt s) in k_tb k_otb k_s k_e k_os k_oe k_alt *;
  constructor; rewrite /tabs /otabs /sR /eR /osR /oeR;
    cbn [alt r c buf scroll maxs ms me als ale tm ta have copy svr svc cen on disp hcur a_tb ar ac top off tb otb rs re ors ore aalt ahave sv sr sc acen aon ln] => //.
Qed.

Lemma disp_tabs s t : disp (set_tabs s t) = disp s.
Proof. rewrite /set_tabs. by case: (alt s). Qed.

Lemma corr_tabs g s a t T : corr g s a ->
  (forall i j, inrow g i j -> t (i * cols g + j) = T i j) ->
  (forall i j, inrow g i j -> 0 <= T i j <= j + 1) ->
  corr g (set_tabs s t) (a_tb a T).
Proof. move=> [H D] E B. split; first by apply core_tabs. by rewrite disp_tabs. Qed.

(** The ring moves on by one line *)
Lemma core_scr g s a : wf g -> core g s a -> off a = 0 -> top a + rows g + 1 < 2 ^ 32 ->
  core g (set_scr s (top a + 1) (top a + 1))
    (a_ln a (fun n j => if n =? top a + rows g then buf s (n mod tot g * cols g + j) else ln a n j)
            (top a + 1)).
Proof.
  move=> W H O B. destruct H. rewrite /off_max in k_off k_buf.
  constructor => //=; rewrite ?O /off_max /=; try lia.
  move=> n j Hn Hj. case: (Z.eqb_spec n (top a + rows g)) => // N. apply k_buf => //. lia.
Qed.

Lemma incr_row_ok g s a : wf g -> corr g s a -> off a = 0 -> top a + rows g + 1 < 2 ^ 32 ->
  exists s', incr_row g s = Some s' /\ corr g s' (a_next g a).
Proof.
  move=> W HC O B. have [H D] := HC. have RG := k_reg _ _ _ H. have RB := k_rb _ _ _ H.
  have CB := k_cb _ _ _ H. have Wn := W. rewrite /wf in Wn.
  rewrite /incr_row /a_next (k_e _ _ _ H) (k_r _ _ _ H) (k_c _ _ _ H) (k_s _ _ _ H).
  case: (Z.ltb_spec (ar a) (re a - 1)) => L.
  { rewrite u16_small; first lia. eexists. split; first reflexivity. apply corr_cur => //. lia. }
  have -> : (rs a =? 0) && (re a =? rows g) = negb ((0 <? rs a) || (re a <? rows g)).
  { zb; lia || done. }
  case: ((0 <? rs a) || (re a <? rows g)); cbn [negb].
  { case: (Z.eqb_spec (ar a) (re a - 1)) => X; first by apply (nbs_up_ok g s a 1).
    case: (Z.ltb_spec (ar a) (rows g - 1)) => Y; last by exists s.
    rewrite u16_small; first lia. eexists. split; first reflexivity. apply corr_cur => //. lia. }
  set t1 := (fun k => if (0 <=? k) && (k <? (rows g - 1) * cols g)
                        then tabs s (k + cols g) else tabs s k). set T1 := fun i j => if i =? rows g - 1 then tb a i j else tb a (i + 1) j.
  have H1 : core g (set_tabs s t1) (a_tb a T1).
  { apply core_tabs => //.
    - move=> i j [Hi Hj]. rewrite /t1 /T1.
      have -> : (0 <=? i * cols g + j) && (i * cols g + j <? (rows g - 1) * cols g) =
                negb (i =? rows g - 1).
      { case: (Z.eqb_spec i (rows g - 1)) => [-> | N]; cbn [negb].
        - apply andb_false_iff. right. apply Z.ltb_ge. lia.
        - apply andb_true_iff. rewrite Z.leb_le Z.ltb_lt. nia. }
      case: (Z.eqb_spec i (rows g - 1)) => [-> | N]; cbn [negb].
      + apply (k_tb _ _ _ H). split; lia.
      + rewrite -(k_tb _ _ _ H); first by split; lia. f_equal. lia.
    - move=> i j Hi. rewrite /T1.
      case: (Z.eqb_spec i (rows g - 1)) => N; apply (k_tbb _ _ _ H) => //.
      case: Hi => Hi Hj. split; lia. }
  have H2 := core_scr g _ _ W H1 O B.
  have KM := k_max _ _ _ H. have KS := k_scr _ _ _ H. have KT := k_top _ _ _ H.
  have E1 : u32 (scroll s + 1) = top a + 1 by rewrite u32_small; lia.
  have E2 : u32 (maxs s + 1) = top a + 1 by rewrite u32_small; lia.
  set l := (fun n j => if n =? top (a_tb a T1) + rows g then _ else _) in H2.
  set an := a_tb (a_ln a _ _) _.
  have SM : same g (a_rows g (a_ln (a_tb a T1) l (top a + 1)) (to1 (rows g - 1) None)) an.
  { constructor => //=.
    - move=> n j Hn Hj. rewrite /l /to1 /scrn /=.
      have Z1 : (n - (top a + 1) =? rows g - 1) = (n =? top a + rows g) by zb; lia || done.
      rewrite Z1.
      case: (Z.eqb_spec n (top a + rows g)) => N.
      + have -> : (top a + 1 <=? n) && (n <? top a + 1 + rows g) = true; last done.
        rewrite andb_true_iff Z.leb_le Z.ltb_lt. lia.
      + have -> : top a + 1 + (n - (top a + 1)) = n by lia.
        rewrite (proj2 (Z.eqb_neq n (top a + rows g)) N). by case: (_ && _).
    - move=> i j Hi. rewrite /to1 /T1. by case X: (i =? rows g - 1); rewrite ?X. }
  have LN : forall i j, 0 <= i < rows g -> ln an (top a + 1 + i) j =
    if i =? rows g - 1 then blank else ln a (top a + 0 + (i + 1)) j.
  { move=> i j Hi. rewrite /an /=. zb; try lia; try done. f_equal. lia. }
  case: (hw g).
  - rewrite E1 E2.
    have -> : on (set_scr (set_tabs s t1) (top a + 1) (top a + 1)) = aon a.
    { rewrite -(k_on _ _ _ H). cbn. rewrite /set_tabs. by case: (alt s). }
    set s2 := set_scr _ _ _. have D2 : disp s2 = disp s by rewrite /s2 /= disp_tabs.
    set s3 := if aon a then _ else _.
    have H3 : core g s3 (a_ln (a_tb a T1) l (top a + 1)).
    { rewrite /s3. case: (aon a) => //. by apply core_disp. }
    have [s4 [E4 [H4 D4]]] := clear_row_ok g s3 _ (rows g - 1) W H3 O ltac:(lia).
    exists s4. split; first done. split; first by apply (core_same _ _ _ _ H4).
    move=> ON i j Hi. rewrite D4 //. have [Hi' Hj] := Hi. cbn [off an a_tb a_ln].
    have -> : top an - off an + i = top a + 1 + i by rewrite /an /=; lia.
    rewrite LN //. case: (Z.eqb_spec i (rows g - 1)) => N //.
    have ON' : aon a = true by [].
    rewrite /s3 ON' /= D2.
    have -> : (0 <=? i * cols g + j) && (i * cols g + j <? (rows g - 1) * cols g) = true.
    { apply andb_true_iff. rewrite Z.leb_le Z.ltb_lt. nia. }
    have -> : i * cols g + j + cols g = (i + 1) * cols g + j by lia.
    rewrite D //; first by split; lia. f_equal. lia.
  - rewrite E2.
    have [s4 [E4 [H4 D4]]] := buf_clear_row_ok g _ _ (rows g - 1) W H2 O ltac:(lia).
    rewrite E4 /=.
    have H5 := core_same _ _ _ _ H4 SM.
    have [s5 [E5 [H5' D5]]] := redraw_ok g s4 an 0 (rows g) W H5 ltac:(lia) ltac:(lia).
    exists s5. split; first done. split; first done. move=> ON i j Hi. rewrite D5 //.
    have [Hi' Hj] := Hi. zb; lia || done.
Qed.

Lemma put_char_ok g s a ch color : wf g -> corr g s a -> off a = 0 -> ac a < cols g ->
  exists s', put_char g s ch color = Some s' /\ corr g s' (a_put g a (entry ch color)).
Proof.
  move=> W HC O L. have [H D] := HC. have RB := k_rb _ _ _ H. have CB := k_cb _ _ _ H.
  have Wn := W. rewrite /wf in Wn.
  have [s2 [E2 H2]] := entry_ok g s a (ar a) (ac a) (entry ch color) W HC O RB ltac:(lia).
  rewrite /put_char (k_r _ _ _ H) (k_c _ _ _ H).
  move: E2. case E1: (set_entry _ _ _ _ _) => [s1 |] //=.
  have RC : r s1 = ar a /\ c s1 = ac a.
  { move: E1. rewrite /set_entry. case: (_ && _) => // [[<-]] /=.
    by rewrite (k_r _ _ _ H) (k_c _ _ _ H). }
  case: RC => -> -> => -> /=. eexists. split; first reflexivity.
  rewrite (k_r _ _ _ (proj1 H2)) (k_c _ _ _ (proj1 H2)). rewrite u16_small; first by cbn; lia.
  apply corr_cur => //. cbn. lia.
Qed.

Lemma put_tab_ok g s a : wf g -> corr g s a -> ac a < cols g ->
  exists s', put_tab g s = Some s' /\ corr g s' (a_tab g a).
Proof.
  move=> W HC L. have [H D] := HC. have RB := k_rb _ _ _ H. have CB := k_cb _ _ _ H.
  have Wn := W. rewrite /wf in Wn.
  rewrite /put_tab /a_tab (k_r _ _ _ H) (k_c _ _ _ H).
  have -> : (ac a + 1 + 7) / 8 * 8 = (ac a / 8 + 1) * 8.
  { have -> : ac a + 1 + 7 = ac a + 1 * 8 by lia. rewrite Z.div_add; lia. }
  have Q := Z.div_mod (ac a) 8 ltac:(lia). have Q' := Z.mod_pos_bound (ac a) 8 ltac:(lia).
  set x := Z.min _ _. have Hx : 1 <= x <= cols g - 1 /\ ac a <= x <= ac a + 8 by rewrite /x; lia.
  have -> : u32 (x - 1) = x - 1 by rewrite u32_small; lia.
  have -> : (0 <=? ar a * cols g + (x - 1)) && (ar a * cols g + (x - 1) <? rows g * cols g) = true.
  { apply andb_true_iff. rewrite Z.leb_le Z.ltb_lt. nia. }
  have -> : (x - 1 + 1 - ac a) mod 256 = x - ac a by rewrite Z.mod_small; lia.
  eexists. split; first reflexivity.
  have HT : corr g (set_tabs s (fupd (tabs s) (ar a * cols g + (x - 1)) (x - ac a)))
    (a_tb a (fun i j => if (i =? ar a) && (j =? x - 1) then x - ac a else tb a i j)).
  { apply corr_tabs => //.
    - move=> i j [Hi Hj]. rewrite /fupd.
      have -> : (i * cols g + j =? ar a * cols g + (x - 1)) = (i =? ar a) && (j =? x - 1).
      { case: (Z.eqb_spec (i * cols g + j) (ar a * cols g + (x - 1))) => E.
        - have [-> ->] := ix_inj (cols g) i j (ar a) (x - 1) Hj ltac:(lia) E.
          by rewrite !Z.eqb_refl.
        - case: (Z.eqb_spec i (ar a)) => // X. case: (Z.eqb_spec j (x - 1)) => // Y.
          exfalso. apply E. by rewrite X Y. }
      case: (_ && _) => //. by apply (k_tb _ _ _ H).
    - move=> i j Hi. have T := k_tbb _ _ _ H i j Hi. zb; lia. }
  rewrite (k_r _ _ _ (proj1 HT)) u16_small; first lia.
  have -> : x - 1 + 1 = x by lia. apply corr_cur => //. lia.
Qed.

Lemma backspace_ok g s a color : wf g -> corr g s a -> off a = 0 ->
  exists s', backspace g s color = Some s' /\ corr g s' (a_back g a color).
Proof.
  move=> W HC O. have [H D] := HC. have RB := k_rb _ _ _ H. have CB := k_cb _ _ _ H.
  have Wn := W. rewrite /wf in Wn.
  rewrite /backspace /a_back (k_r _ _ _ H) (k_c _ _ _ H).
  case X: ((ac a =? 0) && (ar a =? 0)); first by exists s.
  set y := if ac a =? 0 then _ else ar a. set x := if ac a =? 0 then _ else ac a - 1.
  have Hyx : 0 <= y < rows g /\ 0 <= x < cols g.
  { move: X. rewrite /y /x. zb; try done; lia. }
  have -> : (if ac a =? 0 then set_cur s (ar a - 1) (cols g - 1) else set_cur s (ar a) (ac a - 1))
            = set_cur s y x by rewrite /y /x; case: (ac a =? 0).
  clearbody x y. clear X. case: Hyx => Hy Hx.
  have HC1 := corr_cur g s a y x HC Hy ltac:(lia).
  have T := k_tbb _ _ _ H y x (conj Hy Hx).
  cbn [set_cur r c].
  have -> : (0 <=? y * cols g + x) && (y * cols g + x <? rows g * cols g) = true.
  { apply andb_true_iff. rewrite Z.leb_le Z.ltb_lt. nia. }
  have -> : tabs (set_cur s y x) (y * cols g + x) = tb a y x.
  { by apply (k_tb _ _ _ (proj1 HC1)). }
  case: (Z.eqb_spec (tb a y x) 0) => N.
  - have [s2 [E2 H2]] := entry_ok g _ _ y x (entry 32 color) W HC1 O Hy Hx.
    exists s2. split; last done.
    move: E2. case E1: (set_entry _ _ _ _ _) => [s1 |] //=.
    move: E1. rewrite /set_entry. by case: (_ && _) => // [[<-]] /=.
  - have HT : corr g (set_tabs (set_cur s y x) (fupd (tabs (set_cur s y x)) (y * cols g + x) 0))
      (a_tb (a_cur a y x) (fun i j => if (i =? y) && (j =? x) then 0 else tb a i j)).
    { apply corr_tabs => //.
      - move=> i j [Hi Hj]. rewrite /fupd.
        have -> : (i * cols g + j =? y * cols g + x) = (i =? y) && (j =? x).
        { case: (Z.eqb_spec (i * cols g + j) (y * cols g + x)) => E.
          - have [-> ->] := ix_inj (cols g) i j y x Hj Hx E. by rewrite !Z.eqb_refl.
          - case: (Z.eqb_spec i y) => // X. case: (Z.eqb_spec j x) => // Y.
            exfalso. apply E. by rewrite X Y. }
        case: (_ && _) => //. by apply (k_tb _ _ _ (proj1 HC1)).
      - move=> i j Hi. have T' := k_tbb _ _ _ H i j Hi. case: (_ && _); [case: Hi |]; lia. }
    eexists. split; first reflexivity.
    rewrite (k_r _ _ _ (proj1 HT)) (k_c _ _ _ (proj1 HT)). cbn [a_tb a_cur ar ac].
    rewrite u16_small; first lia. have -> : x - (tb a y x - 1) = x + 1 - tb a y x by lia.
    apply (corr_cur g _ (a_tb (a_cur a y x) _)) => //. lia.
Qed.

Lemma next_off g a : off (a_next g a) = off a.
Proof.
  rewrite /a_next. case: (_ <? _) => //. case: (_ && _) => //. case: (_ =? _) => //.
  by case: (_ <? _).
Qed.

Lemma next_ac g a : ac (a_next g a) = ac a.
Proof.
  rewrite /a_next. case: (_ <? _) => //. case: (_ && _) => //. case: (_ =? _) => //.
  by case: (_ <? _).
Qed.

Lemma write_char_ok g s a ch color : wf g -> corr g s a -> off a = 0 ->
  top a + rows g + 1 < 2 ^ 32 -> 0 <= ch < 256 /\ (ch = 9 -> ac a < cols g) ->
  exists s', write_char g s ch color = Some s' /\ corr g s' (a_char g a ch color).
Proof.
  move=> W HC O B [Hc Ht]. have [H D] := HC. have RB := k_rb _ _ _ H. have CB := k_cb _ _ _ H.
  have Wn := W. rewrite /wf in Wn.
  rewrite /write_char /a_char (k_r _ _ _ H) (k_c _ _ _ H).
  case: (ch =? 10); first by apply incr_row_ok.
  case: (ch =? 13).
  { eexists. split; first reflexivity. apply corr_cur => //. lia. }
  case: (Z.eqb_spec ch 9) => N; first by apply put_tab_ok; auto.
  case: (Z.eqb_spec (ac a) (cols g)) => X; last by apply put_char_ok => //; lia.
  have HC0 := corr_cur g s a (ar a) 0 HC RB ltac:(lia).
  have [s1 [E1 H1]] := incr_row_ok g _ _ W HC0 O B. rewrite E1 /=.
  apply put_char_ok => //.
  - by rewrite next_off.
  - rewrite next_ac /=. lia.
Qed.
