From Verif Require Import Lib Term_Model Term_Spec Term_Proofs.
From Coq Require Import ssreflect.
Set Warnings "-all".

Lemma rows_comp g a m1 m2 m :
  (forall i, 0 <= i < rows g ->
     match m2 i with Some k => 0 <= k < rows g /\ m1 k = m i | None => m i = None end) ->
  same g (a_rows g (a_rows g a m1) m2) (a_rows g a m).
Proof.
  move=> H. constructor => //=.
  - move=> n j Hn Hj. case X: (_ && _) => //.
    have Hi : 0 <= n - top a < rows g.
    { move: X. rewrite andb_true_iff Z.leb_le Z.ltb_lt. lia. }
    move: (H _ Hi). case: (m2 (n - top a)) => [k [Hk E] | ->] //.
    have -> : (top a <=? top a + k) && (top a + k <? top a + rows g) = true.
    { rewrite andb_true_iff Z.leb_le Z.ltb_lt. lia. }
    have -> : top a + k - top a = k by lia. by rewrite E.
  - move=> i j [Hi Hj]. move: (H _ Hi). case: (m2 i) => [k [Hk ->] | ->] //.
Qed.

Lemma rows_ext g a m m' : (forall i, 0 <= i < rows g -> m i = m' i) ->
  same g (a_rows g a m) (a_rows g a m').
Proof.
  move=> H. constructor => //=.
  - move=> n j Hn Hj. case X: (_ && _) => //. rewrite H //.
    move: X. rewrite andb_true_iff Z.leb_le Z.ltb_lt. lia.
  - move=> i j [Hi Hj]. by rewrite H.
Qed.

Lemma rows_id g a m : (forall i, 0 <= i < rows g -> m i = Some i) ->
  same g a (a_rows g a m).
Proof.
  move=> H. constructor => //=.
  - move=> n j Hn Hj. case X: (_ && _) => //. rewrite H.
    + move: X. rewrite andb_true_iff Z.leb_le Z.ltb_lt. lia.
    + rewrite /scrn. f_equal. lia.
  - move=> i j [Hi Hj]. by rewrite H.
Qed.

(** Decide the comparisons of a goal *)
Ltac zb := repeat match goal with
  | |- context [?x <=? ?y] => destruct (Z.leb_spec x y)
  | |- context [?x <? ?y] => destruct (Z.ltb_spec x y)
  | |- context [?x =? ?y] => destruct (Z.eqb_spec x y)
  end; cbn [andb orb negb].

Definition shift_up (d k n i : Z) : option Z :=
  if (d <=? i) && (i <? d + k) then Some (i + n) else Some i.
Definition shift_down (d k n i : Z) : option Z :=
  if (d - k + n <=? i) && (i <? d + n) then Some (i - n) else Some i.

Lemma cp_up_ok g n : wf g -> 0 < n -> forall k d s a, core g s a -> off a = 0 ->
  0 <= d -> d + Z.of_nat k + n <= rows g ->
  exists s', cp_up g k d n s = Some s' /\
    core g s' (a_rows g a (shift_up d (Z.of_nat k) n)) /\ disp s' = disp s.
Proof.
  move=> W Hn. elim=> [| k IH] d s a H O Hd Hb.
  { exists s. split; first done. split; last done. apply (core_same _ _ _ _ H).
    apply rows_id => i Hi. rewrite /shift_up. zb; done || lia. }
  have [s1 [E1 [H1 D1]]] := copy_row_ok g s a d (d + n) W H O ltac:(lia) ltac:(lia).
  have [s2 [E2 [H2 D2]]] := IH (d + 1) s1 _ H1 O ltac:(lia) ltac:(lia).
  exists s2. rewrite /= E1 /= E2. split; first done. split; last by rewrite D2.
  apply (core_same _ _ _ _ H2). apply rows_comp => i Hi. rewrite /shift_up /to1.
  zb; try lia; (split; first lia; zb; try lia; try done; f_equal; lia).
Qed.

Lemma cp_down_ok g n : wf g -> 0 < n -> forall k d s a, core g s a -> off a = 0 ->
  0 <= d - Z.of_nat k -> d + n <= rows g ->
  exists s', cp_down g k d n s = Some s' /\
    core g s' (a_rows g a (shift_down d (Z.of_nat k) n)) /\ disp s' = disp s.
Proof.
  move=> W Hn. elim=> [| k IH] d s a H O Hd Hb.
  { exists s. split; first done. split; last done. apply (core_same _ _ _ _ H).
    apply rows_id => i Hi. rewrite /shift_down. zb; done || lia. }
  have [s1 [E1 [H1 D1]]] := copy_row_ok g s a (d - 1 + n) (d - 1) W H O ltac:(lia) ltac:(lia).
  have [s2 [E2 [H2 D2]]] := IH (d - 1) s1 _ H1 O ltac:(lia) ltac:(lia).
  exists s2. rewrite /= E1 /= E2. split; first done. split; last by rewrite D2.
  apply (core_same _ _ _ _ H2). apply rows_comp => i Hi. rewrite /shift_down /to1.
  zb; try lia; (split; first lia; zb; try lia; try done; f_equal; lia).
Qed.

Lemma buf_clear_ok g : wf g -> forall k d s a, core g s a -> off a = 0 ->
  0 <= d -> d + Z.of_nat k <= rows g ->
  exists s', buf_clear g k d s = Some s' /\
    core g s' (a_rows g a (wipe d (d + Z.of_nat k))) /\ disp s' = disp s.
Proof.
  move=> W. elim=> [| k IH] d s a H O Hd Hb.
  { exists s. split; first done. split; last done. apply (core_same _ _ _ _ H).
    apply rows_id => i Hi. rewrite /wipe. zb; done || lia. }
  have [s1 [E1 [H1 D1]]] := buf_clear_row_ok g s a d W H O ltac:(lia).
  have [s2 [E2 [H2 D2]]] := IH (d + 1) s1 _ H1 O ltac:(lia) ltac:(lia).
  exists s2. rewrite /= E1 /= E2. split; first done. split; last by rewrite D2.
  apply (core_same _ _ _ _ H2). apply rows_comp => i Hi. rewrite /wipe /to1.
  zb; try lia; try done; split; try lia; zb; try lia; done.
Qed.

Lemma core_disp g s a x : core g s a -> core g (set_disp s x) a.
Proof. move=> H. by destruct H. Qed.

Lemma core_hcur g s a b : core g s a -> core g (set_hcur s b) a.
Proof. move=> H. by destruct H. Qed.

Lemma corr_hcur g s a b : corr g s a -> corr g (set_hcur s b) a.
Proof. move=> [H D]. split; [by apply core_hcur | done]. Qed.

Lemma clear_row_ok g s a d : wf g -> core g s a -> off a = 0 -> 0 <= d < rows g ->
  exists s', clear_row g d s = Some s' /\ core g s' (a_rows g a (to1 d None)) /\
    (aon a = true -> forall i j, inrow g i j ->
       disp s' (i * cols g + j) = if i =? d then blank else disp s (i * cols g + j)).
Proof.
  move=> W H O Hd. have [s1 [E1 [H1 D1]]] := buf_clear_row_ok g s a d W H O Hd.
  rewrite /clear_row E1 /= /vi_clear. have ON := k_on _ _ _ H1. cbn in ON.
  case X: (on s1); cbn [negb].
  - have -> : (0 <=? d) && (d <? rows g) = true by rewrite andb_true_iff Z.leb_le Z.ltb_lt.
    eexists. split; first reflexivity. split; first by apply core_disp.
    move=> _ i j [Hi Hj] /=. by rewrite div_row // D1.
  - exists s1. split; first done. split; first done. move=> Y. by rewrite -ON X in Y.
Qed.

Lemma clear_ok g : wf g -> forall k d s a, core g s a -> off a = 0 ->
  0 <= d -> d + Z.of_nat k <= rows g ->
  exists s', clear g k d s = Some s' /\
    core g s' (a_rows g a (wipe d (d + Z.of_nat k))) /\
    (aon a = true -> forall i j, inrow g i j ->
       disp s' (i * cols g + j) =
       if (d <=? i) && (i <? d + Z.of_nat k) then blank else disp s (i * cols g + j)).
Proof.
  move=> W. elim=> [| k IH] d s a H O Hd Hb.
  { exists s. split; first done. split.
    - apply (core_same _ _ _ _ H). apply rows_id => i Hi. rewrite /wipe. zb; done || lia.
    - move=> _ i j [Hi Hj]. zb; done || lia. }
  have [s1 [E1 [H1 D1]]] := clear_row_ok g s a d W H O ltac:(lia).
  have [s2 [E2 [H2 D2]]] := IH (d + 1) s1 _ H1 O ltac:(lia) ltac:(lia).
  exists s2. rewrite /= E1 /= E2. split; first done. split.
  - apply (core_same _ _ _ _ H2). apply rows_comp => i Hi. rewrite /wipe /to1.
    zb; try lia; try done; split; try lia; zb; try lia; done.
  - move=> ON i j Hi. rewrite D2 // D1 //. zb; try lia; done.
Qed.

Lemma redraw_ok g s a x y : wf g -> core g s a -> 0 <= x -> y <= rows g ->
  exists s', redraw g s x y = Some s' /\ core g s' a /\
    (aon a = true -> forall i j, inrow g i j ->
       disp s' (i * cols g + j) =
       if (x <=? i) && (i <? y) then ln a (top a - off a + i) j else disp s (i * cols g + j)).
Proof.
  move=> W H Hx Hy. rewrite /redraw. have ON := k_on _ _ _ H.
  case X: (on s); cbn [negb]; last first.
  { exists s. split; first done. split; first done. move=> Y. by rewrite -ON X in Y. }
  have -> : (0 <=? x) && (y <=? rows g) = true by rewrite andb_true_iff !Z.leb_le.
  eexists. split; first reflexivity. split; first by apply core_disp.
  move=> _ i j [Hi Hj] /=. rewrite div_row // mod_row //. case: (_ && _) => //.
  rewrite (brow_eq _ _ _ _ W H Hi). apply (k_buf _ _ _ H) => //.
  have := k_off _ _ _ H. lia.
Qed.

(** The rows of the screen that changed are redrawn *)
Lemma corr_redraw g s0 a0 s a x y : wf g -> corr g s0 a0 -> core g s a ->
  disp s = disp s0 -> aon a = aon a0 -> 0 <= x -> y <= rows g ->
  (forall i j, inrow g i j -> ~ (x <= i < y) ->
     ln a (top a - off a + i) j = ln a0 (top a0 - off a0 + i) j) ->
  exists s', redraw g s x y = Some s' /\ corr g s' a.
Proof.
  move=> W [H0 D0] H D ON Hx Hy E. have [s' [E' [H' D']]] := redraw_ok g s a x y W H Hx Hy.
  exists s'. split; first done. split; first done. move=> Y i j Hi. rewrite D' //.
  case X: (_ && _) => //. rewrite D D0 -?ON // E //. move: X. zb; lia || done.
Qed.

Lemma corr_same g s a b : corr g s a -> same g a b -> corr g s b.
Proof.
  move=> [H D] E. split; first by apply (core_same _ _ _ _ H).
  rewrite -(s_on _ _ _ E) -(s_top _ _ _ E) -(s_off _ _ _ E) => Y i j Hi. rewrite D //.
  apply (s_ln _ _ _ E); last by case: Hi. have := k_off _ _ _ H. case: Hi. lia.
Qed.

(** What a screen row shows after rows moved *)
Lemma rows_ln g a m i j : 0 <= i < rows g -> off a = 0 ->
  ln (a_rows g a m) (top a - off a + i) j =
  match m i with Some k => ln a (top a + k) j | None => blank end.
Proof.
  move=> Hi O /=. have -> : top a - off a + i = top a + i by lia.
  have -> : (top a <=? top a + i) && (top a + i <? top a + rows g) = true.
  { rewrite andb_true_iff Z.leb_le Z.ltb_lt. lia. }
  by have -> : top a + i - top a = i by lia.
Qed.

(** *** Cells of a row *)

Lemma in_cols w m m' j x y : 0 <= j < w -> 0 <= x -> y <= w ->
  (m' * w + x <=? m * w + j) && (m * w + j <? m' * w + y) = (m =? m') && (x <=? j) && (j <? y).
Proof.
  move=> H Hx Hy. case: (Z.eqb_spec m m') => [-> | N]; cbn [andb].
  - zb; lia || done.
  - apply andb_false_iff. case: (Z_lt_ge_dec m m') => X.
    + left. apply Z.leb_gt. nia.
    + right. apply Z.ltb_ge. nia.
Qed.

Lemma put_cols_ok g s a i x y f F : wf g -> core g s a -> off a = 0 -> 0 <= i < rows g ->
  0 <= x -> y <= cols g -> (forall j, x <= j < y -> f j = F j) ->
  exists s', put_cols g s i x y f = Some s' /\ core g s' (a_cells g a i x y F) /\
    disp s' = disp s.
Proof.
  move=> W H O Hi Hx Hy E. rewrite /put_cols. case: (Z.leb_spec y x) => L.
  { exists s. split; first done. split; last done. apply (core_same _ _ _ _ H).
    constructor => //= n j Hn Hj. case: (_ && _) => //. rewrite /scrn.
    have -> : top a + (n - top a) = n by lia.
    zb; done || lia. }
  have B := Z.mod_pos_bound (top a - off a + i) (tot g) ltac:(move: W; rewrite /wf; lia).
  rewrite (brow_eq _ _ _ _ W H Hi). set m := (top a - off a + i) in B *.
  have -> : (0 <=? m mod tot g * cols g + x) && (m mod tot g * cols g + y <=? tot g * cols g) = true.
  { rewrite andb_true_iff !Z.leb_le. move: W. rewrite /wf. nia. }
  eexists. split; first reflexivity. split; last done.
  have OM := off_max0 _ _ _ H. have KO := k_off _ _ _ H.
  have BB : forall n j, top a - off_max g a <= n < top a + rows g -> 0 <= j < cols g ->
    (if (m mod tot g * cols g + x <=? n mod tot g * cols g + j) &&
        (n mod tot g * cols g + j <? m mod tot g * cols g + y)
     then f (n mod tot g * cols g + j - m mod tot g * cols g)
     else buf s (n mod tot g * cols g + j)) =
    (if (top a <=? n) && (n <? top a + rows g)
     then (if (n - top a =? i) && (x <=? j) && (j <? y) then F j else scrn a (n - top a) j)
     else ln a n j).
  { move=> n j Hn Hj. rewrite in_cols // (win_eqb g a n m W OM Hn ltac:(rewrite /m; lia)).
    rewrite /scrn. have -> : top a + (n - top a) = n by lia.
    rewrite (k_buf _ _ _ H n j Hn Hj).
    have -> : (n - top a =? i) = (n =? m) by rewrite /m; zb; lia || done.
    case: (Z.eqb_spec n m) => [-> | N]; cbn [andb]; last by case: (_ && _).
    have -> : (top a <=? m) && (m <? top a + rows g) = true.
    { rewrite andb_true_iff Z.leb_le Z.ltb_lt /m. lia. }
    zb => //. rewrite -E //. f_equal. lia. }
  destruct H. constructor => //.
Qed.

Lemma show_cols_ok g s a i x y : wf g -> core g s a -> 0 <= i < rows g ->
  0 <= x -> y <= cols g ->
  exists s', show_cols g s i x y = Some s' /\ core g s' a /\
    (aon a = true -> forall i' j, inrow g i' j ->
       disp s' (i' * cols g + j) =
       if (i' =? i) && (x <=? j) && (j <? y) then ln a (top a - off a + i) j
       else disp s (i' * cols g + j)).
Proof.
  move=> W H Hi Hx Hy. rewrite /show_cols. case: (Z.leb_spec y x) => L.
  { exists s. do 2 (split; first done). move=> _ i' j Hj. zb; lia || done. }
  have ON := k_on _ _ _ H. case X: (on s); cbn [negb]; last first.
  { exists s. do 2 (split; first done). move=> Y. by rewrite -ON X in Y. }
  have -> : (0 <=? i) && (i <? rows g) && (0 <=? x) && (y <=? cols g) = true.
  { rewrite !andb_true_iff !Z.leb_le Z.ltb_lt. lia. }
  eexists. split; first reflexivity. split; first by apply core_disp.
  move=> _ i' j [Hi' Hj] /=. rewrite in_cols //.
  case Y: (_ && _) => //. move: Y. rewrite !andb_true_iff Z.eqb_eq => [[[-> _] _]].
  have -> : i * cols g + j - i * cols g = j by lia.
  rewrite (brow_eq _ _ _ _ W H Hi). apply (k_buf _ _ _ H) => //.
  have := k_off _ _ _ H. lia.
Qed.

Lemma cells_ln g a i x y F i' j : 0 <= i' < rows g -> off a = 0 ->
  ln (a_cells g a i x y F) (top a - off a + i') j =
  if (i' =? i) && (x <=? j) && (j <? y) then F j else ln a (top a - off a + i') j.
Proof.
  move=> Hi O /=. have -> : top a - off a + i' = top a + i' by lia.
  have -> : (top a <=? top a + i') && (top a + i' <? top a + rows g) = true.
  { rewrite andb_true_iff Z.leb_le Z.ltb_lt. lia. }
  by have -> : top a + i' - top a = i' by lia.
Qed.

Lemma cells_ok g s a i x y y' f F : wf g -> corr g s a -> off a = 0 -> 0 <= i < rows g ->
  0 <= x -> y <= y' -> y' <= cols g -> (forall j, x <= j < y -> f j = F j) ->
  exists s', obind (put_cols g s i x y f) (fun s1 => show_cols g s1 i x y') = Some s' /\
    corr g s' (a_cells g a i x y F).
Proof.
  move=> W [H D] O Hi Hx Hy Hy' E.
  have [s1 [E1 [H1 D1]]] := put_cols_ok g s a i x y f F W H O Hi Hx ltac:(lia) E.
  have [s2 [E2 [H2 D2]]] := show_cols_ok g s1 _ i x y' W H1 Hi Hx Hy'.
  exists s2. rewrite E1 /= E2. split; first done. split; first done.
  move=> Y i' j Hj. rewrite D2 // D1 D //. cbn [off top a_cells a_scr a_ln] in *.
  rewrite (cells_ln g a i x y F i j Hi O) (cells_ln g a i x y F i' j (proj1 Hj) O).
  zb; subst; done || lia.
Qed.

Lemma core_buf_ext g s a b : core g s a -> (forall k, b k = buf s k) -> core g (set_buf s b) a.
Proof.
  move=> H E. destruct H. constructor => //. move=> n j Hn Hj. cbn [set_buf buf]. rewrite E.
  by apply k_buf.
Qed.

Lemma entry_ok g s a i j e : wf g -> corr g s a -> off a = 0 -> 0 <= i < rows g ->
  0 <= j < cols g ->
  exists s', obind (set_entry g s i j e) (fun s1 => vi_char g s1 i j e) = Some s' /\
    corr g s' (a_cells g a i j (j + 1) (fun _ => e)).
Proof.
  move=> W [H D] O Hi Hj.
  have [s1 [E1 [H1 _]]] := put_cols_ok g s a i j (j + 1) (fun _ => e) (fun _ => e) W H O Hi
    ltac:(lia) ltac:(lia) (fun _ _ => eq_refl).
  have B := Z.mod_pos_bound (top a - off a + i) (tot g) ltac:(move: W; rewrite /wf; lia).
  have BR := brow_eq _ _ _ _ W H Hi.
  have L : (0 <=? brow g s i + j) && (brow g s i + j <? tot g * cols g) = true.
  { rewrite andb_true_iff Z.leb_le Z.ltb_lt BR. move: W. rewrite /wf. nia. }
  rewrite /set_entry L. cbn [obind].
  have H2 : core g (set_buf s (fupd (buf s) (brow g s i + j) e)) (a_cells g a i j (j + 1) (fun _ => e)).
  { move: E1. rewrite /put_cols.
    have -> : (j + 1 <=? j) = false by apply Z.leb_gt; lia.
    case Y: (_ && _); last done. move=> X. injection X => E1. rewrite -E1 in H1.
    apply (core_buf_ext _ _ _ _ H1) => k. cbn [set_buf buf]. rewrite /fupd. zb; lia || done. }
  rewrite /vi_char. have ON := k_on _ _ _ H2. cbn [set_buf on] in *.
  case X: (on s); cbn [negb]; last first.
  { eexists. split; first reflexivity. split; first done. move=> Z. by rewrite -ON X in Z. }
  have -> : (0 <=? i) && (i <? rows g) && (0 <=? j) && (j <? cols g) = true.
  { rewrite !andb_true_iff !Z.leb_le !Z.ltb_lt. lia. }
  eexists. split; first reflexivity. split; first by apply core_disp.
  move=> Z i' j' [Hi' Hj']. cbn [off top a_cells a_scr a_ln] in *. rewrite cells_ln //.
  cbn [set_disp set_buf disp]. rewrite /fupd.
  have -> : (i' * cols g + j' =? i * cols g + j) = (i' =? i) && (j <=? j') && (j' <? j + 1).
  { rewrite -(in_cols (cols g)); lia. }
  case: (_ && _) => //. by apply D.
Qed.

Lemma get_entry_ok g s a i j : wf g -> core g s a -> 0 <= i < rows g -> 0 <= j <= cols g ->
  exists e, get_entry g s i j = Some e /\ (j < cols g -> off a = 0 -> e = scrn a i j).
Proof.
  move=> W H Hi Hj. rewrite /get_entry (brow_eq _ _ _ _ W H Hi).
  have B := Z.mod_pos_bound (top a - off a + i) (tot g) ltac:(move: W; rewrite /wf; lia).
  set m := (_ mod _) in B *.
  have -> : (0 <=? m * cols g + j) && (m * cols g + j <? tot g * cols g + slack g) = true.
  { rewrite andb_true_iff Z.leb_le Z.ltb_lt. move: W. rewrite /wf. nia. }
  eexists. split; first reflexivity. move=> L O. rewrite /m (k_buf _ _ _ H).
  - have := off_max0 _ _ _ H. lia.
  - lia.
  - rewrite /scrn. f_equal. lia.
Qed.

Lemma move_cursor_ok g s a : wf g -> core g s a -> move_cursor g s = Some s.
Proof.
  move=> W H. rewrite /move_cursor.
  have [e [-> _]] := get_entry_ok g s a (r s) (c s) W H
    ltac:(rewrite (k_r _ _ _ H); apply (k_rb _ _ _ H))
    ltac:(rewrite (k_c _ _ _ H); apply (k_cb _ _ _ H)). done.
Qed.
