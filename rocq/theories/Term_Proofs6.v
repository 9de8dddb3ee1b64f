From Verif Require Import Lib Term_Model Term_Spec Term_Proofs Term_Proofs2 Term_Proofs3 Term_Proofs4 Term_Proofs5.
From Coq Require Import ssreflect.
Set Warnings "-all".

(** *** Scrolling the view *)

Lemma core_off g s a q : core g s a -> top a - off_max g a <= q <= top a ->
  core g (set_scr s q (top a)) (a_off a (top a - q)).
Proof.
  move=> H Hq. destruct H. constructor => //=; try lia. rewrite /off_max /= in Hq k_off *. lia.
Qed.

Lemma set_scroll_ok g s a q : wf g -> corr g s a ->
  exists s', set_scroll g s q = Some s' /\
    corr g s' (a_off a (top a - clamp q (top a - off_max g a) (top a))).
Proof.
  move=> W [H D]. have Wn := W. rewrite /wf in Wn. rewrite /set_scroll (k_max _ _ _ H).
  have KO := k_off _ _ _ H. have KT := k_top _ _ _ H.
  have -> : (if tot g - rows g <? top a then top a - (tot g - rows g) else 0) = top a - off_max g a.
  { rewrite /off_max. zb; lia. }
  rewrite -/(clamp q (top a - off_max g a) (top a)).
  have Q := clamp_in q (top a - off_max g a) (top a) ltac:(lia). set q' := clamp _ _ _ in Q *.
  rewrite (k_scr _ _ _ H). case: (Z.eqb_spec q' (top a - off a)) => E.
  { exists s. split; first done. apply (corr_same g s a); first done.
    constructor => //=. lia. }
  have H1 := core_off g s a q' H Q.
  have [s2 [E2 [H2 D2]]] := redraw_ok g _ _ 0 (rows g) W H1 ltac:(lia) ltac:(lia).
  exists s2. split; first done. split; first done. move=> ON i j Hi. rewrite D2 //.
  case: Hi => Hi Hj. zb; lia || done.
Qed.

Lemma ts_up_ok g s a n : wf g -> corr g s a -> 0 <= n ->
  exists s', ts_up g s n = Some s' /\ corr g s' (a_off a (Z.min (off a + n) (off_max g a))).
Proof.
  move=> W HC Hn. have H := proj1 HC. have KO := k_off _ _ _ H. have KT := k_top _ _ _ H.
  have KM : off_max g a <= top a by rewrite /off_max; lia.
  rewrite /ts_up (k_scr _ _ _ H). case: (Z.ltb_spec (top a - off a) n) => L.
  - have [s1 [E1 H1]] := set_scroll_ok g s a 0 W HC. exists s1. split; first done.
    move: H1. rewrite /clamp. by have -> : top a - Z.min (Z.max 0 (top a - off_max g a)) (top a) =
      Z.min (off a + n) (off_max g a) by lia.
  - have [s1 [E1 H1]] := set_scroll_ok g s a (top a - off a - n) W HC. exists s1. split; first done.
    move: H1. rewrite /clamp.
    by have -> : top a - Z.min (Z.max (top a - off a - n) (top a - off_max g a)) (top a) =
      Z.min (off a + n) (off_max g a) by lia.
Qed.

Lemma ts_down_ok g s a n : wf g -> corr g s a -> 0 <= n -> top a + n < 2 ^ 32 ->
  exists s', ts_down g s n = Some s' /\ corr g s' (a_off a (Z.max (off a - n) 0)).
Proof.
  move=> W HC Hn Hb. have H := proj1 HC. have KO := k_off _ _ _ H. have KT := k_top _ _ _ H.
  have KM : off_max g a <= top a by rewrite /off_max; lia.
  rewrite /ts_down (k_scr _ _ _ H) u32_small; first lia.
  have [s1 [E1 H1]] := set_scroll_ok g s a (top a - off a + n) W HC. exists s1. split; first done.
  move: H1. rewrite /clamp.
  by have -> : top a - Z.min (Z.max (top a - off a + n) (top a - off_max g a)) (top a) =
    Z.max (off a - n) 0 by lia.
Qed.

Lemma to_bottom_ok g s a : wf g -> corr g s a ->
  exists s', to_bottom g s = Some s' /\ corr g s' (a_off a 0).
Proof.
  move=> W HC. have H := proj1 HC. have KO := k_off _ _ _ H.
  rewrite /to_bottom (k_scr _ _ _ H) (k_max _ _ _ H).
  case: (Z.eqb_spec (top a - off a) (top a)) => E; cbn [negb].
  - exists s. split; first done. apply (corr_same g s a); first done.
    constructor => //=. lia.
  - have [s1 [E1 H1]] := set_scroll_ok g s a (top a) W HC. exists s1. split; first done.
    move: H1. rewrite /clamp.
    by have -> : top a - Z.min (Z.max (top a) (top a - off_max g a)) (top a) = 0 by lia.
Qed.

(** *** Every step *)

Lemma exec_ok g s a i : wf g -> corr g s a -> may g a (OItem i) ->
  exists s' k, (ac a < cols g -> k = e_color (scrn a (ar a) (ac a))) /\
    exec g s i = Some s' /\ corr g s' (a_exec g k a i).
Proof.
  move=> W HC [B [O F]]. have H := proj1 HC. have RB := k_rb _ _ _ H. have CB := k_cb _ _ _ H.
  have [e [Ee Ve]] := get_entry_ok g s a (ar a) (ac a) W H RB CB.
  have CC : curr_color g s = Some (e_color e)
    by rewrite /curr_color (k_r _ _ _ H) (k_c _ _ _ H) Ee.
  have Ve' : ac a < cols g -> e_color e = e_color (scrn a (ar a) (ac a)) by move=> X; rewrite Ve.
  suff [s' [E' H']] : exists s', exec g s i = Some s' /\ corr g s' (a_exec g (e_color e) a i)
    by exists s', (e_color e).
  destruct i; cbn [exec a_exec fits] in *; rewrite ?CC; cbn [obind].
  - by apply write_char_ok.
  - by apply backspace_ok.
  - by apply del_word_ok.
  - by apply erase_display_ok.
  - by apply erase_line_ok.
  - by apply move_cur_ok.
  - rewrite /move_rel (k_r _ _ _ H) (k_c _ _ _ H). by apply move_cur_ok.
  - by apply reset_ok.
  - by apply enable_cursor_ok.
  - by apply use_alt_ok.
  - by apply nbs_up_ok.
  - by apply nbs_down_ok.
  - by apply ins_lines_ok.
  - by apply del_lines_ok.
  - by apply set_region_ok.
  - by apply ins_chars_ok.
  - by apply del_chars_ok.
  - by apply erase_chars_ok.
Qed.

Lemma sim g s a o : wf g -> corr g s a -> may g a o ->
  exists s' a', step g s o = Some s' /\ astep g a o a' /\ corr g s' a'.
Proof.
  move=> W HC M.
  case: o M => [| i | | n | n | |] M; cbn [step].
  2: { have [s' [k [K [E' H']]]] := exec_ok g s a i W HC M.
       exists s', (a_exec g k a i). split; first done. split; last done. by exists k. }
  all: have AS : forall o' a', a' = a_step g (e_color (scrn a (ar a) (ac a))) a o' -> astep g a o' a'
    by move=> o' a' E; exists (e_color (scrn a (ar a) (ac a))).
  - rewrite /write_begin. have [s1 [-> H1]] := to_bottom_ok g s a W HC. cbn [obind].
    exists (set_hcur s1 true), (a_off a 0). split; first done. split; first by apply AS.
    by apply corr_hcur.
  - exists s, a. split; last by split; first by apply AS.
    rewrite /write_end. case: (cen s) => //. by apply (move_cursor_ok g s a W (proj1 HC)).
  - rewrite /int_up. have [s1 [-> H1]] := ts_up_ok g s a n W HC (proj1 (proj2 M)). cbn [obind].
    case: (cen s1); last first.
    { eexists _, _. split; first reflexivity. by split; first by apply AS. }
    case: (negb _).
    { eexists _, _. split; first reflexivity. split; first by apply AS. by apply corr_hcur. }
    have H2 := corr_hcur _ _ _ true H1. rewrite (move_cursor_ok _ _ _ W (proj1 H2)).
    eexists _, _. split; first reflexivity. by split; first by apply AS.
  - rewrite /int_down. case: M => _ [M1 M2].
    have [s1 [-> H1]] := ts_down_ok g s a n W HC M1 M2. cbn [obind].
    case: (_ && _); last first.
    { eexists _, _. split; first reflexivity. by split; first by apply AS. }
    have H2 := corr_hcur _ _ _ true H1. rewrite (move_cursor_ok _ _ _ W (proj1 H2)).
    eexists _, _. split; first reflexivity. by split; first by apply AS.
  - exists (pause s), (a_on a false). split; first done. split; first by apply AS.
    case: HC => H D. split; last done. destruct H. by constructor.
  - rewrite /restart.
    have H1 : core g (set_on s true) (a_on a true) by destruct (proj1 HC); constructor.
    have Wn := W. rewrite /wf in Wn.
    have [s2 [E2 [H2 D2]]] := redraw_ok g _ _ 0 (rows g) W H1 ltac:(lia) ltac:(lia).
    have HC2 : corr g s2 (a_on a true).
    { split; first done. move=> ON i j Hi. rewrite D2 //. case: Hi => Hi Hj. zb; lia || done. }
    rewrite /redraw_all E2. cbn [obind]. case: (_ =? _).
    + have [s3 [E3 H3]] := enable_cursor_ok g s2 _ (cen s2) W HC2.
      exists s3, (a_on a true). split; first done. split; first by apply AS.
      apply (corr_same _ _ _ _ H3). rewrite (k_cen _ _ _ H2). apply cen_id.
    + exists s2, (a_on a true). split; first done. by split; first by apply AS.
Qed.

Lemma sim_run g l : wf g -> forall s a, corr g s a -> mays g a l ->
  exists s' a', run g s l = Some s' /\ aruns g a l a' /\ corr g s' a'.
Proof.
  move=> W. elim: l => [| o l IH] s a HC M /=.
  { by exists s, a. }
  case: M => M1 M2. have [s1 [a1 [-> [A1 H1]]]] := sim g s a o W HC M1. cbn [obind].
  have [s2 [a2 [E2 [A2 H2]]]] := IH s1 a1 H1 (M2 a1 A1).
  exists s2, a2. split; first done. split; last done. by exists a1.
Qed.

Lemma init_ok g b0 d0 : wf g ->
  exists s a, vterm_init g b0 d0 = Some s /\ a_init g a /\ corr g s a.
Proof.
  move=> W. have Wn := W. rewrite /wf in Wn. rewrite /vterm_init.
  set s0 := St _ _ _ _ _ _ _ _ _ _ _ _ _ _ _ _ _ _ _ _.
  pose a0 := Ab (fun n j => b0 (n mod tot g * cols g + j)) 0 0 0 0 (fun _ _ => 0) 0 (rows g)
                (fun _ _ => 0) 0 (rows g) false false (fun _ _ => 0) 0 0 true true.
  have H0 : core g s0 a0.
  { constructor => //; rewrite /tabs /otabs /sR /eR /osR /oeR /off_max /=; try lia;
    move=> i j [Hi Hj]; lia. }
  have [s1 [-> [H1 D1]]] := clear_ok g W (Z.to_nat (rows g)) 0 s0 a0 H0 eq_refl ltac:(lia) ltac:(lia).
  cbn [obind].
  pose a1 := Ab (fun n j => blank) 0 0 0 0 (fun _ _ => 0) 0 (rows g)
                (fun _ _ => 0) 0 (rows g) false false (fun _ _ => 0) 0 0 true true.
  have HC1 : corr g s1 a1.
  { split.
    - apply (core_same _ _ _ _ H1). constructor => //=.
      + move=> n j Hn Hj. rewrite /wipe. rewrite /off_max /= in Hn. zb; lia || done.
      + move=> i j Hi. rewrite /wipe. by case: (_ && _).
    - move=> _ i j Hi. rewrite D1 //. case: Hi => Hi Hj. zb; lia || done. }
  have [s2 [E2 H2]] := move_cur_ok g s1 a1 0 0 W HC1.
  exists s2, a1. split; first done. split; first by do 16 (split; first done).
  apply (corr_same _ _ _ _ H2). constructor => //=; rewrite /clamp; lia.
Qed.
