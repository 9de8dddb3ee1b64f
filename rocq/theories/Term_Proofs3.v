From Verif Require Import Lib Term_Model Term_Spec Term_Proofs Term_Proofs2.
From Coq Require Import ssreflect.
Set Warnings "-all".

Lemma u16_small x : 0 <= x < 65536 -> u16 x = x.
Proof. move=> H. rewrite /u16. by apply Z.mod_small. Qed.

(** *** Moving rows of the region *)

Lemma nbs_up_ok g s a n : wf g -> corr g s a -> off a = 0 -> 0 <= n ->
  exists s', nbs_up g s n = Some s' /\
    corr g s' (if n =? 0 then a else a_rows g a (up (rs a) (re a) n)).
Proof.
  move=> W HC O Hn. rewrite /nbs_up. case: (Z.eqb_spec n 0) => [_ | N]; first by exists s.
  have [H D] := HC. have RG := k_reg _ _ _ H.
  rewrite (k_s _ _ _ H) (k_e _ _ _ H). set m := Z.min n _.
  have Hm : 0 < m <= re a - rs a by lia.
  have [s1 [E1 [H1 D1]]] := cp_up_ok g m W ltac:(lia) (Z.to_nat (re a - m - rs a)) (rs a) s a H O
    ltac:(lia) ltac:(lia).
  have [s2 [E2 [H2 D2]]] := buf_clear_ok g W (Z.to_nat m) (re a - m) s1 _ H1 O ltac:(lia) ltac:(lia).
  have H3 : core g s2 (a_rows g a (up (rs a) (re a) n)).
  { apply (core_same _ _ _ _ H2). apply rows_comp => i Hi. rewrite /wipe /shift_up /up.
    zb; try lia; try done; split; try lia; zb; try lia; try done; f_equal; lia. }
  rewrite E1 /= E2 /=. rewrite /redraw_region (k_s _ _ _ H3) (k_e _ _ _ H3).
  apply (corr_redraw g s a); try done; cbn [rs re a_rows a_tb a_scr a_ln]; try lia.
  - by rewrite D2.
  - move=> i j [Hi Hj] X.
    have := rows_ln g a (up (rs a) (re a) n) i j Hi O. cbn [top off a_rows a_tb a_scr a_ln] => ->.
    rewrite /up. zb; try lia; f_equal; lia.
Qed.

Lemma nbs_down_ok g s a n : wf g -> corr g s a -> off a = 0 ->
  n = 0 \/ (0 < n /\ rs a = 0 /\ Z.min n (rows g) <= re a) ->
  exists s', nbs_down g s n = Some s' /\
    corr g s' (if n =? 0 then a else a_rows g a (down (rs a) (re a) n)).
Proof.
  move=> W HC O Hn. rewrite /nbs_down. case: (Z.eqb_spec n 0) => [_ | N]; first by exists s.
  have [H D] := HC. have RG := k_reg _ _ _ H.
  rewrite (k_s _ _ _ H) (k_e _ _ _ H). set m := Z.min n _.
  have Hm : 0 < m <= re a /\ rs a = 0 by lia.
  have -> : (re a <? m) = false by apply Z.ltb_ge; lia.
  have [s1 [E1 [H1 D1]]] := cp_down_ok g m W ltac:(lia) (Z.to_nat (re a - m - rs a)) (re a - m) s a H O
    ltac:(lia) ltac:(lia).
  have [s2 [E2 [H2 D2]]] := buf_clear_ok g W (Z.to_nat (m - rs a)) (rs a) s1 _ H1 O ltac:(lia) ltac:(lia).
  have H3 : core g s2 (a_rows g a (down (rs a) (re a) n)).
  { apply (core_same _ _ _ _ H2). apply rows_comp => i Hi. rewrite /wipe /shift_down /down.
    zb; try lia; try done; split; try lia; zb; try lia; try done; f_equal; lia. }
  rewrite E1 /= E2 /=. rewrite /redraw_region (k_s _ _ _ H3) (k_e _ _ _ H3).
  apply (corr_redraw g s a); try done; cbn [rs re a_rows a_tb a_scr a_ln]; try lia.
  - by rewrite D2.
  - move=> i j [Hi Hj] X.
    have := rows_ln g a (down (rs a) (re a) n) i j Hi O. cbn [top off a_rows a_tb a_scr a_ln] => ->.
    rewrite /down. zb; try lia; f_equal; lia.
Qed.

Lemma ins_lines_ok g s a n : wf g -> corr g s a -> off a = 0 ->
  0 <= n /\ (n = 0 \/ re a <= ar a \/ rs a <= ar a) ->
  exists s', ins_lines g s n = Some s' /\
    corr g s' (if (n =? 0) || (re a <=? ar a) then a
               else a_cur (a_rows g a (down (ar a) (re a) n)) (ar a) 0).
Proof.
  move=> W HC O Hn. rewrite /ins_lines. case: (Z.eqb_spec n 0) => [_ | N]; first by exists s.
  have [H D] := HC. have RG := k_reg _ _ _ H. have RB := k_rb _ _ _ H.
  rewrite (k_e _ _ _ H) (k_r _ _ _ H). cbn [orb].
  case: (Z.leb_spec (re a) (ar a)) => L; first by exists s.
  set m := Z.min n _. have Hm : 0 < m <= re a - ar a by lia.
  have HC0 := corr_cur g s a (ar a) 0 HC RB ltac:(move: W; rewrite /wf; lia).
  have [H0 D0] := HC0.
  have [s1 [E1 [H1 D1]]] := cp_down_ok g m W ltac:(lia) (Z.to_nat (re a - m - ar a)) (re a - m) _ _ H0 O
    ltac:(lia) ltac:(lia).
  have [s2 [E2 [H2 D2]]] := buf_clear_ok g W (Z.to_nat m) (ar a) s1 _ H1 O ltac:(lia) ltac:(lia).
  have H3 : core g s2 (a_cur (a_rows g a (down (ar a) (re a) n)) (ar a) 0).
  { apply (core_same g s2 (a_rows g (a_cur a (ar a) 0) (down (ar a) (re a) n)));
      last by constructor.
    apply (core_same _ _ _ _ H2). apply rows_comp => i Hi. rewrite /wipe /shift_down /down.
    zb; try lia; try done; split; try lia; zb; try lia; try done; f_equal; lia. }
  rewrite E1 /= E2 /=. rewrite /redraw_region (k_s _ _ _ H3) (k_e _ _ _ H3).
  apply (corr_redraw g s a); try done; cbn [rs re a_rows a_tb a_scr a_ln a_cur]; try lia.
  - by rewrite D2.
  - move=> i j [Hi Hj] X.
    have := rows_ln g a (down (ar a) (re a) n) i j Hi O.
    cbn [top off a_rows a_tb a_scr a_ln a_cur ln] => ->.
    rewrite /down. zb; try lia; f_equal; lia.
Qed.

Lemma del_lines_ok g s a n : wf g -> corr g s a -> off a = 0 ->
  n = 0 \/ re a <= ar a \/
  (rs a <= ar a /\ 0 < n < re a - ar a /\ re a - ar a <= 2 * n + 1 /\ ar a + 2 * n < rows g) ->
  exists s', del_lines g s n = Some s' /\
    corr g s' (if (n =? 0) || (re a <=? ar a) then a else a_rows g a (up (ar a) (re a) n)).
Proof.
  move=> W HC O Hn. rewrite /del_lines. case: (Z.eqb_spec n 0) => [_ | N]; first by exists s.
  have [H D] := HC. have RG := k_reg _ _ _ H. have RB := k_rb _ _ _ H.
  rewrite (k_e _ _ _ H) (k_r _ _ _ H). cbn [orb].
  case: (Z.leb_spec (re a) (ar a)) => L; first by exists s.
  have -> : Z.min n (re a - ar a) = n by lia.
  have [s1 [E1 [H1 D1]]] := cp_up_ok g n W ltac:(lia) (Z.to_nat (n + 1)) (ar a) s a H O
    ltac:(lia) ltac:(lia).
  have [s2 [E2 [H2 D2]]] := buf_clear_ok g W (Z.to_nat n) (re a - n) s1 _ H1 O ltac:(lia) ltac:(lia).
  have H3 : core g s2 (a_rows g a (up (ar a) (re a) n)).
  { apply (core_same _ _ _ _ H2). apply rows_comp => i Hi. rewrite /wipe /shift_up /up.
    zb; try lia; try done; split; try lia; zb; try lia; try done; f_equal; lia. }
  rewrite E1 /= E2 /=. rewrite /redraw_region (k_s _ _ _ H3) (k_e _ _ _ H3).
  apply (corr_redraw g s a); try done; cbn [rs re a_rows a_tb a_scr a_ln]; try lia.
  - by rewrite D2.
  - move=> i j [Hi Hj] X.
    have := rows_ln g a (up (ar a) (re a) n) i j Hi O. cbn [top off a_rows a_tb a_scr a_ln] => ->.
    rewrite /up. zb; try lia; f_equal; lia.
Qed.
