From Verif Require Import Lib Term_Model Term_Spec.
From Coq Require Import ssreflect.
Set Warnings "-all".

(** *** Indices *)

Lemma mod_inj t x y : 0 < t -> x mod t = y mod t -> - t < x - y < t -> x = y.
Proof.
  move=> T E B.
  have D : (x - y) mod t = 0 by rewrite Zminus_mod E Z.sub_diag.
  have [q Hq] := proj1 (Z.mod_divide (x - y) t ltac:(clear -T; lia)) D.
  have : q = 0 by nia. lia.
Qed.

Lemma ix_inj w m j m' j' : 0 <= j < w -> 0 <= j' < w -> m * w + j = m' * w + j' ->
  m = m' /\ j = j'.
Proof. move=> H H' E. have X : m = m' by nia. subst. lia. Qed.

Lemma in_row w m m' j : 0 <= j < w ->
  (m' * w <=? m * w + j) && (m * w + j <? m' * w + w) = (m =? m').
Proof.
  move=> H. case: (Z.eqb_spec m m') => [-> | N].
  - apply andb_true_intro. split; [apply Z.leb_le | apply Z.ltb_lt]; lia.
  - apply andb_false_iff. case: (Z_lt_ge_dec m m') => X.
    + left. apply Z.leb_gt. nia.
    + right. apply Z.ltb_ge. nia.
Qed.

Lemma div_row w m j : 0 <= j < w -> (m * w + j) / w = m.
Proof. move=> H. symmetry. apply (Z.div_unique _ _ _ j); lia. Qed.

Lemma mod_row w m j : 0 <= j < w -> (m * w + j) mod w = j.
Proof. move=> H. symmetry. apply (Z.mod_unique _ _ m); lia. Qed.

(** The row of the ring where screen row [i] is *)
Lemma brow_eq g s a i : wf g -> core g s a -> 0 <= i < rows g ->
  brow g s i = (top a - off a + i) mod tot g * cols g.
Proof.
  move=> W H Hi. rewrite /brow (k_scr _ _ _ H).
  have -> : u32 (i + (top a - off a)) = top a - off a + i; last done.
  rewrite u32_small; last lia.
  have := k_top _ _ _ H. have := k_off _ _ _ H. rewrite /off_max. lia.
Qed.

Lemma win_inj g a n m : wf g -> 0 <= off_max g a ->
  top a - off_max g a <= n < top a + rows g ->
  top a - off_max g a <= m < top a + rows g ->
  n mod tot g = m mod tot g -> n = m.
Proof.
  move=> W O Hn Hm E. apply (mod_inj (tot g)) => //; move: W; rewrite /wf; first lia.
  move=> W. have : off_max g a <= tot g - rows g by rewrite /off_max; lia. lia.
Qed.

Lemma win_eqb g a n m : wf g -> 0 <= off_max g a ->
  top a - off_max g a <= n < top a + rows g ->
  top a - off_max g a <= m < top a + rows g ->
  (n mod tot g =? m mod tot g) = (n =? m).
Proof.
  move=> W O Hn Hm. case: (Z.eqb_spec n m) => [-> | N]; first by rewrite Z.eqb_refl.
  apply Z.eqb_neq => E. by have := win_inj g a n m W O Hn Hm E.
Qed.

Lemma off_max0 g s a : core g s a -> 0 <= off_max g a.
Proof. move=> H. have := k_off _ _ _ H. lia. Qed.

(** *** The relation depends on values within the screen only *)

Record same (g : cfg) (a b : ab) : Prop := Same {
  s_ln : forall n j, top a - off_max g a <= n < top a + rows g -> 0 <= j < cols g ->
    ln a n j = ln b n j;
  s_tb : forall i j, inrow g i j -> tb a i j = tb b i j;
  s_otb : forall i j, inrow g i j -> otb a i j = otb b i j;
  s_sv : forall i j, inrow g i j -> sv a i j = sv b i j;
  s_top : top a = top b; s_ar : ar a = ar b; s_ac : ac a = ac b; s_off : off a = off b;
  s_rs : rs a = rs b; s_re : re a = re b; s_ors : ors a = ors b; s_ore : ore a = ore b;
  s_alt : aalt a = aalt b; s_have : ahave a = ahave b; s_sr : sr a = sr b; s_sc : sc a = sc b;
  s_cen : acen a = acen b; s_on : aon a = aon b
}.

Lemma core_same g s a b : core g s a -> same g a b -> core g s b.
Proof.
  move=> H E. destruct H, E.
  have O : off_max g b = off_max g a by rewrite /off_max s_top0.
  constructor; rewrite -?s_top0 -?s_ar0 -?s_ac0 -?s_off0 -?s_rs0 -?s_re0 -?s_ors0 -?s_ore0
    -?s_alt0 -?s_have0 -?s_sr0 -?s_sc0 -?s_cen0 -?s_on0 ?O //.
  - move=> n j Hn Hj. rewrite k_buf //. by apply s_ln0.
  - move=> i j Hi. rewrite k_tb //. by apply s_tb0.
  - move=> i j Hi. rewrite k_otb //. by apply s_otb0.
  - move=> i j Hi. rewrite -s_tb0 //. by apply k_tbb.
  - move=> i j Hi. rewrite -s_otb0 //. by apply k_otbb.
  - move=> Ha i j Hi. rewrite k_sv //. by apply s_sv0.
Qed.

Lemma same_refl g a : same g a a.
Proof. by constructor. Qed.

(** *** Moving the cursor *)

Lemma core_cur g s a y x : core g s a -> 0 <= y < rows g -> 0 <= x <= cols g ->
  core g (set_cur s y x) (a_cur a y x).
Proof. move=> H Hy Hx. destruct H. by constructor. Qed.

Lemma corr_cur g s a y x : corr g s a -> 0 <= y < rows g -> 0 <= x <= cols g ->
  corr g (set_cur s y x) (a_cur a y x).
Proof. move=> [H D] Hy Hx. split; first by apply core_cur. done. Qed.

(** *** Whole rows *)

Definition to1 (d : Z) (m : option Z) (i : Z) : option Z := if i =? d then m else Some i.

Lemma tb_upd g s a d (F : Z -> Z) (G : Z -> Z) : core g s a -> 0 < cols g ->
  (forall j, 0 <= j < cols g -> F j = G j) ->
  forall i j, inrow g i j ->
  (fun k => if (d * cols g <=? k) && (k <? d * cols g + cols g)
            then F (k - d * cols g) else tabs s k) (i * cols g + j) =
  if i =? d then G j else tb a i j.
Proof.
  move=> H C E i j [Hi Hj]. cbn beta. rewrite in_row //.
  case: (Z.eqb_spec i d) => [-> | N]; last by apply (k_tb _ _ _ H).
  rewrite -E //. f_equal. lia.
Qed.

Lemma buf_upd g s a m (F G : Z -> Z) : wf g -> core g s a ->
  top a - off_max g a <= m < top a + rows g ->
  (forall j, 0 <= j < cols g -> F j = G j) ->
  forall n j, top a - off_max g a <= n < top a + rows g -> 0 <= j < cols g ->
  (fun k => if (m mod tot g * cols g <=? k) && (k <? m mod tot g * cols g + cols g)
            then F (k - m mod tot g * cols g) else buf s k) (n mod tot g * cols g + j) =
  if n =? m then G j else ln a n j.
Proof.
  move=> W H Hm E n j Hn Hj. cbn beta. rewrite in_row // (win_eqb g a n m W (off_max0 _ _ _ H) Hn Hm).
  case: (Z.eqb_spec n m) => [-> | N]; last by apply (k_buf _ _ _ H).
  rewrite -E //. f_equal. lia.
Qed.

(** Buffer and tab map get a new row [d] *)
Lemma core_row g s a d (F G Ft Gt : Z -> Z) : wf g -> core g s a -> 0 <= d < rows g ->
  off a = 0 ->
  (forall j, 0 <= j < cols g -> F j = G j) ->
  (forall j, 0 <= j < cols g -> Ft j = Gt j) ->
  (forall j, 0 <= j < cols g -> 0 <= Gt j <= j + 1) ->
  core g
    (set_tabs (set_buf s (fun k => if (brow g s d <=? k) && (k <? brow g s d + cols g)
                                   then F (k - brow g s d) else buf s k))
      (fun k => if (d * cols g <=? k) && (k <? d * cols g + cols g)
                then Ft (k - d * cols g) else tabs s k))
    (a_tb (a_scr g a (fun i j => if i =? d then G j else scrn a i j))
          (fun i j => if i =? d then Gt j else tb a i j)).
Proof.
  move=> W H Hd O E Et Bt.
  have O0 := off_max0 _ _ _ H.
  have B := buf_upd g s a (top a + d) F G W H ltac:(lia) E.
  have T := tb_upd g s a d Ft Gt H ltac:(move: W; rewrite /wf; lia) Et.
  rewrite (brow_eq _ _ _ _ W H Hd) O. have -> : top a - 0 + d = top a + d by lia.
  have TB : forall i j, inrow g i j -> 0 <= (if i =? d then Gt j else tb a i j) <= j + 1.
  { move=> i j Hi. case: (i =? d); [apply Bt; case: Hi; lia | by apply (k_tbb _ _ _ H)]. }
  have BB : forall n j, top a - off_max g a <= n < top a + rows g -> 0 <= j < cols g ->
    (if n =? top a + d then G j else ln a n j) =
    (if (top a <=? n) && (n <? top a + rows g)
     then (if n - top a =? d then G j else scrn a (n - top a) j) else ln a n j).
  { move=> n j Hn Hj. case X: (_ && _).
    - have -> : (n - top a =? d) = (n =? top a + d)
        by apply Bool.eq_iff_eq_true; rewrite !Z.eqb_eq; lia.
      rewrite /scrn. by have -> : top a + (n - top a) = n by lia.
    - have -> : (n =? top a + d) = false; last done.
      apply Z.eqb_neq => Y. move: X. rewrite Y.
      have -> : (top a <=? top a + d) = true by apply Z.leb_le; lia.
      have -> : (top a + d <? top a + rows g) = true by apply Z.ltb_lt; lia. done. }
  destruct H. rewrite /set_tabs /tabs /sR /eR in T k_tb k_s k_e *.
  rewrite /otabs /osR /oeR in k_otb k_os k_oe.
  cbn [set_buf alt].
  case X: (alt s) in T k_tb k_otb k_s k_e k_os k_oe k_alt *;
  (constructor; rewrite /tabs /otabs /sR /eR /osR /oeR; cbn [set_buf alt r c buf scroll maxs ms me als ale tm ta have copy svr svc cen on disp hcur a_tb a_scr a_ln ar ac top off tb otb rs re ors ore aalt ahave sv sr sc acen aon ln] => //;
   by move=> n j Hn Hj; rewrite B // BB).
Qed.

Lemma copy_row_ok g s a d f : wf g -> core g s a -> off a = 0 ->
  0 <= d < rows g -> 0 <= f < rows g ->
  exists s', copy_row g d f s = Some s' /\ core g s' (a_rows g a (to1 d (Some f))) /\
    disp s' = disp s.
Proof.
  move=> W H O Hd Hf. rewrite /copy_row.
  case: (Z.eqb_spec d f) => [-> | N].
  { exists s. split; first done. split; last done. apply (core_same _ _ _ _ H).
    constructor => //=.
    - move=> n j Hn Hj. case X: (_ && _) => //. rewrite /to1 /scrn.
      case: (Z.eqb_spec (n - top a) f) => [<- | _]; f_equal; lia.
    - move=> i j Hi. rewrite /to1. by case: (Z.eqb_spec i f) => [-> | _]. }
  have -> : (0 <=? d) && (d <? rows g) && (0 <=? f) && (f <? rows g) = true.
  { rewrite !andb_true_iff !Z.leb_le !Z.ltb_lt. lia. }
  eexists. split; first reflexivity. split; last by rewrite /set_tabs; case: (alt _).
  have R := core_row g s a d (fun j => buf s (j + brow g s f)) (fun j => scrn a f j)
    (fun j => tabs s (j + f * cols g)) (fun j => tb a f j) W H Hd O.
  apply: (core_same _ _ _ _ (R _ _ _)).
  - move=> j Hj. rewrite (brow_eq _ _ _ _ W H Hf) O /scrn Z.add_comm.
    have -> : top a - 0 + f = top a + f by lia.
    apply (k_buf _ _ _ H) => //. have := off_max0 _ _ _ H. lia.
  - move=> j Hj. rewrite Z.add_comm. by apply (k_tb _ _ _ H).
  - move=> j Hj. by apply (k_tbb _ _ _ H).
  - constructor => //=; rewrite /to1.
    + move=> n j Hn Hj. case: (_ && _) => //. by case: (_ =? d).
    + move=> i j Hi. by case: (_ =? d).
Qed.

Lemma buf_clear_row_ok g s a d : wf g -> core g s a -> off a = 0 -> 0 <= d < rows g ->
  exists s', buf_clear_row g d s = Some s' /\ core g s' (a_rows g a (to1 d None)) /\
    disp s' = disp s.
Proof.
  move=> W H O Hd. rewrite /buf_clear_row.
  have -> : (0 <=? d) && (d <? rows g) = true by rewrite andb_true_iff Z.leb_le Z.ltb_lt; lia.
  eexists. split; first reflexivity. split; last by rewrite /set_tabs; case: (alt _).
  have R := core_row g s a d (fun j => blank) (fun j => blank) (fun j => 0) (fun j => 0) W H Hd O.
  apply: (core_same _ _ _ _ (R _ _ _)) => //.
  - move=> j Hj. lia.
  - constructor => //=; rewrite /to1.
    + move=> n j Hn Hj. case: (_ && _) => //. by case: (_ =? d).
    + move=> i j Hi. by case: (_ =? d).
Qed.
