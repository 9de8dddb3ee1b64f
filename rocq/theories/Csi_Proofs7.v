(** Text at a position. *)
From Coq Require Import ssreflect.
From Verif Require Import Lib Itoa_Spec Term_Model Term_Spec
  Csi_Model Csi_Spec Csi_Proofs Csi_Proofs4 Csi_Proofs5.

Definition drawn (g : cfg) (a : ab) (y x : Z) (t : list Z) (k : Z) (a' : ab) : Prop :=
  (forall i j, 0 <= i < rows g ->
     scrn a' i j = if (i =? y) && (x <=? j) && (j <? x + zlen t)
                   then entry (nth (Z.to_nat (j - x)) t 0) k else scrn a i j) /\
  ar a' = y /\ ac a' = x + zlen t /\ off a' = off a /\ top a' = top a /\ aon a' = aon a.

Lemma draw_run g mem v t : wf g -> a_one v = false -> a_gx0 v = false ->
  Forall (fun c => 32 <= c < 127) t ->
  forall a, 0 <= ar a < rows g -> 0 <= ac a -> ac a + zlen t <= cols g -> off a = 0 ->
  top a + rows g + 1 < 2 ^ 32 ->
  vmays g mem a v (map QByte t) /\
  forall a' v' rp, vruns g mem a v (map QByte t) a' v' rp ->
    v' = v /\ rp = [] /\ drawn g a (ar a) (ac a) t (shown v) a'.
Proof.
  move=> W V1 V2. elim=> [| c t' C _ IH] a R X L O T.
  - split; first done. move=> a' v' rp [-> [-> ->]]. do 2 (split; first done).
    rewrite /drawn. change (zlen (@nil Z)) with 0. rewrite Z.add_0_r.
    split; last by []. move=> i j _.
    by have -> : (i =? ar a) && (ac a <=? j) && (j <? ac a) = false by zb; lia.
  - have LL : zlen (c :: t') = 1 + zlen t' by rewrite /zlen; cbn [length]; lia.
    have L0 : 0 <= zlen t' by rewrite /zlen; lia.
    have EM : mean g mem a v (QByte c) = (v, [IChar c (shown v)], []).
    { rewrite /mean /mean_byte /text V1 V2.
      by have -> : (32 <=? c) && (c <? 127) = true by zb; lia. }
    set a1 := a_put g a (entry c (shown v)).
    have EX : forall kk, a_exec g kk a (IChar c (shown v)) = a1.
    { move=> kk. rewrite /a_exec /a_char.
      have -> : (c =? 10) = false by apply/Z.eqb_neq; lia.
      have -> : (c =? 13) = false by apply/Z.eqb_neq; lia.
      have -> : (c =? 9) = false by apply/Z.eqb_neq; lia.
      by have -> : (ac a =? cols g) = false by apply/Z.eqb_neq; lia. }
    have A1 : forall a2, aruns g a (map OItem [IChar c (shown v)]) a2 -> a2 = a1.
    { move=> a2 [a3 [[kk [_ ->]] ->]]. exact: EX. }
    have S1 : forall i j, 0 <= i < rows g ->
      scrn a1 i j = if (i =? ar a) && (j =? ac a) then entry c (shown v) else scrn a i j.
    { move=> i j I. rewrite /a1 /a_put /a_cells /scrn /=.
      have -> : (top a <=? top a + i) && (top a + i <? top a + rows g) = true by zb; lia.
      have -> : top a + i - top a = i by lia.
      have -> : (i =? ar a) && (ac a <=? j) && (j <? ac a + 1) = (i =? ar a) && (j =? ac a) by zb; lia.
      by []. }
    have [F1 F2] : ar a1 = ar a /\ ac a1 = ac a + 1 by [].
    have [I1 I2] := IH a1 R ltac:(rewrite F2; lia) ltac:(rewrite F2; lia) O T.
    split.
    + cbn [map vmays]. rewrite EM. split.
      { split; first lia. split; first lia. lia. }
      split; last by (move=> a2 /A1 ->).
      cbn. split; last by []. split; first exact: T. split; first done. split; lia.
    + cbn [map vruns]. rewrite EM. move=> a' v' rp [a2 [r2 [/A1 -> [VR ->]]]].
      have [-> [-> [D [D1 [D2 [D3 [D4 D5]]]]]]] := I2 _ _ _ VR.
      do 2 (split; first done). rewrite F1 F2 in D D1 D2.
      split; last by rewrite D1 D2 D3 D4 D5 LL; do 2 (split; first (try done; lia)).
      move=> i j I. rewrite (D i j I) (S1 i j I) LL.
      case: (Z.eqb_spec i (ar a)) => Y; last by cbn [andb]. cbn [andb].
      case: (Z.eqb_spec j (ac a)) => J.
      * subst j. have -> : (ac a + 1 <=? ac a) = false by apply/Z.leb_gt; lia.
        have -> : (ac a <=? ac a) && (ac a <? ac a + (1 + zlen t')) = true by zb; lia.
        cbn [andb]. by rewrite Z.sub_diag.
      * case: (Z.leb_spec (ac a + 1) j) => J1; cbn [andb].
        -- have -> : (ac a <=? j) = true by apply/Z.leb_le; lia.
           have -> : (j <? ac a + (1 + zlen t')) = (j <? ac a + 1 + zlen t') by f_equal; lia.
           cbn [andb].
           by have -> : Z.to_nat (j - ac a) = S (Z.to_nat (j - (ac a + 1))) by lia.
        -- by have -> : (ac a <=? j) = false by apply/Z.leb_gt; lia.
Qed.

Lemma draw_at g w mem x s a v rep ds es t :
  wf g -> 32 <= w -> corr g s a -> ccorr g x v -> off a = 0 -> top a + rows g + 1 < 2 ^ 32 ->
  a_one v = false -> a_gx0 v = false -> Forall (fun c => 32 <= c < 127) t ->
  Forall (fun d => 0 <= d < 10) ds -> Forall (fun d => 0 <= d < 10) es ->
  1 <= value ds <= rows g -> 1 <= value es -> value es - 1 + zlen t <= cols g -> value es <= cols g ->
  zlen ds + zlen es < 63 ->
  exists x' s', feed g w mem (Vt x s (shown v) rep)
      ([27; 91] ++ map (Z.add 48) ds ++ [59] ++ map (Z.add 48) es ++ [72] ++ t) =
      Some (Vt x' s' (shown v) rep) /\ ccorr g x' v /\
    r s' = value ds - 1 /\ c s' = value es - 1 + zlen t /\
    (on s = true -> forall i j, 0 <= i < rows g -> 0 <= j < cols g ->
       disp s' (i * cols g + j) =
         if (i =? value ds - 1) && (value es - 1 <=? j) && (j <? value es - 1 + zlen t)
         then entry (nth (Z.to_nat (j - (value es - 1))) t 0) (shown v)
         else disp s (i * cols g + j)).
Proof.
  move=> W Ww CO CC O T V1 V2 FT FD FE VD VE VL VC LB.
  have [W1 [W2 [W3 [W4 _]]]] := W.
  set l := QCsi false [ds; es] 72 :: map QByte t.
  have FM : forall (t : list Z), flat_map bytes (map QByte t) = t.
  { elim=> [| d t' IH] //=. by rewrite IH. }
  have EL : flat_map bytes l = [27; 91] ++ map (Z.add 48) ds ++ [59] ++ map (Z.add 48) es ++ [72] ++ t.
  { rewrite /l. cbn [flat_map]. rewrite FM. cbn [bytes ptext join]. rewrite -!app_assoc. by []. }
  have EM : mean g mem a v (QCsi false [ds; es] 72) = (v, [IMove (value ds - 1) (value es - 1)], []).
  { rewrite /mean /mean_csi /vals /=.
    have -> : (value ds =? 0) = false by apply/Z.eqb_neq; lia.
    have -> : (value es =? 0) = false by apply/Z.eqb_neq; lia.
    have -> : Z.min (value ds) (rows g) = value ds by lia.
    by have -> : Z.min (value es) (cols g) = value es by lia. }
  set a1 := a_cur a (value ds - 1) (value es - 1).
  have A1 : forall a2, aruns g a (map OItem [IMove (value ds - 1) (value es - 1)]) a2 -> a2 = a1.
  { move=> a2 [a3 [[kk [_ ->]] ->]]. rewrite /= /a_move /clamp /a1. f_equal; lia. }
  have [M1 M2] := draw_run g mem v t W V1 V2 FT a1 ltac:(cbn; lia) ltac:(cbn; lia) ltac:(cbn; lia) O T.
  have MY : vmays g mem a v l.
  { rewrite /l. cbn [vmays]. rewrite EM. split; last split.
    - split; first lia. split; first by rewrite /zlen /=; lia. split.
      { rewrite /ptext /zlen. cbn [app join]. rewrite app_length. cbn [length]. rewrite !map_length.
        rewrite /zlen in LB. lia. }
      split; last by (move=> _; rewrite /arg_ok /=; lia).
      constructor; [split; first exact: FD; lia |]. constructor; [split; first exact: FE; lia |].
      by constructor.
    - cbn. split; last by []. split; first exact: T. by [].
    - move=> a2 /A1 ->. exact: M1. }
  have [x' [s' [a' [v' [rp [F [VR [C' CC']]]]]]]] := stream_ok g w mem l x s a v rep W Ww CO CC MY.
  move: VR. rewrite /l. cbn [vruns]. rewrite EM. move=> [a2 [r2 [/A1 -> [VR RP]]]].
  have [EV [ER [D [D1 [D2 [D3 [D4 D5]]]]]]] := M2 _ _ _ VR. subst v' r2 rp.
  exists x', s'. rewrite -EL F !app_nil_r. split; first done. split; first exact: CC'.
  move: C' CO => [K' DI'] [K DI].
  split; first by rewrite (k_r _ _ _ K') D1. split; first by rewrite (k_c _ _ _ K') D2.
  move=> ON i j I J.
  have AN : aon a = true by rewrite -(k_on _ _ _ K).
  have OF : off a' = 0 by rewrite D3.
  rewrite DI'; [by rewrite D5 | by split |]. rewrite OF Z.sub_0_r -/(scrn a' i j) (D i j I).
  rewrite DI //. rewrite O Z.sub_0_r. by [].
Qed.
