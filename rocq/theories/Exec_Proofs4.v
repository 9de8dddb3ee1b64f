(** Only complete first lines run. *)
From Coq Require Import ssreflect.
From Verif Require Import Lib User_Model User_Spec Exec_Model Exec_Spec Exec_Proofs2 Exec_Proofs3.

Lemma get_nil (pre : list Z) : aget pre (zlen pre) = None.
Proof. rewrite /aget /zlen Nat2Z.id. case: (0 <=? _) => //. by apply/nth_error_None. Qed.

Lemma skip_inv fuel : forall pre t q, skip_sp fuel (pre ++ t) (zlen pre) = Some q ->
  exists k x t', t = repeat 32 k ++ x :: t' /\ x <> 32 /\ q = zlen pre + Z.of_nat k.
Proof.
  elim: fuel => [| fuel IH] pre t q //. cbn [skip_sp]. case: t => [| b t].
  - rewrite app_nil_r. by rewrite get_nil.
  - rewrite agetp //. case: (Z.eqb_spec b 32) => B.
    + have E : pre ++ b :: t = (pre ++ [b]) ++ t by rewrite -app_assoc.
      have L : zlen pre + 1 = zlen (pre ++ [b]) by rewrite zlen_app.
      rewrite E L => /IH [k [x [t' [-> [X ->]]]]]. exists (S k), x, t'. rewrite B. do 2 (split; first done). rewrite zlen_app. change (zlen [32]) with 1. lia.
    + move=> [<-]. exists O, b, t. do 2 (split; first done). cbn. lia.
Qed.

Lemma scan_inv2 x fuel : forall pre t hd h' l', scan fuel (pre ++ t) hd (zlen pre) (Some x) = Line h' l' ->
  exists a t', t = a ++ 10 :: t' /\ Forall argc_ a.
Proof.
  elim: fuel => [| fuel IH] pre t hd h' l' //. cbn [scan]. case: t => [| b t].
  - by rewrite app_nil_r get_nil.
  - rewrite agetp //. case: (Z.eqb_spec b 0) => //= B0. case: (Z.leb_spec (hd + hsize) (zlen pre)) => // _.
    rewrite Bool.andb_false_r. rewrite agetp //. case: (Z.eqb_spec b 10) => B1.
    + move=> _. exists [], t. by rewrite B1; split; last constructor.
    + have E : pre ++ b :: t = (pre ++ [b]) ++ t by rewrite -app_assoc.
      have L : zlen pre + 1 = zlen (pre ++ [b]) by rewrite zlen_app.
      rewrite E L => /IH [a [t' [-> F]]]. exists (b :: a), t'. split => //. by constructor.
Qed.

Lemma scan_inv fuel : forall pre t hd h' l', scan fuel (pre ++ t) hd (zlen pre) None = Line h' l' ->
  exists w arg t', t = w ++ (match arg with None => [] | Some a => 32 :: a end) ++ 10 :: t' /\ Forall wordc w /\
    (forall y a, arg = Some (y :: a) -> y <> 10 /\ Forall argc_ a).
Proof.
  elim: fuel => [| fuel IH] pre t hd h' l' //. cbn [scan]. case: t => [| b t].
  - by rewrite app_nil_r get_nil.
  - rewrite agetp //. case: (Z.eqb_spec b 0) => //= B0. case: (Z.leb_spec (hd + hsize) (zlen pre)) => // _.
    have E : forall z, pre ++ z :: t = (pre ++ [z]) ++ t by move=> z; rewrite -app_assoc.
    have L : forall z, zlen pre + 1 = zlen (pre ++ [z]) by move=> z; rewrite zlen_app.
    case: (Z.eqb_spec b 32) => B2; cbn [andb].
    + rewrite asetp // E (L 0). case: t E L => [| y t] E L; first by rewrite app_nil_r get_nil.
      rewrite agetp //. case: (Z.eqb_spec y 10) => Y.
      * move=> _. exists [], (Some []), t. subst b y. split; first done. split; first constructor. move=> y a Q. discriminate.
      * have L2 : zlen (pre ++ [0]) + 1 = zlen ((pre ++ [0]) ++ [y]) by rewrite (zlen_app (pre ++ [0])).
        have E2 : (pre ++ [0]) ++ y :: t = ((pre ++ [0]) ++ [y]) ++ t by rewrite -!app_assoc.
        rewrite E2 L2. move=> SC.
        have [a [t' [TE F]]] := scan_inv2 _ _ _ _ _ _ _ SC.
        exists [], (Some (y :: a)), t'. subst b t. split => //. split; first constructor. by move=> y' a' [<- <-].
    + rewrite agetp //. case: (Z.eqb_spec b 10) => B1.
      * move=> _. exists [], None, t. subst b. split; first done. split; first constructor. move=> y a Q. discriminate.
      * rewrite E (L b) => /IH [w [arg [t' [-> [F FA]]]]]. exists (b :: w), arg, t'. split => //. split => //. by constructor.
Qed.

(** The header: the bytes before the terminator *)
Lemma before_last (h l t : list Z) : zlen h = hsize -> aset h (hsize - 1) 0 = Some (l ++ 10 :: t) ->
  exists t', h = l ++ 10 :: t' /\ zlen (l ++ [10]) < hsize.
Proof.
  move=> H. have [p [x [s [E L]]]] := list_split_at h (hsize - 1) ltac:(rewrite H /hsize; lia).
  have S0 : s = [].
  { rewrite E zlen_app zlen_cons in H. have := zlen_nonneg s. case: (s) H => [| y s'] H // _.
    rewrite zlen_cons in H. have := zlen_nonneg s'. lia. }
  rewrite E asetp // S0 => [[EQ]].
  have [t0 [x0 ET]] : exists t0 x0, 10 :: t = t0 ++ [x0] by have [t0 [x0 ->]] := exists_last (l := 10 :: t) ltac:(done); exists t0, x0.
  have EQ2 : p ++ [0] = (l ++ t0) ++ [x0] by rewrite EQ ET -app_assoc.
  have [EP EX] := app_inj_tail _ _ _ _ EQ2.
  case: t0 ET EP {EQ2} => [| y t1] ET EP; first by move: ET => [? _]; lia.
  move: ET => [? _]. subst y. exists (t1 ++ [x]). rewrite EP -app_assoc. split; first done.
  move: L. rewrite EP !zlen_app zlen_cons. change (zlen [10]) with 1. have := zlen_nonneg t1. lia.
Qed.

Lemma script_only hb h row path argv h' row' : zlen h = hsize -> znth 0 h 0 = 35 -> znth 0 h 1 = 33 ->
  handle_script hb h row path argv = SRun h' row' ->
  exists k interp arg rest, h = line k interp arg ++ rest /\ zlen (line k interp arg) < hsize /\
    Forall (fun b => b <> 0 /\ b <> 10 /\ b <> 32) interp /\
    (forall y a, arg = Some (y :: a) -> y <> 10 /\ Forall (fun b => b <> 0 /\ b <> 10) a).
Proof.
  move=> H M0 M1. rewrite /handle_script.
  case A: (aset h (hsize - 1) 0) => [h1 |] //. case: (nargs argv 40 0) => [n |] //.
  have [t1 E1] : exists t1, h1 = [35; 33] ++ t1.
  { case: h H M0 M1 A => [| b0 [| b1 h2]] H M0 M1 A; try by vm_compute in H.
    change (znth 0 (b0 :: b1 :: h2) 0) with b0 in M0. change (znth 0 (b0 :: b1 :: h2) 1) with b1 in M1. subst b0 b1.
    have [p [x [s [E L]]]] := list_split_at (35 :: 33 :: h2) (hsize - 1) ltac:(rewrite H /hsize; lia).
    move: A. rewrite E asetp // => [[<-]].
    case: p E L => [| q0 [| q1 p]] E L; [by vm_compute in L | by vm_compute in L |]. move: E => [<- <- _]. by exists (p ++ 0 :: s). }
  rewrite E1. change 2 with (zlen [35; 33]). case SK: (skip_sp 200 ([35; 33] ++ t1) (zlen [35; 33])) => [q |] //.
  have [k [x [t2 [E2 [X EQ]]]]] := skip_inv _ _ _ _ SK.
  case: (Z.eqb_spec (znth 0 ([35; 33] ++ t1) q) 0) => // _.
  have LQ : q = zlen ([35; 33] ++ repeat 32 k) by rewrite zlen_app /(zlen (repeat 32 k)) repeat_length.
  have EH : [35; 33] ++ t1 = ([35; 33] ++ repeat 32 k) ++ x :: t2 by rewrite E2 -app_assoc.
  rewrite EH LQ. case SC: (scan _ _ _ _ _) => [| | h2 l] // _.
  have [w [arg [t3 [E3 [F FA]]]]] := scan_inv _ _ _ _ _ _ SC.
  have EL : h1 = ([35; 33] ++ repeat 32 k ++ w ++ (match arg with None => [] | Some a => 32 :: a end)) ++ 10 :: t3.
  { rewrite E1 EH E3 -!app_assoc. by []. }
  rewrite EL in A. have [t4 [E4 L4]] := before_last _ _ _ H A.
  exists k, w, arg, t4. split; first by rewrite E4 /line -!app_assoc.
  split; first by move: L4; rewrite /line -!app_assoc. by split.
Qed.
