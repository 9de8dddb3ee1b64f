(** Proofs: kfree. *)
From Coq Require Import Permutation.
From Verif Require Import Lib Bits Buddy_Model Buddy_Spec Buddy_Proofs Gk_Model Gk_Spec Gk_Proofs Gk_Proofs2 Gk_Proofs3 Gk_Proofs4 Gk_Proofs5.
From Coq Require Import ssreflect.

Lemma fop_dec {A} (f : A -> block) l x y : ForallOrdPairs disjoint (map f l) -> In x l -> In y l -> x = y \/ disjoint (f x) (f y).
Proof.
  elim: l => [//|z l IH] H. cbn in H. inversion H as [|? ? F1 F2]; subst. move/Forall_forall: F1 => F1. case => [<-|Ix]; case => [<-|Iy].
  - by left.
  - right. apply: F1. by apply: in_map.
  - right. apply: disjoint_sym. apply: F1. by apply: in_map.
  - by apply: IH.
Qed.
Lemma cl_drop cl p q : NoDup (map fst cl) -> In (p, q) cl -> Permutation cl ((p, q) :: filter (fun x : Z * Z => negb (fst x =? p)) cl).
Proof.
  elim: cl => [//|[a b] cl IH] N I. cbn [map fst] in N. inversion N as [|? ? N1 N2]; subst. cbn [filter fst].
  case: I => [[Ea Eb]|I].
  - subst a b. rewrite Z.eqb_refl /=. apply: perm_skip. have -> // : filter (fun x : Z * Z => negb (fst x =? p)) cl = cl. clear -N1.
    elim: cl N1 => [//|[c d] cl IH] N1. cbn. have -> : (c =? p) = false by (apply Z.eqb_neq => E; apply: N1; left). cbn. rewrite IH //. move => I. apply: N1. by right.
  - have -> : (a =? p) = false. { apply Z.eqb_neq => E. subst a. apply: N1. apply/in_map_iff. by exists (p, q). }
    cbn [negb]. apply: Permutation_trans; first by apply: perm_skip (IH N2 I). apply: perm_swap.
Qed.
Lemma split_cl cl : Permutation cl (filter big cl ++ filter small cl).
Proof.
  elim: cl => [//|[a q] cl IH]. rewrite filter_big_cons filter_small_cons. case: (SMAX <? q); first by cbn; apply: perm_skip.
  apply: Permutation_trans; first by apply: perm_skip IH. apply: Permutation_middle.
Qed.
(** Everything the callers and the allocator have *)
Lemma inv_fop W me s cl gm gs : Inv W me s cl gm gs ->
  ForallOrdPairs disjoint ((map gmd gm ++ map blk (filter big cl) ++ map nod gs) ++ map smd gs ++ map blk (filter small cl)).
Proof.
  move => [_ _ Im Is _ _ _ _]. have F := main_fop _ _ _ Im.
  set A := map gmd gm in F *. set B := map blk (filter big cl) in F *.
  have F' : ForallOrdPairs disjoint ((A ++ B ++ map nod gs) ++ map chunk gs).
  { apply: fop_perm F. rewrite -!app_assoc. do 2 apply: Permutation_app_head. apply: Permutation_app_comm. }
  apply: fop_app.
  - by move/fop_sub1: F' => [? _].
  - by apply: small_fop Is.
  - move => x y Hx Hy. have [g [Ig [R1 [R2 R3]]]] := small_in _ _ _ Is y Hy.
    have := fop_in _ _ x (chunk g) F' Hx (in_map _ _ _ Ig). rewrite /disjoint /chunk. rewrite /gb in R1 R2. cbn [fst snd].
    lia.
Qed.
Lemma inv_clients W me s cl gm gs : Inv W me s cl gm gs -> ForallOrdPairs disjoint ((map gmd gm ++ map smd gs ++ map nod gs) ++ map blk cl).
Proof.
  move => I. apply: fop_perm (inv_fop _ _ _ _ _ _ I).
  have P : Permutation (map blk cl) (map blk (filter big cl) ++ map blk (filter small cl)) by rewrite -map_app; apply: Permutation_map; apply: split_cl.
  rewrite P -!app_assoc. apply: Permutation_app_head.
  set A := map blk _. set B := map nod gs. set C := map smd gs. set D := map blk _.
  apply: (Permutation_trans (l' := A ++ C ++ B ++ D)); first by (apply: Permutation_app_head; apply: Permutation_app_swap_app).
  apply: Permutation_trans; first apply: Permutation_app_swap_app. apply: Permutation_app_head. apply: Permutation_app_swap_app.
Qed.
Lemma inv_nd W me s cl gm gs : Inv W me s cl gm gs -> NoDup (map fst cl).
Proof.
  move => I. have F := inv_clients _ _ _ _ _ _ I. move/fop_sub1: F => [_ F]. have Ic := i_cl _ _ _ _ _ _ I. apply: (fop_nodup blk) F.
  move => [a q] Hx. move/Forall_forall: Ic => Ic. have := Ic _ Hx. cbn [snd] => Q. have := reserved_ge q Q. rewrite /blk. cbn [snd]. lia.
Qed.

Lemma small_range W gs rest g p : smallok W gs rest -> In g gs -> contains (gx g) p = (gb g <=? p) && (p <=? gb g + SSIZE - 32).
Proof.
  move => S Ig. have [g1 [g2 E]] := split_in _ _ Ig. subst gs. have [_ [Hs [Hm _]]] := mem_upd _ _ _ _ _ S. by rewrite /contains Hs Hm.
Qed.
Lemma find_p W gs rest g p : smallok W gs rest -> In g gs -> gb g <= p <= gb g + SSIZE - 32 -> List.find (fun x => contains x p) (map gx gs) = Some (gx g).
Proof.
  move => S Ig R. have D := s_d _ _ _ S.
  have X : forall t, (forall g', In g' t -> In g' gs) -> In g t -> List.find (fun x => contains x p) (map gx t) = Some (gx g).
  { elim => [//|z t IH] Sub It. cbn [map List.find]. have Iz : In z gs by apply: Sub; left. rewrite (small_range _ _ _ _ p S Iz).
    case: (fop_dec chunk gs z g D Iz Ig) => [->|Dj].
    - have -> // : (gb g <=? p) && (p <=? gb g + SSIZE - 32) = true by lia.
    - have -> : (gb z <=? p) && (p <=? gb z + SSIZE - 32) = false. { move: Dj. rewrite /disjoint /chunk -!/(gb _) /SSIZE. rewrite /SSIZE in R. cbn [fst snd]. lia. }
      apply: IH; first by (move => g' H; apply: Sub; right). case: It => [E|//]. subst z. move: Dj. rewrite /disjoint /chunk /SSIZE. cbn [fst snd]. lia. }
  by apply: X.
Qed.
Lemma find_no W gs rest p : smallok W gs rest -> (forall g, In g gs -> p < gb g \/ gb g + SSIZE <= p) -> List.find (fun x => contains x p) (map gx gs) = None.
Proof.
  move => S H. have X : forall t, (forall g', In g' t -> In g' gs) -> List.find (fun x => contains x p) (map gx t) = None; last by apply: X.
  elim => [//|z t IH] Sub. cbn [map List.find]. have Iz : In z gs by apply: Sub; left. rewrite (small_range _ _ _ _ p S Iz).
  have -> : (gb z <=? p) && (p <=? gb z + SSIZE - 32) = false by (have := H z Iz; lia). apply: IH => g' H'. apply: Sub. by right.
Qed.
Lemma filter_cl (f : Z * Z -> bool) cl p q cl' : Permutation cl ((p, q) :: cl') -> Permutation (filter f cl) (if f (p, q) then (p, q) :: filter f cl' else filter f cl').
Proof. exact: (filter_perm f). Qed.

Lemma free_big W me s cl gm gs p q u : Inv W me s cl gm gs -> In (p, q) cl -> SMAX < q -> u = 0 \/ u = q ->
  exists s' gm', gen_free me s p u = Some s' /\ map shape gm' = map shape gm /\ Inv W me s' (filter (fun x => negb (fst x =? p)) cl) gm' gs.
Proof.
  move => I Ip L U. have N := inv_nd _ _ _ _ _ _ I. have P := cl_drop _ _ _ N Ip. move: (I) => [Im Is Imain Ismall Icl Iav Ie Ime].
  set cl' := filter _ cl in P *. have Pb := filter_cl big _ _ _ _ P. have Ps := filter_cl small _ _ _ _ P.
  have Bq : big (p, q) = true by (rewrite /big; cbn; lia). rewrite /small Bq in Ps. cbn [negb] in Ps. rewrite Bq in Pb.
  have Pr : Permutation (map blk (filter big cl) ++ map chunk gs ++ map nod gs) ((p, reserved q) :: map blk (filter big cl') ++ map chunk gs ++ map nod gs).
  { change ((p, reserved q) :: map blk (filter big cl') ++ map chunk gs ++ map nod gs) with (map blk ((p, q) :: filter big cl') ++ map chunk gs ++ map nod gs).
    apply: Permutation_app_tail. by apply: Permutation_map. }
  have Q0 : 0 < q by (rewrite /SMAX in L; lia).
  have Rq := reserved_big q (mk_cfg W 11 0) (eq_refl _) L. move: Rq => [_ Rq]. change (minimum (mk_cfg W 11 0)) with 2048 in Rq.
  have Ug : u = 0 \/ (0 < u <= reserved q /\ 2 ^ Z.log2_up (Z.max u 2048) = reserved q).
  { case: U => ->; [by left|right]. have := reserved_ge q Q0. split => //. }
  have [gm' [E [Sh K]]] := mainok_free _ _ _ p (reserved q) u _ Imain Pr Ug. rewrite Im in E.
  have I2 := mainok_perm _ _ _ _ Imain Pr.
  have [P0 _] := main_in _ _ _ I2 (p, reserved q) ltac:(by apply in_app_iff; right; left). cbn [fst] in P0.
  have Fn : List.find (fun x => contains x p) (smalls s) = None.
  { rewrite -Is. apply: find_no Ismall _ => g Ig. have F := main_fop _ _ _ I2. move/fop_sub1: F => [_ F]. inversion F as [|? ? F1 _]; subst.
    move/Forall_forall: F1 => F1. have := F1 (chunk g) ltac:(by apply in_app_iff; right; apply in_app_iff; left; apply: in_map).
    have := reserved_ge q Q0. rewrite /disjoint /chunk /gb. cbn [fst snd]. lia. }
  eexists; exists gm'. split; last (split; first exact Sh).
  - rewrite /gen_free E /small_free Fn. have -> : (p =? 0) = false by lia. case: U => ->; first by [].
    have -> : negb (q =? 0) = true by lia. by have -> : (q <=? SMAX) = false by lia.
  - constructor => //.
    + apply: small_perm Ismall _. apply: Permutation_map. exact Ps.
    + apply: incl_Forall Icl. by move => x /filter_In [].
Qed.
