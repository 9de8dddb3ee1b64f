(** Proofs: lists of heaps. *)
From Coq Require Import Permutation.
From Verif Require Import Lib Bits Buddy_Model Buddy_Spec Buddy_Proofs Gk_Model Gk_Spec Gk_Proofs.
From Coq Require Import ssreflect.

(** A heap with its blocks *)
Record gi := Gi { gx : hp; gc : cfg; gl : list block }.
Definition okg (g : gi) : Prop := okh (gc g) (bh (gx g)) (gl g).
Definition sh (b : Z) (r : block) : block := (b + fst r, snd r).
Definition absl (g : gi) : list block := map (sh (base (gx g))) (gl g).
Definition shape (g : gi) := (base (gx g), dma (gx g), node (gx g), gc g).
Definition all (l : list gi) : list block := flat_map absl l.
Definition gregion (g : gi) : block := (base (gx g), total (gc g)).
Definition stuck (g : gi) (size : Z) : Prop := total (gc g) < size \/ crowded (gc g) (gl g) (block_of (gc g) size).

Lemma disjoint_sym b r : disjoint b r -> disjoint r b.
Proof. rewrite /disjoint. tauto. Qed.
Lemma block_of_ge c size : 0 < size -> size <= block_of c size.
Proof. move => H. rewrite /block_of. have := Z.log2_up_spec size. destruct (Z.eq_dec size 1) as [->|]; first by (change (2 ^ Z.log2_up 1) with 1; lia). lia. Qed.

(** Less room than asked for: no free range *)
Lemma no_room c h l size : okh c h l -> 0 < size -> hsize h - mem h < size -> total c < size \/ crowded c l (block_of c size).
Proof.
  move => O S L. have [_ [Hs _]] := okh_conf _ _ _ O. have [h' [r [E K]]] := one_alloc c h l size O S.
  case: r E K => [[a b]|] E K; last by apply K.
  move: K => [[G R] B]. have M := mem_bounds _ _ _ G R. rewrite (reach_exact _ _ _ G R) in M.
  have M0 := reach_exact _ _ _ G (proj2 O). cbn [sum_sizes fold_right] in M. cbn [snd] in M.
  change (fold_right _ 0 l) with (sum_sizes l) in M. have := block_of_ge c size S. lia.
Qed.

Lemma try_main_ok (d : bool) (gm : list gi) (size : Z) : Forall okg gm -> 0 < size ->
  exists gm' r, try_main d (map gx gm) size = Some (map gx gm', r) /\ Forall okg gm' /\ map shape gm' = map shape gm /\
  match r with
  | None => all gm' = all gm /\ Forall (fun g => dma (gx g) = d -> stuck g size) gm' /\ map gl gm' = map gl gm
  | Some (a, b) => Permutation (all gm') ((a, b) :: all gm) /\
      exists g, In g gm /\ b = block_of (gc g) size
  end.
Proof.
  move => H S. elim: gm H => [|g gm IH] H.
  { by exists [], None. }
  inversion H as [|? ? Og Ogm]; subst. have [gm' [r [E [O [Sh K]]]]] := IH Ogm.
  have [_ [Hs _]] := okh_conf _ _ _ Og.
  cbn [map try_main]. rewrite E.
  destruct ((hsize (bh (gx g)) <? size) || (hsize (bh (gx g)) - mem (bh (gx g)) <? size) || negb (Bool.eqb (dma (gx g)) d)) eqn:C.
  - exists (g :: gm'), r. split => //. split; first by constructor. split; first by (cbn; rewrite Sh).
    case: r E K => [[a b]|] E K.
    + move: K => [P [g0 [I B]]]. split.
      * cbn [all flat_map]. change (flat_map absl gm) with (all gm). change (flat_map absl gm') with (all gm').
        rewrite P. apply: Permutation_sym. apply Permutation_middle.
      * exists g0. split => //. by right.
    + move: K => [P [F L]]. split; first by (cbn; by rewrite /all in P; rewrite P). split; last by (cbn; rewrite L).
      constructor => // Dg. rewrite /stuck.
      destruct (Z.ltb_spec (hsize (bh (gx g))) size) as [?|?]; first by (left; lia).
      destruct (Z.ltb_spec (hsize (bh (gx g)) - mem (bh (gx g))) size) as [W|?]; first by apply: no_room Og S W.
      rewrite Dg Bool.eqb_reflx in C. done.
  - have [h' [r1 [E1 K1]]] := one_alloc _ _ _ size Og S. rewrite E1.
    case: r1 E1 K1 => [[a b]|] E1 [O1 B1].
    + exists (Gi (set_h (gx g) h') (gc g) ((a, b) :: gl g) :: gm), (Some (base (gx g) + a, b)).
      split => //. split; first by constructor. split => //. split; first by []. exists g. split => //. by left.
    + exists (Gi (set_h (gx g) h') (gc g) (gl g) :: gm'), r. split => //. split; first by constructor.
      split; first by (cbn; rewrite Sh).
      case: r E K => [[a b]|] E K.
      * move: K => [P [g0 [I B]]]. split.
        -- cbn [all flat_map]. change (flat_map absl gm) with (all gm). change (flat_map absl gm') with (all gm').
           rewrite P. apply: Permutation_sym. apply Permutation_middle.
        -- exists g0. split => //. by right.
      * move: K => [P [F L]]. split; first by (cbn; by rewrite /all in P; rewrite P). split; last by (cbn; rewrite L).
        by constructor.
Qed.

Definition in_region (g : gi) (p b : Z) : Prop := base (gx g) <= p /\ p + b <= base (gx g) + total (gc g).
Lemma all_in gm p b : Forall okg gm -> In (p, b) (all gm) -> exists g, In g gm /\ In (p - base (gx g), b) (gl g) /\ in_region g p b /\ minimum (gc g) <= b.
Proof.
  move => F /in_flat_map [g [Ig Ib]]. move/in_map_iff: Ib => [[a c] [E I]]. rewrite /sh in E. cbn [fst snd] in E. case: E => Ea Ec.
  exists g. move/Forall_forall: F => F. have [_ [R _]] := okh_perm_facts _ _ _ (F _ Ig). have := R _ I. cbn [fst snd].
  subst. split => //. rewrite /in_region. have -> : base (gx g) + a - base (gx g) = a by lia. split => //. lia.
Qed.

Lemma main_free_ok (gm : list gi) (p b u : Z) :
  Forall okg gm -> Forall (fun g => (minimum (gc g) | base (gx g))) gm -> ForallOrdPairs disjoint (map gregion gm) ->
  In (p, b) (all gm) -> (forall g, In g gm -> b <> total (gc g) \/ p <> base (gx g)) ->
  (u = 0 \/ forall g, In g gm -> 0 < u <= b /\ 2 ^ Z.log2_up (Z.max u (minimum (gc g))) = b) ->
  exists gm', main_free (map gx gm) p u = Some (Some (map gx gm')) /\ Forall okg gm' /\ map shape gm' = map shape gm /\
    Permutation (all gm) ((p, b) :: all gm').
Proof.
  elim: gm => [|g gm IH] F A D I N U; first by [].
  inversion F as [|? ? Og Ogm]; subst. inversion A as [|? ? Ag Agm]; subst. cbn [map] in D. inversion D as [|? ? Dg Dgm]; subst.
  have [_ [Hs Hm]] := okh_conf _ _ _ Og. have P0 := min_pos _ (proj1 Og).
  cbn [map main_free]. rewrite /contains Hs Hm.
  cbn [all flat_map] in I. move/in_app_iff: I => [I|I].
  - have [g0 [Ig0 [Il [Rg Mb]]]] := all_in [g] p b ltac:(by constructor) ltac:(by cbn; rewrite app_nil_r).
    have Eg : g0 = g by case: Ig0 => // [[]]. subst g0.
    have -> : (base (gx g) <=? p) && (p <=? base (gx g) + total (gc g) - minimum (gc g)) = true by rewrite /in_region in Rg; lia.
    have [_ [RG _]] := okh_perm_facts _ _ _ Og. have [_ [_ [_ [[e [He Eb]] Db]]]] := RG _ Il. cbn [fst snd] in Eb, Db.
    have Dmb : (minimum (gc g) | b).
    { rewrite Eb /minimum. have Hc : 0 <= ca (gc g) by (have := proj1 Og; rewrite /good; lia).
      exists (2 ^ (e - ca (gc g))). rewrite -Z.pow_add_r; try lia.
      - rewrite Eb /minimum in Mb. have := Z.pow_le_mono_r_iff 2 (ca (gc g)) e. lia.
      - f_equal. lia. }
    have -> : (p mod minimum (gc g) =? 0) = true.
    { apply Z.eqb_eq. apply Z.mod_divide; first lia. have -> : p = base (gx g) + (p - base (gx g)) by lia.
      apply: Z.divide_add_r => //. apply: Z.divide_trans Db. done. }
    have Nb : b <> total (gc g). { case: (N g ltac:(by left)) => //. rewrite /in_region in Rg. lia. }
    have Ub : u = 0 \/ (0 < u <= b /\ 2 ^ Z.log2_up (Z.max u (minimum (gc g))) = b) by (case: U => [|U]; [by left|right; apply: U; by left]).
    have [h' [l' [-> [O' P']]]] := one_free _ _ _ _ _ _ Og Il Nb Ub.
    exists (Gi (set_h (gx g) h') (gc g) l' :: gm). split => //. split; first by constructor. split => //.
    cbn [all flat_map]. rewrite /absl. cbn [gx gl set_h base].
    rewrite (Permutation_map (sh (base (gx g))) P'). cbn [map app]. rewrite {1}/sh. cbn [fst snd].
    by have -> : base (gx g) + (p - base (gx g)) = p by lia.
  - have [g0 [Ig0 [Il [Rg Mb]]]] := all_in gm p b Ogm I.
    have Dj : disjoint (gregion g) (gregion g0). { move/Forall_forall: Dg. apply. by apply: in_map. }
    have Pg0 : 0 < minimum (gc g0). { move/Forall_forall: Ogm => X. apply: min_pos. exact (proj1 (X _ Ig0)). }
    have -> : (base (gx g) <=? p) && (p <=? base (gx g) + total (gc g) - minimum (gc g)) = false.
    { move: Dj Rg. rewrite /disjoint /gregion /in_region. cbn [fst snd]. lia. }
    case: IH => //.
    { move => g1 I1. apply: N. by right. }
    { case: U => [|U]; first by left. right => g1 I1. apply: U. by right. }
    move => gm' [-> [O' [Sh P']]]. exists (g :: gm'). split => //. split; first by constructor. split; first by (cbn; rewrite Sh).
    cbn [all flat_map]. change (flat_map absl gm) with (all gm). change (flat_map absl gm') with (all gm'). rewrite P'.
    apply: Permutation_sym. apply Permutation_middle.
Qed.

(** Blocks of disjoint heaps are disjoint *)
Lemma fop_perm l l' : Permutation l l' -> ForallOrdPairs disjoint l -> ForallOrdPairs disjoint l'.
Proof.
  elim => [//|x t t' P IH H|x y t H|t1 t2 t3 _ H1 _ H2 H]; last by apply: H2; apply: H1.
  - inversion H; subst. constructor; last by apply: IH. apply Forall_forall => z Hz.
    move: (Forall_forall (disjoint x) t) => [W _]. apply: W => //. apply: Permutation_in Hz. by apply: Permutation_sym.
  - inversion H as [|? ? F1 H1]; subst. inversion F1; subst. inversion H1; subst.
    constructor; first by (constructor => //; apply: disjoint_sym). by constructor.
Qed.
Lemma fop_app l1 l2 : ForallOrdPairs disjoint l1 -> ForallOrdPairs disjoint l2 ->
  (forall x y, In x l1 -> In y l2 -> disjoint x y) -> ForallOrdPairs disjoint (l1 ++ l2).
Proof.
  elim: l1 => [//|x l1 IH] H1 H2 X. inversion H1; subst. cbn. constructor.
  - apply Forall_app. split => //. apply Forall_forall => y Hy. apply: X => //. by left.
  - apply: IH => // a b Ha Hb. apply: X => //. by right.
Qed.
Lemma fop_pair l : NoDup l -> (forall x y, In x l -> In y l -> x <> y -> disjoint x y) -> ForallOrdPairs disjoint l.
Proof.
  elim: l => [|x l IH] N H; first by constructor. inversion N; subst. constructor.
  - apply Forall_forall => y Hy. apply: H; [by left|by right|]. move => E. by subst.
  - apply: IH => // a b Ha Hb. apply: H; by right.
Qed.
Lemma sh_disjoint b x y : disjoint x y -> disjoint (sh b x) (sh b y).
Proof. rewrite /disjoint /sh. cbn [fst snd]. lia. Qed.
Lemma fop_map b l : ForallOrdPairs disjoint l -> ForallOrdPairs disjoint (map (sh b) l).
Proof.
  elim: l => [|x l IH] H; first by constructor. inversion H as [|? ? F1 F2]; subst. cbn. constructor; last by apply: IH.
  apply Forall_forall => y /in_map_iff [z [<- Iz]]. apply: sh_disjoint. move/Forall_forall: F1. by apply.
Qed.
Lemma all_fop gm : Forall okg gm -> ForallOrdPairs disjoint (map gregion gm) -> ForallOrdPairs disjoint (all gm).
Proof.
  elim: gm => [|g gm IH] F D; first by constructor.
  inversion F as [|? ? Og Ogm]; subst. cbn [map] in D. inversion D as [|? ? Dg Dgm]; subst.
  cbn [all flat_map]. apply: fop_app; last first.
  - move => [p b] [p' b'] I I'.
    have [g0 [Ig0 [_ [R _]]]] := all_in [g] p b ltac:(by constructor) ltac:(by cbn; rewrite app_nil_r).
    have Eg : g0 = g by case: Ig0 => // [[]]. subst g0.
    have [g1 [Ig1 [_ [R1 _]]]] := all_in gm p' b' Ogm I'.
    have Dj : disjoint (gregion g) (gregion g1). { move/Forall_forall: Dg. apply. by apply: in_map. }
    move: Dj R R1. rewrite /disjoint /gregion /in_region. cbn [fst snd]. lia.
  - by apply: IH.
  - rewrite /absl. apply: fop_map. have [ND [_ DJ]] := okh_perm_facts _ _ _ Og. by apply: fop_pair.
Qed.
Lemma fop_in l1 l2 x y : ForallOrdPairs disjoint (l1 ++ l2) -> In x l1 -> In y l2 -> disjoint x y.
Proof.
  elim: l1 => [//|z l1 IH] H Ix Iy. cbn in H. inversion H as [|? ? F1 F2]; subst. case: Ix => [<-|Ix]; last by apply: IH.
  move/Forall_forall: F1. apply. apply in_app_iff. by right.
Qed.
