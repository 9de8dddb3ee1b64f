(** Proofs: kmalloc. *)
From Coq Require Import Permutation.
From Verif Require Import Lib Bits Buddy_Model Buddy_Spec Buddy_Proofs Gk_Model Gk_Spec Gk_Proofs Gk_Proofs2 Gk_Proofs3 Gk_Proofs4.
From Coq Require Import ssreflect.

Lemma mem_fresh W : W = 32 \/ W = 64 -> option_map snd (kmalloc (heap_init W SSIZE SMBS) SMD false 0 true) = Some (Some (0, SMD)).
Proof. case => ->; vm_compute; reflexivity. Qed.
Lemma fresh_small W : W = 32 \/ W = 64 -> exists h, kmalloc (heap_init W SSIZE SMBS) SMD false 0 true = Some (h, Some (0, SMD)) /\ okh (csm W) h [(0, SMD)].
Proof.
  move => H. have O : okh (csm W) (heap_init W SSIZE SMBS) [] by split; [apply: good_csm|apply: (reach_init (csm W))].
  have [h [r [E K]]] := one_alloc _ _ _ SMD O ltac:(done). have := mem_fresh W H. rewrite E. cbn. case => Er. subst r. exists h. split => //. by apply K.
Qed.
Lemma small_new W gs rest a n h : smallok W gs rest -> Forall (fun g => disjoint (chunk g) (a, SSIZE)) gs -> okh (csm W) h [(0, SMD)] ->
  smallok W (gs ++ [Gi (Hp a false n h) (csm W) [(0, SMD)]]) rest.
Proof.
  move => [Hw O C M D P] X Oh. constructor => //.
  - apply Forall_app. split => //. by constructor.
  - apply Forall_app. split => //. by constructor.
  - apply Forall_app. split => //. constructor => //. by left.
  - rewrite map_app. apply: fop_app => //; first by constructor; constructor.
    move => x y /in_map_iff [g [<- Ig]] [<-|//]. move/Forall_forall: X. by apply.
  - rewrite /all flat_map_app. change (flat_map absl gs) with (all gs). rewrite map_app /=. rewrite /absl /= /sh /=.
    rewrite Z.add_0_r /smd /=. rewrite P -!app_assoc. apply: Permutation_app_head. apply: Permutation_app_comm.
Qed.
Lemma filter_big_cons a q cl : filter big ((a, q) :: cl) = if SMAX <? q then (a, q) :: filter big cl else filter big cl.
Proof. reflexivity. Qed.
Lemma filter_small_cons a q cl : filter small ((a, q) :: cl) = if SMAX <? q then filter small cl else (a, q) :: filter small cl.
Proof. cbn. rewrite /small /big /=. by case: (SMAX <? q). Qed.

Lemma alloc_big W me s cl gm gs q : Inv W me s cl gm gs -> SMAX < q ->
  exists s' r gm', gen_alloc W s q = Some (s', r) /\ map shape gm' = map shape gm /\
  match r with
  | None => Inv W me s' cl gm' gs /\ Forall (fun g => stuck g q) gm'
  | Some (a, b) => b = reserved q /\ Inv W me s' ((a, q) :: cl) gm' gs
  end.
Proof.
  move => [Im Is Imain Ismall Icl Iav Ie Ime] L. rewrite /gen_alloc.
  have -> : (q =? 0) = false by (apply Z.eqb_neq; rewrite /SMAX in L; lia). have -> : (q <=? SMAX) = false by lia. rewrite -Im.
  have Q0 : 0 < q by (rewrite /SMAX in L; lia).
  have [gm' [r [-> [Sh K]]]] := mainok_alloc _ _ _ q Imain Q0. eexists; exists r, gm'. split => //. split => //.
  case: r K => [[a b]|].
  - move => [K Eb]. have Er : reserved q = b by rewrite Eb /reserved; have -> : (q <=? SMAX) = false by lia.
    split; first done. constructor => //; try by constructor.
    + rewrite filter_big_cons. have -> : (SMAX <? q) = true by lia. cbn [map app]. rewrite {1}/blk. cbn [fst snd]. by rewrite Er.
    + rewrite filter_small_cons. by have -> : (SMAX <? q) = true by lia.
  - move => [K [_ T]]. by split.
Qed.

Lemma mem_upd W g1 g g2 rest : smallok W (g1 ++ g :: g2) rest -> mem (bh (gx g)) = sum_sizes (gl g) /\ hsize (bh (gx g)) = SSIZE /\ hmin (bh (gx g)) = 32 /\ SMD <= sum_sizes (gl g) <= SSIZE /\ gc g = csm W /\ okg g.
Proof.
  move => [_ O C M _ _]. move/fmid: O => [O _]. move/fmid: C => [C _]. move/fmid: M => [M _].
  have := small_mem W (bh (gx g)) (gl g). rewrite -C => X. have [? [? [? ?]]] := X O M. done.
Qed.

Lemma NoDup_inj (l : list gi) x y : NoDup (map gb l) -> In x l -> In y l -> gb x = gb y -> x = y.
Proof.
  elim: l => [//|z l IH] N. cbn in N. inversion N as [|? ? N1 N2]; subst. case => [<-|Ix]; case => [<-|Iy] E //.
  - case: N1. rewrite E. by apply: in_map.
  - case: N1. rewrite -E. by apply: in_map.
  - by apply: IH.
Qed.
Lemma alloc_small W me s cl gm gs q : Inv W me s cl gm gs -> 0 < q <= SMAX ->
  exists s' r gm' gs', gen_alloc W s q = Some (s', r) /\ map shape gm' = map shape gm /\
  (r = None \/ length gs' <> length gs -> forall g, In g gs -> stuck g q) /\
  match r with
  | None => Inv W me s' cl gm' gs' /\ map view gs' = map view gs /\ (Forall (fun g => stuck g SSIZE) gm' \/ exists gm0 gm1 a, Inv W me s cl gm0 gs /\ map shape gm1 = map shape gm /\ Permutation (all gm1) ((a, SSIZE) :: all gm0) /\ Forall (fun g => stuck g SNODE) gm1)
  | Some (a, b) => b = reserved q /\ Inv W me s' ((a, q) :: cl) gm' gs'
  end.
Proof.
  move => Iv L. move: (Iv) => [Im Is Imain Ismall Icl Iav Ie Ime]. rewrite /gen_alloc.
  have -> : (q =? 0) = false by (apply Z.eqb_neq; lia). have -> : (q <=? SMAX) = true by lia.
  rewrite /small_alloc. have -> : (SSIZE - SMBS <? q) = false by (apply Z.ltb_ge; rewrite /SMAX in L; rewrite /SSIZE /SMBS; lia).
  have Rs := reserved_small q W L. move: Rs => [Rs1 [_ Rs3]].
  have ND := small_nodup _ _ _ Ismall.
  case: (try_small_ok W q (avail s) gs (s_ok _ _ _ Ismall) (s_c _ _ _ Ismall) ND ltac:(lia)).
  { move => b Hb. have := Permutation_in _ Iav Hb. move/in_map_iff => [g [<- /filter_In [Ig _]]]. by apply: in_map. }
  move => gs1 [r [ss [E [O1 [V K]]]]]. rewrite Is in E. rewrite E.
  have Ismall1 := small_view _ _ _ _ Ismall O1 V. have Iav1 := av_view _ _ _ Iav V. have Ie1 := e_view _ _ V. rewrite -Ie1 in Ie.
  have ND1 := small_nodup _ _ _ Ismall1.
  have Vch : map chunk gs1 = map chunk gs by (apply: map_view V => ? ? /view_same [EE _]; rewrite /chunk EE).
  have Vn : map nod gs1 = map nod gs by (apply: map_view V => ? ? /view_same [_ [_ [EE _]]]; rewrite /nod EE).
  have FS : forall a, filter small ((a, q) :: cl) = (a, q) :: filter small cl by (move => a; rewrite filter_small_cons; have -> : (SMAX <? q) = false by lia).
  have FB : forall a, filter big ((a, q) :: cl) = filter big cl by (move => a; rewrite filter_big_cons; have -> : (SMAX <? q) = false by lia).
  have Ln : length gs1 = length gs by rewrite -(map_length view gs1) V map_length.
  case: r E K => [[[x h] [a b]]|] E.
  - move => [g1 [g [g2 [Es [Ex [Lm [Ess [Oh Bb]]]]]]]]. subst x gs1 ss. have [Mg [Hg [_ [Sg [Cg Og]]]]] := mem_upd _ _ _ _ _ Ismall1.
    have Mh : mem h = b + sum_sizes (gl g) /\ hsize h = SSIZE. { have M0 : In (0, SMD) ((a - base (gx g), b) :: gl g) by right; move: (s_md _ _ _ Ismall1) => /fmid [X _].
      rewrite Cg in Oh. by have [-> [-> _]] := small_mem _ _ _ Oh M0. }
    move: Mh => [Mh Hh].
    set e := if mem (bh (gx g)) =? SMD then empties s - 1 else empties s. have Ee : e = zlen (filter isempty (g1 ++ g2)). { rewrite /e Ie e_mid Mg. rewrite /isempty. case: (sum_sizes (gl g) =? SMD); lia. }
    have -> : (e <? 0) = false by (rewrite Ee; have := zlen_nonneg (filter isempty (g1 ++ g2)); lia).
    set g' := upd g h ((a - base (gx g), b) :: gl g).
    eexists; exists (Some (a, b)), gm, (g1 ++ g' :: g2). split => //. split => //. split; first by (case => [//|[]]; rewrite -Ln !app_length). split; first by rewrite Bb Rs1.
    have Sg' : sum_sizes (gl g') = b + sum_sizes (gl g) by [].
    have Ne : isempty g' = false by (rewrite /isempty Sg'; apply Z.eqb_neq; rewrite Rs1 -Bb in Rs3; lia).
    constructor; cbn [mains smalls avail empties] => //.
    + rewrite FB. move: Vch Vn. rewrite !map_mid => -> ->. done.
    + rewrite FS. have := small_put _ _ _ _ _ _ _ _ Ismall1 Oh. cbn [map]. rewrite {2}/blk. cbn [fst snd].
      have -> : gb g + (a - base (gx g)) = a by (rewrite /gb; lia). by rewrite Rs1 -Bb.
    + constructor => //. cbn. lia.
    + have := av_put g1 g g2 g' (avail s) ND1 (eq_refl _). have -> : (mem h =? hsize h) = negb (notfull g') by rewrite Mh Hh /notfull Sg' negb_involutive.
      have Nf : notfull g = true. { rewrite /notfull. rewrite Mg in Lm. apply/negb_true_iff. apply Z.eqb_neq. lia. }
      move => X. have := X Nf Iav1. by case: (notfull g').
    + rewrite Ee e_mid Ne. lia.
    + have := zlen_nonneg (filter isempty (g1 ++ g2)). rewrite Ee. move: Ime. rewrite Ie e_mid. case: (isempty g); lia.
  - move => [Ess Stu]. subst ss.
    have Stk : forall g, In g gs -> stuck g q.
    { move => g Ig. case Nf : (notfull g).
      - have Ia : In (gb g) (avail s). { apply: Permutation_in; first (apply: Permutation_sym; exact Iav). apply: in_map. apply filter_In. by split. }
        have [g3 [I3 [B3 S3]]] := Stu _ Ia. by rewrite -(NoDup_inj gs g3 g ND I3 Ig B3).
      - have [g1 [g2 Eg]] := split_in _ _ Ig. rewrite Eg in Ismall. have [Mg [Hg [_ [Sg [Cg Og]]]]] := mem_upd _ _ _ _ _ Ismall.
        apply: no_room Og _ _; first lia. rewrite Hg Mg. move: Nf. rewrite /notfull. lia. }
    rewrite /new_small. cbn [mains smalls avail empties]. rewrite -Im.
    have [gm1 [r1 [-> [Sh1 K1]]]] := mainok_alloc _ _ _ SSIZE Imain ltac:(done).
    case: r1 K1 => [[c bc]|] K1; last first.
    { eexists; exists None, gm1, gs1. split => //. split => //. split => //. move: K1 => [K1 [_ T]]. split; last by (split; [done|left]). constructor => //. by rewrite Vch Vn. }
    move: K1 => [K1 Ec]. change (Z.max (2 ^ Z.log2_up SSIZE) 2048) with SSIZE in Ec. subst bc.
    have [gm2 [r2 [-> [Sh2 K2]]]] := mainok_alloc _ _ _ SNODE K1 ltac:(done).
    case: r2 K2 => [[n bn]|] K2; last first.
    { move: K2 => [K2 [V2 T2]]. have [gm3 [-> [Sh3 K3]]] := mainok_free _ _ _ c SSIZE SSIZE _ K2 (Permutation_refl _) ltac:(by right).
      eexists; exists None, gm3, gs1. split => //. split; first congruence. split => //. split; first by (constructor => //; rewrite Vch Vn).
      split => //. right. exists gm, gm2, c. split => //. split; first congruence. split => //.
      have P2 := m_p _ _ _ K2. have Eg : map gmd gm2 = map gmd gm. { apply: map_shape; last by (transitivity (map shape gm1); [exact Sh2|exact Sh1]). move => g g'. by case; rewrite /gmd => -> _ _ ->. }
      rewrite Eg in P2. rewrite P2. apply: Permutation_sym. apply: Permutation_trans; first by (apply: perm_skip; apply Imain). apply: Permutation_middle. }
    move: K2 => [K2 En]. change (Z.max (2 ^ Z.log2_up SNODE) 2048) with SNODE in En. subst bn.
    have [h0 [-> O0]] := fresh_small W (s_W _ _ _ Ismall). cbn [mains smalls avail empties].
    set x := Hp c false n h0. set g0 := Gi x (csm W) [(0, SMD)].
    have Dj : Forall (fun g => disjoint (chunk g) (c, SSIZE)) gs1.
    { apply Forall_forall => g Ig. have F := main_fop _ _ _ K1. move/fop_sub1: F => [_ F]. inversion F as [|? ? F1 _]; subst.
      apply: disjoint_sym. move/Forall_forall: F1. apply. apply in_app_iff. right. apply in_app_iff. left. rewrite -Vch. by apply: in_map. }
    have Sn := small_new _ _ _ c n h0 Ismall1 Dj O0. have NDn := small_nodup _ _ _ Sn.
    have Ef : map gx gs1 ++ [x] = map gx (gs1 ++ [g0]) by rewrite map_app.
    rewrite Ef. change c with (gb g0). rewrite (find_h_ok (gs1 ++ [g0]) g0 NDn ltac:(by apply in_app_iff; right; left)).
    have [h1 [r3 [E3 K3]]] := one_alloc (csm W) h0 _ q O0 ltac:(lia). cbn [g0 x gx bh]. rewrite E3.
    case: r3 E3 K3 => [[a b]|] E3 [O3 B3]; last first.
    { exfalso. rewrite -Rs1 in B3. case: B3 => [B3|B3]; first by (rewrite total_csm /SSIZE in B3; rewrite /SMAX in L; lia).
      have Dv : (reserved q | 2048). { rewrite Rs1 /block_of /minimum. cbn [csm ca]. have P1 := Z.log2_up_nonneg q. have P2 := Z.log2_up_le_mono q 2048 ltac:(rewrite /SMAX in L; lia). change (Z.log2_up 2048) with 11 in P2.
        have D1 : (2 ^ Z.log2_up q | 2048). { exists (2 ^ (11 - Z.log2_up q)). rewrite -Z.pow_add_r; [lia|lia|]. have -> : 11 - Z.log2_up q + Z.log2_up q = 11 by lia. reflexivity. }
        case: (Z.max_spec (2 ^ Z.log2_up q) (2 ^ 5)) => [[_ ->]|[_ ->]] //. by exists 64. }
      have [y [Iy Dy]] := B3 2048 ltac:(lia) ltac:(rewrite total_csm /SSIZE; lia) Dv. case: Iy => [Ey|//]. subst y. apply: Dy. rewrite /disjoint /SMD. cbn [fst snd]. lia. }
    rewrite (set_in_ok gs1 g0 [] h1 ((a, b) :: [(0, SMD)]) NDn). rewrite -/(upd g0 h1 ((a, b) :: [(0, SMD)])).
    set g' := upd g0 h1 _. eexists; exists (Some (gb g0 + a, b)), gm2, (gs1 ++ [g']). split => //. split; first congruence. split => //.
    split; first by rewrite B3 Rs1.
    have Sg' : sum_sizes (gl g') = b + SMD by rewrite /g' /sum_sizes /=; lia.
    have Bb : 32 <= b <= 2048 by rewrite B3 -Rs1.
    constructor; cbn [mains smalls avail empties] => //.
    + rewrite FB. apply: mainok_perm K2 _. rewrite !map_app Vch Vn /=. rewrite -/(chunk g') -/(nod g').
      change (chunk g') with (c, SSIZE). change (nod g') with (n, SNODE).
      rewrite -!app_assoc /=.
      set A := map blk _. set B := map chunk gs. set C := map nod gs.
      apply: (Permutation_trans (l' := (n, SNODE) :: A ++ B ++ (c, SSIZE) :: C)).
      * apply: perm_skip. apply: Permutation_trans; last (apply: Permutation_app_head; apply: Permutation_middle). apply: Permutation_middle.
      * apply: Permutation_trans; first apply: Permutation_cons_append. rewrite -!app_assoc /=. by [].
    + rewrite FS. have := small_put W gs1 g0 [] _ h1 a b Sn O3. cbn [map]. rewrite {2}/blk. cbn [fst snd]. by rewrite Rs1 -B3.
    + constructor => //. cbn. lia.
    + rewrite /avok filter_app map_app /=. have -> : notfull g' = true by (rewrite /notfull Sg'; apply/negb_true_iff; apply Z.eqb_neq; rewrite /SMD /SSIZE; lia).
      apply: Permutation_app; [exact Iav1|by []].
    + rewrite filter_app zlen_app /=. have -> : isempty g' = false by (rewrite /isempty Sg'; apply Z.eqb_neq; lia). rewrite Ie zlen_nil. lia.
Qed.
