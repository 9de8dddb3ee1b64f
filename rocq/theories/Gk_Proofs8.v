(** Proofs: histories. *)
From Coq Require Import Permutation.
From Verif Require Import Lib Bits Buddy_Model Buddy_Spec Buddy_Proofs Gk_Model Gk_Spec Gk_Proofs Gk_Proofs2 Gk_Proofs3 Gk_Proofs4 Gk_Proofs5 Gk_Proofs6 Gk_Proofs7.
From Coq Require Import ssreflect.

Lemma start_gm W l : Forall (new_main W) l -> exists gm, map gx gm = l /\ Forall okg gm /\ Forall (cmain W) gm /\ all gm = map gmd gm /\ map gregion gm = map region l.
Proof.
  elim: l => [|x l IH] F; first by exists []. inversion F as [|? ? [K [h [b [G [B [D [E Eh]]]]]]] F']; subst.
  have [gm [E1 [O1 [C1 [A1 R1]]]]] := IH F'.
  set c := mk_cfg W 11 K in G E.
  have O : okh c (heap_init W (total c) 2048) [] by split; [done|apply: (reach_init c)].
  have [h' [r [E' Kr]]] := one_alloc c _ _ (2 ^ Z.of_nat (S K)) O ltac:(apply: Z.pow_pos_nonneg; lia).
  rewrite E in E'. case: E' => Eh Er. subst r. rewrite -Eh in Kr. move: Kr => [Oh Eb].
  have [_ [Hs _]] := okh_conf _ _ _ Oh.
  exists (Gi x c [(0, b)] :: gm). split; first by cbn; rewrite E1. split; first by constructor. split.
  { constructor => //. }
  have Bb : b = Z.max (2 ^ Z.of_nat (S K)) 2048.
  { rewrite Eb /block_of. rewrite Z.log2_up_pow2 //; lia. }
  split.
  - cbn [all flat_map map]. rewrite -/(all gm) A1. rewrite {1}/absl /sh /=. rewrite Z.add_0_r. rewrite {3}/gmd. cbn [gx gc cK]. by rewrite Bb.
  - cbn [map]. rewrite R1. rewrite {1}/gregion /region. cbn [gx gc]. by rewrite Hs.
Qed.
Lemma inv_start W me s : 0 <= me -> start W s -> exists gm gs, Inv W me s [] gm gs.
Proof.
  move => M [Hw [F [D [Es [Ea Ee]]]]]. have [gm [E1 [O1 [C1 [A1 R1]]]]] := start_gm W _ F. exists gm, []. constructor => //.
  - constructor => //; first by rewrite R1. rewrite A1 /=. by rewrite app_nil_r.
  - constructor => //; by constructor.
  - by rewrite /avok Ea.
  - by rewrite Ee.
Qed.
Lemma inv_pos W me s cl gm gs p q : Inv W me s cl gm gs -> In (p, q) cl -> 0 < p /\ exists g, In g gm /\ gb g <= p /\ p + reserved q <= gb g + total (gc g).
Proof.
  move => [Im Is Imain Ismall Icl Iav Ie Ime] I. have I' := Permutation_in _ (split_cl cl) I. move/in_app_iff: I' => [B|S].
  - have [P [_ X]] := main_in _ _ _ Imain (blk (p, q)) ltac:(by apply in_app_iff; right; apply in_app_iff; left; apply: in_map). split => //.
  - have [g [Ig [R1 [R2 R3]]]] := small_in _ _ _ Ismall (blk (p, q)) ltac:(by apply in_app_iff; right; apply: in_map).
    have [P [_ [g' [Ig' [X1 X2]]]]] := main_in _ _ _ Imain (chunk g) ltac:(by apply in_app_iff; right; apply in_app_iff; right; apply in_app_iff; left; apply: in_map).
    move: R1 R2 R3 P X1 X2. rewrite /chunk /blk -!/(gb _). cbn [fst snd] => R1 R2 R3 P X1 X2. split; first lia. exists g'. split => //. lia.
Qed.
Lemma inv_step W me s cl gm gs o : Inv W me s cl gm gs -> fair cl o ->
  exists s' r gm' gs', gstep W me s o = Some (s', r) /\ Inv W me s' (clients cl o r) gm' gs' /\ map shape gm' = map shape gm /\
  match o, r with KMalloc q, Some (a, b) => b = reserved q | KMalloc q, None => True | _, _ => r = None end.
Proof.
  move => I. case: o => [q|p u] F.
  - cbn [fair gstep] in *. destruct (Z.ltb_spec SMAX q) as [L|L].
    + have [s' [r [gm' [E [Sh K]]]]] := alloc_big _ _ _ _ _ _ q I L. exists s', r, gm', gs. split => //. case: r E K => [[a b]|] E [K1 K2]; by split.
    + have [s' [r [gm' [gs' [E [Sh K]]]]]] := alloc_small _ _ _ _ _ _ q I ltac:(lia). exists s', r, gm', gs'. split => //. move: K => [_ K]. case: r E K => [[a b]|] E [K1 K2]; by split.
  - cbn [fair gstep] in *. case: F => [->|[q [Iq U]]].
    + exists s, None, gm, gs. split; first by []. split => //. cbn [clients].
      have -> // : filter (fun x : Z * Z => negb (fst x =? 0)) cl = cl.
      have : forall x, In x cl -> fst x <> 0. { move => [a b] Ix. have [P _] := inv_pos _ _ _ _ _ _ _ _ I Ix. cbn. lia. }
      clear. elim: cl => [//|x cl IH] H. cbn. have -> : (fst x =? 0) = false by (apply Z.eqb_neq; apply: H; left). cbn. f_equal. apply: IH => y Hy. apply: H. by right.
    + destruct (Z.ltb_spec SMAX q) as [L|L].
      * have [s' [gm' [E [Sh K]]]] := free_big _ _ _ _ _ _ p q u I Iq L U. exists s', None, gm', gs. rewrite E. by split.
      * have [s' [gm' [gs' [E [Sh K]]]]] := free_small _ _ _ _ _ _ p q u I Iq L U. exists s', None, gm', gs'. rewrite E. by split.
Qed.
Lemma hist_inv W me s cl : 0 <= me -> history W me s cl -> exists gm gs, Inv W me s cl gm gs.
Proof.
  move => M. elim => [s0 H|s0 cl0 o s' r _ [gm [gs I]] F E]; first by apply: inv_start.
  have [s1 [r1 [gm' [gs' [E1 [I1 _]]]]]] := inv_step _ _ _ _ _ _ o I F. rewrite E in E1. case: E1 => -> ->. by exists gm', gs'.
Qed.

Lemma md_eq g : okg g -> ca (gc g) = 11 -> hsize (bh (gx g)) = total (gc g) /\ (base (gx g), Z.max (hsize (bh (gx g)) / 1024) 2048) = gmd g.
Proof.
  move => O C. have [_ [Hs _]] := okh_conf _ _ _ O. split => //. rewrite /gmd Hs /total C. do 2 f_equal.
  have -> : 11 + Z.of_nat (cK (gc g)) = Z.of_nat (S (cK (gc g))) + 10 by lia. rewrite Z.pow_add_r; [lia|lia|]. change (2 ^ 10) with 1024. by rewrite Z.div_mul.
Qed.
Lemma mds W me s cl gm gs : Inv W me s cl gm gs -> map (fun x => (base x, Z.max (hsize (bh x) / 1024) 2048)) (mains s) = map gmd gm.
Proof.
  move => [<- _ [O C _ _] _ _ _ _ _]. rewrite map_map. apply: map_ext_in => g Ig. move/Forall_forall: O => O. move/Forall_forall: C => C.
  have [_ [Ca _]] := C _ Ig. by have [_ ->] := md_eq g (O _ Ig) Ca.
Qed.
Lemma own_eq W me s cl gm gs : Inv W me s cl gm gs -> own s = map gmd gm ++ map smd gs ++ map nod gs.
Proof. move => I. rewrite /own (mds _ _ _ _ _ _ I) -(i_s _ _ _ _ _ _ I) !map_map. done. Qed.
Lemma taken_eq W me s cl gm gs : Inv W me s cl gm gs -> taken s cl = map gmd gm ++ map blk (filter big cl) ++ map chunk gs ++ map nod gs.
Proof. move => I. rewrite /taken (mds _ _ _ _ _ _ I) -(i_s _ _ _ _ _ _ I) !map_map. done. Qed.

Lemma stuck_full W me s cl gm gs gm0 t z0 z : Inv W me s cl gm gs -> map shape gm0 = map shape gm -> Forall (fun g => stuck g z0) gm0 -> Permutation (all gm0) t ->
  0 < z0 -> z = Z.max (2 ^ Z.log2_up z0) 2048 -> full s t z.
Proof.
  move => I Sh F P Z0 Ez x. rewrite -(i_m _ _ _ _ _ _ I) => /in_map_iff [g [<- Ig]] off Ho Hz Dv.
  have Is : In (shape g) (map shape gm0) by rewrite Sh; apply: in_map. move/in_map_iff: Is => [g0 [E0 I0]].
  move/Forall_forall: F => F. have := F _ I0. rewrite /stuck. have Eb : base (gx g0) = base (gx g) /\ gc g0 = gc g by case: E0.
  move: Eb => [Eb Ec]. rewrite Ec. have O := m_ok _ _ _ (i_main _ _ _ _ _ _ I). have C := m_c _ _ _ (i_main _ _ _ _ _ _ I).
  move/Forall_forall: O => O. move/Forall_forall: C => C. have [_ [Ca _]] := C _ Ig. have [Hs _] := md_eq g (O _ Ig) Ca. rewrite Hs in Hz.
  have Bz : block_of (gc g) z0 = z by rewrite /block_of /minimum Ca Ez. rewrite Bz. have := block_of_ge (gc g) z0 Z0. rewrite Bz => Lz.
  case => [L|Cr]; first lia. have [b [Ib Nd]] := Cr off Ho Hz Dv. exists (sh (base (gx g)) b). split.
  - apply: Permutation_in P _. apply/in_flat_map. exists g0. split => //. rewrite /absl Eb. by apply: in_map.
  - move: Nd. rewrite /disjoint /sh. cbn [fst snd]. lia.
Qed.

(** Theorems *)
Lemma gk_no_assert W me s cl o : 0 <= me -> history W me s cl -> fair cl o -> gstep W me s o <> None.
Proof. move => M H F. have [gm [gs I]] := hist_inv _ _ _ _ M H. have [s' [r [gm' [gs' [-> _]]]]] := inv_step _ _ _ _ _ _ o I F. done. Qed.
Lemma gk_disjoint W me s cl : 0 <= me -> history W me s cl -> ForallOrdPairs disjoint (own s ++ map blk cl).
Proof. move => M H. have [gm [gs I]] := hist_inv _ _ _ _ M H. rewrite (own_eq _ _ _ _ _ _ I). by apply: inv_clients I. Qed.
Lemma gk_inside W me s cl p q : 0 <= me -> history W me s cl -> In (p, q) cl ->
  0 < p /\ q <= reserved q /\ exists x, In x (mains s) /\ base x <= p /\ p + reserved q <= base x + hsize (bh x).
Proof.
  move => M H Ip. have [gm [gs I]] := hist_inv _ _ _ _ M H. have [P [g [Ig [R1 R2]]]] := inv_pos _ _ _ _ _ _ _ _ I Ip. split => //.
  have Ic := i_cl _ _ _ _ _ _ I. move/Forall_forall: Ic => Ic. split; first by apply: reserved_ge; apply: (Ic _ Ip).
  exists (gx g). split; first by (rewrite -(i_m _ _ _ _ _ _ I); apply: in_map).
  have O := m_ok _ _ _ (i_main _ _ _ _ _ _ I). move/Forall_forall: O => O. have [_ [-> _]] := okh_conf _ _ _ (O _ Ig). by split.
Qed.
Lemma gk_aligned W me s cl p q : 0 <= me -> history W me s cl -> In (p, q) cl -> (Z.min (reserved q) 2048 | p).
Proof.
  move => M H Ip. have [gm [gs I]] := hist_inv _ _ _ _ M H. move: (I) => [Im Is Imain Ismall Icl Iav Ie Ime].
  have Al : forall x, In x (map gmd gm ++ map blk (filter big cl) ++ map chunk gs ++ map nod gs) -> (2048 | fst x).
  { move => [a b] Ix. have Ia : In (a, b) (all gm) by apply: Permutation_in Ix; apply: Permutation_sym; apply Imain.
    have [g [Ig [Il _]]] := all_in gm a b (m_ok _ _ _ Imain) Ia. have O := m_ok _ _ _ Imain. move/Forall_forall: O => O. have C := m_c _ _ _ Imain. move/Forall_forall: C => C.
    have [_ [R _]] := okh_perm_facts _ _ _ (O _ Ig). have [_ [_ [Mn [[e [He Ee]] Dv]]]] := R _ Il. cbn [fst snd] in *. have [_ [Ca [Db _]]] := C _ Ig.
    rewrite /minimum Ca in Mn. rewrite /gb in Db. have D2 : (2048 | b). { subst b. have Le : 11 <= e by apply/(Z.pow_le_mono_r_iff 2) => //. exists (2 ^ (e - 11)). change 2048 with (2 ^ 11). rewrite -Z.pow_add_r; [lia|lia|]. f_equal. lia. }
    have -> : a = base (gx g) + (a - base (gx g)) by lia. apply: Z.divide_add_r => //. by apply: Z.divide_trans Dv. }
  have I' := Permutation_in _ (split_cl cl) Ip. move/in_app_iff: I' => [B|S].
  - have := Al (blk (p, q)) ltac:(by apply in_app_iff; right; apply in_app_iff; left; apply: in_map). cbn [blk fst] => D.
    have [_ [G _]] := main_in _ _ _ Imain (blk (p, q)) ltac:(by apply in_app_iff; right; apply in_app_iff; left; apply: in_map). cbn [blk snd] in G.
    by have -> : Z.min (reserved q) 2048 = 2048 by lia.
  - have Ia : In (p, reserved q) (all gs) by apply: Permutation_in; [apply: Permutation_sym; apply Ismall|apply in_app_iff; right; apply/in_map_iff; exists (p, q)].
    have [g [Ig [Il _]]] := all_in gs p (reserved q) (s_ok _ _ _ Ismall) Ia. have O := s_ok _ _ _ Ismall. move/Forall_forall: O => O.
    have [_ [R _]] := okh_perm_facts _ _ _ (O _ Ig). have [_ [_ [Mn [[e [He Ee]] Dv]]]] := R _ Il. cbn [fst snd] in *.
    move/filter_In: S => [_ S]. rewrite /small /big in S. cbn [snd] in S. have Q0 : 0 < q by move/Forall_forall: Icl => X; apply: (X _ Ip).
    have [_ [_ Rq]] := reserved_small q W ltac:(lia). have -> : Z.min (reserved q) 2048 = reserved q by lia.
    have D2 : (reserved q | 2048). { rewrite Ee. have Le : e <= 11. { apply/(Z.pow_le_mono_r_iff 2) => //. rewrite -Ee. change (2 ^ 11) with 2048. lia. } exists (2 ^ (11 - e)). change 2048 with (2 ^ 11). rewrite -Z.pow_add_r; [lia|lia|]. f_equal. lia. }
    have D3 := Al (chunk g) ltac:(by apply in_app_iff; right; apply in_app_iff; right; apply in_app_iff; left; apply: in_map). cbn [chunk fst] in D3.
    have -> : p = base (gx g) + (p - base (gx g)) by lia. apply: Z.divide_add_r => //. by apply: Z.divide_trans D3.
Qed.
Lemma gk_alloc W me s cl q s' a b : 0 <= me -> history W me s cl -> 0 < q -> gstep W me s (KMalloc q) = Some (s', Some (a, b)) ->
  b = reserved q /\ Forall (disjoint (a, b)) (own s' ++ map blk cl).
Proof.
  move => M H Q E. have [gm [gs I]] := hist_inv _ _ _ _ M H. have [s1 [r1 [gm' [gs' [E1 [I1 [_ K]]]]]]] := inv_step _ _ _ _ _ _ (KMalloc q) I Q.
  rewrite E in E1. case: E1 => ? ?. subst s1 r1. split => //. cbn [clients] in I1. have F := inv_clients _ _ _ _ _ _ I1. rewrite -(own_eq _ _ _ _ _ _ I1) in F.
  cbn [map] in F. have P : Permutation (own s' ++ blk (a, q) :: map blk cl) (blk (a, q) :: own s' ++ map blk cl) by apply: Permutation_sym; apply: Permutation_middle.
  have F' := fop_perm _ _ P F. inversion F'; subst. done.
Qed.
Lemma gk_null_big W me s cl q s' : 0 <= me -> history W me s cl -> SMAX < q -> gstep W me s (KMalloc q) = Some (s', None) -> full s (taken s cl) (reserved q).
Proof.
  move => M H Q E. have [gm [gs I]] := hist_inv _ _ _ _ M H. have [s1 [r1 [gm' [E1 [Sh K]]]]] := alloc_big _ _ _ _ _ _ q I Q.
  cbn [gstep] in E. rewrite E in E1. case: E1 => ? ?. subst s1 r1. move: K => [I1 T]. rewrite (taken_eq _ _ _ _ _ _ I).
  have P := m_p _ _ _ (i_main _ _ _ _ _ _ I1).
  have Eg : map gmd gm' = map gmd gm by apply: map_shape Sh => g g'; case; rewrite /gmd => -> _ _ ->.
  rewrite Eg in P. apply: stuck_full I Sh T P _ _; first by (rewrite /SMAX in Q; lia).
  rewrite /reserved. by have -> : (q <=? SMAX) = false by lia.
Qed.
Lemma gk_null_small W me s cl q s' : 0 <= me -> history W me s cl -> 0 < q <= SMAX -> gstep W me s (KMalloc q) = Some (s', None) ->
  full s (taken s cl) SSIZE \/ exists a, full s ((a, SSIZE) :: taken s cl) SNODE.
Proof.
  move => M H Q E. have [gm [gs I]] := hist_inv _ _ _ _ M H. have [s1 [r1 [gm' [gs' [E1 [Sh K]]]]]] := alloc_small _ _ _ _ _ _ q I Q.
  cbn [gstep] in E. rewrite E in E1. case: E1 => ? ?. subst s1 r1. move: K => [_ [I1 [V [T|T]]]].
  - left. rewrite (taken_eq _ _ _ _ _ _ I). have P := m_p _ _ _ (i_main _ _ _ _ _ _ I1).
    have Eg : map gmd gm' = map gmd gm by apply: map_shape Sh => g g'; case; rewrite /gmd => -> _ _ ->.
    have Vch : map chunk gs' = map chunk gs by (apply: map_view V => ? ? /view_same [EE _]; rewrite /chunk EE).
    have Vn : map nod gs' = map nod gs by (apply: map_view V => ? ? /view_same [_ [_ [EE _]]]; rewrite /nod EE).
    rewrite Eg Vch Vn in P. by apply: stuck_full I Sh T P _ _.
  - right. move: T => [gm0 [gm1 [a [I0 [Sh1 [P T]]]]]]. exists a. rewrite (taken_eq _ _ _ _ _ _ I0).
    have P' := m_p _ _ _ (i_main _ _ _ _ _ _ I0). have P2 := Permutation_trans P (perm_skip _ P').
    by apply: stuck_full I Sh1 T P2 _ _.
Qed.
Lemma gk_new_small W me s cl q s' r : 0 <= me -> history W me s cl -> 0 < q <= SMAX -> gstep W me s (KMalloc q) = Some (s', r) ->
  r = None \/ zlen (smalls s') <> zlen (smalls s) -> full_small s cl (reserved q).
Proof.
  move => M H Q E N. have [gm [gs I]] := hist_inv _ _ _ _ M H. have [s1 [r1 [gm' [gs' [E1 [Sh [K1 K]]]]]]] := alloc_small _ _ _ _ _ _ q I Q.
  cbn [gstep] in E. rewrite E in E1. case: E1 => ? ?. subst s1 r1. move: (I) => [_ Is Imain Sm _ _ _ _].
  have Is' : map gx gs' = smalls s'. { case: r E K K1 N => [[a b]|] E K K1 N; [move: K => [_ K]|move: K => [K _]]; apply K. }
  have St : forall g, In g gs -> stuck g q. { apply: K1. case: N => [->|N]; [by left|right]. move: N. rewrite -Is -Is' !zlen_map /zlen. lia. }
  move => x. rewrite -Is => /in_map_iff [g [<- Ig]] off Ho Hz Dv. have Cg : gc g = csm W by move: (s_c _ _ _ Sm) => /Forall_forall X; apply: X.
  have := St _ Ig. rewrite /stuck Cg total_csm. have [Rq _] := reserved_small q W Q. rewrite -Rq. case => [L|Cr]; first by (have := reserved_ge q ltac:(lia); lia).
  have [b [Ib Nd]] := Cr off Ho Hz Dv. exists (sh (base (gx g)) b). split; last by (move: Nd; rewrite /disjoint /sh; cbn [fst snd]; lia).
  have Ia : In (sh (base (gx g)) b) (all gs). { apply/in_flat_map. exists g. split => //. by apply: in_map. }
  have := Permutation_in _ (s_p _ _ _ Sm) Ia. rewrite map_map. move/in_app_iff => [X|X]; apply in_app_iff; [by left|right].
  have <- // : filter small cl = filter (fun x => snd x <=? SMAX) cl. apply: filter_ext => y. rewrite /small /big. lia.
Qed.
Lemma gk_avail W me s cl : 0 <= me -> history W me s cl -> Permutation (avail s) (map base (filter (fun x => negb (mem (bh x) =? SSIZE)) (smalls s))).
Proof.
  move => M H. have [gm [gs I]] := hist_inv _ _ _ _ M H. move: (I) => [_ Is _ Ismall _ Iav _ _]. rewrite Iav -Is.
  have X : forall t, (forall g, In g t -> In g gs) -> map gb (filter notfull t) = map base (filter (fun x => negb (mem (bh x) =? SSIZE)) (map gx t)).
  { elim => [//|g t IH] Sub. cbn. have Ig : In g gs by apply: Sub; left. have [g1 [g2 Es]] := split_in _ _ Ig. rewrite Es in Ismall.
    have [-> _] := mem_upd _ _ _ _ _ Ismall. rewrite /notfull. case: (negb _) => /=; rewrite IH // => g' Hg'; apply: Sub; by right. }
  by rewrite X.
Qed.
Lemma gk_empties W me s cl : 0 <= me -> history W me s cl -> empties s = zlen (filter (fun x => mem (bh x) =? SMD) (smalls s)) /\ empties s <= me.
Proof.
  move => M H. have [gm [gs I]] := hist_inv _ _ _ _ M H. move: (I) => [_ Is _ Ismall _ _ Ie Ime]. split => //. rewrite Ie -Is.
  have X : forall t, (forall g, In g t -> In g gs) -> zlen (filter isempty t) = zlen (filter (fun x => mem (bh x) =? SMD) (map gx t)).
  { elim => [//|g t IH] Sub. cbn. have Ig : In g gs by apply: Sub; left. have [g1 [g2 Es]] := split_in _ _ Ig. rewrite Es in Ismall.
    have [-> _] := mem_upd _ _ _ _ _ Ismall. rewrite /isempty. have E := IH ltac:(by move => g' Hg'; apply: Sub; right). case: (_ =? _) => //=. by rewrite !zlen_cons E. }
  by apply: X.
Qed.
(** Memory in use *)
Lemma sum_app l l' : sum_sizes (l ++ l') = sum_sizes l + sum_sizes l'.
Proof. elim: l => [//|x l IH]. cbn. rewrite /sum_sizes in IH. rewrite IH. rewrite /sum_sizes. lia. Qed.
Lemma sum_all gm : Forall okg gm -> sum_sizes (all gm) = zsum (map (fun x => mem (bh x)) (map gx gm)).
Proof.
  elim: gm => [//|g gm IH] F. inversion F as [|? ? [G R] F']; subst. cbn [all flat_map map zsum fold_right]. rewrite sum_app. rewrite -/(all gm) (IH F').
  rewrite (reach_exact _ _ _ G R) /zsum. f_equal. rewrite /absl. elim: (gl g) => [//|x l IHl]. cbn. rewrite /sum_sizes in IHl. by rewrite IHl.
Qed.
Lemma sum_const {A} (f : A -> block) z l : (forall x, snd (f x) = z) -> sum_sizes (map f l) = z * zlen l.
Proof. move => H. elim: l => [|x l IH]; first by (rewrite zlen_nil; cbn; lia). rewrite zlen_cons. cbn. rewrite H. rewrite /sum_sizes in IH. rewrite IH. lia. Qed.
Lemma gk_memory W me s cl : 0 <= me -> history W me s cl ->
  zsum (map (fun x => mem (bh x)) (mains s)) = sum_sizes (taken s cl) /\
  zsum (map (fun x => mem (bh x)) (smalls s)) = SMD * zlen (smalls s) + zsum (map (fun x => reserved (snd x)) (filter (fun x => snd x <=? SMAX) cl)).
Proof.
  move => M H. have [gm [gs I]] := hist_inv _ _ _ _ M H. rewrite (taken_eq _ _ _ _ _ _ I). move: (I) => [Im Is Imain Ismall _ _ _ _]. rewrite -Im -Is -!sum_all; try apply Imain; try apply Ismall.
  split; first by apply: sum_perm; apply Imain. rewrite (sum_perm _ _ (s_p _ _ _ Ismall)) sum_app (sum_const smd SMD) // zlen_map. f_equal.
  have -> : filter small cl = filter (fun x => snd x <=? SMAX) cl by apply: filter_ext => x; rewrite /small /big; lia.
  elim: (filter _ cl) => [//|x l IH]. cbn. rewrite /sum_sizes /zsum in IH. by rewrite IH.
Qed.
Lemma gk_all_freed W me s : 0 <= me -> history W me s [] -> zlen (smalls s) = empties s /\ empties s <= me /\
  zsum (map (fun x => mem (bh x)) (mains s)) = sum_sizes (map (fun x => (base x, Z.max (hsize (bh x) / 1024) 2048)) (mains s)) + (SSIZE + SNODE) * empties s.
Proof.
  move => M H. have [E1 E2] := gk_empties _ _ _ _ M H. have [M1 _] := gk_memory _ _ _ _ M H. have [gm [gs I]] := hist_inv _ _ _ _ M H.
  have X : zlen (smalls s) = empties s.
  { rewrite (i_e _ _ _ _ _ _ I) -(i_s _ _ _ _ _ _ I) zlen_map. move: (i_small _ _ _ _ _ _ I) => Sm.
    have A : sum_sizes (all gs) = SMD * zlen gs by rewrite (sum_perm _ _ (s_p _ _ _ Sm)) sum_app (sum_const smd SMD) //=; lia.
    have L : Forall (fun g => SMD <= sum_sizes (gl g)) gs. { apply Forall_forall => g Ig. have [g1 [g2 Es]] := split_in _ _ Ig. rewrite Es in Sm. by have [_ [_ [_ [[? _] _]]]] := mem_upd _ _ _ _ _ Sm. }
    have Sa : forall t, sum_sizes (all t) = zsum (map (fun g => sum_sizes (gl g)) t).
    { elim => [//|g t IH]. cbn [all flat_map map zsum fold_right]. rewrite sum_app. rewrite -/(all t) IH /zsum. f_equal. rewrite /absl. elim: (gl g) => [//|x l IHl]. cbn. rewrite /sum_sizes in IHl. by rewrite IHl. }
    rewrite Sa in A. clear -L A.
    have B : forall t, Forall (fun g => SMD <= sum_sizes (gl g)) t -> SMD * zlen t <= zsum (map (fun g => sum_sizes (gl g)) t).
    { elim => [|g t IH] F; first by (rewrite zlen_nil /=; lia). inversion F; subst. have := IH H2. rewrite zlen_cons. cbn [map zsum fold_right]. rewrite -/(zsum _). lia. }
    elim: gs L A => [//|g t IH] L. inversion L; subst. rewrite zlen_cons. cbn [map zsum fold_right filter]. rewrite -/(zsum _) => A. have := B t H2 => Bt.
    have -> : isempty g = true by (rewrite /isempty; apply Z.eqb_eq; lia). rewrite zlen_cons -IH //; lia. }
  split => //. split => //. rewrite M1 /taken /= !sum_app (sum_const (fun x => (base x, SSIZE)) SSIZE) // (sum_const (fun x => (node x, SNODE)) SNODE) // X. lia.
Qed.
