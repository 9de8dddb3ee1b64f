(** Proofs: the invariant; main heaps; searching small heaps. *)
From Coq Require Import Permutation.
From Verif Require Import Lib Bits Buddy_Model Buddy_Spec Buddy_Proofs Gk_Model Gk_Spec Gk_Proofs Gk_Proofs2.
From Coq Require Import ssreflect.

Definition view (g : gi) := (shape g, gl g).
Lemma view_same g g' : view g = view g' -> base (gx g) = base (gx g') /\ dma (gx g) = dma (gx g') /\ node (gx g) = node (gx g') /\ gc g = gc g' /\ gl g = gl g'.
Proof. rewrite /view /shape. by case => -> -> -> -> ->. Qed.
Lemma map_view {A} (f : gi -> A) l l' : (forall g g', view g = view g' -> f g = f g') -> map view l = map view l' -> map f l = map f l'.
Proof. move => H. elim: l l' => [|g l IH] [|g' l'] //=. case => E1 E2 E3 E4 E5 E. f_equal; last by apply: IH. apply: H. rewrite /view /shape. congruence. Qed.
Lemma filter_view (f : gi -> bool) l l' : (forall g g', view g = view g' -> f g = f g') -> map view l = map view l' -> map view (filter f l) = map view (filter f l').
Proof.
  move => H. elim: l l' => [|g l IH] [|g' l'] //=. case => E1 E2 E3 E4 E5 E.
  have V : view g = view g' by rewrite /view /shape; congruence.
  rewrite (H _ _ V). case: (f g') => /=; rewrite (IH l') //. by rewrite V.
Qed.
Lemma forall_view (P : gi -> Prop) l l' : (forall g g', view g = view g' -> P g -> P g') -> map view l = map view l' -> Forall P l -> Forall P l'.
Proof.
  move => H. elim: l l' => [|g l IH] [|g' l'] //= E F. case: E => E1 E2 E3 E4 E5 E. inversion F; subst.
  constructor; last by apply: IH. apply: H; last eassumption. rewrite /view /shape. congruence.
Qed.
Lemma all_view l l' : map view l = map view l' -> all l = all l'.
Proof.
  rewrite /all !flat_map_concat_map => E. f_equal. apply: map_view E. move => g g' /view_same [B [_ [_ [_ L]]]]. by rewrite /absl B L.
Qed.
Lemma views l l' : map shape l = map shape l' -> map gl l = map gl l' -> map view l = map view l'.
Proof. elim: l l' => [|g l IH] [|g' l'] //= E F. case: E => *. case: F => *. f_equal; last by apply: IH. rewrite /view /shape. congruence. Qed.

Lemma main_alloc_ok (gm : list gi) (size : Z) : Forall okg gm -> 0 < size ->
  exists gm' r, main_alloc (map gx gm) size = Some (map gx gm', r) /\ Forall okg gm' /\ map shape gm' = map shape gm /\
  match r with
  | None => map view gm' = map view gm /\ Forall (fun g => stuck g size) gm'
  | Some (a, b) => Permutation (all gm') ((a, b) :: all gm) /\ exists g, In g gm /\ b = block_of (gc g) size
  end.
Proof.
  move => F S. rewrite /main_alloc. have [g1 [r1 [-> [O1 [S1 K1]]]]] := try_main_ok false gm size F S.
  case: r1 K1 => [[a b]|] K1; first by exists g1, (Some (a, b)).
  move: K1 => [A1 [T1 L1]]. have [g2 [r2 [-> [O2 [S2 K2]]]]] := try_main_ok true g1 size O1 S.
  exists g2, r2. split => //. split => //. split; first congruence.
  case: r2 K2 => [[a b]|] K2.
  - move: K2 => [P [g [Ig B]]]. rewrite A1 in P. split => //.
    have Iv : In (shape g) (map shape gm) by rewrite -S1; apply: in_map.
    move/in_map_iff: Iv => [g0 [E0 I0]]. exists g0. split => //. rewrite B. f_equal. by case: E0.
  - move: K2 => [A2 [T2 L2]]. have V := views _ _ S2 L2. split; first by rewrite V; apply: views.
    have T1' : Forall (fun g => dma (gx g) = false -> stuck g size) g2.
    { apply: forall_view T1; last by rewrite V. move => g g' /view_same [_ [D [_ [C L]]]]. by rewrite /stuck D C L. }
    apply Forall_forall => g Ig. move/Forall_forall: T1' => T1'. move/Forall_forall: T2 => T2.
    destruct (dma (gx g)) eqn:D; [by apply: T2|by apply: T1'].
Qed.

Definition csm (W : Z) : cfg := mk_cfg W 5 10.
Lemma good_csm W : W = 32 \/ W = 64 -> good (csm W).
Proof. rewrite /good /csm. cbn. lia. Qed.

Definition gmd (g : gi) : block := (base (gx g), Z.max (2 ^ Z.of_nat (S (cK (gc g)))) 2048).
Definition chunk (g : gi) : block := (base (gx g), SSIZE).
Definition nod (g : gi) : block := (node (gx g), SNODE).
Definition smd (g : gi) : block := (base (gx g), SMD).
Definition gb (g : gi) : Z := base (gx g).
Definition notfull (g : gi) : bool := negb (sum_sizes (gl g) =? SSIZE).
Definition isempty (g : gi) : bool := sum_sizes (gl g) =? SMD.
Definition big (x : Z * Z) : bool := SMAX <? snd x.
Definition small (x : Z * Z) : bool := negb (big x).

(** Main heaps: their metadata and the blocks of [rest] *)
Definition cmain (W : Z) (g : gi) : Prop := cW (gc g) = W /\ ca (gc g) = 11 /\ (2048 | gb g) /\ 0 < gb g.
Record mainok (W : Z) (gm : list gi) (rest : list block) : Prop := {
  m_ok : Forall okg gm; m_c : Forall (cmain W) gm; m_d : ForallOrdPairs disjoint (map gregion gm);
  m_p : Permutation (all gm) (map gmd gm ++ rest) }.
(** Small heaps *)
Record smallok (W : Z) (gs : list gi) (rest : list block) : Prop := {
  s_W : W = 32 \/ W = 64;
  s_ok : Forall okg gs; s_c : Forall (fun g => gc g = csm W) gs; s_md : Forall (fun g => In (0, SMD) (gl g)) gs;
  s_d : ForallOrdPairs disjoint (map chunk gs);
  s_p : Permutation (all gs) (map smd gs ++ rest) }.
Definition avok (gs : list gi) (av : list Z) : Prop := Permutation av (map gb (filter notfull gs)).

Record Inv (W me : Z) (s : st) (cl : list (Z * Z)) (gm gs : list gi) : Prop := {
  i_m : map gx gm = mains s; i_s : map gx gs = smalls s;
  i_main : mainok W gm (map blk (filter big cl) ++ map chunk gs ++ map nod gs);
  i_small : smallok W gs (map blk (filter small cl));
  i_cl : Forall (fun x => 0 < snd x) cl;
  i_av : avok gs (avail s);
  i_e : empties s = zlen (filter isempty gs);
  i_me : empties s <= me
}.

Lemma log2_up_max q a : 0 < q -> 0 <= a -> 2 ^ Z.log2_up (Z.max q (2 ^ a)) = Z.max (2 ^ Z.log2_up q) (2 ^ a).
Proof.
  move => Q A. case: (Z.max_spec q (2 ^ a)) => [[L ->]|[L ->]].
  - rewrite Z.log2_up_pow2 //. have := Z.log2_up_le_mono q (2 ^ a). rewrite Z.log2_up_pow2 // => M.
    have := Z.pow_le_mono_r 2 (Z.log2_up q) a. lia.
  - have := Z.log2_up_le_mono (2 ^ a) q L. rewrite Z.log2_up_pow2 // => M. have := Z.pow_le_mono_r 2 a (Z.log2_up q). lia.
Qed.
Lemma reserved_ge q : 0 < q -> q <= reserved q.
Proof. move => H. have := block_of_ge (mk_cfg 32 11 1) q H. have := block_of_ge (mk_cfg 32 5 1) q H. rewrite /reserved /block_of /minimum /SMBS /SMAX. cbn [ca]. change (2 ^ 11) with 2048. change (2 ^ 5) with 32. destruct (q <=? 2047); lia. Qed.
Lemma reserved_big q c : ca c = 11 -> SMAX < q -> reserved q = block_of c q /\ 2 ^ Z.log2_up (Z.max q (minimum c)) = reserved q.
Proof.
  move => C H. rewrite /reserved /block_of /minimum C log2_up_max //; try (rewrite /SMAX in H; lia).
  have -> : (q <=? SMAX) = false by lia. done.
Qed.
Lemma reserved_small q W : 0 < q <= SMAX -> reserved q = block_of (csm W) q /\ 2 ^ Z.log2_up (Z.max q (minimum (csm W))) = reserved q /\ 32 <= reserved q <= 2048.
Proof.
  move => H. rewrite /reserved /block_of /minimum. cbn [csm ca]. rewrite log2_up_max; try lia.
  have -> : (q <=? SMAX) = true by lia. split => //. split => //. rewrite /SMBS.
  have := Z.log2_up_le_mono q 2048. rewrite /SMAX in H. change (Z.log2_up 2048) with 11 => L.
  have := Z.pow_le_mono_r 2 (Z.log2_up q) 11. change (2 ^ 11) with 2048. lia.
Qed.

Lemma fop_nodup {A} (f : A -> block) (l : list A) : (forall x, In x l -> 0 < snd (f x)) -> ForallOrdPairs disjoint (map f l) -> NoDup (map (fun x => fst (f x)) l).
Proof.
  elim: l => [|x l IH] P H; first by constructor. cbn in *. inversion H as [|? ? F1 F2]; subst. constructor; last by (apply: IH => // y Hy; apply: P; right).
  move/in_map_iff => [y [E Iy]]. move/Forall_forall: F1 => F1. have := F1 (f y) (in_map _ _ _ Iy).
  have := P x ltac:(by left). have := P y ltac:(by right). rewrite /disjoint. lia.
Qed.
Lemma fop_sub1 l1 l2 : ForallOrdPairs disjoint (l1 ++ l2) -> ForallOrdPairs disjoint l1 /\ ForallOrdPairs disjoint l2.
Proof. elim: l1 => [|x l IH] H; first by (split => //; constructor). cbn in H. inversion H as [|? ? F1 F2]; subst. have [H1 H2] := IH F2. split => //. constructor => //. by move/Forall_app: F1 => [? _]. Qed.

Lemma main_fop W gm rest : mainok W gm rest -> ForallOrdPairs disjoint (map gmd gm ++ rest).
Proof. move => I. apply: fop_perm; first apply: (m_p _ _ _ I). apply: all_fop; apply I. Qed.
Lemma total_csm W : total (csm W) = SSIZE.
Proof. reflexivity. Qed.
Lemma small_regions W gs rest : smallok W gs rest -> ForallOrdPairs disjoint (map gregion gs).
Proof.
  move => I. have := s_d _ _ _ I. have := s_c _ _ _ I. clear. move => C. have -> // : map chunk gs = map gregion gs.
  elim: gs C => [//|g gs IH] C. inversion C as [|? ? E C']; subst. cbn. rewrite IH //. by rewrite /chunk /gregion E.
Qed.
Lemma small_nodup W gs rest : smallok W gs rest -> NoDup (map gb gs).
Proof. move => I. apply: (fop_nodup chunk); last by apply I. by []. Qed.
Lemma small_fop W gs rest : smallok W gs rest -> ForallOrdPairs disjoint (map smd gs ++ rest).
Proof. move => I. apply: fop_perm; first apply: (s_p _ _ _ I). apply: all_fop; [apply I|apply: small_regions I]. Qed.
Lemma small_in W gs rest : smallok W gs rest -> forall x, In x (map smd gs ++ rest) -> exists g, In g gs /\ gb g <= fst x /\ fst x + snd x <= gb g + SSIZE /\ 32 <= snd x.
Proof.
  move => I [p b] Ix. have Ia : In (p, b) (all gs) by apply: Permutation_in Ix; apply: Permutation_sym; apply I.
  have [g [Ig [_ [[R1 R2] M]]]] := all_in gs p b (s_ok _ _ _ I) Ia. exists g. split => //.
  have Cg : gc g = csm W by move: (s_c _ _ _ I) => /Forall_forall X; apply: X.
  rewrite Cg total_csm in R2. rewrite Cg in M. change (minimum (csm W)) with 32 in M. rewrite /gb. cbn [fst snd]. lia.
Qed.
Lemma main_in W gm rest : mainok W gm rest -> forall x, In x (map gmd gm ++ rest) -> 0 < fst x /\ 2048 <= snd x /\ exists g, In g gm /\ gb g <= fst x /\ fst x + snd x <= gb g + total (gc g).
Proof.
  move => I [p b] Ix. have Ia : In (p, b) (all gm) by apply: Permutation_in Ix; apply: Permutation_sym; apply I.
  have [g [Ig [_ [[R1 R2] M]]]] := all_in gm p b (m_ok _ _ _ I) Ia.
  have [_ [C [_ B]]] : cmain W g by move: (m_c _ _ _ I) => /Forall_forall X; apply: X.
  rewrite /minimum C in M. change (2 ^ 11) with 2048 in M. rewrite /gb in B. cbn [fst snd]. split; first lia. split; first lia. exists g. rewrite /gb. by split.
Qed.

Lemma map_shape {A} (f : gi -> A) l l' : (forall g g', shape g = shape g' -> f g = f g') -> map shape l = map shape l' -> map f l = map f l'.
Proof. move => H. elim: l l' => [|g l IH] [|g' l'] //=. case => E1 E2 E3 E4 E. f_equal; last by apply: IH. apply: H. rewrite /shape. congruence. Qed.
Lemma forall_shape (P : gi -> Prop) l l' : (forall g g', shape g = shape g' -> P g -> P g') -> map shape l = map shape l' -> Forall P l -> Forall P l'.
Proof.
  move => H. elim: l l' => [|g l IH] [|g' l'] //= E F. case: E => E1 E2 E3 E4 E. inversion F; subst.
  constructor; last by apply: IH. apply: H; last eassumption. rewrite /shape. congruence.
Qed.
Lemma mainok_shape W gm gm' rest rest' : mainok W gm rest -> Forall okg gm' -> map shape gm' = map shape gm ->
  (Permutation (all gm) (map gmd gm ++ rest) -> Permutation (all gm') (map gmd gm ++ rest')) -> mainok W gm' rest'.
Proof.
  move => I O S P. constructor => //.
  - apply: forall_shape (m_c _ _ _ I); last by symmetry. rewrite /cmain /gb => g g'. by case => -> _ _ ->.
  - have -> : map gregion gm' = map gregion gm; last by apply I. apply: map_shape S => g g'. by case; rewrite /gregion => -> _ _ ->.
  - have -> : map gmd gm' = map gmd gm; last by apply: P; apply I. apply: map_shape S => g g'. by case; rewrite /gmd => -> _ _ ->.
Qed.
Lemma mainok_perm W gm rest rest' : mainok W gm rest -> Permutation rest rest' -> mainok W gm rest'.
Proof. move => I P. apply: (mainok_shape _ gm gm rest rest' I (m_ok _ _ _ I)) => // H. rewrite H. by apply: Permutation_app_head. Qed.

Lemma mainok_alloc W gm rest size : mainok W gm rest -> 0 < size ->
  exists gm' r, main_alloc (map gx gm) size = Some (map gx gm', r) /\ map shape gm' = map shape gm /\
  match r with
  | None => mainok W gm' rest /\ map view gm' = map view gm /\ Forall (fun g => stuck g size) gm'
  | Some (a, b) => mainok W gm' ((a, b) :: rest) /\ b = Z.max (2 ^ Z.log2_up size) 2048
  end.
Proof.
  move => I S. have [gm' [r [E [O [Sh K]]]]] := main_alloc_ok gm size (m_ok _ _ _ I) S.
  exists gm', r. split => //. split => //. case: r E K => [[a b]|] E [K1 K2].
  - split.
    + apply: mainok_shape I O Sh _ => P. rewrite K1 P. apply: Permutation_middle.
    + move: K2 => [g [Ig ->]]. have [_ [C _]] : cmain W g by move: (m_c _ _ _ I) => /Forall_forall X; apply: X. by rewrite /block_of /minimum C.
  - split => //. apply: mainok_shape I O Sh _. by rewrite (all_view _ _ K1).
Qed.
Lemma mainok_free W gm rest p b u rest' : mainok W gm rest -> Permutation rest ((p, b) :: rest') ->
  (u = 0 \/ (0 < u <= b /\ 2 ^ Z.log2_up (Z.max u 2048) = b)) ->
  exists gm', main_free (map gx gm) p u = Some (Some (map gx gm')) /\ map shape gm' = map shape gm /\ mainok W gm' rest'.
Proof.
  move => I P U. have I' := mainok_perm _ _ _ _ I P. have Cm := m_c _ _ _ I. move/Forall_forall: Cm => Cm.
  have Min : forall g, In g gm -> minimum (gc g) = 2048 by move => g /Cm [_ [C _]]; rewrite /minimum C.
  case: (main_free_ok gm p b u) => //.
  - apply I.
  - apply Forall_forall => g Ig. rewrite Min //. by move: (Cm _ Ig) => [_ [_ [D _]]].
  - apply I.
  - apply: Permutation_in; first by (apply: Permutation_sym; apply I'). apply in_app_iff. right. by left.
  - move => g Ig. right => E. have D := fop_in _ _ (gmd g) (p, b) (main_fop _ _ _ I') (in_map _ _ _ Ig) ltac:(by left).
    have [_ [B _]] := main_in _ _ _ I' (p, b) ltac:(by apply in_app_iff; right; left).
    move: D B. rewrite /disjoint /gmd. cbn [fst snd]. lia.
  - case: U => [->|[U1 U2]]; [by left|right => g Ig]. by rewrite Min.
  - move => gm' [E [O [Sh Q]]]. exists gm'. split => //. split => //. apply: mainok_shape I' O Sh _ => P'.
    apply: (Permutation_cons_inv (a := (p, b))). rewrite -Q P'. apply: Permutation_sym. apply: Permutation_middle.
Qed.

(** One small heap among them *)
Lemma split_in (gs : list gi) (g : gi) : In g gs -> exists g1 g2, gs = g1 ++ g :: g2.
Proof. exact: in_split. Qed.
Lemma find_h_ok (gs : list gi) (g : gi) : NoDup (map gb gs) -> In g gs -> find_h (gb g) (map gx gs) = Some (gx g).
Proof.
  elim: gs => [//|x gs IH] N Hg. cbn in *. inversion N; subst. case: Hg => [->|Hg].
  - by rewrite /gb Z.eqb_refl.
  - have -> : (base (gx x) =? gb g) = false. { apply Z.eqb_neq => E. apply: H1. apply/in_map_iff. exists g. by split. }
    by apply: IH.
Qed.
Lemma set_in_ok g1 g g2 h l' : NoDup (map gb (g1 ++ g :: g2)) ->
  set_in (map gx (g1 ++ g :: g2)) (gb g) h = map gx (g1 ++ Gi (set_h (gx g) h) (gc g) l' :: g2).
Proof.
  move => N. rewrite map_app /= in N. have := NoDup_remove_2 _ _ _ N. rewrite in_app_iff => NI.
  rewrite /set_in !map_app /=. rewrite {1}/gb Z.eqb_refl.
  have X : forall t, ~ In (gb g) (map gb t) -> map (fun y => if base y =? gb g then set_h y h else y) (map gx t) = map gx t.
  { elim => [//|x t IH] W. cbn in *. have -> : (base (gx x) =? gb g) = false by (apply Z.eqb_neq => E; apply: W; left).
    f_equal. apply: IH. tauto. }
  rewrite !X //; tauto.
Qed.

Lemma try_small_ok W (size : Z) (av : list Z) (gs : list gi) : Forall okg gs -> Forall (fun g => gc g = csm W) gs -> NoDup (map gb gs) -> 0 < size ->
  (forall b, In b av -> In b (map gb gs)) ->
  exists gs1 r ss, try_small av (map gx gs) size = Some (ss, r) /\ Forall okg gs1 /\ map view gs1 = map view gs /\
  match r with
  | None => ss = map gx gs1 /\ forall b, In b av -> exists g, In g gs /\ gb g = b /\ stuck g size
  | Some (x, h, (a, b)) => exists g1 g g2, gs1 = g1 ++ g :: g2 /\ gx g = x /\ size <= SSIZE - mem (bh x) /\
      ss = map gx (g1 ++ Gi (set_h x h) (gc g) ((a - base x, b) :: gl g) :: g2) /\
      okh (gc g) h ((a - base x, b) :: gl g) /\ b = block_of (csm W) size
  end.
Proof.
  elim: av gs => [|b av IH] gs O C N S A.
  { by exists gs, None, (map gx gs). }
  cbn [try_small]. have /in_map_iff [g [Eb Ig]] : In b (map gb gs) by apply: A; left. subst b.
  rewrite (find_h_ok gs g N Ig). have Og : okg g by move/Forall_forall: O; apply.
  have Cg : gc g = csm W by move/Forall_forall: C => C; apply: C.
  have [_ [Hs _]] := okh_conf _ _ _ Og.
  have Av : forall b, In b av -> In b (map gb gs) by move => b Hb; apply: A; right.
  destruct (Z.ltb_spec (hsize (bh (gx g)) - mem (bh (gx g))) size) as [L|L].
  { have [gs1 [r [ss [E [P1 [P2 P3]]]]]] := IH gs O C N S Av. exists gs1, r, ss. split => //. split => //. split => //.
    case: r E P3 => [//|] E [P3 P4]. split => // b [<-|Hb]; last by apply: P4. exists g. split => //. split => //. by apply: no_room L. }
  have [h' [r1 [E1 K1]]] := one_alloc _ _ _ size Og S. rewrite E1. have [g1 [g2 Es]] := split_in _ _ Ig.
  case: r1 E1 K1 => [[a z]|] E1 [O1 B1].
  - exists gs, (Some (gx g, h', (base (gx g) + a, z))), (set_in (map gx gs) (gb g) h'). split => //. split => //. split => //.
    have Ea : base (gx g) + a - base (gx g) = a by lia. rewrite Ea. 
    exists g1, g, g2. split => //. split => //. split; first by (rewrite Hs Cg total_csm in L; lia).
    split; first by rewrite Es; apply: set_in_ok; rewrite -Es. split => //. by rewrite B1 Cg.
  - rewrite Es (set_in_ok g1 g g2 h' (gl g)) -?Es //.
    set gs2 := g1 ++ _ :: g2. have V : map view gs2 = map view gs by rewrite /gs2 Es !map_app.
    have Vb : map gb gs2 = map gb gs by (apply: map_view V => ? ? /view_same [? _]; rewrite /gb).
    have H1 : Forall okg gs2. { move: O. rewrite Es /gs2 !Forall_app. move => [? X]. split => //. inversion X; subst. by constructor. }
    have H2 : Forall (fun g => gc g = csm W) gs2. { apply: forall_view C; last by symmetry. by move => ? ? /view_same [_ [_ [_ [-> _]]]]. }
    have [gs1 [r [ss [E [P1 [P2 P3]]]]]] := IH gs2 H1 H2 ltac:(by rewrite Vb) S ltac:(by rewrite Vb).
    exists gs1, r, ss. rewrite -V. split => //. split => //. split => //.
    case: r E P3 => [//|] E [P3 P4]. split => // b [<-|Hb]; first by exists g.
    have [g3 [I3 [B3 S3]]] := P4 _ Hb. have Iv : In (view g3) (map view gs) by rewrite -V; apply: in_map.
    move/in_map_iff: Iv => [g4 [E4 I4]]. exists g4. split => //. have [Y1 [_ [_ [Y2 Y3]]]] := view_same _ _ E4. rewrite /gb Y1. split => //. by rewrite /stuck Y2 Y3.
Qed.
