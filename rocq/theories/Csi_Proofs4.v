(** Streams of sequences, interrupted sequences, malformed ones. *)
From Coq Require Import ssreflect.
From Verif Require Import Lib Itoa_Model Itoa_Spec Itoa_Proofs Term_Model Term_Spec Term_Proofs6
  Csi_Model Csi_Spec Csi_Proofs Csi_Proofs2 Csi_Proofs3.

Lemma last_byte g w mem x s a k rep c o m :
  wf g -> corr g s a ->
  filter g w mem c (r s) (Term_Model.c s) x k = Some o -> good g o m -> pst_ (o_con o) = PDef ->
  mays g a (map OItem (snd (fst m))) ->
  exists x1 s1 a1, feed1 g w mem (Vt x s k rep) c = Some (Vt x1 s1 (shown (fst (fst m))) (rep ++ snd m)) /\
    aruns g a (map OItem (snd (fst m))) a1 /\ corr g s1 a1 /\ ccorr g x1 (fst (fst m)).
Proof.
  move=> W CO F [G1 [G2 [G3 G4]]] P M.
  have [s1 [a1 [R [AR C1]]]] := sim_run g _ W s a CO M.
  exists (o_con o), s1, a1. split; last first.
  - do 2 (split; first done). exact: ccorr_intro.
  - rewrite /feed1 /= F /= G1 execs_run R /= G2 G4. by [].
Qed.

Lemma esc_in g w mem x s v k rep : ccorr g x v ->
  feed1 g w mem (Vt x s k rep) 27 = Some (Vt (set_st x PEsc) s k rep).
Proof.
  move=> [P [_ [_ [_ [_ [_ [_ [_ [_ [_ [K1 [K2 [K3 [_ [_ [_ [_ [_ [N1 [N2 N3]]]]]]]]]]]]]]]]]]]].
  apply: feed1_nothing. rewrite /filter P /st_def.
  have -> : (if (if cset x then gx1 x else gx0 x) then trans_gfx 27 else trans_default 27) = -1
    by case: (if cset x then gx1 x else gx0 x).
  cbn [Z.leb Z.compare]. rewrite /def_func K1 K2 K3.
  have -> : (27 =? a_kill v) = false by apply/Z.eqb_neq; lia.
  have -> : (27 =? a_werase v) = false by apply/Z.eqb_neq; lia.
  have -> : (27 =? a_erase v) = false by apply/Z.eqb_neq; lia.
  by [].
Qed.

Lemma csi_in g w mem x s k rep : pst_ x = PEsc ->
  feed1 g w mem (Vt x s k rep) 91 = Some (Vt (set_st (reset_ctx x) PCsi) s k rep).
Proof. move=> P. apply: feed1_nothing. by rewrite /filter P. Qed.

Lemma ccorr_core g x v p b i : ccorr g x v -> ccore g (set_st (set_by x b i) p) v.
Proof. rewrite /ccore /ccorr /=. tauto. Qed.

Lemma fst3 {A B C} (m : A * B * C) a b c : m = (a, b, c) -> fst (fst m) = a /\ snd (fst m) = b /\ snd m = c.
Proof. by move=> ->. Qed.

Lemma seq_step g w mem x s a v k rep q v1 il r1 :
  wf g -> 32 <= w -> corr g s a -> ccorr g x v -> k = shown v -> seq_ok g a v q ->
  mean g mem a v q = (v1, il, r1) -> mays g a (map OItem il) ->
  exists x1 s1 a1, feed g w mem (Vt x s k rep) (bytes q) = Some (Vt x1 s1 (shown v1) (rep ++ r1)) /\
    aruns g a (map OItem il) a1 /\ corr g s1 a1 /\ ccorr g x1 v1.
Proof.
  move=> W Ww CO CC K OK M MY.
  have [E1 [E2 E3]] := fst3 _ _ _ _ M. rewrite -E1 -E2 -E3. rewrite -E2 in MY. clear E1 E2 E3 M.
  have CR : core g s a by move: CO => [].
  have ESC := esc_in g w mem x s v k rep CC.
  have one : forall c, obind (feed1 g w mem (Vt x s k rep) c) (fun v1 => feed g w mem v1 []) =
    feed1 g w mem (Vt x s k rep) c by move=> c; case: (feed1 _ _ _ _ _).
  have two : forall y c, obind (feed1 g w mem y c) (fun v1 => feed g w mem v1 []) =
    feed1 g w mem y c by move=> y c; case: (feed1 _ _ _ _ _).
  case: q OK MY => [c | pvt ps f | | | | o gx] OK MY.
  - have [G P] := byte_ok g c x v k a CC K OK.
    cbn [bytes feed]. rewrite one. apply: last_byte => //; last exact: P; last exact: G.
    rewrite /filter. by have -> : pst_ x = PDef by move: CC => [].
  - have [F [L [LT [PO A]]]] := OK.
    have B := ptext_bytes pvt ps PO.
    change (bytes (QCsi pvt ps f)) with (27 :: 91 :: ptext pvt ps ++ [f]).
    cbn [feed]. rewrite ESC. cbn [obind]. rewrite csi_in; first by []. cbn [obind].
    rewrite feed_app. rewrite feed_params //.
    { change (zlen (pb (set_st (reset_ctx (set_st x PEsc)) PCsi))) with 0. lia. }
    cbn [obind feed]. rewrite two.
    set x2 := set_by _ _ _.
    have C2 : ccore g x2 v by exact: (ccorr_core g x v PCsi (ptext pvt ps) [] CC).
    have [o [E [G P]]] := end_csi_ok g w mem f pvt ps s a x2 v k W Ww CR C2 K OK eq_refl eq_refl.
    apply: last_byte => //; last exact: P; last exact: G.
    rewrite /filter. cbn [x2 pst_ set_by set_st].
    have -> : (f =? 27) = false by apply/Z.eqb_neq; lia.
    rewrite /st_csi.
    have -> : (48 <=? f) && (f <=? 63) = false by zb; lia.
    have -> : (32 <=? f) && (f <=? 47) = false by zb; lia.
    have -> : (64 <=? f) && (f <=? 126) = true by zb; lia.
    exact: E.
  - cbn [bytes feed]. rewrite ESC. cbn [obind]. rewrite two.
    have F : filter g w mem 68 (r s) (Term_Model.c s) (set_st x PEsc) k =
      Some (st_esc 68 (r s) (set_st x PEsc) k) by [].
    apply: (last_byte _ _ _ _ _ _ _ _ _ _ _ W CO F _ _ MY); last by [].
    split; last first. { split; first done. split; first exact: (ccore_of _ _ _ CC). exact: K. }
    rewrite /items /= K. by [].
  - cbn [bytes feed]. rewrite ESC. cbn [obind]. rewrite two.
    have F : filter g w mem 77 (r s) (Term_Model.c s) (set_st x PEsc) k =
      Some (st_esc 77 (r s) (set_st x PEsc) k) by [].
    apply: (last_byte _ _ _ _ _ _ _ _ _ _ _ W CO F _ _ MY); last by [].
    split; last first. { split; first done. split; first exact: (ccore_of _ _ _ CC). exact: K. }
    rewrite /items /= (k_r _ _ _ CR). have := k_rb _ _ _ CR => RB.
    case: (Z.eqb_spec (ar a) 0) => Z0; case: (Z.ltb_spec 0 (ar a)) => Z1; try lia; by [].
  - move: OK => [B [RV [FG BG]]].
    cbn [bytes feed]. rewrite ESC. cbn [obind]. rewrite two.
    have F : filter g w mem 99 (r s) (Term_Model.c s) (set_st x PEsc) k =
      Some (st_esc 99 (r s) (set_st x PEsc) k) by [].
    apply: (last_byte _ _ _ _ _ _ _ _ _ _ _ W CO F _ _ MY); last by [].
    split; first done. split; first done. split; last by rewrite /= K /shown /= B RV FG BG.
    move: CC; rewrite /ccore /ccorr /fits_vcon /keys_ok /= B RV => CC.
    intuition (try done; try lia).
  - clear OK. cbn [bytes feed]. rewrite ESC. cbn [obind].
    have E : feed1 g w mem (Vt (set_st x PEsc) s k rep) (if o then 41 else 40) =
      Some (Vt (set_st x (if o then PPar1 else PPar0)) s k rep).
    { case: o MY => MY; apply: feed1_nothing; by []. }
    rewrite E. cbn [obind]. rewrite two.
    have F : filter g w mem (if gx then 48 else 66) (r s) (Term_Model.c s)
      (set_st x (if o then PPar1 else PPar0)) k =
      Some (st_par o (if gx then 48 else 66) (set_st x (if o then PPar1 else PPar0)) k).
    { rewrite /filter. by case: o {MY E}; case: gx. }
    apply: (last_byte _ _ _ _ _ _ _ _ _ _ _ W CO F _ _ MY); last by case: o {MY E F}.
    split; first done. split; first done.
    split; last by case: o {MY E F}.
    move: CC. rewrite /ccore /ccorr /fits_vcon /keys_ok. by case: o {MY E F}; case: gx; cbn; tauto.
Qed.

Lemma stream_ok g w mem l : forall x s a v rep, wf g -> 32 <= w -> corr g s a -> ccorr g x v ->
  vmays g mem a v l ->
  exists x' s' a' v' rp, feed g w mem (Vt x s (shown v) rep) (flat_map bytes l) =
      Some (Vt x' s' (shown v') (rep ++ rp)) /\
    vruns g mem a v l a' v' rp /\ corr g s' a' /\ ccorr g x' v'.
Proof.
  elim: l => [| q l IH] x s a v rep W Ww CO CC MY.
  - exists x, s, a, v, []. cbn. by rewrite app_nil_r.
  - cbn [vmays] in MY. case E : (mean g mem a v q) => [[v1 il] r1]. rewrite E in MY.
    move: MY => [OK [M N]].
    have [x1 [s1 [a1 [F [AR [C1 CC1]]]]]] :=
      seq_step g w mem x s a v (shown v) rep q v1 il r1 W Ww CO CC eq_refl OK E M.
    have [x' [s' [a' [v' [rp [F' [VR [C' CC']]]]]]]] := IH x1 s1 a1 v1 (rep ++ r1) W Ww C1 CC1 (N a1 AR).
    exists x', s', a', v', (r1 ++ rp). cbn [flat_map]. rewrite feed_app F /= F' app_assoc.
    split; first done. split; last by [].
    rewrite E. by exists a1, rp.
Qed.
