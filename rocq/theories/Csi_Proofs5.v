(** Interrupted and malformed sequences. *)
From Coq Require Import ssreflect.
From Verif Require Import Lib Itoa_Model Itoa_Spec Itoa_Proofs Term_Model Term_Spec Term_Proofs6
  Csi_Model Csi_Spec Csi_Proofs Csi_Proofs2 Csi_Proofs3 Csi_Proofs4.

Lemma resync g w mem x s v k rep l : pst_ x <> PDef -> ccorr g (reset_ctx x) v ->
  feed g w mem (Vt x s k rep) (27 :: l) = feed g w mem (Vt (reset_ctx x) s k rep) (27 :: l).
Proof.
  move=> P CC. cbn [feed]. rewrite (esc_in g w mem (reset_ctx x) s v k rep CC).
  have -> : feed1 g w mem (Vt x s k rep) 27 = Some (Vt (set_st (reset_ctx x) PEsc) s k rep); last by [].
  apply: feed1_nothing. rewrite /filter. by case: (pst_ x) P.
Qed.

Lemma hd_esc_bytes l : hd_esc l -> exists t, flat_map bytes l = 27 :: t.
Proof. case: l => [// | [c | pvt ps f | | | | o gx] l] // _; eexists; reflexivity. Qed.

Lemma interrupted g w mem l x s a v rep : wf g -> 32 <= w -> corr g s a -> pst_ x <> PDef ->
  ccorr g (reset_ctx x) v -> hd_esc l -> vmays g mem a v l ->
  exists x' s' a' v' rp, feed g w mem (Vt x s (shown v) rep) (flat_map bytes l) =
      Some (Vt x' s' (shown v') (rep ++ rp)) /\
    vruns g mem a v l a' v' rp /\ corr g s' a' /\ ccorr g x' v'.
Proof.
  move=> W Ww CO P CC H M.
  have [t E] := hd_esc_bytes l H. rewrite E (resync g w mem x s v (shown v) rep t P CC) -E.
  exact: (stream_ok g w mem l (reset_ctx x) s a v rep).
Qed.

Lemma init_con g : wf g -> ccorr g con_init v_init.
Proof.
  move=> [W1 [W2 _]]. rewrite /ccorr /fits_vcon /keys_ok /=. do 14 (split; first done). lia.
Qed.

(** Parser bytes *)
Lemma parsing_reset x p : parsing (set_st (reset_ctx x) p).
Proof. rewrite /parsing /=. repeat split; try (by constructor); by vm_compute. Qed.

Lemma parsing_reset0 x : parsing (reset_ctx x).
Proof. exact: (parsing_reset x PDef). Qed.

Lemma parsing_ext x y : pb x = pb y -> ib x = ib y -> parsing x -> parsing y.
Proof. rewrite /parsing. by move=> -> ->. Qed.


Lemma end_csi_parsing g w mem c y z x k o : end_csi g w mem c y z x k = Some o -> parsing (o_con o).
Proof.
  rewrite /end_csi. case: (_ || _) => //. case: (match pb x with [] => _ | _ => _ end) => [ps |] //=.
  move=> [<-]. cbn. exact: parsing_reset0.
Qed.

Lemma filter_parsing g w mem c y z x k o : 0 <= c < 256 -> parsing x ->
  filter g w mem c y z x k = Some o -> parsing (o_con o).
Proof.
  move=> C P. rewrite /filter.
  have NP : forall p, parsing (set_st x p) by move=> p; exact: (parsing_ext x _ eq_refl eq_refl P).
  have D : forall cs a b p, parsing (set_st (set_cs x cs a b) p)
    by move=> cs a b p; exact: (parsing_ext x _ eq_refl eq_refl P).
  have ESC : forall k, parsing (o_con (nothing (set_st (reset_ctx x) PEsc) k))
    by move=> k'; exact: parsing_reset.
  case: (pst_ x);
    [| case: (c =? 27); first (by move=> [<-]) | case: (c =? 27); first (by move=> [<-])
     | case: (c =? 27); first (by move=> [<-]) | case: (c =? 27); first (by move=> [<-])
     | case: (c =? 27); first (by move=> [<-])].
  - move=> [<-]. rewrite /st_def. case: (0 <=? _); first by []. rewrite /def_func.
    case: (c =? k_kill x); first by []. case: (c =? k_werase x); first by [].
    case: (c =? k_erase x); first by [].
    have B := in_range 256 c C. clear C.
    cbn [map List.seq Z.of_nat Pos.of_succ_nat Pos.succ In] in B.
    repeat (destruct B as [<- | B]; first (cbn; try case: (onlcr x); first [exact: P | exact: NP | exact: parsing_reset | exact: (D _ _ _ (pst_ x))])).
    by [].
  - move=> [<-]. rewrite /st_esc.
    have U : parsing (o_con (st_unk c (set_st x PUnk) k)).
    { rewrite /st_unk /=. case: (_ && _); exact: (parsing_ext x _ eq_refl eq_refl P). }
    case: (Z.eqb_spec c 91) => [-> | N1]; first exact: (parsing_reset x PCsi).
    case: (Z.eqb_spec c 99) => [-> | N2]; first by cbn; exact: (parsing_reset0 x).
    case: (Z.eqb_spec c 40) => [-> | N3]; first exact: NP.
    case: (Z.eqb_spec c 41) => [-> | N4]; first exact: NP.
    case: (Z.eqb_spec c 68) => [-> | N5]; first exact: NP.
    case: (Z.eqb_spec c 77) => [-> | N6]; first exact: NP.
    have -> : (match c with
      | 91 => nothing (set_st (reset_ctx x) PCsi) k
      | 99 => let x1 := set_at x (bold x) (rvs x) 7 7 in
              let x2 := set_tm (set_cs x1 false false true) 127 23 21 true in
              act (reset_ctx x2) k IReset
      | 40 => nothing (set_st x PPar0) k
      | 41 => nothing (set_st x PPar1) k
      | 68 => Out (set_st x PDef) k (Some 10) [] []
      | 77 => act (set_st x PDef) k (if 0 <? y then mk_move_rel (-1) 0 else IScrollDown (u12 1))
      | _ => st_unk c (set_st x PUnk) k
      end) = st_unk c (set_st x PUnk) k; last exact: U.
    clear - N1 N2 N3 N4 N5 N6.
    destruct c as [| p | p]; try done.
    do 7 (destruct p as [p | p |]; try done; try lia).
  - move=> [<-]. rewrite /st_par /=. exact: (parsing_ext x _ eq_refl eq_refl P).
  - move=> [<-]. rewrite /st_par /=. exact: (parsing_ext x _ eq_refl eq_refl P).
  - move: P => [P1 [P2 [P3 P4]]]. rewrite /st_csi.
    case R1 : (_ && _).
    { case: (Z.leb_spec 64 (zlen (pb x))) => L [<-]; first exact: parsing_reset0.
      rewrite /parsing /=. split; first by (rewrite /zlen app_length /=; rewrite /zlen in L; lia).
      split; first done. split; last done. apply/Forall_app. split => //.
      constructor; last by constructor. move: R1; zb => //; lia. }
    case R2 : (_ && _).
    { case: (Z.leb_spec 64 (zlen (ib x))) => L [<-]; first exact: parsing_reset0.
      rewrite /parsing /=. split; first done.
      split; first by (rewrite /zlen app_length /=; rewrite /zlen in L; lia).
      split; first done. apply/Forall_app. split => //.
      constructor; last by constructor. move: R2; zb => //; lia. }
    case: (_ && _); last by (move=> [<-]; exact: parsing_reset0).
    exact: end_csi_parsing.
  - move=> [<-]. rewrite /st_unk /=. case: (_ && _); exact: (parsing_ext x _ eq_refl eq_refl P).
Qed.

Lemma feed_parsing g w mem l : forall v v', Forall (fun c => 0 <= c < 256) l ->
  parsing (v_con v) -> feed g w mem v l = Some v' -> parsing (v_con v').
Proof.
  elim: l => [| c l IH] v v' F P /=; first by move=> [<-].
  inversion F as [| ? ? C F']; subst.
  rewrite /feed1. case E : (filter _ _ _ _ _ _ _ _) => [o |] //=.
  case: (execs _ _ _) => [s1 |] //=. move=> H. apply: IH H => //=. exact: filter_parsing E.
Qed.
