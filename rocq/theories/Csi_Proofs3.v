(** A stream of sequences. *)
From Coq Require Import ssreflect.
From Verif Require Import Lib Itoa_Model Itoa_Spec Term_Model Term_Spec Term_Proofs6
  Csi_Model Csi_Spec Csi_Proofs Csi_Proofs2.

Lemma feed_app g w mem l1 : forall v l2,
  feed g w mem v (l1 ++ l2) = obind (feed g w mem v l1) (fun v1 => feed g w mem v1 l2).
Proof.
  elim: l1 => [| c l1 IH] v l2 //=. case: (feed1 g w mem v c) => [v1 |] //=.
Qed.

Lemma execs_run g l : forall s, execs g s l = run g s (map OItem l).
Proof. elim: l => [| i l IH] s //=. case: (exec g s i) => [s1 |] //=. Qed.

Lemma feed1_nothing g w mem x s k rep c x1 :
  filter g w mem c (r s) (Term_Model.c s) x k = Some (nothing x1 k) ->
  feed1 g w mem (Vt x s k rep) c = Some (Vt x1 s k rep).
Proof. move=> H. rewrite /feed1 /= H /=. by rewrite app_nil_r. Qed.

Lemma feed_params g w mem s k rep l : forall x, pst_ x = PCsi ->
  Forall (fun c => 48 <= c <= 63) l -> zlen (pb x) + zlen l <= 64 ->
  feed g w mem (Vt x s k rep) l = Some (Vt (set_by x (pb x ++ l) (ib x)) s k rep).
Proof.
  elim: l => [| c l IH] x P F L.
  - cbn. rewrite app_nil_r. by case: x P {L}.
  - inversion F as [| ? ? C F']; subst. cbn [feed].
    have E : feed1 g w mem (Vt x s k rep) c = Some (Vt (set_by x (pb x ++ [c]) (ib x)) s k rep).
    { apply: feed1_nothing. rewrite /filter P.
      have -> : (c =? 27) = false by apply/Z.eqb_neq; lia.
      rewrite /st_csi.
      have -> : (48 <=? c) && (c <=? 63) = true by zb; lia.
      have -> : (64 <=? zlen (pb x)) = false
        by apply/Z.leb_gt; move: L; rewrite /zlen /=; lia.
      by []. }
    rewrite E /=. rewrite IH //=.
    + move: L; rewrite /zlen app_length /=; lia.
    + by rewrite -app_assoc.
Qed.

Definition norm (ps : list (list Z)) : list (list Z) := match ps with [] => [[]] | _ => ps end.
Lemma join_norm ps : join (norm ps) = join ps.
Proof. by case: ps. Qed.
Lemma vals_norm ps : vals ps = map value (norm ps).
Proof. by case: ps. Qed.
Lemma norm_ne ps : norm ps <> [].
Proof. by case: ps. Qed.
Lemma norm_ok ps : Forall pok ps -> Forall pok (norm ps).
Proof. case: ps => [_ | //]. constructor; last by constructor. by split. Qed.
Lemma norm_len ps : zlen ps <= 16 -> zlen (norm ps) <= 16.
Proof. by case: ps. Qed.

Lemma join_length ps : (length ps <= S (length (join ps)))%nat.
Proof.
  elim: ps => [| p [| q ps] IH]; try by (cbn; lia).
  rewrite join_cons app_length. cbn [length] in IH |- *. lia.
Qed.

Lemma join_bytes ps : Forall pok ps ->
  Forall (fun c => 48 <= c <= 63) (join ps) /\ (forall c l, join ps = c :: l -> c <> 63).
Proof.
  have D : forall p, pok p -> Forall (fun c => 48 <= c <= 57) (map (Z.add 48) p).
  { move=> p [P _]. elim: P => [| d l H _ IH]; cbn; constructor => //; lia. }
  have D' : forall p, pok p -> Forall (fun c => 48 <= c <= 63) (map (Z.add 48) p).
  { move=> p /D H. apply: Forall_impl H => c H. lia. }
  elim: ps => [| p [| q ps] IH] F.
  - split; first by constructor. by [].
  - inversion F as [| ? ? P _]; subst. split; first exact: D'.
    cbn [join]. move=> c l E. have := D p P. rewrite E => H. inversion H; subst. lia.
  - inversion F as [| ? ? P F']; subst. have [I1 I2] := IH F'. rewrite join_cons. split.
    + apply/Forall_app. split; first exact: D'. constructor => //.
    + move=> c l. have := D p P. case: (map _ p) => [| d m] H E.
      * cbn in E. injection E => _ <-. lia.
      * injection E => _ <-. inversion H; subst. lia.
Qed.

Lemma ptext_bytes pvt ps : Forall pok ps -> Forall (fun c => 48 <= c <= 63) (ptext pvt ps).
Proof.
  move=> F. have [H _] := join_bytes ps F. rewrite /ptext. case: pvt => //=. by constructor.
Qed.

Lemma vals_range ps i : Forall pok ps -> 0 <= nth i (vals ps) 0 < 2 ^ 31.
Proof.
  move=> F. rewrite vals_norm. have := norm_ok ps F. move: (norm ps) => l {F}.
  elim: l i => [| p l IH] i F; first by case: i.
  inversion F as [| ? ? [P V] F']; subst. case: i => [| i] /=; last exact: IH.
  split => //. exact: value_nonneg.
Qed.

Lemma ccorr_intro g x v : pst_ x = PDef -> ccore g x v -> ccorr g x v.
Proof. move=> P. rewrite /ccore /ccorr /= P. by []. Qed.
Lemma ccore_of g x v : ccorr g x v -> ccore g x v.
Proof. rewrite /ccore /ccorr /=. tauto. Qed.

Lemma pvt_ok g mem f ps x v k : 64 <= f <= 126 -> ccore g x v -> k = shown v ->
  good g (pvt_handler f (nth 0 ps 0) mem x k) (v, mean_pvt mem ps f, []).
Proof.
  move=> F C K. rewrite /pvt_handler /mean_pvt. set p := nth 0 ps 0.
  case: (Z.eqb_spec f 99) => [-> | F0]; first by [].
  case: (f =? 104); case: (f =? 108); cbn [orb]; case: (p =? 25); case: (p =? 1049); by [].
Qed.

Lemma end_csi_ok g w mem f pvt ps s a x v k :
  wf g -> 32 <= w -> core g s a -> ccore g x v -> k = shown v ->
  seq_ok g a v (QCsi pvt ps f) -> pb x = ptext pvt ps -> ib x = [] ->
  exists o, end_csi g w mem f (r s) (Term_Model.c s) x k = Some o /\
    good g o (mean g mem a v (QCsi pvt ps f)) /\ pst_ (o_con o) = PDef.
Proof.
  move=> W Ww CO C K [F [L [LT [OK A]]]] PB IB.
  have PO : Forall pok ps by exact: OK.
  rewrite /end_csi PB IB.
  have -> : (64 <=? zlen (ptext pvt ps)) = false by apply/Z.leb_gt.
  have -> : (64 <=? zlen (@nil Z)) = false by [].
  cbn [orb].
  have GP : forall fuel, (length ps <= fuel)%nat -> (1 <= fuel)%nat ->
    get_params w fuel (join ps ++ [0]) [] = Some (vals ps).
  { move=> fuel F1 F2. rewrite -join_norm vals_norm. rewrite get_params_join //.
    - exact: norm_ne.
    - exact: norm_ok.
    - have := norm_len ps L. by rewrite /zlen /=.
    - by case: ps F1 {L LT OK A PB PO}. }
  have R := k_r _ _ _ CO. have Cc := k_c _ _ _ CO.
  have [BR BC] := conj (k_rb _ _ _ CO) (k_cb _ _ _ CO).
  case: pvt LT PB A => LT PB A.
  - (* private *)
    rewrite /ptext. cbn [app tl].
    have H1 : (length ps <= S (length (63%Z :: join ps)))%nat
      by have := join_length ps; cbn [length]; lia.
    rewrite (GP _ H1 ltac:(lia)).
    cbn [obind]. eexists. split; first reflexivity.
    have [G1 [G2 [G3 G4]]] := pvt_ok g mem f (vals ps) x v k F C K.
    rewrite /par. split; last by [].
    by [].
  - have [JB J63] := join_bytes ps PO.
    have E : ptext false ps = join ps by [].
    rewrite E.
    have NP : (match join ps with 63 :: _ => true | _ => false end) = false.
    { case EJ : (join ps) => [| c l] //. have := J63 c l EJ.
      case: c {EJ} => // p. do 6 (case: p => // p). }
    have PS : exists ps0,
      (match join ps with [] => Some [] | _ => get_params w (S (length (join ps))) (join ps ++ [0]) [] end)
        = Some ps0 /\ vals ps = match ps0 with [] => [0] | _ => ps0 end.
    { case EJ : (join ps) => [| c l].
      - exists []. split => //. case: ps EJ {L LT OK PO A PB GP JB J63 E NP} => [| p [| q ps]] //.
        + cbn. case: p => //.
        + rewrite join_cons. by case: (map _ p).
      - exists (vals ps). rewrite -EJ (GP _ (join_length ps) ltac:(lia)).
        split => //. rewrite vals_norm. by case: (norm ps) (norm_ne ps). }
    move: PS => [ps0 [E1 E2]].
    rewrite NP E1. cbn [obind]. eexists. split; first reflexivity.
    have P0 : par ps0 0 = nth 0 (vals ps) 0 by rewrite E2 /par; clear; case: ps0.
    have P1 : par ps0 1 = nth 1 (vals ps) 0 by rewrite E2 /par; clear; case: ps0.
    have H := handler_ok g f (par ps0 0) (par ps0 1) (vals ps) ps0 (ar a) (ac a) x v k
      W BR BC F E2 (eq_sym P0) (eq_sym P1).
    have V0 := vals_range ps 0 PO. have V1 := vals_range ps 1 PO.
    rewrite P0 P1 in H. move: H => /(_ V0 V1 (A eq_refl) C K) [G1 [G2 [G3 G4]]].
    rewrite R Cc P0 P1. split; last by [].
    by [].
Qed.

(** A byte of text or a control character *)
Lemma trans_ok c : 0 <= c < 256 ->
  (glyph c = None /\ trans_gfx c < 0) \/ (glyph c = Some (trans_gfx c) /\ 0 <= trans_gfx c < 256).
Proof.
  move=> H.
  have A : forallb (fun c => match glyph c with None => trans_gfx c <? 0
     | Some e => (e =? trans_gfx c) && (0 <=? e) && (e <? 256) end)
    (map Z.of_nat (List.seq 0 256)) = true by vm_compute.
  rewrite -> forallb_forall in A. have := A c (in_range 256 c H).
  case: (glyph c) => [e | ].
  - move=> E. right. apply andb_prop in E as [E E3]. apply andb_prop in E as [E1 E2].
    apply Z.eqb_eq in E1. apply Z.leb_le in E2. apply Z.ltb_lt in E3. subst e. by split.
  - move=> /Z.ltb_lt E. by left.
Qed.

Lemma byte_ok g c x v k a : ccorr g x v -> k = shown v -> seq_ok g a v (QByte c) ->
  good g (st_def c x k) (mean_byte v c, []) /\ pst_ (o_con (st_def c x k)) = PDef.
Proof.
  move=> CC K [B [N27 N155]].
  have C := ccore_of _ _ _ CC.
  have [PD [E1 [E2 [E3 [_ [_ [_ [_ [_ [_ [E4 [E5 [E6 [E7 _]]]]]]]]]]]]]] := CC.
  rewrite /st_def E1 E2 E3 /mean_byte /text.
  set gx := if a_one v then a_gx1 v else a_gx0 v.
  set tv := if gx then trans_gfx c else trans_default c.
  set t := if gx then glyph c else if (32 <=? c) && (c <? 127) then Some c else None.
  have T : (t = None /\ tv < 0) \/ (t = Some tv /\ 0 <= tv < 256).
  { rewrite /t /tv. clear tv t; case: gx; first exact: trans_ok. rewrite /trans_default.
    have -> : (c <? 127) = (c <=? 126) by zb; lia.
    case: (_ && _); [right | left]; split => //; lia. }
  case: T => [[-> T] | [-> T]].
  - have -> : (0 <=? tv) = false by apply/Z.leb_gt.
    rewrite /def_func E4 E5 E6 E7.
    case: (Z.eqb_spec c (a_kill v)) => K1; first by [].
    case: (Z.eqb_spec c (a_werase v)) => K2; first by [].
    case: (Z.eqb_spec c (a_erase v)) => K3; first by [].
    case: (Z.eqb_spec c 7) => [-> | C7]; first by [].
    case: (Z.eqb_spec c 8) => [-> | C8]; first by [].
    case: (Z.eqb_spec c 9) => [-> | C9]; first by rewrite K.
    case: (Z.eqb_spec c 13) => [-> | C13]; first by rewrite K.
    case: (Z.eqb_spec c 10) => [-> | C10]; first by rewrite K; case: (a_onlcr v).
    case: (Z.eqb_spec c 11) => [-> | C11]; first by rewrite K.
    case: (Z.eqb_spec c 12) => [-> | C12]; first by rewrite K.
    case: (Z.eqb_spec c 14) => [-> | C14].
    { split; last by []. rewrite /good /=. do 2 (split; first done). split; last exact: K.
      rewrite /a_sets /set_cs. move: CC; rewrite /ccore /ccorr /fits_vcon /keys_ok /=. tauto. }
    case: (Z.eqb_spec c 15) => [-> | C15].
    { split; last by []. rewrite /good /=. do 2 (split; first done). split; last exact: K.
      rewrite /a_sets /set_cs. move: CC; rewrite /ccore /ccorr /fits_vcon /keys_ok /=. tauto. }
    case: (Z.eqb_spec c 127) => [-> | C127]; first by [].
    have C155 : c <> 155 by move=> E; have := N155 E; cbn [In]; lia.
    cbn [orb].
    have -> : (match c with
       | 10 => if a_onlcr v then Out x k None [IChar 10 k; IChar 13 k] [] else Out x k (Some 10) [] []
       | 13 => Out x k (Some 13) [] []
       | 9 => Out x k (Some 9) [] []
       | 7 => nothing x k
       | 12 | 11 => Out x k (Some 10) [] []
       | 8 => act x k (mk_move_rel 0 (-1))
       | 27 => nothing (set_st x PEsc) k
       | 14 => nothing (set_cs x true (gx0 x) (gx1 x)) k
       | 15 => nothing (set_cs x false (gx0 x) (gx1 x)) k
       | 127 => nothing x k
       | 155 => nothing (set_st (reset_ctx x) PCsi) k
       | _ => Out x k (Some 63) [] []
       end) = Out x k (Some 63) [] [].
    { clear - C7 C8 C9 C10 C11 C12 C13 C14 C15 C127 C155 N27.
      destruct c as [| p | p]; try done.
      do 8 (destruct p as [p | p |]; try done; try lia). }
    rewrite K. by [].
  - have -> : (0 <=? tv) = true by apply/Z.leb_le; lia.
    rewrite /u8 Z.mod_small; first lia. rewrite K. by [].
Qed.
