(** Raw mode. *)
From Verif Require Import Lib Tty_Model Tty_Spec Tty_Proofs Tty_Proofs2.
From Coq Require Import ssreflect.
Set Warnings "-all".

Definition rmean (k : tconf) (c : Z) : meaning :=
    if isig k && (is_cc (vintr k) c || is_cc (vquit k) c) then MFlush
    else if isig k && is_cc (vsusp k) c then MNone
    else if ixon k && (is_cc (vstart k) c || is_cc (vstop k) c) then MNone
    else if iexten k && (is_cc (vreprint k) c || is_cc (vlnext k) c) then MNone
    else MData c.

Lemma rkey1_ok s c b : sane (cf s) -> icanon (cf s) = false -> 0 < c ->
  match rmean (cf s) c with
  | MFlush => key1 s c b = inbuf_reset s
  | MData d => key1 s c b = inbuf_write s d b false
  | _ => key1 s c b = s
  end.
Proof.
  move=> Hs Hi Hc.
  have N0 : (c =? 0) = false by case: (Z.eqb_spec c 0) => //; lia.
  rewrite /rmean !is_cc_pos //.
  rewrite /key1 /special_controls /ctrl_handler /ctrl_delim Hi N0.
  case: (eq_tests _ _ Hs Hc) => [T | [C10 [i [Hlt T]]]].
  - cbn in T. injection T => E12 E11 E10 E9 E8 E7 E6 E5 E4 E3 E2 E1.
    rewrite ?E1 ?E2 ?E3 ?E4 ?E5 ?E6 ?E7 ?E8 ?E9 ?E10 ?E11 ?E12 ?Hi.
    by rewrite ?andb_false_r.
  - destruct i as [|[|[|[|[|[|[|[|[|[|[|[| i]]]]]]]]]]]]; last lia;
      cbn in T; injection T => E12 E11 E10 E9 E8 E7 E6 E5 E4 E3 E2 E1;
      rewrite ?E1 ?E2 ?E3 ?E4 ?E5 ?E6 ?E7 ?E8 ?E9 ?E10 ?E11 ?E12 /=;
      rewrite ?andb_false_r ?andb_true_r ?Hi //;
      case: (isig (cf s)) => //=; rewrite ?andb_false_r ?andb_true_r ?Hi //;
      case: (ixon (cf s)) => //=; rewrite ?andb_false_r ?andb_true_r ?Hi //;
      case: (iexten (cf s)) => //=; rewrite ?andb_false_r ?andb_true_r ?Hi //.
Qed.

Lemma rkey_ok s c b : sane (cf s) -> icanon (cf s) = false -> 0 < c ->
  match raw_meaning (cf s) c with
  | MFlush => send_keyevent s c b = inbuf_reset s
  | MData d => send_keyevent s c b = inbuf_write s d b false
  | _ => send_keyevent s c b = s
  end.
Proof.
  move=> Hs Hi Hc. rewrite /send_keyevent /map_cr /raw_meaning.
  have K10 := rkey1_ok s 10 b Hs Hi ltac:(lia).
  have K13 := rkey1_ok s 13 b Hs Hi ltac:(lia).
  have K := rkey1_ok s c b Hs Hi Hc.
  rewrite /rmean in K10, K13, K.
  case: (Z.eqb_spec c 13) => [E | N13].
  - subst c. case: (igncr (cf s)) => //=.
    case: (icrnl (cf s)); rewrite ?andb_false_r //=.
  - cbn [andb]. case: (Z.eqb_spec c 10) => [E | N10] /=.
    + subst c. case: (inlcr (cf s)) => //=.
    + exact K.
Qed.

Definition rshape (k : tconf) (h : handle) (r : option reader) (q b : list Z) : Prop :=
  halw h = false /\ hpos h = 0 /\ b = hbuf h ++ q /\
  match r with
  | None => hbuf h = []
  | Some r =>
      0 < rsz r /\ vmin k <= rsz r /\ rout r = [] /\
      match rpc r with
      | PTop | PWait => hbuf h = []
      | PDrain => zlen (hbuf h) < Z.max 1 (vmin k) /\ vmin k <= zlen b
      | PFlush => zlen (hbuf h) = Z.max 1 (vmin k) \/ (vmin k = 0 /\ hbuf h = [])
      end
  end.

Definition RInv (k : tconf) (nb : bool) (s : st) (b : list Z) : Prop :=
  cf s = k /\ hnb (hh s) = nb /\ cnt s = 0 /\ rshape k (hh s) (rd s) (q s) b.

Lemma rshape_app k h r qq b d : rshape k h r qq b ->
  rshape k h r (qq ++ [d]) (b ++ [d]).
Proof.
  move=> [A [P [-> S]]]. split; first done. split; first done.
  split; first by rewrite app_assoc. case: r S => [r | ] //.
  move=> [X [Y [Z0 S]]]. repeat (split; first done).
  case: (rpc r) S => //. move=> [L V]. split; first done.
  rewrite zlen_snoc. lia.
Qed.

Lemma rinv_key k nb s b c bl : sane k -> icanon k = false -> RInv k nb s b ->
  rmay s (OKey c bl) ->
  RInv k nb (send_keyevent s c bl) (raw_key b (raw_meaning (cf s) c) (is_full s)).
Proof.
  move=> Hs Hi HI [Hc [HF HQ]]. have [Hk [Hn [HC S]]] := HI.
  have K := rkey_ok s c bl. rewrite Hk in K. specialize (K Hs Hi ltac:(lia)).
  rewrite Hk in HQ |- *.
  case E: (raw_meaning k c) K => [| | | d | d] K; rewrite K; try exact HI.
  - have Qt : quiet s.
    { case: HQ => // X. exfalso. move: E. rewrite /raw_meaning X. cbn [andb].
      repeat match goal with |- context[if ?x then _ else _] => case: x => // end. }
    split; first done. split; first done. split; first done. cbn.
    case: S => [A [P [B S]]]. rewrite /rshape.
    move: Qt S. rewrite /quiet. case: (rd s) => [r | ] Qt S.
    + case: S => [X [Y [Z0 S]]].
      have Hb : hbuf (hh s) = [] by case: Qt => W; rewrite W in S.
      rewrite Hb. split; first done. split; first done. split; first done.
      repeat (split; first done). case: Qt => W; by rewrite W.
    + rewrite S. done.
  - rewrite /inbuf_write. case X: (zlen (q s) <? INPUT_BS).
    + have NF : is_full s = false by rewrite /is_full X. rewrite NF.
      repeat (split; first done). cbn. by apply rshape_app.
    + have NF : is_full s = true by rewrite /is_full X. rewrite NF.
      case: HF => [HF | ->]; first by rewrite NF in HF. exact HI.
Qed.

Lemma firstn_zlen (l m : list Z) n : n = zlen l -> firstn (Z.to_nat n) (l ++ m) = l.
Proof.
  move=> ->. rewrite /zlen Nat2Z.id firstn_app Nat.sub_diag firstn_all /= app_nil_r //.
Qed.

Lemma rflush h n : hpos h = 0 -> zlen (hbuf h) <= n ->
  flush h n = Some (Hn [] 0 (halw h) (hnb h), hbuf h).
Proof.
  move=> Hp L. rewrite /flush Hp Z.sub_0_r. have P := zlen_nonneg (hbuf h).
  have -> : (zlen (hbuf h) <? 0) = false by apply Z.ltb_ge.
  have -> : Z.min (zlen (hbuf h)) n = zlen (hbuf h) by lia.
  rewrite Z.add_0_l Z.eqb_refl. cbn [Z.to_nat skipn].
  rewrite /zlen Nat2Z.id firstn_all. reflexivity.
Qed.

Lemma rflush0 al nb n : 0 <= n ->
  flush (Hn [] 0 al nb) n = Some (Hn [] 0 al nb, []).
Proof. move=> H. by rewrite rflush. Qed.

Lemma rinv_begin k nb s b n ok : RInv k nb s b -> rmay s (OBegin n ok) ->
  exists s' r, step s (OBegin n ok) = Some (s', r) /\
    raw_good s b (OBegin n ok) r /\ RInv k nb s' (raw_step s b (OBegin n ok) r).
Proof.
  move=> HI [Hrd [Hn Hv]]. have [Hk [Hnb [HC S]]] := HI.
  cbn [step]. rewrite Hrd /read_begin.
  case: ok; cbn [negb]; last by (exists s, (Some REio); cbn; split).
  case: (Z.eqb_spec n 0) => [-> | N0].
  { exists s, (Some (RBytes [])). cbn. split; first done. split; done. }
  case: S => [A [P [B S]]]. rewrite Hrd in S. rewrite S. cbn [zlen length Z.of_nat Z.eqb].
  eexists _, None. split; first reflexivity. split; first done. cbn.
  split; first done. split; first done. split; first done.
  split; first done. split; first done. split; first exact B.
  rewrite Hk in Hv. cbn. split; first lia. split; first lia. done.
Qed.

Lemma rinv_step k nb s b : icanon k = false -> 0 <= vmin k <= 255 -> RInv k nb s b ->
  rd s <> None ->
  exists s' r, step s OStep = Some (s', r) /\ raw_good s b OStep r /\
    RInv k nb s' (raw_step s b OStep r).
Proof.
  move=> Hi Hv HI Hrd. have [Hk [Hnb [HC [A [P [B S]]]]]] := HI.
  cbn [step]. rewrite /read_step. case Er: (rd s) Hrd S => [r | ] // _.
  move=> [Hsz [Hvs [Ho S]]].
  case Ep: (rpc r) S => S.
  - rewrite S in B. cbn in B. rewrite /read_ready Hk Hi Hnb.
    case E: (nb && negb (vmin k <=? zlen (q s))).
    + eexists _, (Some REagain). split; first reflexivity.
      case/andb_prop: E => En E. apply negb_true_iff in E. apply Z.leb_gt in E.
      split; first by cbn; rewrite Hnb Hk B.
      cbn. repeat (split; first done). rewrite /rshape /= S. done.
    + eexists _, None. split; first reflexivity. split; first done.
      cbn. repeat (split; first done). rewrite /rshape /= S. done.
  - rewrite S in B. cbn in B. rewrite /read_ready Hk Hi.
    case E: (vmin k <=? zlen (q s)).
    + rewrite S P. cbn [zlen length]. rewrite andb_false_r.
      eexists _, None. split; first reflexivity. split; first done.
      apply Z.leb_le in E.
      cbn. repeat (split; first done). rewrite /rshape /= S B.
      repeat (split; first done). rewrite /zlen /=. rewrite /zlen in E. split; [lia | exact E].
    + apply Z.leb_gt in E. case Esg: (sg s).
      * eexists _, (Some REintr). split; first reflexivity.
        split; first by cbn; rewrite Hk B.
        cbn. repeat (split; first done). rewrite /rshape /= S. done.
      * exists s, None. split; first done. split; done.
  - case: S => [L V].
    case Eq: (q s) => [| c q'].
    + eexists _, None. split; first reflexivity. split; first done.
      rewrite Eq app_nil_r in B. subst b.
      cbn [raw_step]. do 3 (split; first done). split; first done.
      split; first done. split; first by cbn; rewrite Eq app_nil_r.
      cbn. split; first done. split; first done. split; first done.
      right. have := zlen_nonneg (hbuf (hh s)) => N.
      split; first lia. have X : zlen (hbuf (hh s)) = 0 by lia.
      move: X. by case: (hbuf (hh s)).
    + have -> : (zlen (hbuf (hh s)) <? READ_BS) = true.
      { apply Z.ltb_lt. rewrite /READ_BS. lia. }
      rewrite /read_single Hk Hi. cbn [hh set_h set_q set_buf hbuf].
      have B' : b = (hbuf (hh s) ++ [c]) ++ q' by rewrite -app_assoc B Eq.
      case E: (vmin k <=? zlen (hbuf (hh s) ++ [c])).
      * eexists _, None. split; first reflexivity. split; first done.
        apply Z.leb_le in E. rewrite zlen_snoc in E.
        cbn. repeat (split; first done). rewrite /rshape /=.
        repeat (split; first done). left. rewrite zlen_snoc.
        have := zlen_nonneg (hbuf (hh s)). lia.
      * eexists _, None. split; first reflexivity. split; first done.
        apply Z.leb_gt in E. rewrite zlen_snoc in E.
        cbn. repeat (split; first done). rewrite Er /rshape /= Ep.
        repeat (split; first done). rewrite zlen_snoc. split; [lia | done].
  - rewrite /finish Hk Hi Ho. cbn [zlen length negb Z.of_nat]. rewrite orb_true_r Z.sub_0_r.
    have LB : zlen (hbuf (hh s)) <= rsz r.
    { case: S => [-> | [_ ->]]; rewrite /zlen /=; lia. }
    rewrite rflush // HC. cbn [Z.ltb Z.compare app].
    have -> : should_return (set_h s (Hn [] 0 (halw (hh s)) (hnb (hh s))))
                (zlen (hbuf (hh s))) (rdb r) = true.
    { rewrite /should_return /= Hk Hi. apply Z.leb_le.
      case: S => [-> | [-> ->]]; rewrite /zlen /=; lia. }
    have NZ : (rsz r =? 0) = false by case: (Z.eqb_spec (rsz r) 0) => //; lia.
    have G : raw_good s b OStep (Some (RBytes (hbuf (hh s)))).
    { cbn. rewrite Er NZ. split.
      - rewrite B firstn_app Nat.sub_diag firstn_all /= app_nil_r //.
      - rewrite Hk. case: S => [S | [S1 S2]]; [by left | by right]. }
    have SK : skipn (length (hbuf (hh s))) b = q s.
    { by rewrite B skipn_app Nat.sub_diag skipn_all /=. }
    cbn [hnb]. rewrite Hnb. case: nb Hnb HI => Hnb HI.
    + have NN : 0 <= rsz r - zlen (hbuf (hh s)) by lia.
      rewrite (rflush0 _ _ _ NN).
      cbn [hbuf halw hnb zlen length Z.of_nat Z.eqb]. rewrite app_nil_r.
      eexists _, (Some (RBytes _)). split; first reflexivity.
      split; first exact G. cbn [raw_step]. rewrite SK.
      repeat (split; first done). rewrite /rshape /=. done.
    + eexists _, (Some (RBytes _)). split; first reflexivity.
      split; first exact G. cbn [raw_step]. rewrite SK.
      repeat (split; first done). rewrite /rshape /=. done.
Qed.

Lemma rinv_op k nb s b o : sane k -> icanon k = false -> RInv k nb s b -> rmay s o ->
  exists s' r, step s o = Some (s', r) /\ raw_good s b o r /\ RInv k nb s' (raw_step s b o r).
Proof.
  move=> Hs Hi HI M. have Hv : 0 <= vmin k <= 255 by case: Hs => _ [_ [_ [_ [_ X]]]].
  case: o M => [c bl | | n ok | | g | k' f | g] M; try done.
  - eexists _, None. split; first reflexivity. split; first done.
    cbn [raw_step]. by apply rinv_key.
  - by apply rinv_begin.
  - by apply rinv_step.
  - eexists _, None. split; first reflexivity. split; first done. exact HI.
Qed.

Lemma rreach_inv k nb s b : sane k -> icanon k = false -> rreach k nb s b -> RInv k nb s b.
Proof.
  move=> Hs Hi. elim=> [| s0 b0 o s' r _ IH M E].
  - repeat (split; first done). done.
  - have [s1 [r1 [E1 [_ I1]]]] := rinv_op _ _ _ _ _ Hs Hi IH M.
    rewrite E in E1. injection E1 => X1 X2. subst s1 r1. exact I1.
Qed.

Lemma raw_reads k nb s b o : sane k -> icanon k = false -> rreach k nb s b ->
  rmay s o -> exists s' r, step s o = Some (s', r) /\ raw_good s b o r.
Proof.
  move=> Hs Hi R M. have HI := rreach_inv _ _ _ _ Hs Hi R.
  have [s' [r [E [G _]]]] := rinv_op _ _ _ _ _ Hs Hi HI M. by exists s', r.
Qed.

Lemma raw_ready k nb s b : sane k -> icanon k = false -> rreach k nb s b ->
  quiet s -> (read_ready s = true <-> vmin k <= zlen b) /\ b = q s.
Proof.
  move=> Hs Hi R Qt. have [Hk [Hnb [HC [A [P [B S]]]]]] := rreach_inv _ _ _ _ Hs Hi R.
  have Hb : hbuf (hh s) = [].
  { move: Qt S. rewrite /quiet. case: (rd s) => [r | ] Qt S //.
    case: S => _ [_ [_ S]]. case: Qt => W; by rewrite W in S. }
  rewrite Hb in B. cbn in B. split; last done. rewrite /read_ready Hk Hi B.
  apply Z.leb_le.
Qed.

(** *** Progress *)

Definition rank (s : st) : nat :=
  match rd s with
  | None => 0
  | Some r => match rpc r with
              | PTop => length (q s) + 4 | PWait => length (q s) + 3
              | PDrain => length (q s) + 2 | PFlush => 1
              end
  end.

Lemma raw_progress k nb s b r : sane k -> icanon k = false -> rreach k nb s b ->
  rd s = Some r -> vmin k <= zlen b ->
  exists n s' x, steps n s = Some (s', Some (RBytes x)).
Proof.
  move=> Hs Hi R Er HV. have HI := rreach_inv _ _ _ _ Hs Hi R. clear R.
  have Hv : 0 <= vmin k <= 255 by case: Hs => _ [_ [_ [_ [_ X]]]].
  have [m Hm] : exists m, (rank s <= m)%nat by exists (rank s).
  elim: m s b r HI Er HV Hm => [| m IH] s b r HI Er HV Hm.
  { exfalso. move: Hm. rewrite /rank Er. case: (rpc r); lia. }
  have NN : rd s <> None by rewrite Er.
  have [s' [o [E [G I']]]] := rinv_step _ _ _ _ Hi Hv HI NN.
  have GO : o = None -> (exists r', rd s' = Some r') -> (rank s' < rank s)%nat ->
    exists n s' x, steps n s = Some (s', Some (RBytes x)).
  { move=> Eo [r' Er'] Lt. subst o.
    have [n [s2 [x F]]] := IH _ _ _ I' Er' HV ltac:(lia).
    exists (S n), s2, x. by rewrite (steps_cons _ _ _ E). }
  have [Hk [Hnb [HC [A [P [B S]]]]]] := HI. rewrite Er in S.
  move: (E). cbn [step]. rewrite /read_step Er.
  case Ep: (rpc r) S => S; case: S => [_ [_ [Ho S]]].
  - rewrite S in B. cbn in B. rewrite /read_ready Hk Hi -B.
    have -> : (vmin k <=? zlen b) = true by apply Z.leb_le.
    rewrite andb_false_r => X. injection X => Eo Es.
    apply GO => //; first by rewrite -Es; eexists.
    rewrite -Es /rank Er Ep /=. lia.
  - rewrite S in B. cbn in B. rewrite /read_ready Hk Hi -B.
    have -> : (vmin k <=? zlen b) = true by apply Z.leb_le.
    case: (_ && _) => // X. injection X => Eo Es.
    apply GO => //; first by rewrite -Es; eexists.
    rewrite -Es /rank Er Ep /=. lia.
  - case Eq: (q s) => [| c q'].
    + move=> X. injection X => Eo Es.
      apply GO => //; first by rewrite -Es; eexists.
      rewrite -Es /rank Er Ep /= Eq /=. lia.
    + case: (zlen (hbuf (hh s)) <? READ_BS); last first.
      { move=> X. injection X => Eo Es.
        apply GO => //; first by rewrite -Es; eexists.
        rewrite -Es /rank Er Ep /= Eq /=. lia. }
      rewrite /read_single Hk Hi. case: (vmin k <=? _) => X; injection X => Eo Es.
      * apply GO => //; first by rewrite -Es; eexists.
        rewrite -Es /rank Er Ep /= Eq /=. lia.
      * apply GO => //; first by rewrite -Es; exists r.
        rewrite -Es /rank /= Er Ep Eq /=. lia.
  - rewrite /finish Hk Hi Ho orb_true_r. cbn [zlen length Z.of_nat]. rewrite Z.sub_0_r.
    have LB : zlen (hbuf (hh s)) <= rsz r.
    { have [_ [_ [_ [_ [_ [_ S']]]]]] := HI. rewrite Er Ep in S'.
      case: S' => [S1 [S2 [_ S3]]]. case: S3 => [-> | [_ ->]]; rewrite /zlen /=; lia. }
    rewrite rflush // HC. cbn [Z.ltb Z.compare app].
    have -> : should_return (set_h s (Hn [] 0 (halw (hh s)) (hnb (hh s))))
                (zlen (hbuf (hh s))) (rdb r) = true.
    { rewrite /should_return /= Hk Hi. apply Z.leb_le.
      case: S => [-> | [-> ->]]; rewrite /zlen /=; lia. }
    move=> X.
    have : exists x, o = Some (RBytes x).
    { move: X. case: (hnb _).
      - case: (flush _ _) => [[h2 o2] | ] // X. injection X => Eo _. eexists. by rewrite -Eo.
      - move=> X. injection X => Eo _. eexists. by rewrite -Eo. }
    move=> [x Eo]. subst o. exists 1%nat, s', x. cbn [steps]. by rewrite E.
Qed.
