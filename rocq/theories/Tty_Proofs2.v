(** Canonical mode: every step keeps the invariant and gives a right result. *)
From Verif Require Import Lib Tty_Model Tty_Spec Tty_Proofs.
From Coq Require Import ssreflect.
Set Warnings "-all".

Definition nodel (k : tconf) (l : list Z) : Prop :=
  Forall (fun c => is_delim k c = false) l.

Definition okline (k : tconf) (l : list Z) : Prop :=
  zlen l <= INPUT_BS /\
  exists b e, l = b ++ [e] /\ is_delim k e = true /\ nodel k b.

(** The bytes [p] of the handle's buffer are still to be returned *)
Definition hok (h : handle) (p : list Z) : Prop :=
  0 <= hpos h <= zlen (hbuf h) /\
  skipn (Z.to_nat (hpos h)) (hbuf h) = p /\
  (p = [] -> hbuf h = []) /\
  halw h = hnb h && negb (zlen p =? 0).

(** [rl]: the lines still in the input buffer (the first one perhaps without
    its beginning) *)
Definition shape (k : tconf) (h : handle) (r : option reader) (p : list Z)
    (ls rl : list (list Z)) : Prop :=
  match r with
  | None => rl = ls /\ hok h p
  | Some r =>
      0 < rsz r /\ rout r = [] /\ p = [] /\ halw h = false /\ hpos h = 0 /\
      match rpc r with
      | PTop | PWait => rl = ls /\ hbuf h = []
      | PDrain => exists r0 l1, rl = r0 :: l1 /\ ls = (hbuf h ++ r0) :: l1 /\
                    nodel k (hbuf h)
      | PFlush => rdb r = true /\ exists l, ls = l :: rl /\ hbuf h = shown k l
      end
  end.

Definition Inv (k : tconf) (nb : bool) (s : st) (a : tab) : Prop :=
  cf s = k /\ hnb (hh s) = nb /\ zlen (q s) <= INPUT_BS /\
  Forall (okline k) (lines a) /\ nodel k (cur a) /\
  exists rl, q s = concat rl ++ cur a /\ cnt s = zlen rl /\
    shape k (hh s) (rd s) (pend a) (lines a) rl.

Lemma shape_app k h r p ls rl x :
  shape k h r p ls rl -> shape k h r p (ls ++ [x]) (rl ++ [x]).
Proof.
  case: r => [r | ] /=.
  - case: (rpc r) => [[A [B [C [D [E [-> F]]]]]] | [A [B [C [D [E [-> F]]]]]] |
                      [A [B [C [D [E [r0 [l1 [-> [-> F]]]]]]]]] |
                      [A [B [C [D [E [G [l [-> F]]]]]]]]];
    repeat (split; first done); try done.
    + by exists r0, (l1 ++ [x]).
    + by exists l.
  - by move=> [-> H].
Qed.

Lemma concat_snoc (l : list (list Z)) x : concat (l ++ [x]) = concat l ++ x.
Proof. by rewrite concat_app /= app_nil_r. Qed.

Lemma zlen_snoc {A} (l : list A) x : zlen (l ++ [x]) = zlen l + 1.
Proof. by rewrite /zlen app_length /= Nat2Z.inj_add. Qed.

Lemma nodel_app k l c : nodel k l -> is_delim k c = false -> nodel k (l ++ [c]).
Proof. move=> H D. apply Forall_app. split; auto. Qed.

Lemma removelast_suffix {A} (x c : list A) : c <> [] ->
  removelast (x ++ c) = x ++ removelast c.
Proof. exact (removelast_app x (l' := c)). Qed.

Lemma Forall_removelast {A} (P : A -> Prop) l : Forall P l -> Forall P (removelast l).
Proof.
  elim: l => [| x l IH] H //. inversion H; subst. cbn.
  case: l IH H H2 H3 => [| y l] IH H H2 H3; first by constructor.
  constructor; auto.
Qed.

Lemma zlen_removelast {A} (l : list A) : zlen (removelast l) <= zlen l.
Proof.
  elim: l => [| x l IH] //=. case: l IH => [| y l] IH; rewrite ?zlen_cons.
  - have := zlen_nonneg (@nil A). lia.
  - rewrite !zlen_cons in IH |- *. lia.
Qed.

(** *** Keys *)

Lemma inv_key k nb s a c b : sane k -> icanon k = true -> Inv k nb s a ->
  may s a (OKey c b) ->
  Inv k nb (send_keyevent s c b) (ab_key a (canon_meaning (cf s) c) (is_full s)).
Proof.
  move=> Hs Hi [Hk [Hn [Hq [HL [HC [rl [Q [C S]]]]]]]] [Hc M].
  have K := key_ok s c b. rewrite Hk in K. specialize (K Hs Hi ltac:(lia)).
  rewrite /key_does in K. rewrite Hk in K, M |- *.
  case E: (canon_meaning k c) K M => [| | | d | d].
  - move=> -> _ /=. repeat (split; first done). by exists rl.
  - move=> -> Hqt /=. split; first done. split; first done. split; first done.
    split; first by constructor. split; first by constructor.
    exists []. split; first done. split; first done.
    cbn. move: S Hqt. rewrite /quiet /shape. case: (rd s) => [r | ].
    + move=> S [X | X]; rewrite X in S |- *; intuition.
    + intuition.
  - move=> -> Hcur /=. rewrite /inbuf_drop_last.
    split; first done. split; first done.
    split; first by (cbn; have := zlen_removelast (q s); lia).
    split; first done. split; first by apply Forall_removelast.
    exists rl. cbn. split; last done. rewrite Q.
    case: Hcur => [Hcur | Hcur].
    + by rewrite removelast_suffix.
    + rewrite Hcur in Q. symmetry in Q. case: (app_eq_nil _ _ Q) => -> ->. done.
  - move=> [D K] F. rewrite (K F) /=. split; first done. split; first done.
    have L : zlen (q s) < INPUT_BS.
    { move: F. rewrite /is_full. case: (Z.ltb_spec (zlen (q s)) INPUT_BS) => //. }
    cbn [q set_q set_cnt]. rewrite zlen_snoc. split; first lia.
    split.
    { apply Forall_app. split; first done. constructor; last done. split.
      - rewrite Q zlen_app in L. rewrite zlen_snoc.
        have := zlen_nonneg (concat rl). lia.
      - by exists (cur a), d. }
    split; first by constructor. exists (rl ++ [cur a ++ [d]]). cbn.
    rewrite concat_snoc zlen_snoc Q !app_nil_r app_assoc.
    split; first done. split; first by rewrite C. by apply shape_app.
  - move=> [D ->] F. rewrite /inbuf_write.
    case X: (zlen (q s) <? INPUT_BS).
    + have NF : is_full s = false by rewrite /is_full X. rewrite NF.
      move/Z.ltb_lt: X => X.
      split; first done. split; first done. cbn. rewrite zlen_snoc.
      split; first lia. split; first done. split; first by apply nodel_app.
      exists rl. rewrite Q app_assoc. done.
    + have NF : is_full s = true by rewrite /is_full X. rewrite NF.
      case: F => [F | ->]; first by rewrite NF in F. cbn.
      repeat (split; first done). by exists rl.
Qed.

Lemma skipn_plus {A} (x y : nat) (l : list A) :
  skipn (x + y) l = skipn x (skipn y l).
Proof.
  elim: y l => [| y IH] l; first by rewrite Nat.add_0_r.
  rewrite Nat.add_succ_r. case: l => [| z l]; first by rewrite !skipn_nil.
  exact: IH.
Qed.

(** *** Flushing the handle's buffer *)

Lemma flush_ok h p n : 0 <= hpos h <= zlen (hbuf h) ->
  skipn (Z.to_nat (hpos h)) (hbuf h) = p -> 0 <= n ->
  exists h', flush h n = Some (h', firstn (Z.to_nat n) p) /\
    0 <= hpos h' <= zlen (hbuf h') /\
    skipn (Z.to_nat (hpos h')) (hbuf h') = skipn (Z.to_nat n) p /\
    (skipn (Z.to_nat n) p = [] -> hbuf h' = []) /\
    halw h' = halw h /\ hnb h' = hnb h.
Proof.
  move=> Hp Hs Hn. rewrite /flush.
  have -> : (zlen (hbuf h) - hpos h <? 0) = false
    by case: (Z.ltb_spec (zlen (hbuf h) - hpos h) 0) => //; lia.
  rewrite Hs.
  have Lp : zlen p = zlen (hbuf h) - hpos h.
  { rewrite -Hs. rewrite /zlen skipn_length. rewrite /zlen in Hp. lia. }
  rewrite -Lp. have P0 := zlen_nonneg p.
  have F : firstn (Z.to_nat (Z.min (zlen p) n)) p = firstn (Z.to_nat n) p.
  { case: (Z.leb_spec n (zlen p)) => L; first by rewrite Z.min_r.
    have -> : Z.min (zlen p) n = zlen p by clear - L; lia.
    rewrite !firstn_all2 //; clear - L; rewrite /zlen in L |- *; lia. }
  rewrite F.
  case: (Z.eqb_spec (hpos h + Z.min (zlen p) n) (zlen (hbuf h))) => E.
  - have SK : skipn (Z.to_nat n) p = [].
    { apply skipn_all2. have X : zlen p <= n by lia. clear - X.
      rewrite /zlen in X. lia. }
    eexists. split; first reflexivity. cbn. rewrite SK.
    split; last done. rewrite /zlen /=. lia.
  - eexists. split; first reflexivity. cbn.
    have L : n < zlen p by lia.
    split; first lia. split.
    { have -> : Z.min (zlen p) n = n by lia. rewrite -Hs.
      have -> : Z.to_nat (hpos h + n) = (Z.to_nat n + Z.to_nat (hpos h))%nat by lia.
      by rewrite skipn_plus. }
    split; last done. move=> X. exfalso.
    have Y : zlen (skipn (Z.to_nat n) p) = 0 by rewrite X.
    rewrite /zlen skipn_length in Y. rewrite /zlen in L. lia.
Qed.

Lemma zlen_eq0 {A} (l : list A) : (zlen l =? 0) = match l with [] => true | _ => false end.
Proof. by case: l. Qed.

(** *** The reader *)

Lemma inv_begin k nb s a n ok : icanon k = true -> Inv k nb s a ->
  may s a (OBegin n ok) ->
  exists s' r, step s (OBegin n ok) = Some (s', r) /\
    good s a (OBegin n ok) r /\ Inv k nb s' (ab_step s a (OBegin n ok) r).
Proof.
  move=> Hi HI [Hn Hrd]. have [Hk [Hnb [Hq [HL [HC [rl [Q [C S]]]]]]]] := HI.
  rewrite Hrd in S. cbn in S. case: S => [-> [[Hp0 Hp1] [Hsk [He Ha]]]] in Q C *.
  cbn [step]. rewrite Hrd /read_begin.
  case: ok; cbn [negb]; last by (exists s, (Some REio); cbn; split).
  case: (Z.eqb_spec n 0) => [-> | N0].
  { exists s, (Some (RBytes [])). cbn. split; first done. split; done. }
  rewrite zlen_eq0.
  case Eb: (hbuf (hh s)) => [| x xs].
  - eexists _, None. split; first reflexivity. split; first done.
    have Pn : pend a = [] by rewrite -Hsk Eb skipn_nil.
    cbn [ab_step]. split; first done. split; first done. split; first done.
    split; first done. split; first done.
    exists (lines a). cbn. repeat (split; first done).
    split; first lia. split; first done. split; first done. split; first done.
    split; last done. rewrite Eb /zlen /= in Hp1. lia.
  - have [h' [F [P1 [P2 [P3 [P4 P5]]]]]] := flush_ok (hh s) (pend a) n (conj Hp0 Hp1) Hsk ltac:(lia).
    have Pn : pend a <> [] by move=> X; rewrite (He X) in Eb.
    have R : ab_read (cf s) a n = (firstn (Z.to_nat n) (pend a),
              Ab (skipn (Z.to_nat n) (pend a)) (lines a) (cur a)).
    { rewrite /ab_read. case X: (pend a) => //. }
    have NZ : (n =? 0) = false by case: (Z.eqb_spec n 0).
    have ZP : (zlen (pend a) =? 0) = false.
    { rewrite zlen_eq0. by case: (pend a) Pn. }
    rewrite Hnb. rewrite F.
    case: nb HI Hnb => HI Hnb; cbn [negb].
    + rewrite Ha Hnb ZP. cbn [andb negb].
      eexists _, (Some (RBytes _)). split; first reflexivity.
      split.
      { cbn. rewrite NZ. split; first by left. by rewrite R. }
      cbn [ab_step size_of]. rewrite NZ R. cbn [snd].
      split; first done. split.
      { cbn. case: (zlen (hbuf h') =? 0) => //=; by rewrite P5. }
      split; first done. split; first done. split; first done.
      exists (lines a). cbn. rewrite Hrd. repeat (split; first done).
      rewrite zlen_eq0.
      case Eh: (hbuf h') => [| y ys].
      * split; rewrite /set_alw /= ?Eh //.
        { by rewrite -Eh. }
        split; first by rewrite -P2 Eh.
        split; first done. rewrite -P2 Eh skipn_nil /= andb_false_r //.
      * split; rewrite ?Eh //. { by rewrite -Eh. }
        split; first by rewrite -P2 Eh. split.
        { move=> X. move: (P3 X). by rewrite Eh. }
        rewrite P4 P5 Ha Hnb ZP /=. 
        rewrite zlen_eq0. case X: (skipn (Z.to_nat n) (pend a)) => //.
        move: (P3 X). by rewrite Eh.
    + eexists _, (Some (RBytes _)). split; first reflexivity.
      split.
      { cbn. rewrite NZ. split; first by left. by rewrite R. }
      cbn [ab_step size_of]. rewrite NZ R. cbn [snd].
      split; first done. split; first by cbn; rewrite P5.
      split; first done. split; first done. split; first done.
      exists (lines a). cbn. rewrite Hrd. repeat (split; first done).
      rewrite P5 Hnb P4 Ha Hnb //.
Qed.

Lemma line_split k t c r0 : okline k (t ++ c :: r0) -> nodel k t ->
  if is_delim k c then r0 = [] else r0 <> [].
Proof.
  move=> [_ [b [e [E [De Nb]]]]] Nt.
  case: (exists_last (l := c :: r0)) => // r1 [e1 E1].
  rewrite E1 app_assoc in E. apply app_inj_tail in E as [Eb Ee]. subst e1.
  case D: (is_delim k c).
  - case: r1 E1 Eb => [| y r1] E1 Eb.
    + by injection E1.
    + injection E1 => _ X. subst y. rewrite -Eb in Nb.
      apply Forall_app in Nb as [_ Nb]. inversion Nb; subst. by rewrite D in H1.
  - move=> X. subst r0. case: r1 E1 Eb => [| y r1] E1 Eb.
    + injection E1 => X. subst e. by rewrite De in D.
    + by case: r1 E1 Eb.
Qed.

Lemma inv_step k nb s a : icanon k = true -> Inv k nb s a -> rd s <> None ->
  exists s' r, step s OStep = Some (s', r) /\ good s a OStep r /\
    Inv k nb s' (ab_step s a OStep r).
Proof.
  move=> Hi [Hk [Hnb [Hq [HL [HC [rl [Q [C S]]]]]]]] Hrd.
  cbn [step]. rewrite /read_step.
  case Er: (rd s) Hrd S => [r | ] // _ [Hsz [Ho [Hp [Ha [Hpos S]]]]].
  case Ep: (rpc r) S => S.
  - (* PTop *)
    case: S => [-> Hb] in Q C *.
    rewrite /read_ready Hk Hi Ha orb_false_l. rewrite Hnb.
    case E: (nb && negb (0 <? cnt s)).
    + eexists _, (Some REagain). split; first reflexivity.
      case/andb_prop: E => En E. apply negb_true_iff in E. apply Z.ltb_ge in E.
      have Ln : lines a = [].
      { case X: (lines a) C => [| l ls] //. rewrite zlen_cons. have := zlen_nonneg ls. lia. }
      split.
      { cbn. split; first by rewrite Hnb. rewrite /has_input Hp Ln. by case. }
      cbn. repeat (split; first done). exists (lines a). cbn.
      repeat (split; first done). rewrite /hok Hb Hp Ha Hpos. cbn.
      repeat split; auto; try (rewrite /zlen /=; lia).
    + eexists _, None. split; first reflexivity. split; first done.
      cbn. repeat (split; first done). exists (lines a). cbn.
      repeat (split; first done). done.
  - (* PWait *)
    case: S => [-> Hb] in Q C *.
    rewrite /read_ready Hk Hi Ha orb_false_l.
    case E: (0 <? cnt s).
    + rewrite Hb Hpos. cbn [zlen length]. rewrite andb_false_r.
      eexists _, None. split; first reflexivity. split; first done.
      cbn. repeat (split; first done). exists (lines a). cbn.
      repeat (split; first done). repeat (split; first done).
      apply Z.ltb_lt in E. case X: (lines a) C => [| l ls] C.
      { rewrite /zlen /= in C. lia. }
      exists l, ls. rewrite Hb. repeat (split; first done). by constructor.
    + apply Z.ltb_ge in E.
      have Ln : lines a = [].
      { case X: (lines a) C => [| l ls] //. rewrite zlen_cons. have := zlen_nonneg ls. lia. }
      case Esg: (sg s).
      * eexists _, (Some REintr). split; first reflexivity. split.
        { cbn. split; first done. rewrite /has_input Hp Ln. by case. }
        cbn. repeat (split; first done). exists (lines a). cbn.
        repeat (split; first done). rewrite /hok Hb Hp Ha Hpos. cbn.
        repeat split; auto; try (rewrite /zlen /=; lia).
      * exists s, None. split; first done. split; first done.
        cbn. repeat (split; first done). exists (lines a).
        repeat (split; first done). rewrite Er. cbn. rewrite Ep.
        repeat (split; first done). done.
  - (* PDrain *)
    case: S => [r0 [l1 [-> [L Nt]]]] in Q C *.
    have OL : okline k (hbuf (hh s) ++ r0).
    { rewrite L in HL. by inversion HL. }
    have NE : r0 <> [].
    { move=> X. subst r0. rewrite app_nil_r in OL.
      case: OL => _ [b [e [E [De Nb]]]]. rewrite E in Nt.
      apply Forall_app in Nt as [_ Nt]. inversion Nt; subst.
      match goal with H : is_delim _ e = false |- _ => by rewrite De in H end. }
    case: r0 NE OL L Q C => [| c r0] // _ OL L Q C. cbn [concat app] in Q.
    rewrite -app_assoc in Q. rewrite Q.
    have LB : zlen (hbuf (hh s)) < INPUT_BS.
    { case: OL => X _. rewrite zlen_app zlen_cons in X. have := zlen_nonneg r0. lia. }
    have -> : (zlen (hbuf (hh s)) <? READ_BS) = true.
    { apply Z.ltb_lt. rewrite /INPUT_BS /READ_BS in LB |- *. lia. }
    have LS := line_split k _ _ _ OL Nt.
    have Q' : zlen (r0 ++ concat l1 ++ cur a) <= INPUT_BS.
    { rewrite Q zlen_cons in Hq. lia. }
    rewrite zlen_cons in C. have N1 := zlen_nonneg l1.
    rewrite /read_single Hk Hi.
    case D: (is_delim k c) LS => LS.
    + subst r0.
      have -> : (cnt s <=? 0) = false by apply Z.leb_gt; lia.
      eexists _, None. split; first reflexivity. split; first done.
      have SH : shown k (hbuf (hh s) ++ [c]) = if c =? veof k then hbuf (hh s) else hbuf (hh s) ++ [c].
      { rewrite /shown last_last. by rewrite removelast_last. }
      cbn [ab_step].
      case: (c =? veof k) SH => SH; cbn.
      * repeat (split; first done).
        exists l1. cbn. split; first done. split; first lia.
        repeat (split; first done).
        eexists. split; first exact L. by rewrite SH.
      * repeat (split; first done).
        exists l1. cbn. split; first done. split; first lia.
        repeat (split; first done).
        eexists. split; first exact L. by rewrite SH.
    + eexists _, None. split; first reflexivity. split; first done.
      cbn. repeat (split; first done).
      exists (r0 :: l1). cbn. split; first by rewrite app_assoc.
      split; first by rewrite zlen_cons. rewrite Er.
      repeat (split; first done).
      rewrite Ep. exists r0, l1. split; first done.
      split; first by cbn; rewrite -app_assoc.
      by apply nodel_app.
  - (* PFlush *)
    case: S => [Hdb [l [L Hb]]].
    rewrite /finish. have NC : (cnt s <? 0) = false.
    { apply Z.ltb_ge. rewrite C. apply zlen_nonneg. }
    have R : forall n, ab_read (cf s) a n =
        (firstn (Z.to_nat n) (shown k l),
         Ab (skipn (Z.to_nat n) (shown k l)) rl (cur a)).
    { move=> n. by rewrite /ab_read Hp L Hk. }
    have NZ : (rsz r =? 0) = false by case: (Z.eqb_spec (rsz r) 0) => //; lia.
    have HL' : Forall (okline k) rl by rewrite L in HL; inversion HL.
    have [h' [F [P1 [P2 [P3 [P4 P5]]]]]] := flush_ok (hh s) (shown k l) (rsz r)
       ltac:(rewrite Hpos; split; [lia | apply zlen_nonneg])
       ltac:(by rewrite Hpos Hb) ltac:(lia).
    rewrite Hk Hi Ho. cbn [zlen length]. rewrite !Z.sub_0_r Hnb orb_false_r.
    have HI' : has_input a by right; rewrite L.
    case: nb Hnb => Hnb; cbn [negb app].
    + rewrite NC /should_return. cbn [cf set_h]. rewrite Hk Hi Hdb orb_true_l Hnb.
      cbn [zlen length]. rewrite !Z.sub_0_r F.
      eexists _, (Some (RBytes _)). split; first reflexivity. split.
      { cbn. rewrite Er NZ. split; first done. by rewrite R. }
      cbn [ab_step size_of]. rewrite Er NZ R. cbn [snd].
      split; first done. split.
      { cbn. case: (zlen (hbuf h') =? 0) => //=; by rewrite P5. }
      split; first done. split; first done. split; first done.
      exists rl. cbn. repeat (split; first done).
      rewrite zlen_eq0. case Eh: (hbuf h') => [| y ys].
      * split; rewrite ?Eh //. { by rewrite -Eh. }
        split; first by rewrite -P2 Eh.
        split; first done. by rewrite P4 Ha -P2 Eh skipn_nil /= andb_false_r.
      * rewrite /set_alw. split; cbn; rewrite ?Eh //. { by rewrite -Eh. }
        split; first by rewrite -P2 Eh. split.
        { move=> X. move: (P3 X). by rewrite Eh. }
        rewrite P5 Hnb zlen_eq0.
        case X: (skipn (Z.to_nat (rsz r)) (shown k l)) => //.
        move: (P3 X). by rewrite Eh.
    + rewrite F NC /should_return. cbn [cf set_h]. rewrite Hk Hi Hdb orb_true_l.
      rewrite P5 Hnb.
      eexists _, (Some (RBytes _)). split; first reflexivity. split.
      { cbn. rewrite Er NZ. split; first done. by rewrite R. }
      cbn [ab_step size_of]. rewrite Er NZ R. cbn [snd].
      split; first done. split; first by cbn; rewrite P5.
      split; first done. split; first done. split; first done.
      exists rl. cbn. repeat (split; first done).
      rewrite P4 P5 Ha Hnb //.
Qed.

Lemma inv_init k nb : Inv k nb (tty_init k nb) ab_init.
Proof.
  repeat (split; first done). do 2 (split; first by constructor). exists []. cbn.
  repeat (split; first done). rewrite /hok. cbn. repeat split; auto; try (rewrite /zlen /=; lia).
Qed.

Lemma inv_op k nb s a o : sane k -> icanon k = true -> Inv k nb s a -> may s a o ->
  exists s' r, step s o = Some (s', r) /\ good s a o r /\ Inv k nb s' (ab_step s a o r).
Proof.
  move=> Hs Hi HI M. case: o M => [c b | | n ok | | b | k' f | b] M; try done.
  - eexists _, None. split; first reflexivity. split; first done.
    cbn [ab_step]. by apply inv_key.
  - by apply inv_begin.
  - by apply inv_step.
  - eexists _, None. split; first reflexivity. split; first done. exact HI.
Qed.

Lemma creach_inv k nb s a : sane k -> icanon k = true -> creach k nb s a -> Inv k nb s a.
Proof.
  move=> Hs Hi. elim=> [| s0 a0 o s' r _ IH M E]; first exact: inv_init.
  have [s1 [r1 [E1 [_ I1]]]] := inv_op _ _ _ _ _ Hs Hi IH M.
  rewrite E in E1. injection E1 => X1 X2. subst s1 r1. exact I1.
Qed.

Lemma canon_reads k nb s a o : sane k -> icanon k = true -> creach k nb s a ->
  may s a o -> exists s' r, step s o = Some (s', r) /\ good s a o r.
Proof.
  move=> Hs Hi R M. have HI := creach_inv _ _ _ _ Hs Hi R.
  have [s' [r [E [G _]]]] := inv_op _ _ _ _ _ Hs Hi HI M. by exists s', r.
Qed.

Lemma canon_counter k nb s a : sane k -> icanon k = true -> creach k nb s a ->
  quiet s -> q s = concat (lines a) ++ cur a /\ cnt s = zlen (lines a).
Proof.
  move=> Hs Hi R. have [_ [_ [_ [_ [_ [rl [Q [C S]]]]]]]] := creach_inv _ _ _ _ Hs Hi R.
  rewrite /quiet. case E: (rd s) S => [r | ] S Qt.
  - cbn in S. case: S => _ [_ [_ [_ [_ S]]]].
    case: Qt => X; rewrite X in S; case: S => [-> _] in Q C *; done.
  - case: S => [-> _] in Q C *. done.
Qed.

Lemma canon_ready k nb s a : sane k -> icanon k = true -> creach k nb s a ->
  rd s = None ->
  read_ready s = true <-> (lines a <> [] \/ (nb = true /\ pend a <> [])).
Proof.
  move=> Hs Hi R N.
  have [Hk [Hnb [_ [_ [_ [rl [Q [C S]]]]]]]] := creach_inv _ _ _ _ Hs Hi R.
  rewrite N in S. case: S => [-> [_ [_ [_ Ha]]]] in Q C *.
  rewrite /read_ready Hk Hi Ha Hnb C.
  rewrite zlen_eq0. split.
  - move/orb_prop => [H | H].
    + right. case/andb_prop: H => -> H. split; first done. by case: (pend a) H.
    + left. apply Z.ltb_lt in H. case: (lines a) H => //.
  - move=> [H | [-> H]].
    + apply orb_true_intro. right. by case: (lines a) H.
    + by case: (pend a) H.
Qed.

(** *** Progress *)

Lemma steps_cons n s s' : step s OStep = Some (s', None) -> steps (S n) s = steps n s'.
Proof. by move=> /= ->. Qed.

Lemma prog_flush k nb s a r : icanon k = true -> Inv k nb s a ->
  rd s = Some r -> rpc r = PFlush ->
  exists s' b, steps 1 s = Some (s', Some (RBytes b)).
Proof.
  move=> Hi HI Er Ep. have NN : rd s <> None by rewrite Er.
  have [s' [o [E [G I']]]] := inv_step _ _ _ _ Hi HI NN.
  move: (E). cbn [step]. rewrite /read_step Er Ep /finish.
  have [Hk [Hnb [_ [_ [_ [rl [Q [C S]]]]]]]] := HI.
  rewrite Er in S. cbn in S. rewrite Ep in S. case: S => _ [_ [_ [_ [_ [Hdb _]]]]].
  have SR : forall h x, should_return (set_h s h) x (rdb r) = true.
  { move=> h x. by rewrite /should_return /= Hk Hi Hdb. }
  case: (if _ then flush _ _ else _) => [[h1 o1] | ] //.
  rewrite SR. case: (cnt s <? 0) => //.
  case: (hnb h1).
  - case: (flush h1 _) => [[h2 o2] | ] // X. injection X => Eo _. subst o.
    exists s'. eexists. cbn [steps]. rewrite E. reflexivity.
  - move=> X. injection X => Eo _. subst o. exists s'. eexists. cbn [steps].
    rewrite E. reflexivity.
Qed.

Lemma prog_drain k nb : icanon k = true -> forall m s a r, Inv k nb s a ->
  rd s = Some r -> rpc r = PDrain -> (length (q s) <= m)%nat ->
  exists n s' b, steps n s = Some (s', Some (RBytes b)).
Proof.
  move=> Hi. elim=> [| m IH] s a r HI Er Ep L.
  - (* an empty queue is impossible here, but then the reader goes on anyway *)
    have NN : rd s <> None by rewrite Er.
    have [s' [o [E [G I']]]] := inv_step _ _ _ _ Hi HI NN.
    move: (E). cbn [step]. rewrite /read_step Er Ep.
    case Eq: (q s) L => [| c q'] L; last by cbn in L; lia.
    move=> X. injection X => Eo Es. subst o.
    have Er' : rd s' = Some (Rd PFlush (rsz r) (rout r) (rdb r)) by rewrite -Es.
    have [s2 [b F]] := prog_flush _ _ _ _ _ Hi I' Er' eq_refl.
    exists 2%nat, s2, b. by rewrite (steps_cons _ _ _ E).
  - have NN : rd s <> None by rewrite Er.
    have [s' [o [E [G I']]]] := inv_step _ _ _ _ Hi HI NN.
    move: (E). cbn [step]. rewrite /read_step Er Ep.
    case Eq: (q s) L => [| c q'] L.
    { move=> X. injection X => Eo Es. subst o.
      have Er' : rd s' = Some (Rd PFlush (rsz r) (rout r) (rdb r)) by rewrite -Es.
      have [s2 [b F]] := prog_flush _ _ _ _ _ Hi I' Er' eq_refl.
      exists 2%nat, s2, b. by rewrite (steps_cons _ _ _ E). }
    case: (zlen (hbuf (hh s)) <? READ_BS).
    + rewrite /read_single. have [Hk _] := HI. rewrite Hk Hi.
      case: (is_delim k c).
      * case: (cnt s <=? 0) => //.
        move=> X. injection X => Eo Es. subst o.
        have Er' : rd s' = Some (Rd PFlush (rsz r) (rout r) true).
        { rewrite -Es. by case: (c =? veof k). }
        have [s2 [b F]] := prog_flush _ _ _ _ _ Hi I' Er' eq_refl.
        exists 2%nat, s2, b. by rewrite (steps_cons _ _ _ E).
      * move=> X. injection X => Eo Es. subst o.
        have Er' : rd s' = Some r by rewrite -Es.
        have Lq : (length (q s') <= m)%nat by rewrite -Es; cbn in L |- *; lia.
        have [n [s2 [b F]]] := IH _ _ _ I' Er' Ep Lq.
        exists (S n), s2, b. by rewrite (steps_cons _ _ _ E).
    + move=> X. injection X => Eo Es. subst o.
      have Er' : rd s' = Some (Rd PFlush (rsz r) (rout r) (rdb r)) by rewrite -Es.
      have [s2 [b F]] := prog_flush _ _ _ _ _ Hi I' Er' eq_refl.
      exists 2%nat, s2, b. by rewrite (steps_cons _ _ _ E).
Qed.

Lemma canon_progress k nb s a r : sane k -> icanon k = true -> creach k nb s a ->
  rd s = Some r -> lines a <> [] ->
  exists n s' b, steps n s = Some (s', Some (RBytes b)).
Proof.
  move=> Hs Hi R Er HL. have HI := creach_inv _ _ _ _ Hs Hi R. clear R.
  have W : forall s a r, Inv k nb s a -> rd s = Some r -> rpc r = PWait ->
    lines a <> [] -> exists n s' b, steps n s = Some (s', Some (RBytes b)).
  { clear s a r HI Er HL. move=> s a r HI Er Ep HL.
    have NN : rd s <> None by rewrite Er.
    have [s' [o [E [G I']]]] := inv_step _ _ _ _ Hi HI NN.
    have [Hk [Hnb [_ [_ [_ [rl [Q [C S]]]]]]]] := HI.
    rewrite Er in S. cbn in S. rewrite Ep in S.
    case: S => _ [_ [_ [Ha [_ [-> Hb]]]]] in Q C *.
    move: (E). cbn [step]. rewrite /read_step Er Ep /read_ready Hk Hi Ha orb_false_l.
    have -> : (0 <? cnt s) = true.
    { rewrite C. by case: (lines a) HL. }
    case: (_ && _) => // X. injection X => Eo Es. subst o.
    have Er' : rd s' = Some (Rd PDrain (rsz r) (rout r) false) by rewrite -Es.
    have [n [s2 [b F]]] := prog_drain _ _ Hi (length (q s')) _ _ _ I' Er' eq_refl (le_n _).
    exists (S n), s2, b. by rewrite (steps_cons _ _ _ E). }
  case Ep: (rpc r).
  - have NN : rd s <> None by rewrite Er.
    have [s' [o [E [G I']]]] := inv_step _ _ _ _ Hi HI NN.
    have [Hk [Hnb [_ [_ [_ [rl [Q [C S]]]]]]]] := HI.
    rewrite Er in S. cbn in S. rewrite Ep in S.
    case: S => _ [_ [_ [Ha [_ [-> Hb]]]]] in Q C *.
    move: (E). cbn [step]. rewrite /read_step Er Ep /read_ready Hk Hi Ha orb_false_l.
    have -> : (0 <? cnt s) = true.
    { rewrite C. by case: (lines a) HL. }
    rewrite andb_false_r. move=> X. injection X => Eo Es. subst o.
    have Er' : rd s' = Some (Rd PWait (rsz r) (rout r) (rdb r)) by rewrite -Es.
    have [n [s2 [b F]]] := W _ _ _ I' Er' eq_refl HL.
    exists (S n), s2, b. by rewrite (steps_cons _ _ _ E).
  - exact: W HI Er Ep HL.
  - exact: prog_drain Hi (length (q s)) _ _ _ HI Er Ep (le_n _).
  - have [s2 [b F]] := prog_flush _ _ _ _ _ Hi HI Er Ep. by exists 1%nat, s2, b.
Qed.
