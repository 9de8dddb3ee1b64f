(** Histories on which the line discipline goes wrong, and the echo. *)
From Verif Require Import Lib Tty_Model Tty_Spec Tty_Proofs Tty_Proofs2.
From Coq Require Import ssreflect.
Set Warnings "-all".

(** *** A counted delimiter that is not there *)

Definition spin (s : st) : Prop :=
  icanon (cf s) = true /\ q s = [] /\ 0 < cnt s /\
  hpos (hh s) = 0 /\ (hnb (hh s) = false -> hbuf (hh s) = []) /\
  zlen (hbuf (hh s)) < READ_BS /\
  exists r, rd s = Some r /\ zlen (rout r) < INPUT_BS /\ zlen (rout r) <= rsz r /\
    (rpc r <> PTop -> rpc r <> PWait -> rdb r = false).

Lemma spin_step s : spin s -> exists s', step s OStep = Some (s', None) /\ spin s'.
Proof.
  move=> [Hi [Hq [Hc [Hp [Hb [Hl [r [Er [H1 [H2 H3]]]]]]]]]].
  cbn [step]. rewrite /read_step Er.
  have RD : read_ready s = true.
  { rewrite /read_ready Hi. apply orb_true_intro. right. by apply Z.ltb_lt. }
  case Ep: (rpc r).
  - rewrite RD andb_false_r. eexists. split; first reflexivity.
    repeat (split; first done). by eexists.
  - rewrite RD Hp.
    have -> : negb (hnb (hh s)) && negb ((zlen (hbuf (hh s)) =? 0) && (0 =? 0)) = false.
    { case X: (hnb (hh s)) Hb => //= Hb. by rewrite Hb. }
    eexists. split; first reflexivity.
    repeat (split; first done). by eexists.
  - rewrite Hq. eexists. split; first reflexivity.
    repeat (split; first done). eexists. split; first reflexivity. cbn.
    repeat (split; first done). move=> _ _. apply H3; by rewrite Ep.
  - rewrite /finish Hi. have DB : rdb r = false by apply H3; rewrite Ep.
    have NC : (cnt s <? 0) = false by apply Z.ltb_ge; lia.
    have SR : forall h n, zlen (hbuf h) < READ_BS -> n < INPUT_BS ->
        should_return (set_h s h) n (rdb r) = false.
    { move=> h n A B. rewrite /should_return /= Hi DB /=.
      have -> : (zlen (hbuf h) =? READ_BS) = false by apply Z.eqb_neq; lia.
      have -> : (n =? INPUT_BS) = false by apply Z.eqb_neq; lia.
      by rewrite andb_false_r. }
    case X: (hnb (hh s)) Hb => Hb; cbn [negb orb].
    + rewrite app_nil_r NC SR //.
      eexists. split; first reflexivity. cbn.
      repeat (split; first done). split; first by rewrite /= X.
      split; first done. eexists. split; first reflexivity. cbn. done.
    + have F : flush (hh s) (rsz r - zlen (rout r)) =
               Some (Hn [] 0 (halw (hh s)) (hnb (hh s)), []).
      { rewrite /flush Hp Hb //. cbn [zlen length Z.of_nat Z.sub Z.ltb Z.compare Z.opp Z.add].
        have -> : Z.min 0 (rsz r - zlen (rout r)) = 0 by lia. done. }
      rewrite F app_nil_r NC SR //.
      eexists. split; first reflexivity. cbn.
      repeat (split; first done). eexists. split; first reflexivity. cbn. done.
Qed.

Lemma spin_never s : spin s -> never_returns s.
Proof.
  move=> H n. elim: n s H => [| n IH] s H; first by exists s.
  have [s1 [E S1]] := spin_step s H. rewrite (steps_cons _ _ _ E). by apply IH.
Qed.

Definition erase_ops : list op :=
  keys [97; 10; 127] ++ [OBegin 100 true] ++ rsteps 5.

Lemma erase_ref nb g : exists s,
  run (tty_init default_conf nb) erase_ops = Some (s, []) /\
  never_returns (set_sg s g).
Proof.
  case: nb; (eexists; split; first by (vm_compute; reflexivity)).
  - apply spin_never. repeat (split; first done). by eexists.
  - apply spin_never. repeat (split; first done). by eexists.
Qed.

(** *** Filling the buffer *)

Lemma run_app l1 l2 s : run s (l1 ++ l2) =
  match run s l1 with
  | None => None
  | Some (s1, r1) => match run s1 l2 with
                     | None => None
                     | Some (s2, r2) => Some (s2, r1 ++ r2)
                     end
  end.
Proof.
  elim: l1 s => [| o l1 IH] s.
  - cbn. by case: (run s l2) => [[s2 r2] | ].
  - cbn [app run]. case: (step s o) => [[s1 r] | ] //. rewrite IH.
    case: (run s1 l1) => [[s2 rs] | ] //. case: (run s2 l2) => [[s3 r3] | ] //.
    by case: r.
Qed.

Lemma fill b n : forall qq h, zlen qq + Z.of_nat n <= INPUT_BS ->
  run (St default_conf qq 0 None h None false)
      (map (fun c => OKey c b) (repeat 97 n)) =
  Some (St default_conf (qq ++ repeat 97 n) 0 None h None false, []).
Proof.
  elim: n => [| n IH] qq h L; first by rewrite app_nil_r.
  cbn [repeat map run].
  have -> : step (St default_conf qq 0 None h None false) (OKey 97 b) =
            Some (St default_conf (qq ++ [97]) 0 None h None false, None).
  { cbn. rewrite /canon_key /=.
    rewrite /inbuf_write /=. have -> : (zlen qq <? INPUT_BS) = true by apply Z.ltb_lt; lia.
    reflexivity. }
  rewrite IH; first by rewrite zlen_snoc; lia.
  rewrite -app_assoc. reflexivity.
Qed.

Lemma zlen_repeat (x : Z) n : zlen (repeat x n) = Z.of_nat n.
Proof. by rewrite /zlen repeat_length. Qed.

Definition afull : list Z := repeat 97 (Z.to_nat INPUT_BS).

Lemma zlen_afull : zlen afull = INPUT_BS.
Proof. rewrite /afull zlen_repeat Z2Nat.id //. Qed.

Lemma fill_full b nb :
  run (tty_init default_conf nb) (map (fun c => OKey c b) afull) =
  Some (St default_conf afull 0 None (Hn [] 0 false nb) None false, []).
Proof.
  by rewrite /tty_init /afull fill.
Qed.

(** The reader empties the queue of plain characters into its buffer *)
Lemma drains m n : forall qq hb c h3 h4 sz db g, zlen hb + Z.of_nat n <= READ_BS ->
  steps (n + m) (St default_conf (repeat 97 n ++ qq) c None (Hn hb 0 h3 h4)
              (Some (Rd PDrain sz [] db)) g) =
  steps m (St default_conf qq c None (Hn (hb ++ repeat 97 n) 0 h3 h4)
              (Some (Rd PDrain sz [] db)) g).
Proof.
  elim: n => [| n IH] qq hb c h3 h4 sz db g L; first by rewrite app_nil_r.
  cbn [repeat app Nat.add].
  rewrite (steps_cons _ _ (St default_conf (repeat 97 n ++ qq) c None (Hn (hb ++ [97]) 0 h3 h4)
              (Some (Rd PDrain sz [] db)) g)).
  { cbn. have -> : (zlen hb <? READ_BS) = true by apply Z.ltb_lt; lia. reflexivity. }
  rewrite IH; first by rewrite zlen_snoc; lia.
  by rewrite -app_assoc.
Qed.

Lemma run_steps n : forall s s', steps n s = Some (s', None) ->
  run s (rsteps n) = Some (s', []).
Proof.
  elim: n => [| n IH] s s'.
  - cbn. by move=> X; injection X => ->.
  - cbn [steps rsteps repeat run]. case: (step s OStep) => [[s1 [r | ]] | ] // H.
    by rewrite (IH _ _ H).
Qed.

(** The buffer is full and the line end that did not fit has been counted *)
Definition over (nb : bool) : st :=
  St default_conf afull 1 None (Hn [] 0 false nb) None false.

Lemma over_keys nb :
  run (tty_init default_conf nb) (keys (afull ++ [10])) = Some (over nb, []).
Proof.
  rewrite /keys map_app run_app fill_full. cbn [map run step].
  have -> : send_keyevent (St default_conf afull 0 None (Hn [] 0 false nb) None false) 10 false =
            over nb.
  { rewrite /send_keyevent /= /canon_key /= /inbuf_write.
    have -> : (zlen (q (St default_conf afull 0 None (Hn [] 0 false nb) None false)) <? INPUT_BS) = false
      by cbn [q]; rewrite zlen_afull. reflexivity. }
  reflexivity.
Qed.

Definition ov (qq hb : list Z) (p : pc) (sz : Z) (out : list Z) : st :=
  St default_conf qq 1 None (Hn hb 0 false false) (Some (Rd p sz out false)) false.

Lemma over_begin sz : 0 < sz ->
  step (over false) (OBegin sz true) = Some (ov afull [] PTop sz [], None).
Proof.
  move=> Hs. cbn [step over rd read_begin negb].
  have -> : (sz =? 0) = false by apply Z.eqb_neq; lia. reflexivity.
Qed.

Lemma over_read m sz :
  steps (2 + (Z.to_nat INPUT_BS + S m)) (ov afull [] PTop sz []) =
  steps m (ov [] afull PFlush sz []).
Proof.
  have E1 : step (ov afull [] PTop sz []) OStep = Some (ov afull [] PWait sz [], None) by [].
  have E2 : step (ov afull [] PWait sz []) OStep = Some (ov afull [] PDrain sz [], None) by [].
  cbn [plus]. rewrite (steps_cons _ _ _ E1) (steps_cons _ _ _ E2) /ov.
  rewrite -{1}(app_nil_r afull) {1}/afull drains //.
Qed.

Lemma steps_run n : forall s r s', steps n s = Some (s', Some r) ->
  exists m, run s (rsteps m) = Some (s', [r]).
Proof.
  elim: n => [| n IH] s r s' //.
  cbn [steps]. case E: (step s OStep) => [[s1 [r1 | ]] | ] // H.
  - exists 1%nat. cbn [rsteps repeat run]. rewrite E. by injection H => -> ->.
  - have [m F] := IH _ _ _ H. exists (S m). cbn [rsteps repeat run]. by rewrite E F.
Qed.

Definition overflow_ops : list op :=
  keys (afull ++ [10]) ++ [OBegin 100 true].

(** Reading fewer bytes than the buffer holds fails an assertion *)
Lemma overflow_assert : exists s n,
  run (tty_init default_conf false) overflow_ops = Some (s, []) /\ steps n s = None.
Proof.
  exists (ov afull [] PTop 100 []), (2 + (Z.to_nat INPUT_BS + 4))%nat. split.
  - rewrite /overflow_ops run_app over_keys. cbn [run]. by rewrite over_begin.
  - rewrite over_read. cbn [steps step].
    rewrite /read_step. cbn [rd ov rpc].
    rewrite /finish /flush. cbn [cf hh hnb hbuf hpos negb orb rsz rout icanon default_conf].
    rewrite Z.sub_0_r zlen_afull. cbn [zlen length Z.of_nat].
    reflexivity.
Qed.

(** Reading all of it leaves the next read without an end *)
Lemma overflow_spin : exists l s,
  run (tty_init default_conf false)
      (keys (afull ++ [10]) ++ [OBegin READ_BS true] ++ l ++ [OBegin 100 true]) =
  Some (s, [RBytes afull]) /\ forall g, never_returns (set_sg s g).
Proof.
  pose z := St default_conf [] 1 None (Hn [] 0 false false) None false.
  have S1 : steps (2 + (Z.to_nat INPUT_BS + 2)) (ov afull [] PTop READ_BS []) =
            Some (z, Some (RBytes afull)).
  { rewrite over_read. cbn [steps step].
    rewrite /read_step. cbn [rd ov rpc].
    rewrite /finish /flush. cbn [cf hh hnb hbuf hpos negb orb rsz rout icanon default_conf].
    rewrite Z.sub_0_r zlen_afull. cbn [zlen length Z.of_nat].
    reflexivity. }
  have [m F] := steps_run _ _ _ _ S1.
  exists (rsteps m), (set_rd z (Some (Rd PTop 100 [] false))). split.
  - rewrite run_app over_keys. cbn [app run]. rewrite over_begin; first done.
    rewrite run_app F. reflexivity.
  - move=> g. clear F S1. apply spin_never. repeat (split; first done).
    eexists. split; first reflexivity. cbn. done.
Qed.

(** *** A writer that waits for room (a serial line) *)

Definition stuck (s : st) : Prop :=
  icanon (cf s) = true /\ zlen (q s) = INPUT_BS /\ cnt s = 0 /\ wr s = Some (10, true) /\
  hh s = Hn [] 0 false false /\ sg s = false /\
  exists r, rd s = Some r /\ (rpc r = PTop \/ rpc r = PWait).

Lemma stuck_step s o : stuck s -> o = OWr \/ o = OStep ->
  exists s', step s o = Some (s', None) /\ stuck s'.
Proof.
  move=> H. have [Hi [Hq [Hc [Hw [Hh [Hg [r [Er Ep]]]]]]]] := H. case=> ->.
  - exists s. split; last exact H. cbn. rewrite /writer_step Hw Hq. by rewrite Z.ltb_irrefl.
  - cbn. rewrite /read_step Er.
    have NR : read_ready s = false by rewrite /read_ready Hi Hh Hc.
    case: Ep => ->.
    + rewrite Hh. cbn [hnb andb]. eexists. split; first reflexivity.
      repeat (split; first done). eexists. split; first reflexivity. by right.
    + rewrite NR Hg. by exists s.
Qed.

Lemma stuck_run l : Forall (fun o => o = OWr \/ o = OStep) l -> forall s, stuck s ->
  exists s', run s l = Some (s', []) /\ stuck s'.
Proof.
  elim: l => [| o l IH] H s S; first by exists s.
  inversion H; subst. have [s1 [E S1]] := stuck_step _ _ S H2.
  have [s2 [F S2]] := IH H3 _ S1. exists s2. cbn [run]. by rewrite E F.
Qed.

Lemma serial_ref : exists s,
  run (tty_init default_conf false) (bkeys (afull ++ [10]) ++ [OBegin 100 true]) = Some (s, []) /\
  forall l, Forall (fun o => o = OWr \/ o = OStep) l ->
    exists s', run s l = Some (s', []) /\ wr s' = Some (10, true) /\ rd s' <> None.
Proof.
  pose z := St default_conf afull 0 (Some (10, true)) (Hn [] 0 false false) None false.
  exists (set_rd z (Some (Rd PTop 100 [] false))). split.
  - rewrite /bkeys map_app -app_assoc run_app fill_full. cbn [map app run step].
    have -> : send_keyevent (St default_conf afull 0 None (Hn [] 0 false false) None false) 10 true = z.
    { rewrite /send_keyevent /= /canon_key /= /inbuf_write.
      have -> : (zlen (q (St default_conf afull 0 None (Hn [] 0 false false) None false)) <? INPUT_BS) = false
        by cbn [q]; rewrite zlen_afull. reflexivity. }
    reflexivity.
  - move=> l Hl.
    have ST : stuck (set_rd z (Some (Rd PTop 100 [] false))).
    { split; first done. split; first exact zlen_afull.
      do 4 (split; first done). eexists. split; first reflexivity. by left. }
    have [s' [E [_ [_ [_ [W [_ [_ [r [Er _]]]]]]]]]] := stuck_run l Hl _ ST.
    exists s'. split; first done. split; first done. by rewrite Er.
Qed.

(** *** Raw mode, asking for fewer bytes than VMIN *)

Lemma vmin_assert :
  run (tty_init (raw_conf 3) false)
      (keys [97; 98; 99] ++ [OBegin 2 true] ++ rsteps 8 ++ keys [100; 101; 102] ++ [OStep]) = None.
Proof. vm_compute. reflexivity. Qed.

Lemma vmin_lost : exists s,
  run (tty_init (raw_conf 3) true) (keys [97; 98; 99] ++ [OBegin 2 true] ++ rsteps 7) =
  Some (s, [REagain]) /\ q s = [] /\ skipn (Z.to_nat (hpos (hh s))) (hbuf (hh s)) = [99].
Proof. eexists. split; first by (vm_compute; reflexivity). split; reflexivity. Qed.

(** *** Leaving canonical mode and coming back *)

Lemma waits_never s : read_ready s = false -> sg s = false ->
  (exists r, rd s = Some r /\ rpc r = PWait) -> never_returns s.
Proof.
  move=> H G [r [Er Ep]]. have E : step s OStep = Some (s, None).
  { cbn. by rewrite /read_step Er Ep H G. }
  move=> n. exists s. elim: n => [| n IH] //. by rewrite (steps_cons _ _ _ E).
Qed.

Lemma switch_ref : exists s,
  run (tty_init default_conf false)
      (keys [97; 10] ++ [OSetc (raw_conf 1) false; OSetc default_conf false; OBegin 100 true; OStep]) =
  Some (s, []) /\ q s = [97; 10] /\ never_returns s.
Proof.
  eexists. split; first by (vm_compute; reflexivity). split; first done.
  apply waits_never; first done; first done. by eexists.
Qed.

(** *** The rest of a line *)

Lemma poll_ref : exists s s',
  run (tty_init default_conf false) (keys [97; 98; 10] ++ [OBegin 1 true] ++ rsteps 6) =
  Some (s, [RBytes [97]]) /\
  read_ready s = false /\ step s (OBegin 1 true) = Some (s', Some (RBytes [98])).
Proof.
  eexists _, _. split; first by (vm_compute; reflexivity). split; first done.
  vm_compute. reflexivity.
Qed.

Lemma setfl_ref : exists s,
  run (tty_init default_conf false)
      (keys [97; 98; 10] ++ [OBegin 1 true] ++ rsteps 6 ++ [ONb true; OBegin 1 true; OStep]) =
  Some (s, [RBytes [97]; REagain]).
Proof. eexists. vm_compute. reflexivity. Qed.

Lemma dup_ref : exists s s1 s2,
  run (tty_init default_conf false) (keys [97; 98; 10] ++ [OBegin 1 true] ++ rsteps 6) =
  Some (s, [RBytes [97]]) /\
  step s (OBegin 1 true) = Some (s1, Some (RBytes [98])) /\
  step (set_h s1 (dup_extra (hh s))) (OBegin 1 true) = Some (s2, Some (RBytes [98])).
Proof.
  eexists _, _, _. split; first by (vm_compute; reflexivity).
  split; vm_compute; reflexivity.
Qed.

(** *** Special characters *)

Lemma nul_ref : exists s,
  run (tty_init default_conf false) (bkeys [97; 0] ++ [OBegin 100 true] ++ rsteps 5) =
  Some (s, [RBytes [97; 0]]).
Proof. eexists. vm_compute. reflexivity. Qed.

Lemma kill_ref : exists s,
  run (tty_init default_conf false)
      (keys [97; vkill default_conf; 98; vwerase default_conf; 10] ++ [OBegin 100 true] ++ rsteps 8) =
  Some (s, [RBytes [97; 21; 98; 23; 10]]).
Proof. eexists. vm_compute. reflexivity. Qed.

(** *** Echo *)

Lemma sch_id c : 0 <= c < 256 -> (sch c = c \/ sch c < 0).
Proof. rewrite /sch. case: (Z.ltb_spec c 128); lia. Qed.

Lemma scr_app k a b cells : scr k cells (a ++ b) = scr k (scr k cells a) b.
Proof. by elim: a cells => [| c a IH] cells //=. Qed.


Lemma echo_cells k c cells : plain_echo k c -> 0 <= verase k -> echo k = true ->
  scr k cells (key_echo k c) =
  (if as_caret k c then [(c + 64) mod 256; 94] else [c]) ++ cells.
Proof.
  move=> [Hc [N1 [N2 [N3 [N4 [N5 N6]]]]]] Hv He. rewrite /key_echo He.
  have B : forall a b, a <> b -> (a =? b) = false by move=> a b H; apply Z.eqb_neq.
  have N7 : sch c <> verase k by case: (sch_id c Hc); lia.
  rewrite (B _ _ N2) (B _ _ N3) (B _ _ N4) (B _ _ N7).
  have -> : (c =? 10) && echonl k = false.
  { case: (Z.eqb_spec c 10) => // E; by rewrite N5. }
  rewrite !andb_false_r. cbn [negb orb].
  case X: (as_caret k c).
  - case: (N6 X) => M1 M2. cbn [scr].
    rewrite (B 94 (verase k)); first by auto. rewrite (B ((c + 64) mod 256) (verase k)); first by auto.
    done.
  - cbn [scr]. by rewrite (B c (verase k)).
Qed.

Lemma drop_cells k c cells : 0 <= verase k < 128 -> echo k = true -> icanon k = true ->
  echoe k = true -> verase k <> 10 -> verase k <> veof k ->
  scr k cells (drop_echo k c) =
  if as_caret k c then tl (tl cells) else tl cells.
Proof.
  move=> Hv He Hi Hoe N10 Ne.
  have E : key_echo k (verase k) = [verase k].
  { rewrite /key_echo He Hi Hoe.
    have -> : (verase k =? 10) = false by apply Z.eqb_neq.
    have S : sch (verase k) = verase k by rewrite /sch; case: (Z.ltb_spec (verase k) 128); lia.
    rewrite S. have -> : (verase k =? veof k) = false by apply Z.eqb_neq.
    rewrite Z.eqb_refl orb_true_r. cbn [andb negb].
    by case: (_ && _). }
  rewrite /drop_echo /echo_width E. case: (as_caret k c).
  - have -> : Z.to_nat 2 = 2%nat by []. cbn -[Z.eqb]. by rewrite Z.eqb_refl.
  - have -> : Z.to_nat 1 = 1%nat by []. cbn -[Z.eqb]. by rewrite Z.eqb_refl.
Qed.

Lemma echo_erase k l cells : 0 <= verase k < 128 -> echo k = true -> icanon k = true ->
  echoe k = true -> verase k <> 10 -> verase k <> veof k ->
  Forall (plain_echo k) l ->
  scr k cells (typed_echo k l ++ erased_echo k l) = cells.
Proof.
  move=> Hv He Hi Hoe N10 Ne. rewrite /typed_echo /erased_echo.
  elim: l cells => [| c l IH] cells H //. inversion H; subst.
  cbn [map concat rev]. rewrite map_app concat_app app_assoc -(app_assoc (key_echo k c)).
  rewrite scr_app scr_app IH //. rewrite echo_cells //; first by lia.
  cbn [map concat]. rewrite app_nil_r drop_cells //.
  by case: (as_caret k c).
Qed.

(** Erasing from the left end never reaches what was there before *)
Lemma echo_off k l : echo k = false -> echonl k = false ->
  typed_echo k l = [] /\ erased_echo k l = [].
Proof.
  move=> He Hn.
  have K : forall c, key_echo k c = [] by move=> c; rewrite /key_echo He Hn andb_false_r.
  have D : forall c, drop_echo k c = [].
  { move=> c. rewrite /drop_echo K. by elim: (Z.to_nat _). }
  have G : forall f, (forall c, f c = []) -> forall m : list Z, concat (map f m) = ([] : list Z).
  { move=> f Hf. by elim=> [| x m IH] //=; rewrite Hf IH. }
  split; by apply G.
Qed.

Lemma echo_eof_ref : exists cells,
  scr default_conf cells
    (key_echo default_conf (veof default_conf) ++ drop_echo default_conf (veof default_conf)) <> cells.
Proof. exists [36; 36]. vm_compute. discriminate. Qed.

Lemma echo_high_ref : key_echo default_conf 195 = [94; 3].
Proof. reflexivity. Qed.

Lemma echo_del_ref : exists k, verase k = 8 /\ key_echo k 127 = [94; 191].
Proof.
  exists {| icanon := true; isig := true; iexten := true;
    echo := true; echoe := true; echok := true; echonl := false; echoctl := true;
    igncr := false; icrnl := true; inlcr := false; ixon := true;
    vmin := 1; verase := 8; veof := 4; veol := 0; veol2 := 0;
    vintr := 3; vquit := 28; vsusp := 26; vstart := 17; vstop := 19;
    vreprint := 18; vdiscard := 15; vlnext := 22; vkill := 21; vwerase := 23 |}.
  split; reflexivity.
Qed.

(** The default settings are sane *)
Lemma default_sane : sane default_conf.
Proof.
  split; first by cbn; repeat (constructor; first by cbn; lia); constructor.
  split; first by cbn; lia. split; first by cbn; lia. cbn. lia.
Qed.
