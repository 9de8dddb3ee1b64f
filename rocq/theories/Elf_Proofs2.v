(** All segments, the stack. *)
From Coq Require Import ssreflect.
From Verif Require Import Lib User_Model User_Spec Elf_Model Elf_Spec Elf_Proofs.
Ltac Zify.zify_post_hook ::= Z.to_euclidean_division_equations.

Lemma frame_snoc mm gs g pg : frame_of mm (gs ++ [g]) pg =
  if touches pg g
  then if mm && negb (w_ok g) then Some (Some (p_off g / 4096 + (pg - p_va g / 4096)), false)
       else match frame_of mm gs pg with Some (fr, rw) => Some (fr, rw && w_ok g) | None => Some (None, w_ok g) end
  else frame_of mm gs pg.
Proof. by rewrite /frame_of fold_left_app. Qed.
Lemma byte_snoc b gs g a : byte_of b (gs ++ [g]) a = if in_file a g then b (p_off g + (a - p_va g)) else byte_of b gs a.
Proof. by rewrite /byte_of fold_left_app. Qed.

Lemma frame_file mm gs pg p rw : frame_of mm gs pg = Some (Some p, rw) ->
  mm = true /\ exists g, In g gs /\ touches pg g = true /\ w_ok g = false.
Proof.
  elim/rev_ind: gs rw => [| g gs IH] rw //. rewrite frame_snoc. case T: (touches pg g).
  - case M: (mm && negb (w_ok g)).
    + move=> _. move: M => /andb_prop [-> W]. split => //. exists g. rewrite in_app_iff. split; first by right; left.
      split => //. by case: (w_ok g) W.
    + case F: (frame_of mm gs pg) => [[fr r] |] // [E _]. subst fr.
      have [-> [g' [G1 G2]]] := IH _ F. split => //. exists g'. rewrite in_app_iff. by split; first left.
  - move=> /IH [-> [g' [G1 G2]]]. split => //. exists g'. rewrite in_app_iff. by split; first left.
Qed.
Lemma frame_touch mm gs pg : frame_of mm gs pg = None <-> forall g, In g gs -> touches pg g = false.
Proof.
  elim/rev_ind: gs => [| g gs IH]; first by split. rewrite frame_snoc. split.
  - case T: (touches pg g); first by case: (mm && negb (w_ok g)) => //; case: (frame_of mm gs pg) => [[] |].
    move=> /IH H g'. rewrite in_app_iff => [[/H // | [<- // | []]]].
  - move=> H. have -> : touches pg g = false by apply: H; rewrite in_app_iff; right; left.
    apply/IH => g' G. apply: H. rewrite in_app_iff. by left.
Qed.

Definition small (g : seg) : Prop := p_type g = 1 -> 0 <= p_fsz g <= p_msz g.
Lemma file_touch a g : small g -> in_file a g = true -> touches (a / 4096) g = true.
Proof. rewrite /small /in_file /touches /loaded. lia. Qed.
Lemma byte_none b gs a : Forall small gs -> (forall g, In g gs -> touches (a / 4096) g = false) -> byte_of b gs a = 0.
Proof.
  elim/rev_ind: gs => [| g gs IH] // S H. rewrite byte_snoc. move/Forall_app: S => [S1 S2]. inversion S2; subst.
  have T : touches (a / 4096) g = false by apply: H; rewrite in_app_iff; right; left.
  case I: (in_file a g); first by rewrite (file_touch a g) in T.
  apply: IH => // g' G. apply: H. rewrite in_app_iff. by left.
Qed.

(** Sizes *)
Lemma sizes c g : good_cfg c -> 0 <= p_va g -> 0 < p_msz g -> p_va g + p_msz g <= base c ->
  pages c g = (p_va g + p_msz g - 1) / 4096 - p_va g / 4096 + 1 /\
  (p_va g / 4096 * 4096 + pages c g * 4096) mod modulus c = end_of g /\
  p_va g / 4096 + pages c g = end_of g / 4096 /\ 1 <= pages c g /\ end_of g <= base c.
Proof.
  move=> [_ [B [BM B4]]] V M E. have D4 : base c = 4096 * (base c / 4096) by lia.
  have SP : span c g = p_va g + p_msz g - p_va g / 4096 * 4096.
  { rewrite /span. apply: Z.mod_small. lia. }
  have PG : pages c g = (p_va g + p_msz g - p_va g / 4096 * 4096 + 4095) / 4096.
  { rewrite /pages SP. f_equal. apply: Z.mod_small. lia. }
  have P1 : pages c g = (p_va g + p_msz g - 1) / 4096 - p_va g / 4096 + 1 by rewrite PG; lia.
  have EE : p_va g / 4096 * 4096 + pages c g * 4096 = end_of g by rewrite P1 /end_of; lia.
  have EB : end_of g <= base c by rewrite /end_of; lia.
  have E0 : 0 <= end_of g by rewrite /end_of; lia.
  split; first done. rewrite EE. split; first by apply: Z.mod_small; lia.
  split; first lia. split; last done. lia.
Qed.

Definition inv (mm : bool) (b : Z -> Z) (gs : list seg) (s : st) : Prop :=
  (forall pg, pt s pg = frame_of mm gs pg) /\ fb s = b /\
  (forall a rw, frame_of mm gs (a / 4096) = Some (None, rw) -> mem s a = byte_of b gs a).

Lemma touches_iff pg g : p_type g = 1 -> 0 < p_msz g ->
  touches pg g = (p_va g / 4096 <=? pg) && (pg <? p_va g / 4096 + ((p_va g + p_msz g - 1) / 4096 - p_va g / 4096 + 1)).
Proof. rewrite /touches /loaded => -> M. lia. Qed.

Lemma step_copy c nst f al mm b gs g s : good_cfg c -> 0 <= nst -> fits c nst f g -> Forall small gs ->
  p_type g = 1 -> p_msz g <> 0 -> (forall x, al x = true) -> inv mm b gs s ->
  mm && negb (w_ok g) = false -> (mm = true -> Forall (fun g' => apart_ro g' g) gs) ->
  exists s', load_copy c al f s g = Ok s' (end_of g) /\ inv mm b (gs ++ [g]) s'.
Proof.
  move=> G N [_ F] SM T M0 AL [IP [IF_ IM]] MM AP.
  have [AG [O0 [V0 [FS [FE [SK [VE _]]]]]]] := F T.
  have [P1 [P2 [P3 [P4 P5]]]] := sizes c g G V0 ltac:(lia) ltac:(lia).
  rewrite /load_copy. have -> : (p_msz g =? 0) = false by lia. rewrite SK /=.
  have TI := fun pg => touches_iff pg g T ltac:(lia). rewrite -P1 in TI.
  have GB : base c mod 4096 = 0 by case: G => [_ [_ [_ ?]]].
  have [s1 [-> [EF [EP EM]]]] := copy_ok c al f (Z.to_nat (pages c g)) s (p_va g / 4096) (p_va g) (p_off g) (p_fsz g)
    ((p_va g / 4096 * 4096 + pages c g * 4096) mod modulus c)
    ltac:(move=> x X; split; first exact: AL; move=> p rw; rewrite IP => /frame_file [HM [g' [G1 [G2 G3]]]];
          have HA := AP HM; move/Forall_forall: HA => /(_ g' G1) HA; apply: (HA _ x) => //;
          [by rewrite G3 | by rewrite TI; lia])
    ltac:(lia) ltac:(lia) ltac:(lia) ltac:(lia) ltac:(lia).
  have NN : Z.of_nat (Z.to_nat (pages c g)) = pages c g by lia. rewrite NN in EP EM.
  rewrite P2.
  have EPT : forall pg, pt (if w_ok g then s1 else make_ro s1 (p_va g / 4096) (pages c g)) pg = frame_of mm (gs ++ [g]) pg.
  { move=> pg. rewrite frame_snoc MM TI.
    case W: (w_ok g) => /=; rewrite EP IP; case R: ((p_va g / 4096 <=? pg) && (pg <? p_va g / 4096 + pages c g)) => //;
      case: (frame_of mm gs pg) => [[fr rw] |] //; by rewrite ?Bool.andb_true_r ?Bool.andb_false_r. }
  have EMM : mem (if w_ok g then s1 else make_ro s1 (p_va g / 4096) (pages c g)) = mem s1 by case: (w_ok g).
  have EFF : fb (if w_ok g then s1 else make_ro s1 (p_va g / 4096) (pages c g)) = fb s by rewrite -EF; case: (w_ok g).
  eexists. split; first reflexivity. split; first exact: EPT. split; first by rewrite EFF.
  move=> a rw. rewrite EMM EM byte_snoc frame_snoc MM TI IP IF_.
  have -> : in_file a g = (p_va g <=? a) && (a <? p_va g + p_fsz g).
  { rewrite /in_file /loaded T. have -> : (0 <? p_msz g) = true by lia. by []. }
  case: ((p_va g <=? a) && (a <? p_va g + p_fsz g)) => //.
  case: ((p_va g / 4096 <=? a / 4096) && (a / 4096 <? p_va g / 4096 + pages c g)); last exact: IM.
  case FR: (frame_of mm gs (a / 4096)) => [[fr r] |].
  - move=> [E _]. subst fr. exact: IM FR.
  - move=> _. symmetry. apply: byte_none => //. exact: (proj1 (frame_touch mm gs _) FR).
Qed.

Lemma step_mmap c nst f al b gs g s : good_cfg c -> 0 <= nst -> f_mmap f = true -> fits c nst f g -> Forall small gs ->
  p_type g = 1 -> p_msz g <> 0 -> (forall x, al x = true) -> inv true b gs s ->
  w_ok g = false -> Forall (fun g' => apart_ro g' g) gs ->
  exists s', load_mmap c al f s g = Ok s' (end_of g) /\ inv true b (gs ++ [g]) s'.
Proof.
  move=> G N FM [_ F] SM T M0 AL [IP [IF_ IM]] W AP.
  have [AG [O0 [V0 [FS [FE [SK [VE BL]]]]]]] := F T.
  have [P1 [P2 [P3 [P4 P5]]]] := sizes c g G V0 ltac:(lia) ltac:(lia).
  have GB : base c mod 4096 = 0 by case: G => [_ [_ [_ ?]]].
  have TI := fun pg => touches_iff pg g T ltac:(lia). rewrite -P1 in TI.
  have NT : forall x, touches x g = true -> frame_of true gs x = None.
  { move=> x TX. apply/frame_touch => g' G'. move/Forall_forall: AP => /(_ g' G') HA.
    case TX': (touches x g') => //. exfalso. apply: (HA _ x) => //. by rewrite W Bool.andb_false_r. }
  rewrite /load_mmap W. have -> : (p_msz g =? 0) = false by lia.
  have -> : filter (f_blk f) (map (fun k => p_off g / 4096 + Z.of_nat k) (seq 0 (Z.to_nat (pages c g)))) =
            map (fun k => p_off g / 4096 + Z.of_nat k) (seq 0 (Z.to_nat (pages c g))).
  { have AL2 : p_off g mod 4096 = p_va g mod 4096 by move: AG; rewrite /aligned; lia.
    have : Forall (fun x => f_blk f x = true) (map (fun k => p_off g / 4096 + Z.of_nat k) (seq 0 (Z.to_nat (pages c g)))).
    { apply Forall_forall => x /in_map_iff [k [<- /in_seq K]].
      have BB := BL FM W. case: (Z.eq_dec (Z.of_nat k) 0) => K0.
      - have := BB 0 ltac:(lia). by have -> : (p_off g + 0) / 4096 = p_off g / 4096 + Z.of_nat k by lia.
      - have := BB ((p_off g / 4096 + Z.of_nat k) * 4096 - p_off g) ltac:(lia).
        by have -> : (p_off g + ((p_off g / 4096 + Z.of_nat k) * 4096 - p_off g)) / 4096 = p_off g / 4096 + Z.of_nat k by lia. }
    elim=> [| x l HX HL IH] //=. by rewrite HX IH. }
  have [s1 [-> [EF [EM EP]]]] := mmap_ok c al (Z.to_nat (pages c g)) (p_off g / 4096) s (p_va g / 4096)
    ((p_va g / 4096 * 4096 + pages c g * 4096) mod modulus c)
    ltac:(move=> x X; split; first exact: AL; rewrite IP; apply: NT; rewrite TI; lia) ltac:(lia).
  have NN : Z.of_nat (Z.to_nat (pages c g)) = pages c g by lia. rewrite NN in EP.
  rewrite P2. exists s1. split; first done. split; first by move=> pg; rewrite EP frame_snoc TI W IP.
  split; first by rewrite EF. move=> a rw. rewrite frame_snoc W /=. case TA: (touches (a / 4096) g) => // FR.
  rewrite EM byte_snoc. have -> : in_file a g = false by case I: (in_file a g) => //; rewrite (file_touch a g) in TA => //; move=> _; lia.
  exact: IM FR.
Qed.

Lemma fop_split {A} (R : A -> A -> Prop) l1 x l2 : ForallOrdPairs R (l1 ++ x :: l2) -> Forall (fun y => R y x) l1.
Proof.
  elim: l1 => [| y l1 IH] H; first constructor. inversion H as [| ? ? F H']; subst. constructor; last exact: IH.
  by move/Forall_app: F => [_ F]; inversion F.
Qed.

Lemma segs_ok c nst f al b : good_cfg c -> 0 <= nst -> (forall x, al x = true) -> forall gs done s brk ms,
  Forall (fits c nst f) (done ++ gs) -> (f_mmap f = true -> ForallOrdPairs apart_ro (done ++ gs)) ->
  inv (f_mmap f) b done s -> brk = brk_of done -> ms = maps_of done -> 0 <= brk ->
  exists s', load_segs c al f s gs brk ms = LsOk s' (brk_of (done ++ gs)) (maps_of (done ++ gs)) /\
    inv (f_mmap f) b (done ++ gs) s'.
Proof.
  move=> G N AL. elim=> [| g gs IH] done s brk ms FT AP IV EB EM B0.
  - exists s. rewrite app_nil_r. by subst.
  - have E : done ++ g :: gs = (done ++ [g]) ++ gs by rewrite -app_assoc.
    have FG : fits c nst f g by move/Forall_app: FT => [_ F]; inversion F.
    have SM : Forall small done.
    { move/Forall_app: FT => [F _]. refine (Forall_impl _ _ F) => h [_ H] T. by have [_ [_ [_ [? _]]]] := H T. }
    have BS : brk_of (done ++ [g]) = if loaded g then Z.max (brk_of done) (end_of g) else brk_of done by rewrite /brk_of fold_left_app.
    have MS : maps_of (done ++ [g]) = maps_of done ++ (if loaded g then [(p_va g / 4096 * 4096, end_of g - p_va g / 4096 * 4096, prot (p_flags g))] else []).
    { rewrite /maps_of filter_app map_app /=. by case: (loaded g). }
    have SKIP : loaded g = false -> inv (f_mmap f) b (done ++ [g]) s.
    { move=> L. have [I1 [I2 I3]] := IV. split; [| split; first done].
      - move=> pg. rewrite frame_snoc /touches L /=. exact: I1.
      - move=> a rw. rewrite frame_snoc /touches L /= byte_snoc /in_file L /=. exact: I3. }
    rewrite E in FT AP |- *. cbn [load_segs].
    case: (Z.eqb_spec (p_type g) 1) => T; cbn [negb].
    + have [AG [O0 [V0 [FS [FE [SK [VE BL]]]]]]] := proj2 FG T. rewrite AG /=.
      case: (Z.eq_dec (p_msz g) 0) => M0.
      * have L : loaded g = false by rewrite /loaded; lia.
        have -> : (if f_mmap f then load_mmap c al f s g else load_copy c al f s g) = Ok s 0.
        { rewrite /load_mmap /load_copy M0 /=. by case: (f_mmap f); case: (w_ok g). }
        have -> : (brk <? 0) = false by lia. have -> : (p_va g / 4096 * 4096 <? 0) = false by lia.
        rewrite L in BS MS. rewrite app_nil_r in MS. apply: IH => //; [exact: SKIP | by rewrite BS | by rewrite MS].
      * have L : loaded g = true by rewrite /loaded; lia. rewrite L in BS MS.
        have APD : f_mmap f = true -> Forall (fun g' => apart_ro g' g) done.
        { move=> FM. have := AP FM. rewrite -E. exact: fop_split. }
        have [s' [-> IV']] : exists s', (if f_mmap f then load_mmap c al f s g else load_copy c al f s g) = Ok s' (end_of g) /\ inv (f_mmap f) b (done ++ [g]) s'.
        { case FM: (f_mmap f) IV APD => IV APD; last by apply: (step_copy c nst f al false b done g s).
          case W: (w_ok g).
          - rewrite /load_mmap W. apply: (step_copy c nst f al true b done g s) => //. by rewrite W.
          - apply: (step_mmap c nst f al b done g s) => //. exact: APD. }
        have [P1 [P2 [P3 [P4 P5]]]] := sizes c g G V0 ltac:(lia) ltac:(lia).
        have EO : p_va g / 4096 * 4096 < end_of g by rewrite /end_of; lia.
        have -> : (p_va g / 4096 * 4096 <? end_of g) = true by lia.
        apply: IH => //; [by rewrite BS EB; case: (Z.ltb_spec (brk_of done) (end_of g)); lia | by rewrite MS EM |].
        case: (Z.ltb_spec brk (end_of g)); lia.
    + have L : loaded g = false by rewrite /loaded; lia. rewrite L in BS MS. rewrite app_nil_r in MS.
      apply: IH => //; [exact: SKIP | by rewrite BS | by rewrite MS].
Qed.
