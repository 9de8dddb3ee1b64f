(** The image of a program; what never happens. *)
From Coq Require Import ssreflect.
From Verif Require Import Lib User_Model User_Spec Elf_Model Elf_Spec Elf_Proofs Elf_Proofs2.
Ltac Zify.zify_post_hook ::= Z.to_euclidean_division_equations.

Lemma no_interp c nst f gs : Forall (fits c nst f) gs -> existsb (fun g => p_type g =? 3) gs = false.
Proof. elim=> [| g gs' [H _] _ IH] //=. rewrite IH. by have -> : (p_type g =? 3) = false by lia. Qed.

Lemma below c nst f gs pg : Forall (fits c nst f) gs -> base c mod 4096 = 0 -> base c / 4096 - nst <= pg ->
  forall g, In g gs -> touches pg g = false.
Proof.
  move=> F B P g G. move/Forall_forall: F => /(_ g G) [_ F]. rewrite /touches /loaded.
  case: (Z.eqb_spec (p_type g) 1) => T //=. have [_ [_ [V [_ [_ [_ [E _]]]]]]] := F T. lia.
Qed.

Lemma load_exact c nst f al s gs : good_cfg c -> 0 <= nst -> nst * 4096 <= base c -> (forall x, al x = true) ->
  Forall (fits c nst f) gs -> (f_mmap f = true -> ForallOrdPairs apart_ro gs) -> (forall x, pt s x = None) ->
  exists s', load_elf c nst al f s gs =
      LsOk s' (brk_of gs) (maps_of gs ++ [(base c - nst * 4096, nst * 4096, 3); (brk_of gs, 0, 3)]) /\
    fb s' = fb s /\
    (forall pg, pt s' pg = if in_stack c nst pg then Some (None, true) else frame_of (f_mmap f) gs pg) /\
    (forall a, in_stack c nst (a / 4096) = true -> mem s' a = 0) /\
    (forall a rw, in_stack c nst (a / 4096) = false -> frame_of (f_mmap f) gs (a / 4096) = Some (None, rw) ->
       mem s' a = byte_of (fb s) gs a).
Proof.
  move=> G N NB AL FT AP S0. have GB : base c mod 4096 = 0 by case: G => [_ [_ [_ ?]]].
  rewrite /load_elf (no_interp c nst f gs FT).
  have [s1 [-> [I1 [I2 I3]]]] := segs_ok c nst f al (fb s) G N AL gs [] s 0 [] FT AP
    ltac:(split; [move=> pg; exact: S0 | by split]) eq_refl eq_refl ltac:(lia).
  rewrite app_nil_l in I1 I3 |- *.
  have EB : (base c / 4096 - nst) * 4096 = base c - nst * 4096 by lia.
  have -> : forallb (fun v => match pt s1 v with None => al v | Some _ => false end)
    (map (fun k => base c / 4096 - nst + Z.of_nat k) (seq 0 (Z.to_nat nst))) = true.
  { apply/forallb_forall => v /in_map_iff [k [<- /in_seq K]]. rewrite I1.
    have -> : frame_of (f_mmap f) gs (base c / 4096 - nst + Z.of_nat k) = None.
    { apply/frame_touch. apply: (below c nst f gs) => //. lia. }
    exact: AL. }
  have IS : forall x, (base c / 4096 - nst <=? x) && (x <? base c / 4096 - nst + nst) = in_stack c nst x by move=> x; rewrite /in_stack; lia.
  eexists. split; first by rewrite EB; reflexivity. cbn [fb pt mem]. split; first done. split; first by move=> pg; rewrite IS I1.
  split; first by move=> a; rewrite IS => ->.
  move=> a rw. rewrite IS => ->. exact: I3.
Qed.

(** Only one segment at a page *)
Lemma fold_keep {A} (F : A -> seg -> A) gs (x : A) : (forall g y, In g gs -> F y g = y) -> fold_left F gs x = x.
Proof.
  elim: gs x => [| g gs IH] x H //=. rewrite H; first by left. apply: IH => g' y G. apply: H. by right.
Qed.
Lemma frame_one mm l1 g l2 pg : (forall g', In g' (l1 ++ l2) -> touches pg g' = false) -> touches pg g = true ->
  frame_of mm (l1 ++ g :: l2) pg =
    Some (if mm && negb (w_ok g) then (Some (p_off g / 4096 + (pg - p_va g / 4096)), false) else (None, w_ok g)).
Proof.
  move=> H T. rewrite /frame_of fold_left_app. rewrite (fold_keep _ l1).
  { move=> g' y G. by rewrite H // in_app_iff; left. }
  cbn [fold_left]. rewrite T. rewrite (fold_keep _ l2).
  { move=> g' y G. by rewrite H // in_app_iff; right. }
  by case: (mm && negb (w_ok g)).
Qed.
Lemma byte_one b l1 g l2 a : Forall small (l1 ++ l2) -> (forall g', In g' (l1 ++ l2) -> touches (a / 4096) g' = false) ->
  byte_of b (l1 ++ g :: l2) a = if in_file a g then b (p_off g + (a - p_va g)) else 0.
Proof.
  move=> S H. have NF : forall g', In g' (l1 ++ l2) -> in_file a g' = false.
  { move=> g' G. case E: (in_file a g') => //. have := H g' G. rewrite (file_touch a g') //. by move/Forall_forall: S; apply. }
  rewrite /byte_of fold_left_app. rewrite (fold_keep _ l1).
  { move=> g' y G. by rewrite NF // in_app_iff; left. }
  cbn [fold_left]. rewrite (fold_keep _ l2) //.
  move=> g' y G. by rewrite NF // in_app_iff; right.
Qed.
Lemma fop_both {A} (R : A -> A -> Prop) l1 x l2 : ForallOrdPairs R (l1 ++ x :: l2) ->
  Forall (fun y => R y x) l1 /\ Forall (R x) l2.
Proof.
  move=> H. split; first exact: (fop_split R l1 x l2). elim: l1 H => [| y l1 IH] H; inversion H; subst => //. exact: IH.
Qed.
Lemma fop_weak {A} (R Q : A -> A -> Prop) l : (forall a b, R a b -> Q a b) -> ForallOrdPairs R l -> ForallOrdPairs Q l.
Proof. move=> H. elim=> [| a l' F _ IH]; constructor => //. refine (Forall_impl _ _ F) => b. exact: H. Qed.

Lemma image c nst f al s gs : good_cfg c -> 0 <= nst -> nst * 4096 <= base c -> (forall x, al x = true) ->
  Forall (fits c nst f) gs -> ForallOrdPairs apart gs -> (forall x, pt s x = None) ->
  exists s' ms, load_elf c nst al f s gs = LsOk s' (brk_of gs) ms /\ fb s' = fb s /\
    (forall g a, In g gs -> loaded g = true -> p_va g <= a < p_va g + p_msz g ->
       (exists fr, pt s' (a / 4096) = Some (fr, w_ok g)) /\
       (a < p_va g + p_fsz g -> view s' a = Some (fb s (p_off g + (a - p_va g)))) /\
       (p_va g + p_fsz g <= a -> f_mmap f && negb (w_ok g) = false -> view s' a = Some 0)) /\
    (forall a, base c - nst * 4096 <= a < base c -> view s' a = Some 0 /\ pt s' (a / 4096) = Some (None, true)) /\
    (forall pg, in_stack c nst pg = false -> (forall g, In g gs -> touches pg g = false) -> pt s' pg = None).
Proof.
  move=> G N NB AL FT AP S0. have GB : base c mod 4096 = 0 by case: G => [_ [_ [_ ?]]].
  have AR : f_mmap f = true -> ForallOrdPairs apart_ro gs by move=> _; apply: fop_weak AP => a b H _.
  have [s' [E [EF [EP [ES EM]]]]] := load_exact c nst f al s gs G N NB AL FT AR S0.
  exists s'. eexists. split; first exact: E. split; first done. split; [| split].
  - move=> g a IG L A. have [l1 [l2 EG]] := in_split g gs IG.
    have [_ F] : fits c nst f g by move/Forall_forall: FT; apply.
    have T : p_type g = 1 by move: L; rewrite /loaded; lia.
    have [AG [O0 [V0 [FS [FE [SK [VE BL]]]]]]] := F T.
    have TG : touches (a / 4096) g = true by rewrite /touches L; lia.
    have [A1 A2] : Forall (fun y => apart y g) l1 /\ Forall (apart g) l2 by apply: fop_both; rewrite -EG.
    have NO : forall g', In g' (l1 ++ l2) -> touches (a / 4096) g' = false.
    { move=> g'. case TT: (touches (a / 4096) g') => //. rewrite in_app_iff => [[I | I]]; exfalso.
      - move/Forall_forall: A1 => /(_ g' I) H. exact: (H (a / 4096)).
      - move/Forall_forall: A2 => /(_ g' I) H. exact: (H (a / 4096)). }
    have SM : Forall small (l1 ++ l2).
    { apply Forall_forall => g' G' T'. have IG' : In g' gs by move: G'; rewrite EG !in_app_iff /=; tauto.
      move/Forall_forall: FT => /(_ g' IG') [_ F']. by have [_ [_ [_ [? _]]]] := F' T'. }
    have NS : in_stack c nst (a / 4096) = false by rewrite /in_stack; lia.
    have FR : pt s' (a / 4096) = Some (if f_mmap f && negb (w_ok g) then (Some (p_off g / 4096 + (a / 4096 - p_va g / 4096)), false) else (None, w_ok g)).
    { rewrite EP NS EG. exact: frame_one. }
    have INF : in_file a g = (a <? p_va g + p_fsz g) by rewrite /in_file L; lia.
    split; [| split].
    + rewrite FR. case M: (f_mmap f && negb (w_ok g)); eexists; last reflexivity.
      move: M => /andb_prop [_]. by case: (w_ok g).
    + move=> AF. rewrite /view FR. case M: (f_mmap f && negb (w_ok g)).
      * rewrite EF. do 2 f_equal. move: AG. rewrite /aligned. lia.
      * f_equal. rewrite (EM a (w_ok g) NS); first by move: FR; rewrite EP NS M.
        rewrite EG byte_one // INF. by have -> : (a <? p_va g + p_fsz g) = true by lia.
    + move=> AF M. rewrite /view FR M. f_equal. rewrite (EM a (w_ok g) NS); first by move: FR; rewrite EP NS M.
      rewrite EG byte_one // INF. by have -> : (a <? p_va g + p_fsz g) = false by lia.
  - move=> a A. have IS : in_stack c nst (a / 4096) = true by rewrite /in_stack; lia.
    have PS : pt s' (a / 4096) = Some (None, true) by rewrite EP IS. split; last done. by rewrite /view PS ES.
  - move=> pg NS NT. rewrite EP NS. exact/frame_touch.
Qed.

(** Wrong headers *)
Lemma dynamic c nst al f s gs g : In g gs -> p_type g = 3 -> load_elf c nst al f s gs = LsErr ENOEXEC s.
Proof.
  move=> I T. rewrite /load_elf. have -> : existsb (fun g => p_type g =? 3) gs = true; last done.
  apply/existsb_exists. exists g. split => //. lia.
Qed.
Lemma segs_unaligned c al f gs g : In g gs -> p_type g = 1 -> aligned g = false -> forall s brk ms s' b' m',
  load_segs c al f s gs brk ms <> LsOk s' b' m'.
Proof.
  elim: gs => [| h gs IH] // I T A s brk ms s' b' m'. cbn [load_segs]. case: I => [E | I].
  - subst h. rewrite T A. by [].
  - case: (negb (p_type h =? 1)); first exact: IH. case: (negb (aligned h)) => //.
    case: (if f_mmap f then load_mmap c al f s h else load_copy c al f s h) => // s1 e. exact: IH.
Qed.
Lemma unaligned c nst al f s gs g s' b' m' : In g gs -> p_type g = 1 ->
  p_align g <> 4096 \/ p_off g mod 4096 <> p_va g mod 4096 -> load_elf c nst al f s gs <> LsOk s' b' m'.
Proof.
  move=> I T A. rewrite /load_elf. case: (existsb _ gs) => //.
  have := segs_unaligned c al f gs g I T ltac:(rewrite /aligned; lia) s 0 []. case: (load_segs _ _ _ _ _ _ _) => // s1 b m H _. by case: (H s1 b m).
Qed.

(** The file is too short *)
Lemma copy_short c al f : forall n s v va pos rem e s' e', 0 < rem -> f_size f < pos + rem -> va / 4096 = v ->
  va + rem <= (v + Z.of_nat n) * 4096 -> copy_loop c al f n s v va pos rem e <> Ok s' e'.
Proof.
  elim=> [| n IH] s v va pos rem e s' e' R P V L; first lia. cbn [copy_loop].
  case: (base c / 4096 <=? v) => //. case: (match pt s v with None => _ | Some _ => _ end) => [s1 |] //.
  have -> : (rem =? 0) = false by lia. case: (Z.ltb_spec (f_size f) (pos + Z.min rem (4096 - va mod 4096))) => // K.
  apply: IH; lia.
Qed.
Lemma segs_short c nst al f gs g : good_cfg c -> 0 <= nst -> f_mmap f = false -> In g gs -> loaded g = true -> 0 <= p_va g ->
  0 < p_fsz g <= p_msz g -> p_va g + p_msz g <= base c -> f_size f < p_off g + p_fsz g ->
  forall s brk ms s' b' m', load_segs c al f s gs brk ms <> LsOk s' b' m'.
Proof.
  move=> G N FM. elim: gs => [| h gs IH] // I L V FS VE SH s brk ms s' b' m'. cbn [load_segs]. case: I => [E | I].
  - subst h. have T : p_type g = 1 by move: L; rewrite /loaded; lia. rewrite T FM. cbn [negb Z.eqb Pos.eqb].
    case: (negb (aligned g)) => //. have M : 0 < p_msz g by lia.
    have [P1 [P2 [P3 [P4 P5]]]] := sizes c g G V M VE. have E1 : (p_va g + p_msz g + 4095) / 4096 * 4096 = end_of g by [].
    rewrite /load_copy. have -> : (p_msz g =? 0) = false by lia. case: (negb (f_seek f (p_off g))) => //.
    case E: (copy_loop _ _ _ _ _ _ _ _ _ _) => [s1 e1 | rc s1 | v] //.
    exfalso. apply: (copy_short _ _ _ _ _ _ _ _ _ _ _ _ _ _ _ _ E); [lia | lia | done | lia].
  - case: (negb (p_type h =? 1)); first exact: IH. case: (negb (aligned h)) => //.
    case: (if f_mmap f then load_mmap c al f s h else load_copy c al f s h) => // s1 e. exact: IH.
Qed.
Lemma truncated c nst al f s gs g s' b' m' : good_cfg c -> 0 <= nst -> f_mmap f = false -> In g gs -> loaded g = true -> 0 <= p_va g ->
  0 < p_fsz g <= p_msz g -> p_va g + p_msz g <= base c -> f_size f < p_off g + p_fsz g ->
  load_elf c nst al f s gs <> LsOk s' b' m'.
Proof.
  move=> G N FM I L V FS VE SH. rewrite /load_elf. case: (existsb _ gs) => //.
  have := segs_short c nst al f gs g G N FM I L V FS VE SH s 0 []. case: (load_segs _ _ _ _ _ _ _) => // s1 b m H _. by case: (H s1 b m).
Qed.

(** Without mmap the file does not change, and kernel pages are not mapped, whatever the headers *)
Definition nofile (s : st) : Prop := forall v p rw, pt s v <> Some (Some p, rw).
Definition same (c : cfg) (s s' : st) : Prop := nofile s' /\ fb s' = fb s /\ forall v, base c / 4096 <= v -> pt s' v = pt s v.
Lemma same_trans c s1 s2 s3 : same c s1 s2 -> same c s2 s3 -> same c s1 s3.
Proof. move=> [_ [E1 P1]] [N [E2 P2]]. split => //. split; first by rewrite E2. move=> v V. by rewrite P2 // P1. Qed.
Lemma copy_same c al f : forall n s v va pos rem e, nofile s ->
  match copy_loop c al f n s v va pos rem e with Ok s' _ => same c s s' | Err _ s' => same c s s' | Kern _ => True end.
Proof.
  elim=> [| n IH] s v va pos rem e N; cbn [copy_loop]; first done.
  case: (Z.leb_spec (base c / 4096) v) => // B.
  have S1 : forall s1, (match pt s v with None => if al v then Some (new_page s v) else None | Some _ => Some s end) = Some s1 -> same c s s1.
  { move=> s1. case E: (pt s v) => [y |]; first by move=> [<-]. case: (al v) => // [[<-]]. split; [| split; first done].
    - move=> x p rw /=. by case: (x =? v).
    - move=> x X /=. by have -> : (x =? v) = false by lia. }
  case E: (match pt s v with None => _ | Some _ => _ end) => [s1 |] //. have S := S1 s1 E.
  have PUT : forall k, same c s1 (put s1 v (va mod 4096) pos k).
  { move=> k. have [N1 _] := S. rewrite put_own; first by move=> p rw; apply: N1. by split. }
  case: (rem =? 0).
  - have [N1 _] := S. have := IH s1 (v + 1) va pos rem e N1. case: (copy_loop _ _ _ _ _ _ _ _ _ _) => // [s2 ? | rc s2] H; exact: same_trans S H.
  - cbn zeta. case: (f_size f <? _); first exact: same_trans S (PUT _).
    set k := Z.min rem _. have [N2 _] := PUT k. have SP := same_trans c _ _ _ S (PUT k).
    have := IH (put s1 v (va mod 4096) pos k) (v + 1) (va + k) (pos + k) (rem - k) e N2.
    case: (copy_loop _ _ _ _ _ _ _ _ _ _) => // [s2 ? | rc s2] H; exact: same_trans SP H.
Qed.
Lemma copy_below c al f : forall n s v va pos rem e s' e', copy_loop c al f n s v va pos rem e = Ok s' e' ->
  forall x, v <= x < v + Z.of_nat n -> x < base c / 4096.
Proof.
  elim=> [| n IH] s v va pos rem e s' e'; cbn [copy_loop]; first by move=> _ x X; lia.
  case: (Z.leb_spec (base c / 4096) v) => // B. case: (match pt s v with None => _ | Some _ => _ end) => [s1 |] //.
  have ST : forall x, v <= x < v + Z.of_nat (S n) -> (v + 1 <= x < v + 1 + Z.of_nat n -> x < base c / 4096) -> x < base c / 4096 by move=> x X H; lia.
  case: (rem =? 0); first by move=> /IH H x X; apply: ST => //; exact: H.
  case: (f_size f <? _) => // /IH H x X. apply: ST => //. exact: H.
Qed.
Lemma load_copy_same c al f s g : nofile s ->
  match load_copy c al f s g with Ok s' _ => same c s s' | Err _ s' => same c s s' | Kern _ => True end.
Proof.
  move=> N. have RF : same c s s by split. rewrite /load_copy. case: (p_msz g =? 0) => //. case: (negb _) => //.
  have := copy_same c al f (Z.to_nat (pages c g)) s (p_va g / 4096) (p_va g) (p_off g) (p_fsz g) ((p_va g / 4096 * 4096 + pages c g * 4096) mod modulus c) N.
  case E: (copy_loop _ _ _ _ _ _ _ _ _ _) => [s1 e1 | rc s1 | v] // H. case: (w_ok g) => //.
  have BL := copy_below _ _ _ _ _ _ _ _ _ _ _ _ E. have [N1 _] := (H : same c s s1). apply: (same_trans c _ _ _ H). split; [| split; first done].
  - move=> x p rw /=. case: ((_ <=? x) && _); last exact: N1. case P: (pt s1 x) => [[fr r] |] // [F _]. subst fr. exact: (N1 _ _ _ P).
  - move=> x X /=. case R: ((p_va g / 4096 <=? x) && (x <? p_va g / 4096 + pages c g)) => //. have := BL x. lia.
Qed.
Lemma segs_same c al f : f_mmap f = false -> forall gs s brk ms, nofile s ->
  match load_segs c al f s gs brk ms with LsOk s' _ _ => same c s s' | LsErr _ s' => same c s s' | LsKern _ => True end.
Proof.
  move=> FM. elim=> [| g gs IH] s brk ms N; cbn [load_segs]; first by split.
  case: (negb (p_type g =? 1)); first exact: IH. case: (negb (aligned g)); first by split. rewrite FM.
  have := load_copy_same c al f s g N. case: (load_copy c al f s g) => [s1 e | rc s1 | v] // S1. have [N1 _] := (S1 : same c s s1).
  have := IH s1 (if brk <? e then e else brk) (if p_va g / 4096 * 4096 <? e then ms ++ [(p_va g / 4096 * 4096, e - p_va g / 4096 * 4096, prot (p_flags g))] else ms) N1.
  case: (load_segs _ _ _ _ _ _ _) => // [s2 ? ? | rc s2] H; exact: same_trans S1 H.
Qed.
Lemma file_safe c nst al f s gs : f_mmap f = false -> 0 <= nst -> (forall x, pt s x = None) ->
  match load_elf c nst al f s gs with
  | LsOk s' _ _ => fb s' = fb s /\ forall v, base c / 4096 <= v -> pt s' v = None
  | LsErr _ s' => fb s' = fb s /\ forall v, base c / 4096 <= v -> pt s' v = None
  | LsKern _ => True
  end.
Proof.
  move=> FM N S0. rewrite /load_elf. case: (existsb _ gs); first by split.
  have := segs_same c al f FM gs s 0 [] ltac:(move=> v p rw; by rewrite S0).
  case: (load_segs _ _ _ _ _ _ _) => [s1 b m | rc s1 | v] //.
  - move=> [_ [E P]]. case: (forallb _ _); cbn [fb pt]; split => // v V; last by rewrite P.
    have -> : (base c / 4096 - nst <=? v) && (v <? base c / 4096 - nst + nst) = false by lia. by rewrite P.
  - move=> [_ [E P]]. split => // v V. by rewrite P.
Qed.
