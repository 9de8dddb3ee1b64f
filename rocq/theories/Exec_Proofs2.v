(** From the memory of the old program to the stack of the new one. *)
From Coq Require Import ssreflect.
From Verif Require Import Lib User_Model User_Spec User_Proofs Exec_Model Exec_Spec Exec_Proofs.

Definition nz (l : list Z) : Prop := Forall (fun b => b <> 0) l.

Lemma cstr_app s t : nz s -> cstr (s ++ 0 :: t) = s.
Proof.
  elim=> [| b l B _ IH] //=. case: (Z.eqb_spec b 0) => // _. by rewrite IH.
Qed.
Lemma run_nz rd l : forall p, run rd p l -> nz l.
Proof. elim: l => [| b l IH] p /= H; first by constructor. case: H => _ [B H]. constructor; first done. exact: (IH (p + 1)). Qed.
Lemma strings_nz c rd l : forall arr, strings_at c rd arr l -> Forall nz l.
Proof.
  elim: l => [| s l IH] arr /= H; first by constructor. case: H => [[u [_ [_ [R _]]]] H].
  constructor; [exact: (run_nz rd s u) | exact: (IH (arr + word c))].
Qed.

Lemma copied_gen b strs : Forall nz strs -> forall pre,
  map (fun o => cstr (skipn (Z.to_nat (o - b)) (pre ++ flat strs))) (offsets (b + zlen pre) strs) = strs.
Proof.
  elim=> [| s l S _ IH] pre //. cbn [offsets map]. f_equal.
  - have -> : b + zlen pre - b = zlen pre by lia. rewrite /zlen Nat2Z.id skipn_app skipn_all Nat.sub_diag flat_cons.
    exact: cstr_app.
  - have E : pre ++ flat (s :: l) = (pre ++ s ++ [0]) ++ flat l by rewrite flat_cons -!app_assoc.
    have Q : b + zlen pre + zlen s + 1 = b + zlen (pre ++ s ++ [0]) by rewrite !zlen_app; change (zlen [0]) with 1; lia.
    rewrite E Q. exact: IH.
Qed.
Lemma copied_ok c strs : Forall nz strs -> copied c (offsets (word c * (zlen strs + 1)) strs) (flat strs) = strs.
Proof.
  move=> N. rewrite /copied offsets_len. have := copied_gen (word c * (zlen strs + 1)) strs N [].
  change (zlen (@nil Z)) with 0. by rewrite Z.add_0_r.
Qed.

Section Args.
Variables (c : cfg) (rd : mem) (fuel : nat).
Hypothesis G : good_cfg c.
Hypothesis PG : paged rd.
Hypothesis HB : forall a b, rd a = Some b -> 0 <= b < 256.
Hypothesis FU : (0 < fuel)%nat.

Lemma strings_unique : forall l1 l2 arr, strings_at c rd arr l1 -> strings_at c rd arr l2 -> 0 < arr -> l1 = l2.
Proof.
  have W4 : 4 <= word c <= 8 by case: G => [[] ? _]; lia.
  elim=> [| s l IH] [| s' l'] arr /= H H' A' //.
    - case: H' => [[u [U [P _]]] _]. have := read_ptr_ok c rd arr G ltac:(lia) (ptr_at_range _ _ _ _ H) => RP.
      apply RP in P. apply RP in H. congruence.
    - case: H => [[u [U [P _]]] _]. have := read_ptr_ok c rd arr G ltac:(lia) (ptr_at_range _ _ _ _ H') => RP.
      apply RP in P. apply RP in H'. congruence.
    - case: H => [[u [U [P S]]] H]. case: H' => [[u' [U' [P' S']]] H'].
      have := read_ptr_ok c rd arr G ltac:(lia) (ptr_at_range _ _ _ _ P) => RP.
      have E : u = u' by apply RP in P; apply RP in P'; congruence. subst u'.
      rewrite (is_str_unique c rd u s s' S S'). f_equal. apply: (IH l' (arr + word c)) => //. lia.
Qed.

Lemma dup_ok buf arr size w : 0 < arr -> arr + word c < modulus c -> 0 <= buf -> 0 <= w ->
  short_array c rd (buf + w) arr -> base c < arr + word c * Z.of_nat fuel ->
  exists r, dup_argv c rd fuel buf arr size w = Some r /\
    match r with
    | DOk l k => strings_at c rd arr l /\ k = w + osize c (Some l) /\ k <= size
    | DErr rc => (rc = EFAULT \/ rc = E2BIG) /\ forall l, strings_at c rd arr l -> size < w + osize c (Some l)
    end.
Proof.
  move=> A AW B W SH F. have W4 : 4 <= word c <= 8 by case: G => [[] ? _]; lia.
  rewrite /dup_argv. case: (Z.leb_spec size w) => S.
  { eexists. split; first reflexivity. split; first by right. move=> l _. cbn.
    have := zlen_nonneg l. have := zlen_nonneg (flat l). nia. }
  have [rc [argc [ps [data [k [-> [K [_ [I R]]]]]]]]] := array_ok c rd fuel (buf + w) arr (size - w) G PG HB A AW ltac:(lia) ltac:(lia) SH F FU.
  have NO : rc <> 0 -> forall l, strings_at c rd arr l -> size < w + osize c (Some l).
  { move=> N l SL. case: (Z.ltb_spec size (w + osize c (Some l))) => // X. exfalso. apply: N. apply I.
    exists l. split; first done. cbn in X. lia. }
  case: (Z.ltb_spec rc 0) => R1; first by (eexists; split; first reflexivity; split; [by left | apply: NO; lia]).
  case: (Z.ltb_spec 0 rc) => R2; first by (eexists; split; first reflexivity; split; [by right | apply: NO; lia]).
  have [l [SL [-> [-> [-> ->]]]]] := R ltac:(lia).
  eexists. split; first reflexivity. cbn. rewrite (copied_ok c l (strings_nz c rd l arr SL)).
  split; first done. split; first lia. have [l' [SL' FT]] := proj1 I ltac:(lia).
  have [l2 [SL2 [Q2 [Q3 _]]]] := R ltac:(lia).
  have E := strings_unique l l' arr SL SL' A. subst l'. lia.
Qed.

Lemma get_args_ok buf ua ue : 0 <= ua -> ua + word c < modulus c -> 0 <= ue -> ue + word c < modulus c -> 0 <= buf ->
  short_array c rd (buf + 4096) ua -> short_array c rd (buf + 4096) ue ->
  base c < word c * Z.of_nat fuel ->
  exists r, get_args c rd fuel buf ua ue = Some r /\
    match r with
    | GOk a e => given c rd ua a /\ given c rd ue e /\ fit c a e
    | GErr rc => (rc = EFAULT \/ rc = E2BIG) /\ forall a e, given c rd ua a -> given c rd ue e -> ~ fit c a e
    end.
Proof.
  move=> A AW E EW B SA SE F. have W4 : 4 <= word c <= 8 by case: G => [[] ? _]; lia.
  have SH : forall w p, 0 <= w <= 4096 -> short_array c rd (buf + 4096) p -> short_array c rd (buf + w) p.
  { move=> w p W H us P. have := H us P. lia. }
  have OS : forall l, 0 < osize c (Some l) by move=> l; cbn; have := zlen_nonneg l; have := zlen_nonneg (flat l); nia.
  have OP : forall o, 0 <= osize c o by case=> [l |] //; have := OS l; lia.
  (* the environment *)
  have FIN : forall a w, 0 <= w <= 4096 ->
    exists r, (if ue =? 0 then Some (GOk a None)
      else match dup_argv c rd fuel buf ue 4096 w with
           | None => None | Some (DErr rc) => Some (GErr rc) | Some (DOk e _) => Some (GOk a (Some e)) end) = Some r /\
      match r with
      | GOk a' e => a' = a /\ given c rd ue e /\ w + osize c e <= 4096
      | GErr rc => (rc = EFAULT \/ rc = E2BIG) /\ forall e, given c rd ue e -> 4096 < w + osize c e
      end.
  { move=> a w W. case: (Z.eqb_spec ue 0) => U.
    - eexists. split; first reflexivity. cbn. do 2 (split; first done). lia.
    - have [r [-> R]] := dup_ok buf ue 4096 w ltac:(lia) EW B ltac:(lia) (SH w ue W SE) ltac:(lia).
      case: r R => [rc [R1 R2] | l k [R1 [R2 R3]]]; eexists; (split; first reflexivity).
      + split; first done. case=> [l [_ H] | H]; [exact: R2 | done].
      + split; first done. split; first by split. by rewrite -R2. }
  rewrite /get_args. case: (Z.eqb_spec ua 0) => U.
  - have [r [-> R]] := FIN None 0 ltac:(lia). exists r. split; first done.
    case: r R => [rc [R1 R2] | a e [-> [R1 R2]]].
    + split; first done. move=> a e GA GE FT. case: a GA FT => [l [H _] | _ FT]; first done.
      have := R2 e GE. rewrite /fit /= in FT. lia.
    + split; first done. split; first done. rewrite /fit. exact: R2.
  - have [r [-> R]] := dup_ok buf ua 4096 0 ltac:(lia) AW B ltac:(lia) (SH 0 ua ltac:(lia) SA) ltac:(lia).
    case: r R => [rc [R1 R2] | l k [R1 [R2 R3]]].
    + eexists. split; first reflexivity. split; first done. move=> a e GA GE FT.
      case: a GA FT => [l [_ H] FT | H]; last done. have := R2 l H. have := OP e. rewrite /fit in FT. lia.
    + have KP := OS l. have [r [-> R]] := FIN (Some l) k ltac:(lia). exists r. split; first done.
      case: r R => [rc [Q1 Q2] | a e [-> [Q1 Q2]]].
      * split; first done. move=> a e GA GE FT. case: a GA FT => [l' [_ H] FT | H]; last done.
        have := Q2 e GE. rewrite /fit in FT.
        have EQ : l' = l by apply: (strings_unique l' l ua H R1); lia.
        subst l'. lia.
      * split; first by split. split; first done. rewrite /fit. lia.
Qed.
End Args.

Lemma exec_stack c rd fuel buf ua ue m argv env : good_cfg c -> 8192 <= base c -> paged rd ->
  (forall a b, rd a = Some b -> 0 <= b < 256) ->
  0 < ua -> ua + word c < modulus c -> 0 < ue -> ue + word c < modulus c -> 0 <= buf ->
  short_array c rd (buf + 4096) ua -> short_array c rd (buf + 4096) ue -> base c < word c * Z.of_nat fuel ->
  strings_at c rd ua argv -> strings_at c rd ue env -> fit c (Some argv) (Some env) ->
  zlen argv <= 32 -> zlen env <= 96 ->
  get_args c rd fuel buf ua ue = Some (GOk (Some argv) (Some env)) /\
  exists m' sp, push_args c (m, stack_max c) argv env = (0, (m', sp)) /\
    sp mod 16 = 0 /\ base c - 8192 <= sp /\ layout c m' sp (stack_max c) argv env /\
    forall x, ~ (sp <= x < stack_max c) -> m' x = m x.
Proof.
  move=> G B8 PG HB A AW E EW B SA SE F HA HE FT LA LE.
  have FU : (0 < fuel)%nat by (case: (fuel) F => [| n] F; lia).
  have [r [-> R]] := get_args_ok c rd fuel G PG HB FU buf ua ue ltac:(lia) AW ltac:(lia) EW B SA SE F.
  split.
  - case: r R => [rc [_ R] | a e [R1 [R2 _]]].
    + exfalso. apply: (R (Some argv) (Some env) _ _ FT); split; by [lia |].
    + case: a R1 => [a [_ R1] | /= R1]; last lia. case: e R2 => [e [_ R2] | /= R2]; last lia.
      have -> : a = argv by apply: (strings_unique c rd) R1 HA A.
      have -> : e = env by apply: (strings_unique c rd) R2 HE E. by [].
  - have [U1 [U2 U3]] := used_fits c argv env G LA LE FT.
    have BM : base c + 4096 <= modulus c by case: G => [_ [_ [? _]]].
    have SP : 0 <= used c argv env.
    { rewrite /used. have := size_pos argv. have := size_pos env. have W4 : 4 <= word c <= 8 by case: G => [[] ? _]; lia.
      have := up16_pos ((7 + zlen argv + zlen env) * word c) ltac:(have := zlen_nonneg argv; have := zlen_nonneg env; nia).
      have := zlen_nonneg argv. have := zlen_nonneg env. nia. }
    have [m' [E1 [E2 [E3 E4]]]] := args_ok c m (stack_max c) argv env G U3 ltac:(lia) LA LE.
    exists m', (stack_max c - used c argv env). do 2 (split; first done). split; first lia. by split.
Qed.
