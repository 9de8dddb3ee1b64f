(** Parameters, colors, handlers. *)
From Coq Require Import ssreflect.
From Verif Require Import Lib Itoa_Model Itoa_Spec Itoa_Proofs Term_Model Term_Spec Term_Proofs6
  Csi_Model Csi_Spec.

Lemma spells_map p : Forall (fun d => 0 <= d < 10) p -> spells (map (Z.add 48) p) p.
Proof.
  move=> H; rewrite /spells; elim: H => [| d l D _ IH]; cbn; constructor => //.
  rewrite /reads_as; lia.
Qed.

Lemma strtol_param w p c r : 32 <= w -> Forall (fun d => 0 <= d < 10) p -> value p < 2 ^ 31 ->
  (c = 59 \/ c = 0) ->
  exists e, strtol w true (map (Z.add 48) p ++ c :: r) 10 = Some (mk_p (value p) e (zlen p)).
Proof.
  move=> W D V C.
  have T : terminator 10 c by rewrite /terminator /reads_as => d Hd; lia.
  case: p D V => [| d p] D V.
  - eexists. have := strtol_no_digits w true 10 false c r => /(_ ltac:(lia) ltac:(lia) T) H.
    cbn in H |- *. rewrite H //; lia.
  - eexists. have := strtol_exact w true 10 false (map (Z.add 48) (d :: p)) (d :: p) c r.
    move=> /(_ ltac:(lia) ltac:(lia) ltac:(lia) T ltac:(done)) H.
    rewrite -(app_nil_l (map _ _ ++ _)). rewrite H; clear H.
    + exact: spells_map.
    + by split.
    + done.
    + cbn [in_type]. rewrite Z.mul_1_l -/(value (d :: p)).
      have : 0 <= value (d :: p).
      { rewrite /value /numeral_value. clear V.
        have G : forall l a, Forall (fun d => 0 <= d < 10) l -> 0 <= a ->
          0 <= fold_left (fun acc x => acc * 10 + x) l a.
        { elim=> [| y l IH] a F A //=. inversion F; subst. apply: IH => //; lia. }
        exact: G. }
      have : 2 ^ 31 <= 2 ^ (w - 1) by apply: Z.pow_le_mono_r; lia.
      lia.
    + rewrite Z.mul_1_l /zlen map_length Z.add_0_l. reflexivity.
Qed.

Lemma value_nonneg p : Forall (fun d => 0 <= d < 10) p -> 0 <= value p.
Proof.
  rewrite /value /numeral_value.
  have G : forall l a, Forall (fun d => 0 <= d < 10) l -> 0 <= a ->
    0 <= fold_left (fun acc x => acc * 10 + x) l a.
  { elim=> [| y l IH] a F A //=. inversion F; subst. apply: IH => //; lia. }
  move=> F; exact: G.
Qed.

Definition pok (p : list Z) : Prop := Forall (fun d => 0 <= d < 10) p /\ value p < 2 ^ 31.

Lemma join_cons p q ps : join (p :: q :: ps) = map (Z.add 48) p ++ 59 :: join (q :: ps).
Proof. reflexivity. Qed.

Lemma get_params_join w ps : forall fuel acc, 32 <= w -> ps <> [] -> Forall pok ps ->
  zlen acc + zlen ps <= 16 -> (length ps <= fuel)%nat ->
  get_params w fuel (join ps ++ [0]) acc = Some (acc ++ map value ps).
Proof.
  elim: ps => [| p ps IH] fuel acc W N F L Fu //.
  case: fuel Fu => [| fuel] Fu; first by (cbn in Fu; lia).
  inversion F as [| ? ? [P V] F']; subst.
  have U : u32 (value p) = value p.
  { apply: u32_small. have := value_nonneg p P. lia. }
  have SK : forall c l, skipn (Z.to_nat (zlen p)) (map (Z.add 48) p ++ c :: l) = c :: l.
  { move=> c l. rewrite /zlen Nat2Z.id.
    have -> : length p = length (map (Z.add 48) p) by rewrite map_length.
    rewrite skipn_app skipn_all Nat.sub_diag //. }
  cbn [get_params].
  have LA : (16 <=? zlen acc) = false.
  { apply Z.leb_gt. move: L; rewrite /zlen; cbn [length]; lia. }
  rewrite LA.
  case: ps IH F' L Fu F N => [| q ps] IH F' L Fu F N.
  - cbn [join]. have [e ->] := strtol_param w p 0 [] W P V ltac:(lia). cbn [p_end p_val].
    rewrite SK U /=. reflexivity.
  - rewrite join_cons -app_assoc.
    have -> : (59 :: join (q :: ps)) ++ [0] = 59 :: (join (q :: ps) ++ [0]) by [].
    have [e ->] := strtol_param w p 59 (join (q :: ps) ++ [0]) W P V ltac:(lia).
    cbn [p_end p_val]. rewrite SK U. cbn [Z.eqb].
    rewrite IH //.
    + move: L. rewrite /zlen app_length. cbn [length]. lia.
    + cbn [length] in Fu |- *. lia.
    + by rewrite -app_assoc.
Qed.

(** *** Colors *)

Lemma in_range n x : 0 <= x < Z.of_nat n -> In x (map Z.of_nat (List.seq 0 n)).
Proof.
  move=> H. apply/in_map_iff. exists (Z.to_nat x). split; first lia. apply/in_seq. lia.
Qed.

Lemma make_color_eq f h : 0 <= f < 16 -> 0 <= h < 16 ->
  make_color f h = f + 16 * h /\ col_fg (f + 16 * h) = f /\ col_bg (f + 16 * h) = h.
Proof.
  move=> F H.
  have A : forallb (fun f => forallb (fun h =>
    (make_color f h =? f + 16 * h) && (col_fg (f + 16 * h) =? f) && (col_bg (f + 16 * h) =? h))
    (map Z.of_nat (List.seq 0 16))) (map Z.of_nat (List.seq 0 16)) = true by vm_compute.
  rewrite -> forallb_forall in A. have := A f (in_range 16 f F) => {}A.
  rewrite -> forallb_forall in A. have := A h (in_range 16 h H) => {}A.
  apply andb_prop in A as [A C]. apply andb_prop in A as [A B].
  by split; [| split]; apply Z.eqb_eq.
Qed.

(** [ccorr] but for the state and the bytes *)
Definition ccore (g : cfg) (x : con) (v : vcon) : Prop := ccorr g (reset_ctx x) v.

Ltac zb := repeat match goal with
  | |- context [?a <=? ?b] => destruct (Z.leb_spec a b)
  | |- context [?a <? ?b] => destruct (Z.ltb_spec a b)
  | |- context [?a =? ?b] => destruct (Z.eqb_spec a b)
  end; cbn [andb orb negb].

Lemma set_color_ok g x v b q f h : ccore g x v -> 0 <= f < 16 -> 0 <= h < 16 ->
  ccore g (fst (set_color x b q f h)) (a_attr v b q f h) /\
  snd (set_color x b q f h) = shown (a_attr v b q f h).
Proof.
  move=> C F H.
  have [E1 _] := make_color_eq f h F H.
  have E : snd (set_color x b q f h) = shown (a_attr v b q f h).
  { rewrite /set_color /shown /=.
    have -> : (f <? 8) = (f <=? 7) by zb; lia.
    set f' := if b && (f <=? 7) then f + 8 else f.
    have F' : 0 <= f' < 16 by (rewrite /f'; destruct b; cbn [andb]; zb; lia).
    have [-> _] := make_color_eq f' h F' H. have [-> _] := make_color_eq h f' H F'. by case: q. }
  split; last exact: E.
  move: C; rewrite /ccore /ccorr /reset_ctx /=. move=> [? [? [? [? [? [? [? [? [? [? [? [? [? [? FV]]]]]]]]]]]]]].
  move: E; rewrite /set_color /= => E.
  do 6 (split; first done). split; first exact: E1. split; first exact: E.
  do 6 (split; first done).
  by move: FV; rewrite /fits_vcon /keys_ok /=; tauto.
Qed.

Lemma vga_range n : 0 <= n < 8 -> 0 <= vga n < 8.
Proof.
  move=> N. have : n = 0 \/ n = 1 \/ n = 2 \/ n = 3 \/ n = 4 \/ n = 5 \/ n = 6 \/ n = 7 by lia.
  by move=> [-> | [-> | [-> | [-> | [-> | [-> | [-> | ->]]]]]]]; vm_compute; split.
Qed.

Lemma vga_fg n : 0 <= n < 8 -> fg_csi_to_vga (30 + n) = vga n /\ fg_csi_to_vga (90 + n) = 8 + vga n.
Proof.
  move=> N. have : n = 0 \/ n = 1 \/ n = 2 \/ n = 3 \/ n = 4 \/ n = 5 \/ n = 6 \/ n = 7 by lia.
  by move=> [-> | [-> | [-> | [-> | [-> | [-> | [-> | ->]]]]]]].
Qed.

Lemma m_param_ok g x v k p : ccore g x v -> k = shown v ->
  ccore g (fst (m_param x k p)) (sgr v p) /\ snd (m_param x k p) = shown (sgr v p).
Proof.
  move=> C K.
  have FV : 0 <= a_fg v < 16 /\ 0 <= a_bg v < 16.
  { move: C => [_ [_ [_ [_ [_ [_ [_ [_ [_ [_ [_ [_ [_ [_ [? [? _]]]]]]]]]]]]]]]]. by []. }
  have [FG BG] := FV.
  have UC : ucol x = a_fg v + 16 * a_bg v by move: C => [_ [_ [_ [_ [_ [_ [-> _]]]]]]].
  have BO : bold x = a_bold v by move: C => [_ [_ [_ [_ [-> _]]]]].
  have RV : rvs x = a_rev v by move: C => [_ [_ [_ [_ [_ [-> _]]]]]].
  have [_ [E1 E2]] := make_color_eq _ _ FG BG.
  rewrite /m_param /sgr UC E1 E2 BO RV.
  case: (Z.eqb_spec p 0) => P0; first by apply: set_color_ok => //; lia.
  case: (Z.eqb_spec p 39) => P39; first by subst p; apply: set_color_ok => //; lia.
  case: (Z.eqb_spec p 49) => P49; first by subst p; apply: set_color_ok => //; lia.
  case: (Z.eqb_spec p 1) => P1; first by apply: set_color_ok => //; lia.
  case: (Z.eqb_spec p 7) => P7; first by subst p; apply: set_color_ok => //; lia.
  case: (Z.eqb_spec p 22) => P22; first by subst p; apply: set_color_ok => //; lia.
  case: (Z.eqb_spec p 27) => P27; first by subst p; apply: set_color_ok => //; lia.
  have -> : (p <? 38) = (p <=? 37) by zb; lia.
  have -> : (p <? 48) = (p <=? 47) by zb; lia.
  have -> : (p <? 98) = (p <=? 97) by zb; lia.
  have -> : (p <? 108) = (p <=? 107) by zb; lia.
  case I30 : ((30 <=? p) && (p <=? 37)); cbn [orb].
  { have R : 0 <= p - 30 < 8 by move: I30; zb => //; lia.
    have [E _] := vga_fg _ R. have V := vga_range _ R.
    have Q : fg_csi_to_vga p = vga (p - 30) by rewrite -E; f_equal; lia.
    rewrite Q. apply: set_color_ok => //; lia. }
  case I90 : ((90 <=? p) && (p <=? 97)); cbn [orb].
  { have R : 0 <= p - 90 < 8 by move: I90; zb => //; lia.
    have [_ E] := vga_fg _ R. have V := vga_range _ R.
    have Q : fg_csi_to_vga p = 8 + vga (p - 90) by rewrite -E; f_equal; lia.
    have -> : ((40 <=? p) && (p <=? 47)) = false by zb => //; lia.
    rewrite Q. apply: set_color_ok => //; lia. }
  case I40 : ((40 <=? p) && (p <=? 47)); cbn [orb].
  { have R : 0 <= p - 40 < 8 by move: I40; zb => //; lia.
    have [E _] := vga_fg _ R. have V := vga_range _ R.
    have Q : fg_csi_to_vga (p - 10) = vga (p - 40) by rewrite -E; f_equal; lia.
    rewrite Q. apply: set_color_ok => //; lia. }
  case I100 : ((100 <=? p) && (p <=? 107)).
  { have R : 0 <= p - 100 < 8 by move: I100; zb => //; lia.
    have [_ E] := vga_fg _ R. have V := vga_range _ R.
    have Q : fg_csi_to_vga (p - 10) = 8 + vga (p - 100) by rewrite -E; f_equal; lia.
    rewrite Q. apply: set_color_ok => //; lia. }
  by [].
Qed.

Lemma m_loop_ok g l : forall x v k, ccore g x v -> k = shown v ->
  ccore g (fst (m_loop l x k)) (fold_left sgr l v) /\ snd (m_loop l x k) = shown (fold_left sgr l v).
Proof.
  elim: l => [| p l IH] x v k C K //=.
  have := m_param_ok g x v k p C K. case: (m_param x k p) => x1 k1 /= [C1 K1]. exact: IH.
Qed.
