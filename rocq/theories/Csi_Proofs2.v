(** Handlers. *)
From Coq Require Import ssreflect.
From Verif Require Import Lib Itoa_Model Itoa_Spec Term_Model Term_Spec Term_Proofs6
  Csi_Model Csi_Spec Csi_Proofs.

Definition good (g : cfg) (o : out) (m : vcon * list item * list reply) : Prop :=
  items o = snd (fst m) /\ o_rep o = snd m /\ ccore g (o_con o) (fst (fst m)) /\
  o_col o = shown (fst (fst m)).

Lemma final_cases f : 64 <= f <= 126 ->
  In f [64;65;66;67;68;69;70;71;72;73;74;75;76;77;78;79;80;81;82;83;84;85;86;87;88;89;90;91;92;93;94;95;
   96;97;98;99;100;101;102;103;104;105;106;107;108;109;110;111;112;113;114;115;116;117;118;119;120;
   121;122;123;124;125;126].
Proof.
  move=> H. have := in_range 127 f ltac:(lia).
  have -> : map Z.of_nat (List.seq 0 127) = map Z.of_nat (List.seq 0 64) ++ map Z.of_nat (List.seq 64 63) by [].
  move=> /in_app_iff [A | A]; last exact: A.
  exfalso. move: A => /in_map_iff [n [E /in_seq B]]. lia.
Qed.

Lemma s16_small x : -32768 <= x < 32768 -> s16 x = x.
Proof. move=> H. rewrite /s16 Z.mod_small; lia. Qed.
Lemma u16_id x : 0 <= x < 65536 -> u16 x = x.
Proof. move=> H. by rewrite /u16 Z.mod_small; lia. Qed.
Lemma s32_id x : -(2 ^ 31) <= x < 2 ^ 31 -> s32 x = x.
Proof. apply s32_small. Qed.

Lemma mk_move_ok a b c d : a = c -> b = d -> 0 <= c < 65536 -> 0 <= d < 65536 ->
  mk_move a b = IMove c d.
Proof. move=> -> -> A B. by rewrite /mk_move !u16_id. Qed.
Lemma mk_rel_ok a b c d : a = c -> b = d -> -32768 <= c < 32768 -> -32768 <= d < 32768 ->
  mk_move_rel a b = IMoveRel c d.
Proof. move=> -> -> A B. by rewrite /mk_move_rel !s16_small. Qed.

Lemma act_good g x v k i j : ccore g x v -> k = shown v -> i = j ->
  good g (act x k i) (v, [j], []).
Proof. by move=> C K ->. Qed.

Lemma n_eq p : 0 <= p -> Z.max 1 p = if p =? 0 then 1 else p.
Proof. move=> H. zb; lia. Qed.

Lemma ccore_reset g x v : ccore g x v -> ccore g (reset_ctx x) v.
Proof. by []. Qed.

Lemma handler_ok g f p q ps ps0 y z x v k :
  wf g -> 0 <= y < rows g -> 0 <= z <= cols g -> 64 <= f <= 126 ->
  ps = (match ps0 with [] => [0] | _ => ps0 end) ->
  nth 0 ps 0 = p -> nth 1 ps 0 = q -> 0 <= p < 2 ^ 31 -> 0 <= q < 2 ^ 31 ->
  arg_ok g y ps f -> ccore g x v -> k = shown v ->
  good g (csi_handler g f p q ps0 y z x k) (mean_csi g y z v ps f).
Proof.
  move=> W Y X F PS HP HQ P Q A C K.
  have [W1 [W2 [W3 [W4 _]]]] := W.
  rewrite /arg_ok HP HQ in A. move: A => [A1 [A2 [A3 [A4 [A5 A6]]]]].
  have N := n_eq p ltac:(lia). have M := n_eq q ltac:(lia).
  rewrite /mean_csi HP HQ. rewrite /csi_handler.
  set n := if p =? 0 then 1 else p in N |- *.
  set m := if q =? 0 then 1 else q in M |- *.
  have BN : 1 <= n < 2 ^ 31 /\ p <= n /\ (n = p \/ n = 1) by rewrite -N; lia.
  have BM : 1 <= m < 2 ^ 31 by rewrite -M; lia.
  rewrite N M.
  have S1 : s32 n = n by apply: s32_id; lia.
  have S2 : Z.max 1 (s32 p) = n by rewrite s32_id; lia.
  rewrite S1 S2.
  have FC := final_cases f F. clear F.
  cbn [In] in *.
  clear M N S1 S2 HP HQ.
  repeat (destruct FC as [<- | FC]); last done; cbn [Z.eqb Pos.eqb orb] in *;
    try (apply: act_good => //); try by [].
  all: try (apply: mk_rel_ok; lia).
  all: try (apply: mk_move_ok; rewrite ?/clamp; lia).
  all: try (f_equal; rewrite ?/u16 ?/u24 ?/u12 ?Z.mod_small; lia).
  - apply: mk_move_ok => //; try lia. rewrite s32_id; first lia. rewrite /clamp. lia.
  - apply: mk_move_ok => //; try lia. rewrite s32_id; first by rewrite s32_id; lia.
    rewrite s32_id; first lia. rewrite /clamp. lia.
  - rewrite PS. have := m_loop_ok g (match ps0 with [] => [0] | _ => ps0 end) x v k C K.
    case: (m_loop _ x k) => x1 k1 /= [C1 K1]. by rewrite /good /=.
  - zb; try lia; by [].
  - have -> : (if p =? 0 then 0 else p - 1) = n - 1 by rewrite /n; zb; lia.
    have -> : (if q =? 0 then rows g - 1 else q - 1) = (if q =? 0 then rows g else q) - 1 by zb; lia.
    have B : 1 <= (if q =? 0 then rows g else q) by zb; lia.
    set l := if q =? 0 then rows g else q in A6 B |- *.
    case: (Z.leb_spec (l - 1) (n - 1)) => L; case: (Z.ltb_spec n l) => L'; try lia; first by [].
    apply: act_good => //. rewrite /u12 !Z.mod_small //; lia.
  - rewrite /good /=. do 2 (split; first done). split; last exact: K.
    move: C; rewrite /ccore /ccorr /fits_vcon /keys_ok /=. tauto.
  - move: C; rewrite /ccore /ccorr /fits_vcon /=. move=> C. apply: mk_move_ok; lia.
Qed.
