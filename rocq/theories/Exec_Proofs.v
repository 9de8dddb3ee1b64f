(** The stack of a new program. *)
From Coq Require Import ssreflect.
From Verif Require Import Lib User_Model User_Spec User_Proofs Exec_Model Exec_Spec.

Lemma Forall2_imp {A B} (P Q : A -> B -> Prop) l1 l2 : Forall2 P l1 l2 -> (forall a b, P a b -> Q a b) -> Forall2 Q l1 l2.
Proof. move=> F H. elim: F => [| a b l1' l2' X _ IH]; constructor; by [apply: H |]. Qed.

Lemma store_get l : forall m a x, store m a l x = if (a <=? x) && (x <? a + zlen l) then znth 0 l (x - a) else m x.
Proof.
  elim: l => [| b l IH] m a x; cbn [store].
  - change (zlen (@nil Z)) with 0. by have -> : (a <=? x) && (x <? a + 0) = false by lia.
  - rewrite IH zlen_cons. rewrite /fupd. case: (Z.eqb_spec x a) => E.
    + subst x. have -> : (a + 1 <=? a) && (a <? a + 1 + zlen l) = false by lia.
      have := zlen_nonneg l => ?. have -> : (a <=? a) && (a <? a + (1 + zlen l)) = true by lia.
      by rewrite Z.sub_diag.
    + case: (Z.leb_spec (a + 1) x) => A; cbn [andb].
      * have -> : (a <=? x) = true by lia. cbn [andb].
        have -> : (x <? a + 1 + zlen l) = (x <? a + (1 + zlen l)) by f_equal; lia.
        case: (x <? _); last done. rewrite /znth. have -> : Z.to_nat (x - a) = S (Z.to_nat (x - (a + 1))) by lia.
        by [].
      * by have -> : (a <=? x) = false by lia.
Qed.

Lemma wbytes_len n : forall v, zlen (wbytes n v) = Z.of_nat n.
Proof. elim: n => [| n IH] v //. cbn [wbytes]. rewrite zlen_cons IH. lia. Qed.
Lemma le_wbytes n : forall v, le (wbytes n v) = v mod 256 ^ Z.of_nat n.
Proof.
  elim: n => [| n IH] v; cbn [wbytes le]; first by rewrite Z.mod_1_r.
  have P : 0 < 256 ^ Z.of_nat n by apply Z.pow_pos_nonneg; lia.
  by rewrite IH Nat2Z.inj_succ (Z.pow_succ_r 256 (Z.of_nat n) ltac:(lia)) (Z.rem_mul_r v 256 (256 ^ Z.of_nat n) ltac:(lia) P).
Qed.

Lemma map_seq_eq {A} (d : A) (f : nat -> A) (l : list A) :
  (forall k, (k < length l)%nat -> f k = nth k l d) -> map f (seq 0 (length l)) = l.
Proof.
  move=> H. apply: (nth_ext _ _ (f O) d); first by rewrite map_length seq_length.
  move=> k. rewrite map_length seq_length => K.
  rewrite (map_nth f (seq 0 (length l)) O k) seq_nth //. exact: H.
Qed.

Lemma word_store c m a v : good_cfg c -> word_at c (store m a (wbytes (Z.to_nat (word c)) v)) a = v mod modulus c.
Proof.
  move=> G. have W : 4 <= word c <= 8 by case: G => [[] ? _]; lia.
  rewrite /word_at. set l := wbytes (Z.to_nat (word c)) v.
  have L : length l = Z.to_nat (word c) by have := wbytes_len (Z.to_nat (word c)) v; rewrite -/l /zlen; lia.
  rewrite -L (map_seq_eq 0 _ l).
  - move=> k K. rewrite store_get.
    have -> : (a <=? a + Z.of_nat k) && (a + Z.of_nat k <? a + zlen l) = true by rewrite /zlen; lia.
    rewrite /znth. by have -> : Z.to_nat (a + Z.of_nat k - a) = k by lia.
  - rewrite /l le_wbytes /modulus. have -> : 8 * word c = Z.of_nat (Z.to_nat (word c)) * 8 by lia.
    by rewrite (Z.mul_comm _ 8) Z.pow_mul_r; [| lia |].
Qed.

Lemma word_same c m m' a : (forall x, a <= x < a + word c -> m' x = m x) -> word_at c m' a = word_at c m a.
Proof.
  move=> H. rewrite /word_at. f_equal. apply: map_ext_in => k /in_seq K. apply: H. lia.
Qed.

Lemma push_ok c m sp v : good_cfg c -> word c <= sp < modulus c -> 0 <= v < modulus c ->
  exists m', push c (m, sp) v = (m', sp - word c) /\ word_at c m' (sp - word c) = v /\
    forall x, ~ (sp - word c <= x < sp) -> m' x = m x.
Proof.
  move=> G S V. have W : 4 <= word c <= 8 by case: G => [[] ? _]; lia.
  rewrite /push /= (Z.mod_small (sp - word c)); first lia.
  eexists. split; first reflexivity. split; first by rewrite word_store // Z.mod_small.
  move=> x X. rewrite store_get wbytes_len.
  by have -> : (sp - word c <=? x) && (x <? sp - word c + Z.of_nat (Z.to_nat (word c))) = false by lia.
Qed.

Lemma pushes_ok c l : good_cfg c -> forall m sp, word c * zlen l <= sp < modulus c -> Forall (fun v => 0 <= v < modulus c) l ->
  exists m', pushes c (m, sp) l = (m', sp - word c * zlen l) /\ words_at c m' (sp - word c * zlen l) (rev l) /\
    forall x, ~ (sp - word c * zlen l <= x < sp) -> m' x = m x.
Proof.
  move=> G. have W : 4 <= word c <= 8 by case: G => [[] ? _]; lia.
  elim: l => [| v l IH] m sp S F.
  - change (zlen (@nil Z)) with 0. rewrite Z.mul_0_r Z.sub_0_r. exists m. split; first done.
    split; last done. move=> i. change (zlen (rev (@nil Z))) with 0. lia.
  - rewrite zlen_cons in S |- *. have L := zlen_nonneg l. inversion F as [| ? ? V F']; subst.
    have [m1 [E1 [W1 O1]]] := push_ok c m sp v G ltac:(nia) V.
    have [m2 [E2 [W2 O2]]] := IH m1 (sp - word c) ltac:(nia) F'.
    exists m2. rewrite /pushes. cbn [fold_left]. rewrite E1 -/(pushes c (m1, sp - word c) l) E2.
    have -> : sp - word c - word c * zlen l = sp - word c * (1 + zlen l) by lia.
    split; first done. split; last first.
    { move=> x X. rewrite O2; first nia. apply: O1. nia. }
    move=> i I. cbn [rev] in I |- *. rewrite zlen_app zlen_cons in I. change (zlen (@nil Z)) with 0 in I.
    have LR : zlen (rev l) = zlen l by rewrite /zlen rev_length.
    case: (Z.ltb_spec i (zlen l)) => J.
    + have -> : sp - word c * (1 + zlen l) + word c * i = sp - word c - word c * zlen l + word c * i by lia.
      rewrite W2; first lia. rewrite /znth app_nth1 //. rewrite /zlen in LR J; lia.
    + have -> : i = zlen l by lia.
      have -> : sp - word c * (1 + zlen l) + word c * zlen l = sp - word c by lia.
      rewrite (word_same c m1) ?W1.
      * move=> x X. apply: O2. nia.
      * rewrite /znth app_nth2; first by rewrite /zlen in LR |- *; lia.
        have -> : (Z.to_nat (zlen l) - length (rev l))%nat = O by rewrite /zlen in LR |- *; lia. by [].
Qed.

Lemma push_str_ok c m sp s : good_cfg c -> up16 (zlen s + 1) <= sp < modulus c ->
  exists m', push_str c (m, sp) s = (m', sp - up16 (zlen s + 1)) /\ str_at m' (sp - up16 (zlen s + 1)) s /\
    forall x, ~ (sp - up16 (zlen s + 1) <= x < sp) -> m' x = m x.
Proof.
  move=> G S. have L := zlen_nonneg s. rewrite /push_str zlen_app. change (zlen [0]) with 1.
  set len := zlen s + 1 in S |- *. set al := len / 16 * 16. cbn [fst snd].
  have AL : al <= len < al + 16 by rewrite /al; lia.
  have A0 : 0 <= al by rewrite /al; lia.
  have U : al + (if 0 <? len - al then 16 else 0) = up16 len.
  { rewrite /up16 /al. case: (Z.ltb_spec 0 (len - len / 16 * 16)); lia. }
  have U0 : 0 <= up16 len by rewrite /up16; lia.
  rewrite U (Z.mod_small (sp - up16 len)); first lia.
  set z := s ++ [0]. have LZ : zlen z = len by rewrite zlen_app.
  have LF : zlen (firstn (Z.to_nat al) z) = al by rewrite /zlen firstn_length; rewrite /zlen in LZ; lia.
  have NF : forall k, 0 <= k < al -> znth 0 (firstn (Z.to_nat al) z) k = znth 0 z k.
  { move=> k K. rewrite /znth -{2}(firstn_skipn (Z.to_nat al) z) app_nth1 //. rewrite /zlen in LF; lia. }
  have ZS : forall k, 0 <= k < zlen s -> znth 0 z k = znth 0 s k.
  { move=> k K. rewrite /znth /z app_nth1 //. rewrite /zlen in K; lia. }
  have Z0 : znth 0 z (zlen s) = 0.
  { rewrite /znth /z app_nth2; first by rewrite /zlen; lia. by rewrite /zlen Nat2Z.id Nat.sub_diag. }
  eexists. split; first reflexivity.
  set m1 := store m (sp - up16 len) (firstn (Z.to_nat al) z).
  set m2 := if 0 <? len - al then _ else m1.
  have GET : forall k, 0 <= k < len -> m2 (sp - up16 len + k) = znth 0 z k.
  { move=> k K. rewrite /m2. case: (Z.ltb_spec 0 (len - al)) => R.
    - rewrite store_get. set t := skipn _ _ ++ _.
      have LT : zlen t = 16.
      { rewrite /t zlen_app /zlen repeat_length skipn_length. rewrite /zlen in LZ. lia. }
      rewrite LT. case: (Z.leb_spec al k) => Q.
      + have -> : (sp - up16 len + al <=? sp - up16 len + k) && (sp - up16 len + k <? sp - up16 len + al + 16) = true by lia.
        have -> : sp - up16 len + k - (sp - up16 len + al) = k - al by lia.
        rewrite /znth /t app_nth1; first by (rewrite skipn_length; rewrite /zlen in LZ; lia).
        rewrite -{2}(firstn_skipn (Z.to_nat al) z) app_nth2; first by (rewrite /zlen in LF; lia).
        f_equal. rewrite /zlen in LF. lia.
      + have -> : (sp - up16 len + al <=? sp - up16 len + k) = false by lia. cbn [andb].
        rewrite /m1 store_get LF.
        have -> : (sp - up16 len <=? sp - up16 len + k) && (sp - up16 len + k <? sp - up16 len + al) = true by lia.
        have -> : sp - up16 len + k - (sp - up16 len) = k by lia. apply: NF; lia.
    - rewrite /m1 store_get LF.
      have -> : (sp - up16 len <=? sp - up16 len + k) && (sp - up16 len + k <? sp - up16 len + al) = true by lia.
      have -> : sp - up16 len + k - (sp - up16 len) = k by lia. apply: NF; lia. }
  split.
  - split; last by rewrite GET; [rewrite /len; lia |].
    move=> k K. rewrite GET; first by rewrite /len; lia. exact: ZS.
  - move=> x X. rewrite /m2. case: (Z.ltb_spec 0 (len - al)) => R.
    + rewrite store_get. set t := skipn _ _ ++ _.
      have LT : zlen t = 16.
      { rewrite /t zlen_app /zlen repeat_length skipn_length. rewrite /zlen in LZ. lia. }
      have U' : up16 len = al + 16 by rewrite -U; case: (Z.ltb_spec 0 (len - al)); lia.
      rewrite LT. have -> : (sp - up16 len + al <=? x) && (x <? sp - up16 len + al + 16) = false by lia.
      rewrite /m1 store_get LF. by have -> : (sp - up16 len <=? x) && (x <? sp - up16 len + al) = false by lia.
    + have U' : up16 len = al by rewrite -U; case: (Z.ltb_spec 0 (len - al)); lia.
      rewrite /m1 store_get LF. by have -> : (sp - up16 len <=? x) && (x <? sp - up16 len + al) = false by lia.
Qed.

Lemma up16_pos n : 0 <= n -> n <= up16 n <= n + 15.
Proof. rewrite /up16. lia. Qed.
Lemma size_pos l : 0 <= strs_size l.
Proof. elim: l => [| s l IH] /=; first lia. have := up16_pos (zlen s + 1) ltac:(have := zlen_nonneg s; lia). have := zlen_nonneg s. lia. Qed.

Lemma str_same m m' a s lo hi : lo <= a -> a + zlen s < hi -> (forall x, lo <= x < hi -> m' x = m x) ->
  str_at m a s -> str_at m' a s.
Proof.
  move=> A B H [S Z0]. have L := zlen_nonneg s. split; last by rewrite H; [lia |].
  move=> k K. rewrite H; first lia. exact: S.
Qed.

Lemma push_strs_ok c l : good_cfg c -> forall m sp, strs_size l <= sp < modulus c ->
  exists m' ps, push_strs c (m, sp) l = (m', sp - strs_size l, ps) /\ zlen ps = zlen l /\
    Forall2 (fun p s => str_at m' p s /\ sp - strs_size l <= p /\ p + zlen s < sp) ps l /\
    forall x, ~ (sp - strs_size l <= x < sp) -> m' x = m x.
Proof.
  move=> G. elim: l => [| s l IH] m sp S.
  - exists m, []. cbn. rewrite Z.sub_0_r. split; first done. split; first done. split; first by constructor. done.
  - cbn [strs_size fold_right] in S |- *. rewrite -/(strs_size l) in S |- *.
    have L := zlen_nonneg s. have P := size_pos l. have U := up16_pos (zlen s + 1) ltac:(lia).
    have [m1 [E1 [S1 O1]]] := push_str_ok c m sp s G ltac:(lia).
    have [m2 [ps [E2 [LP [S2 O2]]]]] := IH m1 (sp - up16 (zlen s + 1)) ltac:(lia).
    exists m2, ((sp - up16 (zlen s + 1)) :: ps). cbn [push_strs]. rewrite E1 E2 /=.
    have EQ : sp - up16 (zlen s + 1) - strs_size l = sp - (up16 (zlen s + 1) + strs_size l) by lia.
    rewrite EQ in S2 O2 |- *. split; first done. split; first by rewrite !zlen_cons LP.
    split; last by (move=> x X; rewrite O2; [lia | apply: O1; lia]).
    constructor.
    + split; last lia.
      apply: (str_same m1 m2 _ _ (sp - up16 (zlen s + 1)) sp _ _ _ S1); [lia | lia |].
      move=> x X. apply: O2. lia.
    + apply: (Forall2_imp _ _ _ _ S2) => p t [? ?]. split; first done. lia.
Qed.

Lemma forall2_ptrs (m : stk) l lo hi ps : Forall2 (fun p (s : list Z) => str_at m p s /\ lo <= p /\ p + zlen s < hi) ps l ->
  Forall (fun p => lo <= p < hi) ps.
Proof.
  elim=> [| p s ps' l' [_ H] _ IH]; constructor; last done. have := zlen_nonneg s. lia.
Qed.

Lemma rev_zeros n : rev (repeat 0 n) = repeat 0 n.
Proof.
  have H : forall n, repeat 0 n ++ [0] = 0 :: repeat 0 n by elim=> [| k IH] //=; rewrite IH.
  elim: n => [| n IH] //. cbn [repeat rev]. by rewrite IH H.
Qed.

Lemma args_ok c m sp argv env : good_cfg c -> sp mod 16 = 0 -> used c argv env <= sp < modulus c ->
  zlen argv <= 32 -> zlen env <= 96 ->
  exists m', push_args c (m, sp) argv env = (0, (m', sp - used c argv env)) /\
    (sp - used c argv env) mod 16 = 0 /\ layout c m' (sp - used c argv env) sp argv env /\
    forall x, ~ (sp - used c argv env <= x < sp) -> m' x = m x.
Proof.
  move=> G AS S A E. have W : 4 <= word c <= 8 by case: G => [[] ? _]; lia.
  have WD : word c = 4 \/ word c = 8 by case: G.
  have PM := mod_pos c G.
  have LA := zlen_nonneg argv. have LE := zlen_nonneg env. have PA := size_pos argv. have PE := size_pos env.
  have B : base c + 4096 <= modulus c by case: G => [_ [_ [? _]]].
  have B' : 4096 <= base c by case: G => [_ [? _]].
  rewrite /used in S |- *. set len := (7 + zlen argv + zlen env) * word c in S |- *.
  have UL := up16_pos len ltac:(rewrite /len; nia).
  rewrite /push_args. have -> : (32 <? zlen argv) = false by lia. have -> : (96 <? zlen env) = false by lia.
  have [m1 [ps [E1 [LP [F1 O1]]]]] := push_strs_ok c argv G m sp ltac:(lia).
  have [m2 [es [E2 [LES [F2 O2]]]]] := push_strs_ok c env G m1 (sp - strs_size argv) ltac:(lia).
  rewrite E1 E2. set sp2 := sp - strs_size argv - strs_size env in E2 F2 O2 |- *.
  have -> : (2 + 2 + 1 + zlen env + 1 + zlen argv + 1) * word c = len by rewrite /len; lia.
  have -> : (len + 15) / 16 * 16 = up16 len by [].
  set k := (up16 len - len) / word c.
  have K : word c * k = up16 len - len.
  { rewrite /k /up16 /len. case: WD => ->; lia. }
  have K0 : 0 <= k by nia.
  set L := repeat 0 (Z.to_nat k) ++ [0; 0; 4096; 6] ++ [0] ++ rev es ++ [0] ++ rev ps ++ [zlen argv].
  have EQ : push c (pushes c (push c (pushes c (push c (pushes c (pushes c (m2, sp2) (repeat 0 (Z.to_nat k))) [0; 0; 4096; 6]) 0) (rev es)) 0) (rev ps)) (zlen argv) = pushes c (m2, sp2) L.
  { rewrite /L /pushes !fold_left_app. by []. }
  rewrite EQ.
  have LL : word c * zlen L = up16 len.
  { rewrite /L !zlen_app !zlen_cons. change (zlen (@nil Z)) with 0.
    have -> : zlen (rev es) = zlen env by rewrite -LES /zlen rev_length.
    have -> : zlen (rev ps) = zlen argv by rewrite -LP /zlen rev_length.
    have -> : zlen (repeat 0 (Z.to_nat k)) = k by rewrite /zlen repeat_length; lia.
    rewrite /len in K |- *. lia. }
  have RP := forall2_ptrs _ _ _ _ _ F1. have RE := forall2_ptrs _ _ _ _ _ F2.
  have FL : Forall (fun v => 0 <= v < modulus c) L.
  { rewrite /L. apply Forall_app; split.
    { apply Forall_forall => v Hv. rewrite (repeat_spec _ _ _ Hv). lia. }
    apply Forall_app; split; first by do 4 (constructor; first lia); constructor.
    apply Forall_app; split; first by constructor; [lia | constructor].
    apply Forall_app; split.
    { apply Forall_rev. refine (Forall_impl _ _ RE) => p Hp. lia. }
    apply Forall_app; split; first by constructor; [lia | constructor].
    apply Forall_app; split.
    { apply Forall_rev. refine (Forall_impl _ _ RP) => p Hp. lia. }
    by constructor; [lia | constructor]. }
  have [m3 [E3 [W3 O3]]] := pushes_ok c L G m2 sp2 ltac:(rewrite /sp2; lia) FL.
  rewrite E3 LL in W3 O3 |- *.
  have ES : sp2 - up16 len = sp - (strs_size argv + strs_size env + up16 len) by rewrite /sp2; lia.
  rewrite ES in W3 O3 |- *. set spf := sp - _ in W3 O3 ES |- *.
  have M16 : forall l, (strs_size l) mod 16 = 0.
  { elim=> [| s l IH] //. cbn [strs_size fold_right]. rewrite -/(strs_size l) /up16. lia. }
  exists m3. split; first done. split.
  { have := M16 argv. have := M16 env. rewrite /spf /up16. lia. }
  split; last first.
  { move=> x X. rewrite O3; first by rewrite /sp2; lia. rewrite O2; first by rewrite /sp2; lia. apply: O1. rewrite /spf in X. lia. }
  exists ps, es. split; [| split; last exact: LP].
  - move=> i I.
    have RL : rev L = ([zlen argv] ++ ps ++ [0] ++ es ++ [0] ++ [6; 4096; 0; 0]) ++ repeat 0 (Z.to_nat k).
    { rewrite /L !rev_app_distr !rev_involutive rev_zeros. cbn [rev app]. rewrite -!app_assoc. cbn [app].
      by rewrite -!app_assoc. }
    move: I RL. set T := [zlen argv] ++ _. clearbody T. move=> I RL.
    rewrite W3 RL; first by rewrite zlen_app; have := zlen_nonneg (repeat 0 (Z.to_nat k)); lia.
    rewrite /znth app_nth1 //. rewrite /zlen in I. lia.
  - have UP : 0 < up16 len by rewrite /len in UL |- *; nia.
    apply Forall2_app.
    + apply: (Forall2_imp _ _ _ _ F1) => p s [X Y]. split; last by rewrite /spf; lia.
      apply: (str_same m1 m3 p s (sp - strs_size argv) sp _ _ _ X); [lia | lia |].
      move=> x Hx. rewrite O3; first by rewrite /sp2; lia. apply: O2. rewrite /sp2. lia.
    + apply: (Forall2_imp _ _ _ _ F2) => p s [X Y]. split; last by rewrite /spf /sp2 in Y |- *; lia.
      apply: (str_same m2 m3 p s sp2 (sp - strs_size argv) _ _ _ X); [lia | lia |].
      move=> x Hx. apply: O3. lia.
Qed.

Lemma args_big c s argv env : 32 < zlen argv \/ 96 < zlen env -> push_args c s argv env = (E2BIG, s).
Proof.
  rewrite /push_args. case: (Z.ltb_spec 32 (zlen argv)) => // A. case: (Z.ltb_spec 96 (zlen env)) => // B. lia.
Qed.

Lemma size_flat l : strs_size l <= zlen (flat l) + 15 * zlen l.
Proof.
  elim: l => [| s l IH]; first by [].
  cbn [strs_size fold_right]. rewrite -/(strs_size l) flat_cons zlen_app !zlen_cons.
  have := up16_pos (zlen s + 1) ltac:(have := zlen_nonneg s; lia). lia.
Qed.

Lemma used_fits c argv env : good_cfg c -> zlen argv <= 32 -> zlen env <= 96 -> fit c (Some argv) (Some env) ->
  base c - 8192 <= stack_max c - used c argv env /\ stack_max c < base c /\ stack_max c mod 16 = 0.
Proof.
  move=> G A E F. have W : word c = 4 \/ word c = 8 by case: G.
  have B' : 4096 <= base c by case: G => [_ [? _]]. have B0 : base c mod 4096 = 0 by case: G => [_ [_ [_ ?]]].
  have := size_flat argv. have := size_flat env. rewrite /fit /osize in F. rewrite /used.
  have LA := zlen_nonneg argv. have LE := zlen_nonneg env.
  have := up16_pos ((7 + zlen argv + zlen env) * word c) ltac:(case: W => ->; lia).
  rewrite /stack_max. move=> U X Y. split; last lia. case: W => Wq; rewrite Wq in U F |- *; lia.
Qed.
