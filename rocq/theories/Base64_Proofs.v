From Verif Require Import Lib Base64_Model Base64_Spec.

Lemma lor_add x y k : 0 <= k -> 0 <= y < 2 ^ k -> Z.lor (Z.shiftl x k) y = x * 2 ^ k + y.
Proof.
  intros K Y. rewrite <- Z.shiftl_mul_pow2 by lia. symmetry. rewrite <- Z.lxor_lor, Z.add_nocarry_lxor; [reflexivity| |]; apply Z.bits_inj'; intros n N; rewrite Z.land_spec, Z.bits_0;
    (destruct (Z_lt_dec n k); [rewrite Z.shiftl_spec_low by lia; reflexivity|]); (replace (Z.testbit y n) with false; [apply andb_false_r|]); symmetry; (destruct (Z.eq_dec y 0) as [->|]; [apply Z.bits_0|]);
    (apply Z.bits_above_log2; [lia|]; assert (Z.log2 y < k) by (apply Z.log2_lt_pow2; lia); lia).
Qed.
Lemma shr x k : 0 <= k -> Z.shiftr x k = x / 2 ^ k.
Proof. apply Z.shiftr_div_pow2. Qed.
Lemma table_char i : 0 <= i < 64 -> znth 0 table i = char i.
Proof.
  assert (H : forallb (fun k => znth 0 table (Z.of_nat k) =? char (Z.of_nat k)) (seq 0 64) = true) by (vm_compute; reflexivity).
  intros I. rewrite forallb_forall in H. specialize (H (Z.to_nat i)). rewrite Z2Nat.id in H by lia. apply Z.eqb_eq, H, in_seq. lia.
Qed.
Lemma dtable_char i : 0 <= i < 64 -> dtable (char i) = i /\ char i <> 61 /\ char i <> 10.
Proof.
  assert (H : forallb (fun k => (dtable (char (Z.of_nat k)) =? Z.of_nat k) && negb (char (Z.of_nat k) =? 61) && negb (char (Z.of_nat k) =? 10)) (seq 0 64) = true) by (vm_compute; reflexivity).
  intros I. rewrite forallb_forall in H. specialize (H (Z.to_nat i)). rewrite Z2Nat.id in H by lia. assert (X : In (Z.to_nat i) (seq 0 64)) by (apply in_seq; lia). specialize (H X).
  apply andb_prop in H. destruct H as [H H3]. apply andb_prop in H. destruct H as [H1 H2]. split; [lia|]. split; apply Z.eqb_neq; [destruct (char i =? 61)|destruct (char i =? 10)]; try reflexivity; discriminate.
Qed.
Lemma list3_ind (Q : list Z -> Prop) : Q [] -> (forall a, Q [a]) -> (forall a b, Q [a; b]) -> (forall a b c l, Q l -> Q (a :: b :: c :: l)) -> forall l, Q l.
Proof.
  intros H0 H1 H2 H3 l. assert (X : forall n l, (length l <= n)%nat -> Q l).
  { induction n as [|n IH]; intros m; [destruct m; [auto|cbn; lia]|]. destruct m as [|a [|b [|c m]]]; auto. cbn [length]. intros Hl. apply H3, IH. lia. }
  apply (X (length l)). lia.
Qed.

(** encoding *)
Ltac arith := change 3 with (Z.ones 2) || idtac; change 15 with (Z.ones 4) || idtac; change 63 with (Z.ones 6) || idtac; rewrite ?Z.land_ones, ?shr by lia.
Lemma e0 a r : 0 <= a < 256 -> 0 <= r < 65536 -> znth 0 table (Z.shiftr a 2) = digit (a * 65536 + r) 0.
Proof. intros A R. rewrite shr by lia. unfold digit. change (64 ^ (3 - 0)) with 262144. change (2 ^ 2) with 4. rewrite table_char by lia. f_equal. lia. Qed.
Lemma e1 a b r : 0 <= a < 256 -> 0 <= b < 256 -> 0 <= r < 256 -> znth 0 table (Z.lor (Z.shiftl (Z.land a 3) 4) (Z.shiftr b 4)) = digit (a * 65536 + b * 256 + r) 1.
Proof.
  intros A B R. rewrite shr by lia. change 3 with (Z.ones 2) at 1. rewrite Z.land_ones by lia. rewrite lor_add by (change (2 ^ 4) with 16; lia). unfold digit. change (64 ^ (3 - 1)) with 4096. change (2 ^ 2) with 4. change (2 ^ 4) with 16. rewrite table_char by lia. f_equal. lia.
Qed.
Lemma e1' a : 0 <= a < 256 -> znth 0 table (Z.shiftl (Z.land a 3) 4) = digit (a * 65536) 1.
Proof.
  intros A. change 3 with (Z.ones 2) at 1. rewrite Z.land_ones, Z.shiftl_mul_pow2 by lia. unfold digit. change (64 ^ (3 - 1)) with 4096. change (2 ^ 2) with 4. change (2 ^ 4) with 16. rewrite table_char by lia. f_equal. lia.
Qed.
Lemma e2 a b c : 0 <= a < 256 -> 0 <= b < 256 -> 0 <= c < 256 -> znth 0 table (Z.lor (Z.shiftl (Z.land b 15) 2) (Z.shiftr c 6)) = digit (a * 65536 + b * 256 + c) 2.
Proof.
  intros A B C. rewrite shr by lia. change 15 with (Z.ones 4) at 1. rewrite Z.land_ones by lia. rewrite lor_add by (change (2 ^ 2) with 4; change (2 ^ 6) with 64; lia). unfold digit. change (64 ^ (3 - 2)) with 64. change (2 ^ 2) with 4. change (2 ^ 4) with 16. change (2 ^ 6) with 64. rewrite table_char by lia. f_equal. lia.
Qed.
Lemma e2' a b : 0 <= a < 256 -> 0 <= b < 256 -> znth 0 table (Z.shiftl (Z.land b 15) 2) = digit (a * 65536 + b * 256) 2.
Proof.
  intros A B. change 15 with (Z.ones 4) at 1. rewrite Z.land_ones, Z.shiftl_mul_pow2 by lia. unfold digit. change (64 ^ (3 - 2)) with 64. change (2 ^ 2) with 4. change (2 ^ 4) with 16. rewrite table_char by lia. f_equal. lia.
Qed.
Lemma e3 a b c : 0 <= a < 256 -> 0 <= b < 256 -> 0 <= c < 256 -> znth 0 table (Z.land c 63) = digit (a * 65536 + b * 256 + c) 3.
Proof.
  intros A B C. change 63 with (Z.ones 6) at 1. rewrite Z.land_ones by lia. unfold digit. change (64 ^ (3 - 3)) with 1. change (2 ^ 6) with 64. rewrite table_char by lia. f_equal. rewrite Z.div_1_r. lia.
Qed.
Lemma lines4 n a b c d l : n mod 4 = 0 -> 0 <= n < 72 -> lines n (a :: b :: c :: d :: l) = a :: b :: c :: d :: (if 72 <=? n + 4 then 10 :: lines 0 l else lines (n + 4) l).
Proof.
  intros M N. cbn [lines]. destruct (n =? 71) eqn:E1; [lia|]. destruct (n + 1 =? 71) eqn:E2; [lia|]. destruct (n + 1 + 1 =? 71) eqn:E3; [lia|]. replace (n + 1 + 1 + 1) with (n + 3) by lia.
  destruct (n + 3 =? 71) eqn:E4, (72 <=? n + 4) eqn:E5; try lia; [reflexivity|]. replace (n + 3 + 1) with (n + 4) by lia. reflexivity.
Qed.
Lemma enc_ok l : bytes l -> forall n, n mod 4 = 0 -> 0 <= n < 72 -> enc l n = lines n (quads l).
Proof.
  induction l using list3_ind; intros B n M N.
  - reflexivity.
  - inversion B; subst. cbn [quads]. rewrite lines4 by assumption. cbn [enc lines]. pose proof (e0 a 0 ltac:(assumption) ltac:(lia)) as X. rewrite Z.add_0_r in X. rewrite X, e1' by assumption.
    destruct (72 <=? n + 4) eqn:E; [reflexivity|]. destruct (n + 4 =? 0) eqn:E0; [lia|reflexivity].
  - inversion B as [|? ? A B']; subst. inversion B'; subst. cbn [quads]. rewrite lines4 by assumption. cbn [enc lines]. rewrite (e0 a (b * 256)), (e2' a) by (assumption || lia). pose proof (e1 a b 0 A ltac:(assumption) ltac:(lia)) as X. rewrite Z.add_0_r in X. rewrite X.
    destruct (72 <=? n + 4) eqn:E; [reflexivity|]. destruct (n + 4 =? 0) eqn:E0; [lia|reflexivity].
  - inversion B as [|? ? A B']; subst. inversion B' as [|? ? Bb B'']; subst. inversion B'' as [|? ? C D]; subst. cbn [quads]. rewrite lines4 by assumption. cbn [enc]. rewrite (e0 a (b * 256 + c)), (e1 a b c), (e2 a b c), (e3 a b c) by (assumption || lia).
    rewrite Z.add_assoc. destruct (72 <=? n + 4) eqn:E; rewrite IHl; try assumption; try reflexivity; lia.
Qed.
Lemma quads_len l : zlen (quads l) = 4 * ((zlen l + 2) / 3).
Proof.
  induction l using list3_ind; [reflexivity|reflexivity|reflexivity|]. cbn [quads]. rewrite !zlen_cons, IHl. replace (1 + (1 + (1 + zlen l)) + 2) with (zlen l + 2 + 1 * 3) by lia. rewrite Z.div_add by lia. lia.
Qed.
Lemma lines_len l : forall n, 0 <= n < 72 -> zlen (lines n l) = zlen l + (n + zlen l + 71) / 72.
Proof.
  induction l as [|c l IH]; intros n N; cbn [lines].
  - destruct (n =? 0) eqn:E; rewrite ?zlen_cons; change (zlen (@nil Z)) with 0; lia.
  - rewrite !zlen_cons. pose proof (zlen_nonneg l). destruct (n =? 71) eqn:E; rewrite ?zlen_cons, IH by lia; lia.
Qed.
Lemma text_len l : zlen (text l) = 4 * ((zlen l + 2) / 3) + (4 * ((zlen l + 2) / 3) + 71) / 72.
Proof. unfold text. rewrite lines_len, quads_len by lia. f_equal. Qed.
Lemma encode_ok w src : w = 32 \/ w = 64 -> bytes src -> zlen src < 2 ^ w ->
  encode w src = if zlen src <? 2 ^ (w - 2) then Ok (text src) else Null.
Proof.
  intros W B Sz. unfold encode. rewrite enc_ok by (try exact B; lia). fold (text src). rewrite text_len. set (len := zlen src) in *. pose proof (zlen_nonneg src) as L0. change (0 <= len) in L0. clearbody len.
  assert (Pw : 2 ^ w = 4 * 2 ^ (w - 2) /\ 1073741824 <= 2 ^ (w - 2)) by (destruct W as [-> | ->]; vm_compute; split; congruence). set (m := 2 ^ (w - 2)) in *. clearbody m. set (M := 2 ^ w) in *. clearbody M. destruct Pw as [-> Pm]. clear W.
  destruct (len <? m) eqn:E.
  - rewrite (Z.mod_small (len * 4)) by lia. rewrite (Z.mod_small (len * 4 / 3 + 4)) by lia. rewrite (Z.mod_small (len * 4 / 3 + 4 + (len * 4 / 3 + 4) / 72)) by lia. rewrite Z.mod_small by lia.
    destruct (len * 4 / 3 + 4 + (len * 4 / 3 + 4) / 72 + 1 <? len) eqn:E1; [lia|].
    destruct (4 * ((len + 2) / 3) + (4 * ((len + 2) / 3) + 71) / 72 + 1 <=? len * 4 / 3 + 4 + (len * 4 / 3 + 4) / 72 + 1) eqn:E2; [reflexivity|lia].
  - set (q := (len * 4) mod (4 * m)). assert (Q : exists k, len * 4 = 4 * m * k + q /\ 1 <= k /\ 0 <= q < 4 * m).
    { exists (len * 4 / (4 * m)). split; [apply Z.div_mod; lia|]. split; [apply Z.div_le_lower_bound; lia|apply Z.mod_pos_bound; lia]. }
    clearbody q. destruct Q as (k & Q1 & Q2 & Q3). assert (Q4 : len * 4 >= 4 * m + q) by nia.
    rewrite (Z.mod_small (q / 3 + 4)) by lia. rewrite (Z.mod_small (q / 3 + 4 + (q / 3 + 4) / 72)) by lia. rewrite Z.mod_small by lia.
    destruct (q / 3 + 4 + (q / 3 + 4) / 72 + 1 <? len) eqn:E1; [reflexivity|]. exfalso. clear Q1 Q2. lia.
Qed.

(** decoding *)
Lemma dtable10 : dtable 10 = 128. Proof. reflexivity. Qed.
Lemma dtable61 : dtable 61 = 0. Proof. reflexivity. Qed.
Lemma digit_ok g k : exists i, 0 <= i < 64 /\ i = g / 64 ^ (3 - k) mod 64 /\ digit g k = char i.
Proof. exists (g / 64 ^ (3 - k) mod 64). split; [apply Z.mod_pos_bound; lia|]. auto. Qed.
Lemma dec_digit olen g k src block pad out : (length block <= 2)%nat -> dec olen (digit g k :: src) block pad out = dec olen src (block ++ [g / 64 ^ (3 - k) mod 64]) pad out.
Proof.
  intros Bl. destruct (digit_ok g k) as (i & I & Ei & E). rewrite E, <- Ei. destruct (dtable_char i I) as (D & N & _). cbn [dec]. rewrite D. destruct (i =? 128) eqn:X; [lia|]. destruct (char i =? 61) eqn:Y; [lia|].
  destruct block as [|x [|y [|z block]]]; [reflexivity..|cbn in Bl; lia].
Qed.
Definition b0 x y := Z.lor (Z.shiftl x 2) (Z.shiftr y 4) mod 256.
Definition b1 x y := Z.lor (Z.shiftl x 4) (Z.shiftr y 2) mod 256.
Definition b2 x y := Z.lor (Z.shiftl x 6) y mod 256.
Lemma b0_ok x y : 0 <= x < 64 -> 0 <= y < 64 -> b0 x y = x * 4 + y / 16.
Proof. intros X Y. unfold b0. rewrite shr by lia. rewrite lor_add by (change (2 ^ 4) with 16; change (2 ^ 2) with 4; lia). change (2 ^ 2) with 4. change (2 ^ 4) with 16. apply Z.mod_small. lia. Qed.
Lemma b1_ok x y : 0 <= x < 64 -> 0 <= y < 64 -> b1 x y = x mod 16 * 16 + y / 4.
Proof. intros X Y. unfold b1. rewrite shr by lia. rewrite lor_add by (change (2 ^ 4) with 16; change (2 ^ 2) with 4; lia). change (2 ^ 2) with 4. change (2 ^ 4) with 16. lia. Qed.
Lemma b2_ok x y : 0 <= x < 64 -> 0 <= y < 64 -> b2 x y = x mod 4 * 64 + y.
Proof. intros X Y. unfold b2. rewrite lor_add by (change (2 ^ 6) with 64; lia). change (2 ^ 6) with 64. lia. Qed.
Lemma dec_last olen g k src x y z out : zlen out + 3 <= olen -> dec olen (digit g k :: src) [x; y; z] 0 out = dec olen src [] 0 (out ++ [b0 x y; b1 y z; b2 z (g / 64 ^ (3 - k) mod 64)]).
Proof.
  intros O. destruct (digit_ok g k) as (i & I & Ei & E). rewrite E, <- Ei. destruct (dtable_char i I) as (D & N & _). cbn [dec]. rewrite D. destruct (i =? 128) eqn:X; [lia|]. destruct (char i =? 61) eqn:Y; [lia|].
  destruct (olen <? zlen out + 3) eqn:W; [lia|]. reflexivity.
Qed.
Lemma dec_newline olen src block pad out : dec olen (10 :: src) block pad out = dec olen src block pad out.
Proof. reflexivity. Qed.
Lemma dec_ok l : bytes l -> forall olen n out, n mod 4 = 0 -> 0 <= n < 72 -> zlen out + zlen (quads l) / 4 * 3 <= olen -> dec olen (lines n (quads l)) [] 0 out = Ok (out ++ l).
Proof.
  induction l using list3_ind; intros B olen n out M N O.
  - rewrite app_nil_r. cbn [quads lines]. destruct (n =? 0); reflexivity.
  - inversion B as [|? ? A _]; subst. cbn [quads] in O |- *. rewrite lines4 by assumption. change (zlen _ / 4 * 3) with 3 in O. rewrite !dec_digit by (cbn; lia). cbn [app]. cbn [dec]. rewrite dtable61. cbn [Z.eqb Z.add Pos.add Pos.eqb app].
    destruct (olen <? zlen out + 3) eqn:W; [lia|]. change (0 + 1 + 1 =? 0) with false. change (0 + 1 + 1 =? 1) with false. change (0 + 1 + 1 =? 2) with true. cbv iota. change (Z.lor (Z.shiftl ?x 2) (Z.shiftr ?y 4) mod 256) with (b0 x y). f_equal. f_equal. f_equal.
    rewrite b0_ok by (apply Z.mod_pos_bound; lia). change (64 ^ (3 - 0)) with 262144. change (64 ^ (3 - 1)) with 4096. lia.
  - inversion B as [|? ? A B']; subst. inversion B' as [|? ? Bb _]; subst. cbn [quads] in O |- *. rewrite lines4 by assumption. change (zlen _ / 4 * 3) with 3 in O. rewrite !dec_digit by (cbn; lia). cbn [app]. cbn [dec]. rewrite dtable61. cbn [Z.eqb Z.add Pos.add Pos.eqb app].
    destruct (olen <? zlen out + 3) eqn:W; [lia|]. change (0 + 1 =? 0) with false. change (0 + 1 =? 1) with true. cbv iota. change (Z.lor (Z.shiftl ?x 2) (Z.shiftr ?y 4) mod 256) with (b0 x y). change (Z.lor (Z.shiftl ?x 4) (Z.shiftr ?y 2) mod 256) with (b1 x y). f_equal. f_equal. f_equal.
    + rewrite b0_ok by (apply Z.mod_pos_bound; lia). change (64 ^ (3 - 0)) with 262144. change (64 ^ (3 - 1)) with 4096. lia.
    + f_equal. rewrite b1_ok by (apply Z.mod_pos_bound; lia). change (64 ^ (3 - 1)) with 4096. change (64 ^ (3 - 2)) with 64. lia.
  - inversion B as [|? ? A B']; subst. inversion B' as [|? ? Bb B'']; subst. inversion B'' as [|? ? C D]; subst. cbn [quads] in O |- *. rewrite !zlen_cons in O. pose proof (zlen_nonneg (quads l)).
    replace (1 + (1 + (1 + (1 + zlen (quads l))))) with (zlen (quads l) + 1 * 4) in O by lia. rewrite Z.div_add in O by lia. assert (0 <= zlen (quads l) / 4) by (apply Z.div_pos; lia).
    rewrite lines4 by assumption. rewrite !dec_digit by (cbn; lia). cbn [app]. rewrite dec_last by lia.
    rewrite b0_ok, b1_ok, b2_ok by (apply Z.mod_pos_bound; lia). change (64 ^ (3 - 0)) with 262144. change (64 ^ (3 - 1)) with 4096. change (64 ^ (3 - 2)) with 64. change (64 ^ (3 - 3)) with 1. rewrite !Z.div_1_r.
    replace (out ++ a :: b :: c :: l) with ((out ++ [a; b; c]) ++ l) by (rewrite <- app_assoc; reflexivity).
    match goal with |- dec _ _ _ _ (out ++ [?x; ?y; ?z]) = _ => assert (X1 : x = a) by lia; assert (X2 : y = b) by lia; assert (X3 : z = c) by lia; rewrite X1, X2, X3 end.
    assert (O' : zlen (out ++ [a; b; c]) + zlen (quads l) / 4 * 3 <= olen) by (rewrite zlen_app; change (zlen [a; b; c]) with 3; lia).
    destruct (72 <=? n + 4) eqn:E; [rewrite dec_newline|]; apply IHl; try assumption; lia.
Qed.
Lemma valid_digit g k src : valid (digit g k :: src) = 1 + valid src.
Proof. cbn [valid]. destruct (digit_ok g k) as (i & I & _ & ->). destruct (dtable_char i I) as (-> & _). destruct (i =? 128) eqn:X; lia. Qed.
Lemma valid_61 src : valid (61 :: src) = 1 + valid src.
Proof. reflexivity. Qed.
Lemma valid_lines l : forall n, valid (lines n l) = valid l.
Proof. induction l as [|c l IH]; intros n; cbn [lines]; [destruct (n =? 0); reflexivity|]. cbn [valid]. f_equal. destruct (n =? 71); [cbn [valid]; rewrite dtable10; cbn [Z.eqb Pos.eqb]|]; rewrite IH; lia. Qed.
Lemma valid_quads l : valid (quads l) = zlen (quads l).
Proof.
  induction l using list3_ind; cbn [quads]; [reflexivity|..]; rewrite ?valid_digit, ?valid_61; [reflexivity|reflexivity|]. rewrite IHl, !zlen_cons. lia.
Qed.
Lemma roundtrip l : bytes l -> l <> [] -> decode (text l) = Ok l.
Proof.
  intros B Ne. unfold decode, text. rewrite valid_lines, valid_quads, quads_len. assert (1 <= (zlen l + 2) / 3) by (apply Z.div_le_lower_bound; [lia|]; destruct l; [congruence|]; rewrite zlen_cons; pose proof (zlen_nonneg l); lia).
  destruct (4 * ((zlen l + 2) / 3) =? 0) eqn:E; [lia|]. rewrite Z.mul_comm, Z.mod_mul by lia. cbn [orb negb Z.eqb]. rewrite dec_ok; [reflexivity|exact B|reflexivity|lia|]. rewrite quads_len. change (zlen (@nil Z)) with 0. rewrite (Z.mul_comm 4), !Z.div_mul by lia. lia.
Qed.
Lemma empty_fails : exists l, bytes l /\ encode 64 l = Ok (text l) /\ decode (text l) = Null.
Proof. exists []. split; [constructor|]. vm_compute. auto. Qed.
Lemma valid_nonneg src : 0 <= valid src.
Proof. induction src as [|c src IH]; cbn [valid]; [lia|]. destruct (dtable c =? 128); lia. Qed.
Lemma dec_safe olen src : forall block pad out, (length block <= 3)%nat -> zlen out + (zlen block + valid src) / 4 * 3 <= olen ->
  match dec olen src block pad out with Ok o => zlen o <= olen | Null => True | Oob => False end.
Proof.
  induction src as [|c src IH]; intros block pad out Bl O; cbn [dec].
  - pose proof (zlen_nonneg block). cbn [valid] in O. assert (0 <= (zlen block + 0) / 4) by (apply Z.div_pos; lia). lia.
  - cbn [valid] in O. destruct (dtable c =? 128); [apply IH; assumption|]. pose proof (valid_nonneg src) as V. destruct block as [|x [|y [|z [|u block]]]]; cbn [length] in Bl; try lia.
    + apply IH; [cbn; lia|]. change (zlen ([] ++ [dtable c])) with 1. change (zlen (@nil Z)) with 0 in O. exact O.
    + apply IH; [cbn; lia|]. change (zlen ([x] ++ [dtable c])) with 2. change (zlen [x]) with 1 in O. replace (2 + valid src) with (1 + (1 + valid src)) by lia. exact O.
    + apply IH; [cbn; lia|]. change (zlen ([x; y] ++ [dtable c])) with 3. change (zlen [x; y]) with 2 in O. replace (3 + valid src) with (2 + (1 + valid src)) by lia. exact O.
    + change (zlen [x; y; z]) with 3 in O. replace (3 + (1 + valid src)) with (valid src + 1 * 4) in O by lia. rewrite Z.div_add in O by lia. assert (0 <= valid src / 4) by (apply Z.div_pos; lia).
      destruct (olen <? zlen out + 3) eqn:W; [lia|]. set (p := if c =? 61 then pad + 1 else pad). destruct (p =? 0).
      * apply IH; [cbn; lia|]. rewrite zlen_app. change (zlen (@nil Z)) with 0. change (zlen [_; _; _]) with 3. rewrite Z.add_0_l. lia.
      * destruct (p =? 1); [rewrite zlen_app; change (zlen [_; _]) with 2; lia|]. destruct (p =? 2); [rewrite zlen_app; change (zlen [_]) with 1; lia|exact Logic.I].
Qed.
Lemma decode_safe src : match decode src with Ok o => 4 * zlen o <= 3 * zlen src | Null => True | Oob => False end.
Proof.
  unfold decode. destruct ((valid src =? 0) || negb (valid src mod 4 =? 0)) eqn:E; [exact Logic.I|]. pose proof (dec_safe (valid src / 4 * 3) src [] 0 [] ltac:(cbn; lia)) as S.
  change (zlen (@nil Z)) with 0 in S. rewrite !Z.add_0_l in S. specialize (S ltac:(lia)). assert (V : forall l, valid l <= zlen l) by (induction l as [|c l IH]; cbn [valid]; [change (zlen (@nil Z)) with 0; lia|rewrite zlen_cons; destruct (dtable c =? 128); lia]). specialize (V src).
  destruct (dec _ _ _ _ _); auto. lia.
Qed.
Lemma dtable_ignored c : 0 <= c < 256 -> ignored c <-> dtable c = 128.
Proof.
  intros C. assert (H : forallb (fun k => let c := Z.of_nat k in (dtable c =? 128) || (c =? 61) || existsb (fun d => c =? char (Z.of_nat d)) (seq 0 64)) (seq 0 256) = true) by (vm_compute; reflexivity).
  rewrite forallb_forall in H. specialize (H (Z.to_nat c) ltac:(apply in_seq; lia)). cbv zeta in H. rewrite Z2Nat.id in H by lia. split.
  - intros (N & I). apply orb_prop in H. destruct H as [H|H]; [apply orb_prop in H; destruct H as [H|H]; lia|]. apply existsb_exists in H. destruct H as (d & D & E). apply in_seq in D. exfalso. apply (I (Z.of_nat d)); lia.
  - intros E. split; [intros ->; discriminate|]. intros d D ->. destruct (dtable_char d D) as (X & _). lia.
Qed.
Lemma decode_skip src keep : (forall c, In c src -> 0 <= c < 256) -> (forall c, keep c = false -> ignored c) -> decode (skip src keep) = decode src.
Proof.
  intros R K. assert (V : valid (skip src keep) = valid src).
  { revert R. induction src as [|c src IH]; intros R; cbn [skip filter valid]; [reflexivity|]. unfold skip in IH. destruct (keep c) eqn:E; cbn [valid]; rewrite IH by (intros; apply R; right; assumption); [reflexivity|].
    apply K in E. apply dtable_ignored in E; [|apply R; left; reflexivity]. rewrite E. reflexivity. }
  unfold decode. rewrite V. destruct (_ || _); [reflexivity|]. clear V. generalize (valid src / 4 * 3). intros olen. generalize (@nil Z) at 2 4 as out. generalize (@nil Z) as block. generalize 0 as pad.
  induction src as [|c src IH]; intros pad block out; cbn [skip filter]; [reflexivity|]. unfold skip in IH. assert (R' : forall c, In c src -> 0 <= c < 256) by (intros; apply R; right; assumption). specialize (IH R').
  destruct (keep c) eqn:E.
  - cbn [dec]. destruct (dtable c =? 128); [apply IH|]. destruct block as [|x [|y [|z [|u block]]]]; try apply IH. destruct (olen <? zlen out + 3); [reflexivity|]. destruct ((if c =? 61 then pad + 1 else pad) =? 0); [apply IH|reflexivity].
  - apply K in E. apply dtable_ignored in E; [|apply R; left; reflexivity]. cbn [dec]. rewrite E. apply IH.
Qed.
