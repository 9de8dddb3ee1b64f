From Verif Require Import Lib Itoa_Model Itoa_Spec Itoa_Proofs Printk_Model Printk_Spec Printk_Proofs.

(** Well-formed formats print their text *)
Section W.
Variable W : Z.
Hypothesis HW : W = 32 \/ W = 64.
Definition plain (y : Z) : Prop := 46 <= y < 128 /\ ~ 48 <= y <= 57.

Lemma plain_term y : plain y -> terminator 10 y.
Proof. intros (A & B) d D [X|X]; lia. Qed.
Lemma width_first ds : width_ok ds -> exists c l, map digit_char ds = c :: l /\ 49 <= c <= 57.
Proof.
  intros ([A B] & C & D). destruct ds as [|d ds]; [contradiction|]. cbn [map]. exists (digit_char d), (map digit_char ds). split; [reflexivity|]. inversion B; subst. cbn [hd] in C. unfold digit_char. destruct (d <? 10) eqn:E; lia.
Qed.
Lemma numeral_nonneg ds : digits_of_base 10 ds -> 0 <= numeral_value 10 ds.
Proof. intros [_ F]. unfold numeral_value. apply (fold_ge 10 ds); [lia|exact F|lia]. Qed.
Lemma number_ok ds y r : digits_of_base 10 ds -> numeral_value 10 ds < 2 ^ 31 -> plain y -> number W (map digit_char ds ++ y :: r) = Some (numeral_value 10 ds, y :: r).
Proof.
  intros D L P. pose proof (numeral_nonneg ds D). unfold number. rewrite <- app_assoc. cbn [app].
  pose proof (strtol_exact W true 10 false (map digit_char ds) ds y (r ++ [0])) as S. cbn [app] in S. rewrite S; clear S; try lia.
  - cbn [p_val p_end]. rewrite Z.mul_1_l, Z.add_0_l. rewrite s32_small by lia. f_equal. f_equal. unfold zlen. rewrite Nat2Z.id, skipn_app, skipn_all, Nat.sub_diag. reflexivity.
  - destruct P. lia.
  - apply plain_term, P.
  - apply spells_map with (base := 10); [lia|apply D].
  - exact D.
  - rewrite Z.mul_1_l. unfold in_type. destruct HW as [-> | ->]; lia.
Qed.
Definition conv_lt c : c < 88 -> is_conv c = false.
Proof. intros H. unfold is_conv. repeat match goal with |- context [?a =? ?b] => replace (a =? b) with false by lia end. reflexivity. Qed.

Section N.
Variable n : Z.
Definition ctx_pad (x : ctx) (p : pad) : ctx :=
  match p with
  | NoPad => x
  | Left ds => with_lpad x (numeral_value 10 ds)
  | Zeros ds => with_lpad (with_zero x true) (numeral_value 10 ds)
  | Right ds => with_rpad x (numeral_value 10 ds)
  | Star k => if k <? 0 then with_lpad (with_rpad x (- k)) 0 else with_lpad x k
  end.
Lemma take_star k : - 2 ^ 31 < k < 2 ^ 31 -> s32 (k mod 2 ^ W) = k.
Proof.
  intros K. unfold s32, u32, wrap. destruct HW as [-> | ->]; [change (2 ^ 32) with 4294967296|change (2 ^ 64) with 18446744073709551616]; lia.
Qed.
Lemma digits_step f x prev c l : forall args out, 49 <= c <= 57 -> seq n W (S f) x prev (c :: l) args out = match number W (c :: l) with None => BadArgs | Some (k, rest) => seq n W f (with_lpad x k) (nth (length (c :: l) - length rest - 1) (c :: l) prev) rest args out end.
Proof. intros args out C. cbn [seq]. rewrite conv_lt by lia. replace (c =? 48) with false by lia. replace ((49 <=? c) && (c <=? 57)) with true by lia. reflexivity. Qed.
Lemma zero_step f x prev l args out : seq n W (S f) x prev (48 :: l) args out = seq n W f (with_zero x true) 48 l args out.
Proof. reflexivity. Qed.
Lemma minus_step f x prev l args out : starred l = None -> seq n W (S f) x prev (45 :: l) args out = match number W l with None => BadArgs | Some (k, rest) => seq n W f (with_rpad x k) (nth (length (45 :: l) - length rest - 1) (45 :: l) prev) rest args out end.
Proof. intros H. cbn [seq]. rewrite conv_lt by lia. cbn [Z.eqb Pos.eqb Z.leb Z.compare Pos.compare Pos.compare_cont andb]. rewrite H. reflexivity. Qed.
Lemma dot_step f x prev l args out : starred l = None -> seq n W (S f) x prev (46 :: l) args out = match number W l with None => BadArgs | Some (k, rest) => seq n W f (with_prec x k) (nth (length (46 :: l) - length rest - 1) (46 :: l) prev) rest args out end.
Proof. intros H. cbn [seq]. rewrite conv_lt by lia. cbn [Z.eqb Pos.eqb Z.leb Z.compare Pos.compare Pos.compare_cont andb]. rewrite H. reflexivity. Qed.
Lemma star_step f x prev l v args out : seq n W (S f) x prev (42 :: l) (AWord v :: args) out = seq n W f (if s32 v <? 0 then with_lpad (with_rpad x (s32 (- s32 v))) 0 else with_lpad x (s32 v)) 42 l args out.
Proof. reflexivity. Qed.
Lemma not_starred c l : c <> 42 -> starred (c :: l) = None.
Proof. intros H. cbn [starred]. replace (c =? 42) with false by lia. reflexivity. Qed.

Definition phase (txt : list Z) (a : list arg) (x x' : ctx) : Prop :=
  exists k, (k <= length txt)%nat /\ forall f prev y r args out, plain y -> exists prev', seq n W (k + f) x prev (txt ++ y :: r) (a ++ args) out = seq n W f x' prev' (y :: r) args out.
Lemma phase_nil x : phase [] [] x x.
Proof. exists O. split; [cbn; lia|]. intros. exists prev. reflexivity. Qed.
Lemma phase_pad p x : pad_ok p -> phase (pad_fmt p) (pad_args W p) x (ctx_pad x p).
Proof.
  destruct p as [|ds|ds|ds|k]; cbn [pad_ok pad_fmt pad_args ctx_pad]; intros H.
  - apply phase_nil.
  - destruct (width_first ds H) as (c & l & E & C). exists 1%nat. split; [rewrite E; cbn; lia|]. intros f prev y r args out P. cbn [Nat.add app]. pose proof (number_ok ds y r ltac:(apply H) ltac:(apply H) P) as Nk. rewrite E in *. cbn [app] in *. rewrite digits_step by exact C. rewrite Nk. eexists. reflexivity.
  - destruct (width_first ds H) as (c & l & E & C). exists 2%nat. split; [rewrite E; cbn; lia|]. intros f prev y r args out P. cbn [Nat.add app]. pose proof (number_ok ds y r ltac:(apply H) ltac:(apply H) P) as Nk. rewrite zero_step. rewrite E in *. cbn [app] in *. rewrite digits_step by exact C. rewrite Nk. eexists. reflexivity.
  - destruct (width_first ds H) as (c & l & E & C). exists 1%nat. split; [rewrite E; cbn; lia|]. intros f prev y r args out P. cbn [Nat.add app]. pose proof (number_ok ds y r ltac:(apply H) ltac:(apply H) P) as Nk. rewrite E in *. cbn [app] in *. rewrite minus_step by (apply not_starred; lia). rewrite Nk. eexists. reflexivity.
  - exists 1%nat. split; [cbn; lia|]. intros f prev y r args out P. cbn [Nat.add app]. rewrite star_step, take_star by exact H. exists 42. f_equal. destruct (k <? 0) eqn:E; [|reflexivity]. rewrite s32_small by lia. reflexivity.
Qed.
Lemma phase_prec ds x : digits_of_base 10 ds -> numeral_value 10 ds < 2 ^ 31 -> phase (46 :: map digit_char ds) [] x (with_prec x (numeral_value 10 ds)).
Proof.
  intros D L. exists 1%nat. split; [cbn; lia|]. intros f prev y r args out P. cbn [Nat.add app]. rewrite dot_step.
  - rewrite (number_ok ds y r D L P). eexists. reflexivity.
  - destruct D as [D F]. destruct ds as [|d ds]; [contradiction|]. cbn [map app]. apply not_starred. inversion F; subst. unfold digit_char. destruct (d <? 10) eqn:E; lia.
Qed.
Definition wid_of (m : modif) : width := match m with Mnone => Default | Ml | Mz | Mt => Long | Mll | Mj | Mq | ML => LongLong | Mh => Short | Mhh => Char end.
Lemma phase_mod m x : wid x = Default -> phase (mod_fmt m) [] x (with_wid x (wid_of m)).
Proof.
  intros H. destruct x as [w lp rp pr z h]. cbn [wid] in H. subst w.
  destruct m; [exists O|exists 1%nat|exists 2%nat|exists 1%nat|exists 2%nat|exists 1%nat|exists 1%nat|exists 1%nat|exists 1%nat|exists 1%nat]; (split; [cbn; lia|]); intros f prev y r args out P; eexists; reflexivity.
Qed.
Lemma phase_app t1 t2 a1 a2 x1 x2 x3 : phase t1 a1 x1 x2 -> phase t2 a2 x2 x3 -> (forall c l, t2 = c :: l -> plain c) -> phase (t1 ++ t2) (a1 ++ a2) x1 x3.
Proof.
  intros (k1 & K1 & P1) (k2 & K2 & P2) C. exists (k1 + k2)%nat. split; [rewrite app_length; lia|]. intros f prev y r args out P. rewrite <- Nat.add_assoc, <- !app_assoc.
  destruct t2 as [|c l].
  - assert (k2 = O) by (cbn in K2; lia). subst k2. destruct (P1 f prev y r (a2 ++ args) out P) as (p1 & E1). cbn [Nat.add app]. rewrite E1. destruct (P2 f p1 y r args out P) as (p2 & E2). cbn [Nat.add app] in E2. exists p2. exact E2.
  - destruct (P1 (k2 + f)%nat prev c (l ++ y :: r) (a2 ++ args) out (C c l eq_refl)) as (p1 & E1). cbn [app]. rewrite E1. destruct (P2 f p1 y r args out P) as (p2 & E2). cbn [app] in E2. exists p2. exact E2.
Qed.

(** the last step *)
Lemma conv_step f x prev c r args out t g args' w : zlen out < n -> is_conv c = true -> param W x c args = Some (t, g, args') -> wfield x g t = Some w ->
  seq n W (S f) x prev (c :: r) args out = if zlen (out ++ w) <? n then Go r args' (out ++ w) else Stop (cut n (out ++ w)).
Proof.
  intros H C P F. cbn [seq]. rewrite C, P, write_str_put, F by exact H. cbn [option_map]. unfold put. destruct (zlen (out ++ w) <? n) eqn:E; [rewrite cut_short by lia; reflexivity|reflexivity].
Qed.
Definition start (txt : list Z) (a : list arg) (x' : ctx) : Prop :=
  exists k, (k <= length txt)%nat /\ forall f y r args out, plain y -> exists prev', seq n W (k + f) reset 37 (txt ++ y :: r) (a ++ args) out = seq n W f x' prev' (y :: r) args out.
Lemma phase_start txt a x' : phase txt a reset x' -> start txt a x'.
Proof. intros (k & K & P). exists k. split; [exact K|]. intros. apply P. assumption. Qed.
Lemma run_phase txt a x' c t g w argsv : start txt a x' -> is_conv c = true -> plain c -> 1 <= n ->
  (forall args, param W x' c (argsv ++ args) = Some (t, g, args)) -> wfield x' g t = Some w ->
  (forall c0 l, txt = c0 :: l -> c0 <> 37 /\ c0 < 128) ->
  forall f r args out, zlen out < n -> (length txt < f)%nat ->
  loop n W f (37 :: txt ++ c :: r) (a ++ argsv ++ args) out = if zlen (out ++ w) <? n then loop n W (pred f) r args (out ++ w) else Text (cut n (out ++ w)).
Proof.
  intros (k & K & P) C Pl N Pa F T f r args out H L. destruct f as [|f]; [lia|]. cbn [loop pred]. rewrite Z.eqb_refl.
  assert (E : process_seq n W (S f) (txt ++ c :: r) (a ++ argsv ++ args) out = seq n W (S f) reset 37 (txt ++ c :: r) (a ++ argsv ++ args) out).
  { unfold process_seq. destruct txt as [|c0 l]; cbn [app].
    - replace ((c =? 37) || (128 <=? c)) with false by (destruct Pl; lia). reflexivity.
    - destruct (T c0 l eq_refl). replace ((c0 =? 37) || (128 <=? c0)) with false by lia. reflexivity. }
  rewrite E. clear E. replace (S f) with (k + S (f - k))%nat by lia. destruct (P (S (f - k)) c r (argsv ++ args) out Pl) as (p & E). rewrite E.
  rewrite (conv_step _ _ _ _ _ _ _ _ _ _ _ H C (Pa args) F). destruct (zlen (out ++ w) <? n); reflexivity.
Qed.
End N.

(** texts of the parameters *)
Lemma cstr_app t r : Forall (fun c => c <> 0) t -> cstr (t ++ 0 :: r) = t.
Proof. induction 1 as [|c t C F IH]; cbn [cstr app]; [reflexivity|]. replace (c =? 0) with false by lia. rewrite IH. reflexivity. Qed.
Lemma text_nonzero base v t : 2 <= base <= 16 -> is_text base v t -> Forall (fun c => c <> 0) t.
Proof. intros B (ds & (_ & F) & _ & _ & ->). apply Forall_app. split; [destruct (v <? 0); repeat constructor; lia|]. apply (chars_nonzero base); [lia|exact F]. Qed.
Lemma itoa_text w sg v base : 0 < w <= 64 -> 8 <= base <= 16 -> in_type w sg v -> exists t, option_map cstr (itoa w v intbuf base) = Some t /\ is_text base v t /\ zlen t <= 23.
Proof.
  intros Hw B T. assert (A : Z.abs v < base ^ 22).
  { apply Z.lt_le_trans with (8 ^ 22); [|apply Z.pow_le_mono_l; lia]. assert (2 ^ w <= 2 ^ 64) by (apply Z.pow_le_mono_r; lia). assert (2 ^ (w - 1) <= 2 ^ 63) by (apply Z.pow_le_mono_r; lia). unfold in_type in T. destruct sg; lia. }
  destruct (itoa_ok w sg v base 22 intbuf) as (t & E & Tx & L); try lia; auto.
  - change (zlen intbuf) with 64. destruct (v <? 0); lia.
  - exists t. rewrite E. cbn [option_map]. rewrite cstr_app by (apply (text_nonzero base v); [lia|exact Tx]). split; [reflexivity|]. split; [exact Tx|]. destruct (v <? 0); lia.
Qed.
Lemma to_type_mod w v : 0 < w -> in_type w true v -> to_type w true (v mod 2 ^ w) = v.
Proof. intros Hw T. rewrite <- (to_type_id w true v Hw T) at 2. unfold to_type. rewrite Z.mod_mod; [reflexivity|]. apply Z.pow_nonzero; lia. Qed.
Lemma sign_extend_ok v w : 0 < w <= W -> in_type w true v -> sign_extend W (v mod 2 ^ W) w = v.
Proof.
  intros Hw T. unfold sign_extend. rewrite Z.shiftl_mul_pow2 by lia. assert (P : 2 ^ W = 2 ^ w * 2 ^ (W - w)) by (rewrite <- Z.pow_add_r by lia; f_equal; lia).
  assert (Q : 2 ^ (W - 1) = 2 ^ (w - 1) * 2 ^ (W - w)) by (rewrite <- Z.pow_add_r by lia; f_equal; lia). pose proof (Z.pow_pos_nonneg 2 (W - w) ltac:(lia) ltac:(lia)) as Pp.
  replace (to_type W true (v mod 2 ^ W * 2 ^ (W - w))) with (to_type W true (v * 2 ^ (W - w))).
  - rewrite to_type_id; [|lia|]. { rewrite Z.shiftr_div_pow2 by lia. apply Z.div_mul. lia. }
    unfold in_type in *. rewrite Q. nia.
  - unfold to_type. rewrite Z.mul_mod_idemp_l; [reflexivity|]. apply Z.pow_nonzero; lia.
Qed.
Lemma bitmask_ok v w : w = 8 \/ w = 16 \/ w = 32 \/ w = W -> in_type w false v -> Z.land (v mod 2 ^ W) (make_bitmask W w) = v.
Proof.
  intros Hw T. replace (make_bitmask W w) with (Z.ones w).
  - rewrite Z.land_ones by lia. unfold in_type in T. rewrite (Z.mod_small v (2 ^ W)); [apply Z.mod_small; lia|]. split; [lia|]. apply Z.lt_le_trans with (2 ^ w); [lia|]. apply Z.pow_le_mono_r; lia.
  - destruct HW as [-> | ->]; destruct Hw as [->|[->|[->| ->]]]; reflexivity.
Qed.
Definition out_char (k : kind) : Z := match k with KXU => 120 | _ => kind_char k end.
Lemma wid_ctx_pad x p : wid (ctx_pad x p) = wid x.
Proof. destruct p; cbn; try reflexivity. destruct (_ <? 0); reflexivity. Qed.
Lemma param_num x k m v args : in_type (bits W m) (is_signed k) v -> wid x = wid_of m ->
  exists d, is_text (base_val k) v d /\ zlen d <= 23 /\ param W x (kind_char k) ((if long_long m then A64 (v mod 2 ^ 64) else AWord (v mod 2 ^ W)) :: args) = Some (match k with KXU => map toupper d | _ => d end, out_char k, args).
Proof.
  intros T X. assert (Bw : long_long m = false -> bits W m = width_val W (wid_of m)) by (destruct m; cbn; congruence || reflexivity).
  assert (Bl : long_long m = true -> bits W m = 64) by (destruct m; cbn; congruence || reflexivity). assert (Wl : weqb (wid x) LongLong = long_long m) by (rewrite X; destruct m; reflexivity).
  assert (Bs : bits W m = 8 \/ bits W m = 16 \/ bits W m = 32 \/ bits W m = W \/ bits W m = 64) by (destruct m; cbn; lia).
  assert (G : exists d, is_text (base_val k) v d /\ zlen d <= 23 /\
     (if (kind_char k =? 100) || (kind_char k =? 105)
      then if long_long m then option_map cstr (itoa 64 (to_type 64 true (v mod 2 ^ 64)) intbuf 10) else option_map cstr (itoa W (sign_extend W (v mod 2 ^ W) (width_val W (wid_of m))) intbuf 10)
      else if long_long m then option_map cstr (itoa 64 (v mod 2 ^ 64) intbuf (base_of (kind_char k))) else option_map cstr (itoa W (Z.land (v mod 2 ^ W) (make_bitmask W (width_val W (wid_of m)))) intbuf (base_of (kind_char k)))) = Some d).
  { destruct (is_signed k) eqn:Sg.
    - assert (Kk : (kind_char k =? 100) || (kind_char k =? 105) = true) by (destruct k; cbn in *; congruence || reflexivity). assert (Kb : base_val k = 10) by (destruct k; cbn in *; congruence || reflexivity). rewrite Kk, Kb. destruct (long_long m) eqn:Lm.
      + rewrite (Bl eq_refl) in T. rewrite to_type_mod by (lia || exact T). destruct (itoa_text 64 true v 10 ltac:(lia) ltac:(lia) T) as (d & D1 & D2 & D3). eauto.
      + rewrite <- (Bw eq_refl). assert (Bs' : 0 < bits W m <= W) by (destruct m; cbn in *; try discriminate; lia). rewrite sign_extend_ok by assumption.
        assert (T' : in_type W true v) by (unfold in_type in *; assert (2 ^ (bits W m - 1) <= 2 ^ (W - 1)) by (apply Z.pow_le_mono_r; lia); lia).
        destruct (itoa_text W true v 10 ltac:(lia) ltac:(lia) T') as (d & D1 & D2 & D3). eauto.
    - assert (Kk : (kind_char k =? 100) || (kind_char k =? 105) = false) by (destruct k; cbn in *; congruence || reflexivity). assert (Kb : base_of (kind_char k) = base_val k) by (destruct k; cbn in *; congruence || reflexivity). rewrite Kk, Kb. assert (Kr : 8 <= base_val k <= 16) by (destruct k; cbn; lia). destruct (long_long m) eqn:Lm.
      + rewrite (Bl eq_refl) in T. rewrite Z.mod_small by (unfold in_type in T; lia). destruct (itoa_text 64 false v (base_val k) ltac:(lia) Kr T) as (d & D1 & D2 & D3). eauto.
      + rewrite <- (Bw eq_refl). rewrite bitmask_ok by (try exact T; destruct m; cbn in *; try discriminate; lia).
        assert (Bs' : 0 < bits W m <= W) by (destruct m; cbn in *; try discriminate; lia).
        assert (T' : in_type W false v) by (unfold in_type in *; assert (2 ^ bits W m <= 2 ^ W) by (apply Z.pow_le_mono_r; lia); lia).
        destruct (itoa_text W false v (base_val k) ltac:(lia) Kr T') as (d & D1 & D2 & D3). eauto. }
  destruct G as (d & D1 & D2 & D3). exists d. split; [exact D1|]. split; [exact D2|]. unfold param.
  replace (kind_char k =? 99) with false by (destruct k; reflexivity). replace (kind_char k =? 115) with false by (destruct k; reflexivity). replace (kind_char k =? 112) with false by (destruct k; reflexivity).
  rewrite Wl. rewrite X. destruct ((kind_char k =? 100) || (kind_char k =? 105)) eqn:Kc; destruct (long_long m);
    match type of D3 with option_map _ ?e = _ => destruct e as [b|]; [|discriminate] end; cbn [option_map] in *; injection D3 as D3; rewrite D3; destruct k; reflexivity.
Qed.

(** the field of a number *)
Lemma s32_id v : - 2 ^ 31 <= v < 2 ^ 31 -> s32 v = v.
Proof. intros. apply s32_small. lia. Qed.
Lemma pad_val ds : width_ok ds -> 0 <= numeral_value 10 ds < 2 ^ 31.
Proof. intros (A & _ & B). pose proof (numeral_nonneg ds A). lia. Qed.
Lemma rep0 (c : Z) k : k <= 0 -> repeat c (Z.to_nat k) = [].
Proof. intros H. replace (Z.to_nat k) with O by lia. reflexivity. Qed.
Lemma wfield_pad (x : ctx) p f pre t : pad_ok p -> zlen t < 2 ^ 31 -> f <> 112 -> (f = 99 -> no_zeros p) -> wid x = wid x ->
  pre = (if hash x then pfx f else []) -> lpad x = 0 -> rpad x = 0 -> prec x = -1 -> zero x = false -> wfield (ctx_pad x p) f t = Some (field p pre t).
Proof.
  intros Hp L F112 Fz _ Hpre Lx Rx Px Zx. pose proof (zlen_nonneg t) as T0.
  assert (Hoff : zlen pre = if hash x then if f =? 120 then 2 else if f =? 111 then 1 else 0 else 0).
  { rewrite Hpre. destruct (hash x); [|reflexivity]. unfold pfx. replace (f =? 112) with false by lia. rewrite orb_false_r. destruct (f =? 120); [reflexivity|]. destruct (f =? 111); reflexivity. }
  assert (Hhash : hash (ctx_pad x p) = hash x) by (destruct p; cbn; try reflexivity; destruct (_ <? 0); reflexivity).
  assert (Hprec : prec (ctx_pad x p) = -1) by (destruct p; cbn; try exact Px; destruct (_ <? 0); exact Px).
  unfold wfield. rewrite Hhash, Hprec. rewrite <- Hoff. rewrite (s32_id (zlen t)) by lia. replace (f =? 112) with false by lia. cbn [orb]. change (0 <=? -1) with false. cbn [andb]. unfold clip. change (0 <=? -1) with false. cbv iota.
  pose proof (zlen_nonneg pre) as P0. assert (P2 : zlen pre <= 2) by (rewrite Hoff; repeat match goal with |- context [if ?b then _ else _] => destruct b end; lia).
  assert (Pe : (if hash x && negb (32 =? 48) then pfx f else []) = pre) by (rewrite Hpre; cbn; rewrite andb_true_r; reflexivity).
  destruct p as [|ds|ds|ds|k]; cbn [ctx_pad lpad rpad zero with_lpad with_rpad with_zero field pad_ok] in *; rewrite ?Lx, ?Rx, ?Zx; cbn [andb].
  - rewrite (s32_id (0 - zlen t)) by lia. replace (Z.max 0 (0 - zlen t)) with 0 by lia. change (0 =? 0) with true. cbn [negb andb]. rewrite !rep0 by lia. rewrite app_nil_r. cbn [app]. rewrite Pe. reflexivity.
  - pose proof (pad_val ds Hp) as V. rewrite (s32_id (0 - zlen t)), (s32_id (numeral_value 10 ds - zlen t)) by lia. replace (Z.max 0 (0 - zlen t)) with 0 by lia. change (0 =? 0) with true. cbn [negb]. rewrite andb_false_r. cbn [andb]. rewrite (rep0 32 (Z.max 0 (0 - zlen pre))) by lia. rewrite Pe, app_nil_r. cbn [app]. f_equal. unfold blanks. f_equal. f_equal. lia.
  - pose proof (pad_val ds Hp) as V. rewrite (s32_id (0 - zlen t)), (s32_id (numeral_value 10 ds - zlen t)) by lia. replace (Z.max 0 (0 - zlen t)) with 0 by lia. change (0 =? 0) with true. cbn [negb]. rewrite andb_false_r.
    assert (Fc : (f =? 99) = false) by (destruct (f =? 99) eqn:E; [exfalso; apply Fz; lia|reflexivity]). rewrite Fc. cbn [negb]. rewrite (rep0 48 (Z.max 0 (0 - zlen pre))) by lia. change (48 =? 48) with true. cbn [negb]. rewrite andb_false_r, app_nil_r. cbn [app]. rewrite <- Hpre. f_equal. f_equal. f_equal. unfold zeros. f_equal. lia.
  - pose proof (pad_val ds Hp) as V. rewrite (s32_id (0 - zlen t)), (s32_id (numeral_value 10 ds - zlen t)) by lia. replace (Z.max 0 (0 - zlen t)) with 0 by lia. change (0 =? 0) with true. cbn [negb andb]. rewrite (rep0 32 (Z.max 0 (0 - zlen pre))) by lia. rewrite Pe. cbn [app]. f_equal. f_equal. f_equal. unfold blanks. f_equal. lia.
  - destruct (k <? 0) eqn:Ek; cbn [ctx_pad lpad rpad zero with_lpad with_rpad with_zero]; rewrite ?Lx, ?Rx, ?Zx; cbn [andb].
    + replace (0 <=? k) with false by lia. rewrite (s32_id (0 - zlen t)), (s32_id (- k - zlen t)) by lia. replace (Z.max 0 (0 - zlen t)) with 0 by lia. change (0 =? 0) with true. cbn [negb andb]. rewrite (rep0 32 (Z.max 0 (0 - zlen pre))) by lia. rewrite Pe. cbn [app]. f_equal. f_equal. f_equal. unfold blanks. f_equal. lia.
    + replace (0 <=? k) with true by lia. rewrite (s32_id (0 - zlen t)), (s32_id (k - zlen t)) by lia. replace (Z.max 0 (0 - zlen t)) with 0 by lia. change (0 =? 0) with true. cbn [negb]. rewrite andb_false_r. cbn [andb]. rewrite (rep0 32 (Z.max 0 (0 - zlen pre))) by lia. rewrite Pe, app_nil_r. cbn [app]. f_equal. unfold blanks. f_equal. f_equal. lia.
Qed.

Section Run.
Variable n : Z.
Hypothesis n1 : 1 <= n.
Definition runs (i : item) (t : list Z) : Prop := forall f r args out, zlen out < n -> (length (item_fmt i) <= f)%nat ->
  loop n W f (item_fmt i ++ r) (item_args W i ++ args) out = if zlen (out ++ t) <? n then loop n W (pred f) r args (out ++ t) else Text (cut n (out ++ t)).
Lemma pad_first p c0 l : pad_ok p -> pad_fmt p = c0 :: l -> c0 <> 37 /\ c0 < 128 /\ (c0 <> 35).
Proof.
  destruct p as [|ds|ds|ds|k]; cbn [pad_ok pad_fmt]; intros H E; try discriminate; try (injection E as <- _; lia).
  destruct (width_first ds H) as (c & l' & E' & C). rewrite E' in E. injection E as <- _. lia.
Qed.
Lemma upper_same ds : Forall (fun d => 0 <= d < 16) ds -> map toupper (map digit_char ds) = map upper (map digit_char ds).
Proof.
  intros F. rewrite !map_map. apply map_ext_in. intros d D. rewrite Forall_forall in F. specialize (F d D). unfold toupper, upper, digit_char. destruct (d <? 10) eqn:E; repeat match goal with |- context [?a <=? ?b] => destruct (Z.leb_spec a b) end; cbn [andb]; lia.
Qed.
Lemma hash_phase (h : bool) p m : pad_ok p -> start n ((if h then [35] else []) ++ pad_fmt p ++ mod_fmt m) (pad_args W p) (with_wid (ctx_pad (with_hash reset h) p) (wid_of m)).
Proof.
  intros H. assert (Ph : phase n (pad_fmt p ++ mod_fmt m) (pad_args W p) (with_hash reset h) (with_wid (ctx_pad (with_hash reset h) p) (wid_of m))).
  { rewrite <- (app_nil_r (pad_args W p)). apply phase_app with (x2 := ctx_pad (with_hash reset h) p).
    - apply phase_pad, H.
    - apply phase_mod. apply wid_ctx_pad.
    - intros c l E. unfold plain. destruct m; try discriminate; injection E as <- _; lia. }
  destruct h; [|apply phase_start, Ph]. destruct Ph as (k & K & P). exists (S k). split; [cbn; lia|]. intros f y r args out Py. destruct (P f 35 y r args out Py) as (p' & E). exists p'. rewrite <- E. cbn [app Nat.add].
  destruct (pad_fmt p ++ mod_fmt m) as [|c l]; reflexivity.
Qed.
Lemma num_run h p m k v : item_ok W (Num h p m k v) -> exists t, item_text W (Num h p m k v) t /\ runs (Num h p m k v) t.
Proof.
  intros (T & Hp & Hz). cbn [item_text]. set (x' := with_wid (ctx_pad (with_hash reset h) p) (wid_of m)).
  destruct (param_num x' k m v [] T) as (d & D1 & D2 & D3); [destruct p; cbn; try reflexivity; destruct (_ <? 0); reflexivity|].
  set (d' := match k with KXU => map upper d | _ => d end). exists (field p (prefix h k) d'). split; [exists d; auto|].
  assert (Dt : (match k with KXU => map toupper d | _ => d end) = d').
  { unfold d'. destruct k; try reflexivity. destruct D1 as (ds & (_ & F) & _ & _ & ->). assert (V : (v <? 0) = false) by (cbn in T; lia). rewrite V. cbn [app]. apply upper_same, F. }
  assert (Dl : zlen d' <= 23) by (unfold d'; destruct k; rewrite ?zlen_map; exact D2).
  assert (Wf : wfield x' (out_char k) d' = Some (field p (prefix h k) d')).
  { assert (E : wfield x' (out_char k) d' = wfield (ctx_pad (with_hash reset h) p) (out_char k) d') by (unfold x'; destruct p; cbn [ctx_pad]; try reflexivity; destruct (_ <? 0); reflexivity). rewrite E. apply wfield_pad; auto; try lia; try (destruct k; cbn; lia).
    unfold prefix. destruct h; [|reflexivity]. destruct k; reflexivity. }
  assert (Pa : forall args, param W x' (kind_char k) ([if long_long m then A64 (v mod 2 ^ 64) else AWord (v mod 2 ^ W)] ++ args) = Some (d', out_char k, args)).
  { intros args. destruct (param_num x' k m v args T) as (e & E1 & E2 & E3); [destruct p; cbn; try reflexivity; destruct (_ <? 0); reflexivity|]. cbn [app]. rewrite E3. f_equal. f_equal. f_equal.
    assert (D3' : param W x' (kind_char k) ((if long_long m then A64 (v mod 2 ^ 64) else AWord (v mod 2 ^ W)) :: args) = Some (match k with KXU => map toupper d | _ => d end, out_char k, args)).
    { clear - D3 HW. unfold param in *. destruct k; cbn [kind_char] in *; cbn [Z.eqb Pos.eqb] in *; cbv iota zeta in *; cbn [orb] in *; destruct (weqb (wid x') LongLong), (long_long m); try discriminate;
        match type of D3 with context [option_map _ ?e] => destruct e as [b|]; [|discriminate] end; cbn [option_map] in *; injection D3 as D3; rewrite D3; reflexivity. }
    rewrite D3' in E3. injection E3 as E3. rewrite <- E3. exact Dt. }
  assert (Cc : is_conv (kind_char k) = true /\ plain (kind_char k)) by (destruct k; cbn; unfold plain; split; reflexivity || lia). destruct Cc as [Cc Cp].
  intros f r args out H L. cbn [item_fmt item_args]. rewrite <- !app_assoc. cbn [item_fmt] in L.
  pose proof (run_phase n ((if h then [35] else []) ++ pad_fmt p ++ mod_fmt m) (pad_args W p) x' (kind_char k) d' (out_char k) (field p (prefix h k) d') _ (hash_phase h p m Hp) Cc Cp n1 Pa Wf) as R.
  specialize (fun G => R G f r args out H). replace ((37 :: (if h then [35] else []) ++ pad_fmt p ++ mod_fmt m ++ [kind_char k]) ++ r) with (37 :: ((if h then [35] else []) ++ pad_fmt p ++ mod_fmt m) ++ kind_char k :: r) by (cbn [app]; rewrite <- !app_assoc; reflexivity).
  apply R; [|cbn [length] in L; rewrite !app_length in *; cbn [length] in L; lia].
  intros c0 l E. destruct h; cbn [app] in E; [injection E as <- _; lia|]. destruct (pad_fmt p) as [|c1 l1] eqn:Ep; cbn [app] in E.
  - destruct m; try discriminate; injection E as <- _; lia.
  - injection E as <- _. destruct (pad_first p c1 l1 Hp Ep). lia.
Qed.
Lemma item_run i : item_ok W i -> exists t, item_text W i t /\ runs i t.
Proof.
  destruct i as [c| |h p m k v|p c|p pr s|v].
  - intros [A B]. exists [c]. split; [reflexivity|]. intros f r args out H L. cbn [item_fmt item_args app] in *. destruct f as [|f]; [cbn in L; lia|]. cbn [loop pred]. replace (c =? 37) with false by lia. rewrite wchar_put by exact H. unfold put. cbn [fst snd]. destruct (zlen (out ++ [c]) <? n) eqn:E; [rewrite cut_short by lia; reflexivity|reflexivity].
  - intros _. exists [37]. split; [reflexivity|]. intros f r args out H L. cbn [item_fmt item_args app] in *. destruct f as [|f]; [cbn in L; lia|]. cbn [loop pred]. rewrite Z.eqb_refl. unfold process_seq. cbn [Z.eqb Pos.eqb orb]. rewrite wchar_put by exact H. unfold put. cbn [fst snd]. destruct (zlen (out ++ [37]) <? n) eqn:E; [rewrite cut_short by lia; reflexivity|reflexivity].
  - apply num_run.
  - intros (A & Hp & Hz). exists (field p [] [c]). split; [reflexivity|]. intros f r args out H L. cbn [item_fmt item_args] in *. rewrite <- !app_assoc.
    pose proof (run_phase n (pad_fmt p) (pad_args W p) (ctx_pad reset p) 99 [c] 99 (field p [] [c]) [AWord c] (phase_start n _ _ _ (phase_pad n p reset Hp)) eq_refl ltac:(unfold plain; lia) n1) as R.
    cbn [app] in *. rewrite <- app_assoc. cbn [app]. apply R.
    + intros a. cbn. rewrite Z.mod_small by lia. replace (c =? 0) with false by lia. reflexivity.
    + apply wfield_pad; auto; try lia; reflexivity.
    + intros c0 l E. destruct (pad_first p c0 l Hp E). lia.
    + exact H.
    + cbn [length] in L. rewrite app_length in L. cbn [length] in L. lia.
  - intros (Hp & Hz & Hs & Hpr). set (s' := match s with Some s => s | None => null_text end). assert (Ls : zlen s' < 2 ^ 31) by (unfold s'; destruct s; [exact Hs|reflexivity]).
    set (tx := match pr with Some ds => firstn (Z.to_nat (numeral_value 10 ds)) s' | None => s' end). exists (field p [] tx). split; [reflexivity|]. intros f r args out H L. cbn [item_fmt item_args] in *. rewrite <- !app_assoc.
    destruct pr as [ds|].
    + destruct Hpr as (-> & D & Lv). cbn [pad_fmt pad_args app] in *.
      pose proof (run_phase n (46 :: map digit_char ds) [] (with_prec reset (numeral_value 10 ds)) 115 s' 115 (field NoPad [] tx) [AStr s] (phase_start n _ _ _ (phase_prec n ds reset D Lv)) eq_refl ltac:(unfold plain; lia) n1) as R.
      cbn [app] in *. rewrite <- app_assoc. cbn [app]. apply R.
      * intros a. reflexivity.
      * cbn [field app]. unfold wfield. cbn [lpad rpad prec zero hash with_prec reset]. pose proof (numeral_nonneg ds D). pose proof (zlen_nonneg s'). rewrite (s32_id (zlen s')) by lia. rewrite (s32_id (0 - zlen s')) by lia. replace (Z.max 0 (0 - zlen s')) with 0 by lia. cbn. replace (0 <=? numeral_value 10 ds) with true by lia. cbn. rewrite app_nil_r. unfold clip. replace (0 <=? numeral_value 10 ds) with true by lia. reflexivity.
      * intros c0 l E. injection E as <- _. lia.
      * exact H.
      * cbn [length] in L. rewrite app_length in L. cbn [length] in *. lia.
    + cbn [app] in *. pose proof (run_phase n (pad_fmt p) (pad_args W p) (ctx_pad reset p) 115 s' 115 (field p [] tx) [AStr s] (phase_start n _ _ _ (phase_pad n p reset Hp)) eq_refl ltac:(unfold plain; lia) n1) as R.
      cbn [app] in *. rewrite <- app_assoc. cbn [app]. apply R.
      * intros a. reflexivity.
      * apply wfield_pad; auto; try lia; reflexivity.
      * intros c0 l E. destruct (pad_first p c0 l Hp E). lia.
      * exact H.
      * cbn [length] in L. rewrite app_length in L. cbn [length] in L. lia.
  - intros V. destruct (uitoa_fixed_ok W v intbuf HW V) as (ds & E & Lz & D & Nv); [change (zlen intbuf) with 64; destruct HW as [-> | ->]; cbn; lia|].
    exists ([48; 120] ++ map digit_char ds). split; [exists ds; auto|]. intros f r args out H L. cbn [item_fmt item_args] in *.
    pose proof (run_phase n [] [] reset 112 (map digit_char ds) 112 ([48; 120] ++ map digit_char ds) [AWord v] (phase_start n _ _ _ (phase_nil n reset)) eq_refl ltac:(unfold plain; lia) n1) as R.
    cbn [app] in *. apply R.
    + intros a. unfold param. cbn [Z.eqb Pos.eqb]. rewrite E. cbn [option_map]. rewrite cstr_app; [reflexivity|]. apply (chars_nonzero 16); [lia|apply D].
    + unfold wfield. cbn [lpad rpad prec zero hash reset]. assert (Lm : zlen (map digit_char ds) = W / 4) by (rewrite zlen_map; exact Lz). rewrite Lm. destruct HW as [-> | ->]; cbn; rewrite ?app_nil_r; reflexivity.
    + intros c0 l X. discriminate.
    + exact H.
    + cbn in *. lia.
Qed.
Lemma items_run l : Forall (item_ok W) l -> exists t, text_of W l t /\ forall f out, zlen out < n -> (length (fmt_of l) < f)%nat -> loop n W f (fmt_of l) (args_of W l) out = Text (cut n (out ++ t)).
Proof.
  induction 1 as [|i l I F IH].
  - exists []. split; [exists []; split; [constructor|reflexivity]|]. intros f out H L. destruct f as [|f]; [cbn in L; lia|]. cbn. rewrite app_nil_r, cut_short by lia. reflexivity.
  - destruct (item_run i I) as (t & T & R). destruct IH as (t' & (ts & Ts & ->) & IH). exists (t ++ concat ts). split; [exists (t :: ts); split; [constructor; assumption|reflexivity]|].
    intros f out H L. unfold fmt_of, args_of in *. cbn [map concat] in *. rewrite app_length in L. rewrite R by (exact H || lia). destruct (zlen (out ++ t) <? n) eqn:E.
    + rewrite IH; [rewrite <- app_assoc; reflexivity|lia|]. assert (1 <= length (item_fmt i))%nat by (destruct i; cbn; lia). lia.
    + rewrite app_assoc. rewrite (cut_app n (out ++ t)) by lia. reflexivity.
Qed.
End Run.
End W.

Lemma prints W n l : W = 32 \/ W = 64 -> 1 <= n -> Forall (item_ok W) l ->
  exists t, text_of W l t /\ forall fuel, (length (fmt_of l) < fuel)%nat ->
    exists out, vsnprintk n W fuel (fmt_of l) (args_of W l) = Text out /\ out = firstn (Z.to_nat n) t /\ zlen out <= n /\ nul_at n out = Z.min (zlen t) (n - 1).
Proof.
  intros HW N F. destruct (items_run W HW n N l F) as (t & T & R). exists t. split; [exact T|]. intros fuel L. exists (cut n t). split; [apply (R fuel []); [unfold zlen; cbn; lia|exact L]|]. split; [reflexivity|]. rewrite cut_len by lia. split; [lia|]. unfold nul_at. rewrite cut_len by lia. pose proof (zlen_nonneg t). destruct (_ <? n) eqn:E; lia.
Qed.

(** what the code gets wrong *)
Lemma unknown_overflows : exists n fmt out, 1 <= n /\ vsnprintk n 32 9 fmt [] = Text out /\ n < zlen out /\ nul_at n out = n.
Proof. exists 2, [37; 53; 63], [37; 53; 63]. vm_compute. split; [discriminate|]. split; [reflexivity|]. split; reflexivity. Qed.
Lemma size_zero fmt c args : c <> 37 -> vsnprintk 0 32 9 (c :: fmt) args = Text [c].
Proof. intros H. unfold vsnprintk. cbn [loop]. replace (c =? 37) with false by lia. reflexivity. Qed.
Lemma past_end : vsnprintk 8 32 9 [37; 35; 35] [] = Fails PastEnd.
Proof. reflexivity. Qed.
Lemma huge_width args fuel : vsnprintk 8 32 fuel (37 :: huge) args = Fails NoFuel.
Proof.
  assert (G : forall f x prev out, wid x = Default -> seq 8 32 f x prev huge args out = NoFuel).
  { induction f as [|f IH]; intros x prev out Wd; [reflexivity|]. cbn [seq huge]. cbn [is_conv]. change (is_conv 51) with false. change (51 =? 48) with false. change ((49 <=? 51) && (51 <=? 57)) with true. cbv iota.
    change [51; 48; 48; 48; 48; 48; 48; 48; 48; 48; 100] with huge. let v := eval vm_compute in (number 32 huge) in change (number 32 huge) with v. cbv iota beta. match goal with |- seq _ _ _ _ _ ?l _ _ = _ => change l with huge end. apply IH. exact Wd. }
  destruct fuel as [|f]; [reflexivity|]. unfold vsnprintk. cbn [loop]. rewrite Z.eqb_refl. unfold process_seq. cbn [huge]. change ((51 =? 37) || (128 <=? 51)) with false. cbv iota. change [51; 48; 48; 48; 48; 48; 48; 48; 48; 48; 100] with huge. rewrite G; reflexivity.
Qed.
Lemma both_paddings : vsnprintk 80 32 9 [37; 53; 45; 51; 100] [AWord 1] = Fails AssertFails.
Proof. reflexivity. Qed.
Lemma zero_negative : vsnprintk 80 32 9 [37; 48; 53; 100] [AWord (2 ^ 32 - 5)] = Text [48; 48; 48; 45; 53].
Proof. reflexivity. Qed.
Lemma zero_right : vsnprintk 80 32 9 [37; 48; 45; 53; 100] [AWord 42] = Text [52; 50; 48; 48; 48].
Proof. reflexivity. Qed.
Lemma short_precision : vsnprintk 80 32 9 [37; 46; 49; 100] [AWord 42] = Text [52].
Proof. reflexivity. Qed.
Lemma width_precision : vsnprintk 80 32 9 [37; 53; 46; 50; 115] [AStr (Some [97; 98; 99; 100])] = Text [32; 97; 98].
Proof. reflexivity. Qed.
