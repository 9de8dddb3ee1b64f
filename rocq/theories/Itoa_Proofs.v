(** Proofs about itoa / strtol. *)
From Verif Require Import Lib Itoa_Model Itoa_Spec.

Lemma DIGITS_char d : 0 <= d < 16 -> aget DIGITS d = Some (digit_char d).
Proof.
  intros H.
  assert (d = 0 \/ d = 1 \/ d = 2 \/ d = 3 \/ d = 4 \/ d = 5 \/ d = 6 \/ d = 7 \/
          d = 8 \/ d = 9 \/ d = 10 \/ d = 11 \/ d = 12 \/ d = 13 \/ d = 14 \/ d = 15) as C by lia.
  repeat (destruct C as [->|C]; [reflexivity|]). subst; reflexivity.
Qed.

Lemma digit_char_val d : 0 <= d < 16 -> digit_to_val (digit_char d) = d.
Proof.
  intros H. unfold digit_to_val, digit_char.
  destruct (d <? 10) eqn:E;
    repeat match goal with |- context [if ?b then _ else _] => destruct b eqn:? end; lia.
Qed.

Lemma digit_char_range d : 0 <= d < 16 -> 48 <= digit_char d < 128.
Proof. unfold digit_char; destruct (d <? 10) eqn:E; lia. Qed.

Lemma valid_digit_char d base : 0 <= d < base -> base <= 16 ->
  is_valid_digit (digit_char d) base = true.
Proof.
  intros. unfold is_valid_digit. rewrite digit_char_val by lia.
  pose proof (digit_char_range d ltac:(lia)). lia.
Qed.

(** little-endian value *)
Fixpoint le_val (base : Z) (ds : list Z) : Z :=
  match ds with [] => 0 | d :: r => d + base * le_val base r end.

Lemma numeral_snoc base ds d :
  numeral_value base (ds ++ [d]) = numeral_value base ds * base + d.
Proof. unfold numeral_value. rewrite fold_left_app. reflexivity. Qed.

Lemma numeral_rev base ds : numeral_value base (rev ds) = le_val base ds.
Proof.
  induction ds as [|d r IH]; [reflexivity|].
  simpl rev. rewrite numeral_snoc, IH. cbn [le_val]. lia.
Qed.

Lemma pow_ge1 b n : 2 <= b -> 0 <= n -> 1 <= b ^ n.
Proof. intros. pose proof (Z.pow_pos_nonneg b n). lia. Qed.

Lemma pow_S b n : 0 <= n -> b ^ (1 + n) = b * b ^ n.
Proof. intros. replace (1 + n) with (Z.succ n) by lia. apply Z.pow_succ_r; lia. Qed.

(** The digits produced by the loop *)
Lemma itoa_loop_ok base : 2 <= base <= 16 -> forall fuel value pre rest n,
  0 <= value < 2 ^ Z.of_nat fuel -> 0 <= n -> value < base ^ n -> n <= zlen rest ->
  exists ds rest2, itoa_loop fuel value base (pre ++ rest) (zlen pre) =
     Some ((pre ++ map digit_char ds) ++ rest2, zlen pre + zlen ds) /\
    Forall (fun d => 0 <= d < base) ds /\ le_val base ds = value /\
    (value = 0 -> ds = []) /\ (0 < value -> exists r d, ds = r ++ [d] /\ d <> 0) /\
    zlen ds <= n /\ rest2 = skipn (length ds) rest.
Proof.
  intros HB. induction fuel as [|f IH]; intros value pre rest n HV Hn HN HR.
  - change (2 ^ Z.of_nat 0) with 1 in HV. assert (value = 0) by lia; subst.
    exists [], rest. simpl. rewrite app_nil_r. change (zlen (@nil Z)) with 0.
    rewrite Z.add_0_r. repeat split; auto; lia.
  - cbn [itoa_loop]. destruct (value =? 0) eqn:E.
    + assert (value = 0) by lia; subst.
      exists [], rest. simpl. rewrite app_nil_r. change (zlen (@nil Z)) with 0.
      rewrite Z.add_0_r. repeat split; auto; lia.
    + assert (0 < n).
      { assert (n <> 0); [|lia]. intros ->. change (base ^ 0) with 1 in HN. lia. }
      pose proof (Z.mod_pos_bound value base ltac:(lia)).
      pose proof (Z.div_mod value base ltac:(lia)) as DM.
      rewrite DIGITS_char by lia.
      destruct rest as [|c rest]; [change (zlen (@nil Z)) with 0 in HR; lia|].
      rewrite aset_app by reflexivity.
      replace (pre ++ digit_char (value mod base) :: rest)
        with ((pre ++ [digit_char (value mod base)]) ++ rest) by (rewrite <- app_assoc; reflexivity).
      replace (zlen pre + 1) with (zlen (pre ++ [digit_char (value mod base)]))
        by (rewrite zlen_snoc; lia).
      rewrite zlen_cons in HR.
      assert (HQ : 0 <= value / base < base ^ (n - 1)).
      { split; [apply Z.div_pos; lia|]. apply Z.div_lt_upper_bound; [lia|].
        rewrite <- pow_S by lia. replace (1 + (n - 1)) with n by lia. lia. }
      assert (HQ2 : value / base < 2 ^ Z.of_nat f).
      { apply Z.div_lt_upper_bound; [lia|].
        replace (Z.of_nat (S f)) with (1 + Z.of_nat f) in HV by lia.
        rewrite pow_S in HV by lia. pose proof (pow_ge1 2 (Z.of_nat f)). nia. }
      destruct (IH (value / base) (pre ++ [digit_char (value mod base)]) rest (n - 1))
        as (ds & r2 & E1 & F & L & Z0 & ZP & HL & HRest); [lia|lia|lia|lia|].
      exists (value mod base :: ds), r2. rewrite E1. cbn [map le_val].
      rewrite zlen_snoc, zlen_cons.
      split; [f_equal; f_equal; [rewrite <- !app_assoc; reflexivity | lia]|].
      split; [constructor; [lia|assumption]|].
      split; [rewrite L; lia|].
      split; [lia|].
      split; [|split; [lia|assumption]].
      intros _. destruct (Z.eq_dec (value / base) 0) as [E0|E0].
      * exists [], (value mod base). rewrite (Z0 E0). split; [reflexivity|].
        rewrite E0 in DM. lia.
      * destruct ZP as (r & d & -> & Hd); [lia|].
        exists (value mod base :: r), d. auto.
Qed.

(** str_reverse *)
Lemma xor_swap a b :
  Z.lxor (Z.lxor a b) (Z.lxor b (Z.lxor a b)) = b /\ Z.lxor b (Z.lxor a b) = a.
Proof.
  assert (H : Z.lxor b (Z.lxor a b) = a).
  { rewrite (Z.lxor_comm a b), <- Z.lxor_assoc, Z.lxor_nilpotent. apply Z.lxor_0_l. }
  split; [|exact H]. rewrite H.
  rewrite (Z.lxor_comm a b), Z.lxor_assoc, Z.lxor_nilpotent. apply Z.lxor_0_r.
Qed.

Lemma list_two_ends {A} (m : list A) :
  m = [] \/ (exists x, m = [x]) \/ exists x m' y, m = x :: m' ++ [y].
Proof.
  destruct m as [|x m]; [auto|]. right.
  destruct (rev m) as [|y r] eqn:E.
  - left. exists x. f_equal. rewrite <- (rev_involutive m), E. reflexivity.
  - right. exists x, (rev r), y. f_equal. rewrite <- (rev_involutive m), E. reflexivity.
Qed.

Lemma str_reverse_loop_ok : forall fuel (m p s : list Z),
  zlen m <= 2 * Z.of_nat fuel ->
  str_reverse_loop fuel (p ++ m ++ s) (zlen p) (zlen p + zlen m - 1) = Some (p ++ rev m ++ s).
Proof.
  induction fuel as [|f IH]; intros m p s HF.
  - destruct m as [|x m].
    + change (zlen (@nil Z)) with 0. simpl.
      destruct (zlen p <? zlen p + 0 - 1) eqn:E; [lia|reflexivity].
    + rewrite zlen_cons in HF. pose proof (zlen_nonneg m). lia.
  - destruct (list_two_ends m) as [->|[(x & ->)|(x & m' & y & ->)]].
    + change (zlen (@nil Z)) with 0. cbn [str_reverse_loop].
      destruct (zlen p <? zlen p + 0 - 1) eqn:E; [lia|reflexivity].
    + change (zlen [x]) with 1. cbn [str_reverse_loop].
      destruct (zlen p <? zlen p + 1 - 1) eqn:E; [lia|reflexivity].
    + rewrite zlen_cons, zlen_snoc in *. pose proof (zlen_nonneg m').
      cbn [str_reverse_loop].
      destruct (zlen p <? zlen p + (1 + (zlen m' + 1)) - 1) eqn:E; [|lia].
      replace (p ++ (x :: m' ++ [y]) ++ s) with (p ++ x :: m' ++ [y] ++ s)
        by (cbn [app]; rewrite <- app_assoc; reflexivity).
      rewrite aget_app by reflexivity.
      replace (p ++ x :: m' ++ [y] ++ s) with ((p ++ x :: m') ++ y :: s)
        by (rewrite <- app_assoc; reflexivity).
      rewrite aget_app by (rewrite zlen_app, zlen_cons; lia).
      destruct (xor_swap x y) as [E1 E2]. rewrite E1, E2.
      replace ((p ++ x :: m') ++ y :: s) with (p ++ x :: m' ++ y :: s)
        by (rewrite <- app_assoc; reflexivity).
      rewrite aset_app by reflexivity.
      replace (p ++ y :: m' ++ y :: s) with ((p ++ y :: m') ++ y :: s)
        by (rewrite <- app_assoc; reflexivity).
      rewrite aset_app by (rewrite zlen_app, zlen_cons; lia).
      replace ((p ++ y :: m') ++ x :: s) with ((p ++ [y]) ++ m' ++ (x :: s))
        by (rewrite <- !app_assoc; reflexivity).
      replace (zlen p + 1) with (zlen (p ++ [y])) by (rewrite zlen_snoc; lia).
      replace (zlen p + (1 + (zlen m' + 1)) - 1 - 1) with (zlen (p ++ [y]) + zlen m' - 1)
        by (rewrite zlen_snoc; lia).
      rewrite IH by lia. f_equal. cbn [rev]. rewrite rev_app_distr. cbn [rev app].
      rewrite <- !app_assoc. reflexivity.
Qed.

Lemma strlen_app t r : Forall (fun c => c <> 0) t -> strlen (t ++ 0 :: r) = Some (zlen t).
Proof.
  induction t as [|c t IH]; intros F; [reflexivity|].
  inversion F; subst. cbn [app strlen]. destruct (c =? 0) eqn:E; [lia|].
  rewrite IH by assumption. rewrite zlen_cons. f_equal. lia.
Qed.

Lemma str_reverse_ok t r : Forall (fun c => c <> 0) t ->
  str_reverse (t ++ 0 :: r) (zlen t) = Some (rev t ++ 0 :: r).
Proof.
  intros F. unfold str_reverse. rewrite strlen_app by assumption.
  rewrite Z.eqb_refl. destruct (zlen t =? 0) eqn:E.
  - destruct t; [reflexivity|]. rewrite zlen_cons in E. pose proof (zlen_nonneg t). lia.
  - pose proof (str_reverse_loop_ok (length (t ++ 0 :: r)) t [] (0 :: r)) as H.
    cbn [app] in H. change (zlen (@nil Z)) with 0 in H.
    replace (0 + zlen t - 1) with (zlen t - 1) in H by lia.
    apply H. rewrite app_length. unfold zlen. lia.
Qed.

Lemma chars_nonzero base ds : base <= 16 -> Forall (fun d => 0 <= d < base) ds ->
  Forall (fun c => c <> 0) (map digit_char ds).
Proof.
  intros HB F. induction F as [|d r Hd F IH]; constructor; [|assumption].
  pose proof (digit_char_range d ltac:(lia)). lia.
Qed.

Lemma skipn_cons_zlen {A} n (l : list A) : Z.of_nat n < zlen l ->
  exists x, skipn n l = x :: skipn (S n) l.
Proof.
  revert l. induction n as [|n IH]; intros [|y l] H.
  - change (zlen (@nil A)) with 0 in H; lia.
  - exists y. reflexivity.
  - change (zlen (@nil A)) with 0 in H; lia.
  - rewrite zlen_cons in H. destruct (IH l ltac:(lia)) as [x E]. exists x. exact E.
Qed.

Theorem itoa_ok w sg v base n buf :
  0 < w -> 2 <= base <= 16 -> in_type w sg v -> 1 <= n -> Z.abs v < base ^ n ->
  n + 1 + (if v <? 0 then 1 else 0) <= zlen buf ->
  exists t, itoa w v buf base = Some (t ++ 0 :: skipn (S (length t)) buf) /\
    is_text base v t /\ zlen t <= n + (if v <? 0 then 1 else 0).
Proof.
  intros HW HB HT Hn HA HL. unfold itoa.
  destruct ((2 <=? base) && (base <=? 16)) eqn:E0; [|lia].
  destruct (v =? 0) eqn:EV.
  - assert (v = 0) by lia; subst v. simpl in HL.
    destruct buf as [|a [|b r]]; try (repeat rewrite zlen_cons in HL;
      change (zlen (@nil Z)) with 0 in HL; lia).
    exists [48]. split.
    { change (aset (a :: b :: r) 0 48) with (aset ([] ++ a :: b :: r) 0 48).
      rewrite aset_app by reflexivity.
      exact (aset_app [48] b 0 r 1 eq_refl). }
    split.
    + exists [0]. repeat split; [discriminate| |left; reflexivity].
      constructor; [lia|constructor].
    + change (zlen [48]) with 1. simpl. lia.
  - set (value := if 0 <=? v then v else (- v) mod 2 ^ w).
    assert (HP : 2 ^ w = 2 * 2 ^ (w - 1)).
    { rewrite <- pow_S by lia. f_equal. lia. }
    assert (HV : value = Z.abs v).
    { unfold value. destruct (0 <=? v) eqn:E; [lia|].
      rewrite Z.mod_small; [lia|]. unfold in_type in HT. destruct sg; lia. }
    assert (HV2 : 0 < value < 2 ^ w).
    { rewrite HV. unfold in_type in HT. destruct sg; lia. }
    destruct (itoa_loop_ok base HB (Z.to_nat w) value [] buf n)
      as (ds & r2 & E1 & F & LV & _ & ZP & HLen & HR); [rewrite Z2Nat.id; lia|lia|lia|destruct (v <? 0); lia|].
    cbn [app] in E1. change (zlen (@nil Z)) with 0 in E1. rewrite E1. clear E1.
    destruct ZP as (r & d & Hds & Hd); [lia|].
    assert (HT' : forall t, is_text base v (rev t) ->
      (forall x, Forall (fun c => c <> 0) t -> zlen t < zlen buf ->
       t ++ x = t ++ skipn (length t) buf ->
       match (match aset (t ++ x) (zlen t) 0 with
         | None => None | Some b3 => str_reverse b3 (zlen t) end) with
       | Some b => b = rev t ++ 0 :: skipn (S (length t)) buf | None => False end)).
    { intros t _ x Hnz Hlt HX. apply app_inv_head in HX. subst x.
      destruct (skipn_cons_zlen (length t) buf) as [c Hc]; [unfold zlen in *; lia|].
      rewrite Hc, aset_app by reflexivity. rewrite str_reverse_ok by assumption. reflexivity. }
    assert (HC : Forall (fun c => c <> 0) (map digit_char ds)) by (eapply chars_nonzero; eauto; lia).
    assert (HNE : digits_of_base base (rev ds)).
    { split; [rewrite Hds, rev_app_distr; discriminate|]. apply Forall_rev, F. }
    assert (HCan : canonical (rev ds)).
    { right. rewrite Hds, rev_app_distr. exact Hd. }
    assert (HNV : numeral_value base (rev ds) = Z.abs v) by (rewrite numeral_rev; lia).
    assert (HLD : length (map digit_char ds) = length ds) by apply map_length.
    destruct (v <? 0) eqn:EN.
    + subst r2.
      destruct (skipn_cons_zlen (length ds) buf) as [c Hc]; [unfold zlen in *; lia|].
      rewrite Hc. rewrite aset_app by (rewrite zlen_map; reflexivity).
      replace (map digit_char ds ++ 45 :: skipn (S (length ds)) buf)
        with ((map digit_char ds ++ [45]) ++ skipn (length (map digit_char ds ++ [45])) buf).
      2:{ rewrite <- app_assoc. rewrite app_length, HLD. cbn [app length].
          replace (length ds + 1)%nat with (S (length ds)) by lia. reflexivity. }
      replace (0 + zlen ds + 1) with (zlen (map digit_char ds ++ [45]))
        by (rewrite zlen_snoc, zlen_map; lia).
      assert (IT : is_text base v (rev (map digit_char ds ++ [45]))).
      { exists (rev ds). split; [assumption|]. split; [assumption|]. split; [assumption|].
        rewrite EN, rev_app_distr, map_rev. reflexivity. }
      assert (HZ : zlen (map digit_char ds ++ [45]) = zlen ds + 1)
        by (rewrite zlen_snoc, zlen_map; reflexivity).
      pose proof (HT' _ IT (skipn (length (map digit_char ds ++ [45])) buf)) as HH.
      destruct (match aset _ _ _ with Some _ => _ | None => _ end) as [b|].
      2:{ exfalso. apply HH; [|lia|reflexivity].
          apply Forall_app; split; [assumption|constructor; [lia|constructor]]. }
      rewrite HH; [| |lia|reflexivity].
      2:{ apply Forall_app; split; [assumption|constructor; [lia|constructor]]. }
      exists (rev (map digit_char ds ++ [45])). rewrite rev_length.
      split; [reflexivity|]. split; [assumption|].
      unfold zlen in *. rewrite rev_length. lia.
    + subst r2. rewrite <- HLD. replace (0 + zlen ds) with (zlen (map digit_char ds))
        by (rewrite zlen_map; lia).
      assert (IT : is_text base v (rev (map digit_char ds))).
      { exists (rev ds). split; [assumption|]. split; [assumption|]. split; [assumption|].
        rewrite EN, map_rev. reflexivity. }
      pose proof (HT' _ IT (skipn (length (map digit_char ds)) buf) HC) as HH.
      assert (HZ : zlen (map digit_char ds) = zlen ds) by apply zlen_map.
      destruct (match aset _ _ _ with Some _ => _ | None => _ end) as [b|];
        [|exfalso; apply HH; [lia|reflexivity]].
      rewrite HH by (lia || reflexivity).
      exists (rev (map digit_char ds)). rewrite rev_length.
      split; [reflexivity|]. split; [assumption|].
      unfold zlen in *. rewrite rev_length. lia.
Qed.

(** uitoa_fixed: exactly w/4 hexadecimal digits *)
Lemma fixed_loop_ok value : 0 <= value -> forall n pre rest,
  Z.of_nat n < zlen rest ->
  exists ds, uitoa_fixed_loop n value (4 * (Z.of_nat n - 1)) (pre ++ rest) (zlen pre)
    = Some (pre ++ map digit_char ds ++ 0 :: skipn (S n) rest) /\
    length ds = n /\ Forall (fun d => 0 <= d < 16) ds /\
    forall acc, fold_left (fun a d => a * 16 + d) ds acc
                = acc * 16 ^ Z.of_nat n + value mod 16 ^ Z.of_nat n.
Proof.
  intros HV. induction n as [|n IH]; intros pre rest HR.
  - destruct rest as [|c r]; [change (zlen (@nil Z)) with 0 in HR; lia|].
    exists []. cbn [uitoa_fixed_loop]. rewrite aset_app by reflexivity.
    split; [reflexivity|]. split; [reflexivity|]. split; [constructor|].
    intros acc. cbn [fold_left]. change (16 ^ Z.of_nat 0) with 1.
    rewrite Z.mod_1_r. lia.
  - destruct rest as [|c r]; [change (zlen (@nil Z)) with 0 in HR; lia|].
    rewrite zlen_cons in HR. cbn [uitoa_fixed_loop].
    set (d := Z.land (Z.shiftr value (4 * (Z.of_nat (S n) - 1))) 15).
    assert (Hd : d = (value / 16 ^ Z.of_nat n) mod 16).
    { unfold d. change 15 with (Z.ones 4). rewrite Z.land_ones by lia.
      rewrite Z.shiftr_div_pow2 by lia.
      replace (4 * (Z.of_nat (S n) - 1)) with (4 * Z.of_nat n) by lia.
      rewrite Z.pow_mul_r by lia. reflexivity. }
    pose proof (Z.mod_pos_bound (value / 16 ^ Z.of_nat n) 16 ltac:(lia)).
    rewrite DIGITS_char by lia. rewrite aset_app by reflexivity.
    replace (pre ++ digit_char d :: r) with ((pre ++ [digit_char d]) ++ r)
      by (rewrite <- app_assoc; reflexivity).
    replace (zlen pre + 1) with (zlen (pre ++ [digit_char d])) by (rewrite zlen_snoc; lia).
    replace (4 * (Z.of_nat (S n) - 1) - 4) with (4 * (Z.of_nat n - 1)) by lia.
    destruct (IH (pre ++ [digit_char d]) r ltac:(lia)) as (ds & E & HL & F & HF).
    exists (d :: ds). rewrite E. split; [rewrite <- app_assoc; reflexivity|].
    split; [cbn [length]; lia|]. split; [constructor; [lia|assumption]|].
    intros acc. cbn [fold_left]. rewrite HF.
    replace (Z.of_nat (S n)) with (1 + Z.of_nat n) by lia. rewrite pow_S by lia.
    pose proof (pow_ge1 16 (Z.of_nat n)) as HP.
    rewrite (Z.mul_comm 16 (16 ^ Z.of_nat n)), Z.rem_mul_r by lia. rewrite <- Hd. lia.
Qed.

Theorem uitoa_fixed_ok w value buf :
  w = 32 \/ w = 64 -> 0 <= value < 2 ^ w -> w / 4 + 1 <= zlen buf ->
  exists ds, uitoa_fixed w value buf
     = Some (map digit_char ds ++ 0 :: skipn (S (length ds)) buf) /\
    zlen ds = w / 4 /\ digits_of_base 16 ds /\ numeral_value 16 ds = value.
Proof.
  intros HW HV HL. unfold uitoa_fixed.
  assert (0 < w / 4) by (destruct HW; subst; reflexivity).
  assert (HW4 : w = 4 * (w / 4)) by (destruct HW; subst; reflexivity).
  destruct (fixed_loop_ok value ltac:(lia) (Z.to_nat (w / 4)) [] buf) as (ds & E & HLd & F & HF);
    [lia|].
  cbn [app] in E. change (zlen (@nil Z)) with 0 in E.
  replace (4 * (Z.of_nat (Z.to_nat (w / 4)) - 1)) with (w - 4) in E by lia.
  exists ds. rewrite E, HLd. split; [reflexivity|]. split; [unfold zlen; lia|].
  split.
  - split; [|assumption]. intros ->. cbn [length] in HLd. lia.
  - unfold numeral_value. rewrite HF. rewrite Z2Nat.id by lia.
    rewrite Z.mul_0_l, Z.add_0_l. apply Z.mod_small.
    change 16 with (2 ^ 4). rewrite <- Z.pow_mul_r by lia. rewrite <- HW4. assumption.
Qed.

(** strtol *)
Lemma to_type_id w sg v : 0 < w -> in_type w sg v -> to_type w sg v = v.
Proof.
  intros HW H. unfold to_type, in_type in *.
  assert (HP : 2 ^ w = 2 * 2 ^ (w - 1)) by (rewrite <- pow_S by lia; f_equal; lia).
  destruct sg; cbn [andb].
  - destruct (Z_lt_le_dec v 0).
    + rewrite <- (Z_mod_plus_full v 1), Z.mod_small by lia.
      destruct (2 ^ (w - 1) <=? v + 1 * 2 ^ w) eqn:E; lia.
    + rewrite Z.mod_small by lia. destruct (2 ^ (w - 1) <=? v) eqn:E; lia.
  - apply Z.mod_small; lia.
Qed.

Lemma fold_ge base ds : 2 <= base -> Forall (fun d => 0 <= d < base) ds ->
  forall acc, 0 <= acc -> acc <= fold_left (fun a d => a * base + d) ds acc.
Proof.
  intros HB F. induction F as [|d r Hd F IH]; intros acc HA; cbn [fold_left]; [lia|].
  specialize (IH (acc * base + d)). nia.
Qed.

Lemma reads_digit c d base : reads_as c d -> d < base -> base <= 16 ->
  digit_to_val c = d /\ is_valid_digit c base = true /\ 48 <= c < 128 /\ 0 <= d < 16.
Proof.
  intros H Hb HB. unfold is_valid_digit, digit_to_val, reads_as in *.
  repeat match goal with |- context [if ?b then _ else _] => destruct b eqn:? end; lia.
Qed.

Lemma terminator_stops base c : 2 <= base <= 16 -> 0 <= c < 256 -> terminator base c ->
  ((c =? 0) || negb (is_valid_digit c base)) = true.
Proof.
  intros HB HC HT. destruct (is_valid_digit c base) eqn:E; [|apply orb_true_r].
  exfalso. unfold is_valid_digit in E. apply (HT (digit_to_val c)); [lia|].
  unfold reads_as. unfold digit_to_val in *.
  repeat match goal with |- context [if ?b then _ else _] => destruct b eqn:? end; lia.
Qed.

Lemma spells_map base ds : base <= 16 -> Forall (fun d => 0 <= d < base) ds ->
  spells (map digit_char ds) ds.
Proof.
  intros HB F. induction F as [|d r Hd F IH]; constructor; [|assumption].
  unfold reads_as, digit_char. destruct (d <? 10) eqn:E; lia.
Qed.

Lemma strtol_loop_ok w sg base sign str c r :
  0 < w -> 2 <= base <= 16 -> 0 <= c < 256 -> terminator base c ->
  (sign = 1 \/ (sg = true /\ sign = -1)) ->
  forall cs ds, spells cs ds -> forall n acc,
  Forall (fun d => d < base) ds -> 0 <= acc -> 0 <= n ->
  (sign = -1 -> 0 < acc \/ 0 < hd 1 ds) ->
  in_type w sg (sign * fold_left (fun a d => a * base + d) ds acc) ->
  strtol_loop w sg base sign str (cs ++ c :: r) n (sign * acc) =
  Some (mk_p (sign * fold_left (fun a d => a * base + d) ds acc)
             (if n + zlen ds =? 0 then EINVAL else NoErr) (str + n + zlen ds)).
Proof.
  intros HW HB HC HT HS cs ds HSp.
  induction HSp as [|e d cs ds Hr HSp IH]; intros n acc F HA Hn HNeg HIn.
  - change (zlen (@nil Z)) with 0. cbn [app strtol_loop fold_left].
    rewrite terminator_stops by assumption.
    rewrite !Z.add_0_r. reflexivity.
  - inversion F as [|? ? Hd2 F']; subst. cbn [app strtol_loop].
    destruct (reads_digit e d base Hr Hd2 ltac:(lia)) as (Ev & Ed & He & Hd1).
    rewrite Ed, Ev. destruct (e =? 0) eqn:E0; [lia|]. cbn [orb negb].
    replace (sign * acc * base + sign * d) with (sign * (acc * base + d)) by lia.
    cbn [fold_left] in HIn |- *.
    assert (Hge : acc * base + d <= fold_left (fun a d0 => a * base + d0) ds (acc * base + d)).
    { apply fold_ge; [lia| |nia].
      clear - HSp F'. induction HSp as [|? ? ? ? Hr ? IH]; constructor; inversion F'; subst; auto.
      unfold reads_as in Hr. lia. }
    assert (HIn' : in_type w sg (sign * (acc * base + d))).
    { unfold in_type in *. pose proof (Z.pow_pos_nonneg 2 (w - 1)).
      destruct sg; destruct HS as [->|[? ->]]; try discriminate; nia. }
    rewrite to_type_id by assumption.
    assert ((if sg then negb (Bool.eqb (0 <? sign) (0 <=? sign * (acc * base + d)))
             else sign * (acc * base + d) <? sign * acc) = false) as ->.
    { destruct sg.
      - apply negb_false_iff, eqb_true_iff. destruct HS as [->|[_ ->]].
        + assert (0 <= acc * base + d) by nia. lia.
        + assert (0 < acc * base + d); [|lia].
          destruct (HNeg eq_refl) as [H0|H0]; cbn [hd] in *; nia.
      - destruct HS as [->|[? ->]]; [nia|discriminate]. }
    rewrite IH; try assumption; try nia.
    + f_equal. rewrite zlen_cons.
      replace (n + 1 + zlen ds) with (n + (1 + zlen ds)) by lia.
      f_equal. lia.
    + intros ->. destruct (HNeg eq_refl) as [H0|H0]; cbn [hd] in *; left; nia.
Qed.

Lemma strtol_exact w sg base neg cs ds c r :
  0 < w -> 2 <= base <= 16 -> 0 <= c < 256 -> terminator base c ->
  (neg = true -> sg = true) ->
  spells cs ds -> digits_of_base base ds -> (neg = true -> hd 0 ds <> 0) ->
  in_type w sg ((if neg then -1 else 1) * numeral_value base ds) ->
  strtol w sg ((if neg then [45] else []) ++ cs ++ c :: r) base =
  Some (mk_p ((if neg then -1 else 1) * numeral_value base ds) NoErr
             ((if neg then 1 else 0) + zlen cs)).
Proof.
  intros HW HB HC HT Hneg HSp (Hne & F) Hz HIn. unfold strtol.
  destruct ((2 <=? base) && (base <=? 16)) eqn:E0; [|lia].
  assert (F' : Forall (fun d => d < base) ds).
  { eapply Forall_impl; [|exact F]. cbn. lia. }
  assert (HLen : zlen cs = zlen ds).
  { unfold zlen. f_equal. clear - HSp; induction HSp; cbn [length]; lia. }
  assert (HL : 0 < zlen ds).
  { destruct ds; [congruence|]. rewrite zlen_cons. pose proof (zlen_nonneg ds). lia. }
  destruct neg.
  - rewrite (Hneg eq_refl) in *. cbn [app andb]. change (45 =? 45) with true. cbv iota.
    change (strtol_loop w true base (-1) 1 (cs ++ c :: r) 0 0)
      with (strtol_loop w true base (-1) 1 (cs ++ c :: r) 0 (-1 * 0)).
    rewrite (strtol_loop_ok w true base (-1) 1 c r HW HB HC HT) with (ds := ds); auto; try lia.
    + f_equal. destruct (0 + zlen ds =? 0) eqn:E; [lia|]. rewrite HLen. f_equal.
    + intros _. right. specialize (Hz eq_refl). destruct ds as [|d ds]; [congruence|].
      inversion F; cbn [hd] in *; lia.
  - cbn [app]. destruct cs as [|e cs]; [inversion HSp; subst; congruence|].
    cbn [app].
    assert (sg && (e =? 45) = false) as ->.
    { inversion HSp as [|? d ? ds' Hr]; subst. apply andb_false_iff. right.
      unfold reads_as in Hr. lia. }
    change (e :: cs ++ c :: r) with ((e :: cs) ++ c :: r).
    change (strtol_loop w sg base 1 0 ((e :: cs) ++ c :: r) 0 0)
      with (strtol_loop w sg base 1 0 ((e :: cs) ++ c :: r) 0 (1 * 0)).
    rewrite (strtol_loop_ok w sg base 1 0 c r HW HB HC HT) with (ds := ds); auto; try lia.
    f_equal. destruct (0 + zlen ds =? 0) eqn:E; [lia|]. rewrite HLen. reflexivity.
Qed.

Lemma nul_terminates base : terminator base 0.
Proof. intros d Hd [H|H]; lia. Qed.

Theorem roundtrip w sg v base t r :
  0 < w -> 2 <= base <= 16 -> in_type w sg v -> is_text base v t ->
  strtol w sg (t ++ 0 :: r) base = Some (mk_p v NoErr (zlen t)).
Proof.
  intros HW HB HT (ds & HD & HC & HV & ->).
  assert (HN : v < 0 -> sg = true).
  { intros. unfold in_type in HT. destruct sg; [reflexivity|lia]. }
  rewrite <- app_assoc.
  rewrite (strtol_exact w sg base (v <? 0) (map digit_char ds) ds 0 r HW HB).
  - f_equal. rewrite zlen_app, zlen_map, HV. destruct (v <? 0) eqn:E;
      [change (zlen [45]) with 1|change (zlen (@nil Z)) with 0]; f_equal; lia.
  - lia.
  - apply nul_terminates.
  - intros; apply HN; lia.
  - destruct HD. eapply spells_map; eauto. lia.
  - assumption.
  - intros. destruct HC as [->|HC]; [|assumption].
    unfold numeral_value in HV. cbn [fold_left] in HV. lia.
  - rewrite HV. replace ((if v <? 0 then -1 else 1) * Z.abs v) with v; [assumption|].
    destruct (v <? 0) eqn:E; lia.
Qed.

Lemma strtol_no_digits w sg base neg c r :
  2 <= base <= 16 -> 0 <= c < 256 -> terminator base c -> (neg = false -> c <> 45) ->
  (neg = true -> sg = true) ->
  strtol w sg ((if neg then [45] else []) ++ c :: r) base =
  Some (mk_p 0 EINVAL (if neg then 1 else 0)).
Proof.
  intros HB HC HT H45 Hneg. unfold strtol.
  destruct ((2 <=? base) && (base <=? 16)) eqn:E0; [|lia].
  pose proof (terminator_stops base c HB HC HT) as HX.
  destruct neg; cbn [app].
  - rewrite (Hneg eq_refl). change (true && (45 =? 45)) with true. cbn [strtol_loop].
    rewrite HX. reflexivity.
  - assert (sg && (c =? 45) = false) as -> by (apply andb_false_iff; right; specialize (H45 eq_refl); lia).
    cbn [strtol_loop]. rewrite HX. reflexivity.
Qed.

(** Consequence: an out-of-range report is justified *)
Lemma strtol_range_error w sg base neg cs ds c r p :
  0 < w -> 2 <= base <= 16 -> 0 <= c < 256 -> terminator base c ->
  (neg = true -> sg = true) ->
  spells cs ds -> digits_of_base base ds -> (neg = true -> hd 0 ds <> 0) ->
  strtol w sg ((if neg then [45] else []) ++ cs ++ c :: r) base = Some p ->
  p_err p = ERANGE ->
  ~ in_type w sg ((if neg then -1 else 1) * numeral_value base ds).
Proof.
  intros HW HB HC HT Hneg HSp HD Hz E Herr HIn.
  rewrite (strtol_exact w sg base neg cs ds c r) in E by assumption.
  inversion E; subst. discriminate.
Qed.

Lemma decimal_fits w sg v : (w = 32 \/ w = 64) -> in_type w sg v ->
  forall buf, (if w =? 32 then 12 else 21) <= zlen buf ->
  exists t, itoa w v buf 10 = Some (t ++ 0 :: skipn (S (length t)) buf) /\ is_text 10 v t.
Proof.
  intros HW HT buf HL.
  set (n := if w =? 32 then 10 else if v <? 0 then 19 else 20).
  destruct (itoa_ok w sg v 10 n buf) as (t & E & HTx & _); try lia; auto.
  - unfold n. destruct (w =? 32), (v <? 0); lia.
  - unfold n, in_type in *. destruct HW; subst w; cbn [Z.eqb Pos.eqb].
    + change (10 ^ 10) with 10000000000. change (2 ^ 32) with 4294967296 in HT.
      change (2 ^ (32 - 1)) with 2147483648 in HT. destruct sg; lia.
    + change (2 ^ 64) with 18446744073709551616 in HT.
      change (2 ^ (64 - 1)) with 9223372036854775808 in HT.
      destruct (v <? 0) eqn:E.
      * change (10 ^ 19) with 10000000000000000000. destruct sg; lia.
      * change (10 ^ 20) with 100000000000000000000. destruct sg; lia.
  - unfold n. destruct HW; subst w; cbn [Z.eqb Pos.eqb] in *; destruct (v <? 0); lia.
  - exists t. auto.
Qed.

Lemma print_parse w sg v base : (w = 32 \/ w = 64) -> in_type w sg v -> 2 <= base <= 16 ->
  forall buf, w + 2 <= zlen buf ->
  exists t, itoa w v buf base = Some (t ++ 0 :: skipn (S (length t)) buf) /\
    is_text base v t /\
    strtol w sg (t ++ 0 :: skipn (S (length t)) buf) base = Some (mk_p v NoErr (zlen t)).
Proof.
  intros HW HT HB buf HL.
  assert (0 < w) by lia.
  assert (HP : 2 ^ w = 2 * 2 ^ (w - 1)) by (rewrite <- pow_S by lia; f_equal; lia).
  assert (2 ^ w <= base ^ w) by (apply Z.pow_le_mono_l; lia).
  destruct (itoa_ok w sg v base w buf) as (t & E & HTx & _); try lia; auto.
  - unfold in_type in HT. pose proof (Z.pow_pos_nonneg 2 (w - 1)). destruct sg; lia.
  - destruct (v <? 0); lia.
  - exists t. split; [assumption|]. split; [assumption|]. apply roundtrip; assumption.
Qed.

(** Overflow that is not detected *)
Lemma overflow_missed_u32 : exists cs ds c r p,
  spells cs ds /\ digits_of_base 10 ds /\ terminator 10 c /\
  strtol 32 false (cs ++ c :: r) 10 = Some p /\ p_err p = NoErr /\
  p_val p <> numeral_value 10 ds.
Proof.
  exists [53;48;48;48;48;48;48;48;48;48], [5;0;0;0;0;0;0;0;0;0], 0, [], (mk_p 705032704 NoErr 10).
  split; [repeat constructor; unfold reads_as; lia|].
  split; [split; [discriminate|repeat constructor; lia]|].
  split; [apply nul_terminates|]. split; [vm_compute; reflexivity|].
  split; [reflexivity|]. vm_compute. discriminate.
Qed.

Lemma overflow_missed_s64 : exists cs ds c r p,
  spells cs ds /\ digits_of_base 10 ds /\ terminator 10 c /\
  strtol 64 true (cs ++ c :: r) 10 = Some p /\ p_err p = NoErr /\
  p_val p <> numeral_value 10 ds.
Proof.
  exists (52 :: repeat 48 19), (4 :: repeat 0 19), 0, [], (mk_p 3106511852580896768 NoErr 20).
  split; [repeat constructor; unfold reads_as; lia|].
  split; [split; [discriminate|repeat constructor; lia]|].
  split; [apply nul_terminates|]. split; [vm_compute; reflexivity|].
  split; [reflexivity|]. vm_compute. discriminate.
Qed.

Lemma overflow_missed_u64 : exists cs ds c r p,
  spells cs ds /\ digits_of_base 10 ds /\ terminator 10 c /\
  strtol 64 false (cs ++ c :: r) 10 = Some p /\ p_err p = NoErr /\
  p_val p <> numeral_value 10 ds.
Proof.
  exists (53 :: repeat 48 19), (5 :: repeat 0 19), 0, [],
    (mk_p (50000000000000000000 mod 2 ^ 64) NoErr 20).
  split; [repeat constructor; unfold reads_as; lia|].
  split; [split; [discriminate|repeat constructor; lia]|].
  split; [apply nul_terminates|]. split; [vm_compute; reflexivity|].
  split; [reflexivity|]. vm_compute. discriminate.
Qed.

Lemma overflow_missed_s32 : exists cs ds c r p,
  spells cs ds /\ digits_of_base 10 ds /\ terminator 10 c /\
  strtol 32 true (cs ++ c :: r) 10 = Some p /\ p_err p = NoErr /\
  p_val p <> numeral_value 10 ds.
Proof.
  exists (53 :: repeat 48 9), (5 :: repeat 0 9), 0, [],
    (mk_p 705032704 NoErr 10).
  split; [repeat constructor; unfold reads_as; lia|].
  split; [split; [discriminate|repeat constructor; lia]|].
  split; [apply nul_terminates|]. split; [vm_compute; reflexivity|].
  split; [reflexivity|]. vm_compute. discriminate.
Qed.

Lemma overflow_missed : forall w sg, (w = 32 \/ w = 64) -> exists cs ds c r p,
  spells cs ds /\ digits_of_base 10 ds /\ terminator 10 c /\
  strtol w sg (cs ++ c :: r) 10 = Some p /\ p_err p = NoErr /\
  p_val p <> numeral_value 10 ds.
Proof.
  intros w [] [->| ->].
  - exact overflow_missed_s32.
  - exact overflow_missed_s64.
  - exact overflow_missed_u32.
  - exact overflow_missed_u64.
Qed.

(** A negative text with a leading zero is rejected although it fits *)
Lemma negative_zero_rejected : forall w, (w = 32 \/ w = 64) -> exists cs ds c r p,
  spells cs ds /\ digits_of_base 10 ds /\ terminator 10 c /\
  in_type w true (- numeral_value 10 ds) /\
  strtol w true (45 :: cs ++ c :: r) 10 = Some p /\ p_err p = ERANGE.
Proof.
  intros w HW.
  exists [48; 53], [0; 5], 0, [], (mk_p 0 ERANGE 1).
  split; [repeat constructor; unfold reads_as; lia|].
  split; [split; [discriminate|repeat constructor; lia]|].
  split; [apply nul_terminates|].
  split; [destruct HW; subst w; vm_compute; intuition discriminate|].
  split; [destruct HW; subst w; vm_compute; reflexivity|reflexivity].
Qed.
