(** Proofs: comparisons, lengths, searches. *)
From Verif Require Import Lib Str_Model Str_Spec.
From Coq Require Import ssreflect.

Lemma bytes_cons (m : mem) (p a : Z) (l : list Z) : bytes m p (a :: l) <-> m p = Some a /\ bytes m (p + 1) l.
Proof.
  have L := zlen_nonneg l.
  split.
  - move => H. split.
    + have := H 0. rewrite zlen_cons Z.add_0_r. move => -> //. lia.
    + move => i Hi. have := H (1 + i). rewrite zlen_cons Z.add_assoc. move => X. rewrite X; first lia.
      rewrite znth_cons_pos; first lia. do 2 f_equal. lia.
  - move => [H1 H2] i. rewrite zlen_cons => Hi.
    case: (Z.eq_dec i 0) => [->|N]; first by rewrite Z.add_0_r H1.
    rewrite znth_cons_pos; first lia. rewrite -(H2 (i - 1)); first lia. f_equal. lia.
Qed.
Lemma nonzero_cons (a : Z) (l : list Z) : nonzero (a :: l) <-> a <> 0 /\ nonzero l.
Proof. rewrite /nonzero. split; [move => H; inversion H; by split|move => [? ?]; by constructor]. Qed.
Lemma str_nil (m : mem) (p : Z) : str m p [] <-> m p = Some 0.
Proof.
  rewrite /str Z.add_0_r. split; first tauto. move => H. split; first by (move => i; rewrite zlen_nil; lia). split; [by constructor|done].
Qed.
Lemma str_cons (m : mem) (p a : Z) (l : list Z) : str m p (a :: l) <-> m p = Some a /\ a <> 0 /\ str m (p + 1) l.
Proof.
  rewrite /str bytes_cons nonzero_cons zlen_cons Z.add_assoc. tauto.
Qed.

Lemma order_key (key : Z -> Z) (l k : list Z) :
  (forall a b, In a l -> In b k -> key a = key b -> a = b) -> order key l k = Eq <-> l = k.
Proof.
  elim: l k => [|a l IH] [|b k] H //=.
  destruct (Z.compare_spec (key a) (key b)) as [E|E|E].
  - have -> : a = b by apply: H => //; left.
    rewrite IH; first by (move => x y X Y; apply: H; right).
    split; [by move => ->|by case].
  - split => // - [X _]. subst. lia.
  - split => // - [X _]. subst. lia.
Qed.
Lemma ch_inj (sg : bool) (a b : Z) : 0 <= a < 256 -> 0 <= b < 256 -> ch sg a = ch sg b -> a = b.
Proof. rewrite /ch. case: sg => /=; last by []. case: (Z.leb_spec 128 a); case: (Z.leb_spec 128 b); lia. Qed.
Lemma cmp_diff (x y : Z) : (x - y ?= 0) = (x ?= y).
Proof. case: (Z.compare_spec x y) => H; [apply Z.compare_eq_iff|apply Z.compare_lt_iff|apply Z.compare_gt_iff]; lia. Qed.
Lemma ch_0 (sg : bool) : ch sg 0 = 0.
Proof. by case: sg. Qed.

Lemma ch_range (sg : bool) (b : Z) : 0 <= b < 256 -> b <> 0 -> ch sg b <> 0.
Proof. rewrite /ch. case: sg => /=; last lia. case: (Z.leb_spec 128 b); lia. Qed.

Lemma strcmp_str (sg : bool) (l k : list Z) (m : mem) (p q : Z) (fuel : nat) :
  str m p l -> str m q k -> byte_list l -> byte_list k -> (length l < fuel)%nat ->
  exists v, strcmp sg fuel m p q = Val v /\ (v ?= 0) = order (ch sg) (l ++ [0]) (k ++ [0]).
Proof.
  elim: fuel l k p q => [|fuel IH] l k p q Hl Hk Bl Bk F; first lia.
  case: l k Hl Hk Bl Bk F => [|a l] [|b k] Hl Hk Bl Bk F; cbn [strcmp].
  - move/str_nil: Hl => Hl. move/str_nil: Hk => Hk. rewrite /ld Hl Hk /=. exists 0. rewrite ch_0. by split.
  - move/str_nil: Hl => Hl. move/str_cons: Hk => [Hk [N _]]. rewrite /ld Hl Hk /=. eexists. split; first done.
    rewrite cmp_diff. inversion Bk; subst. have := ch_range sg b ltac:(lia) N. rewrite ch_0.
    destruct (Z.compare_spec 0 (ch sg b)); done || lia.
  - move/str_nil: Hk => Hk. move/str_cons: Hl => [Hl [N _]]. rewrite /ld Hl Hk /=.
    have -> : (a =? 0) = false by lia. cbn. eexists. split; first done.
    rewrite cmp_diff. inversion Bl; subst. have := ch_range sg a ltac:(lia) N. rewrite ch_0.
    destruct (Z.compare_spec (ch sg a) 0); done || lia.
  - move/str_cons: Hk => [Hk [N Hk2]]. move/str_cons: Hl => [Hl [M Hl2]]. rewrite /ld Hl Hk.
    have E0 : (a =? 0) = false by lia. cbn [bind]. rewrite E0. cbn [negb andb app order].
    inversion Bl; subst. inversion Bk; subst.
    destruct (Z.eqb_spec a b) as [<-|D].
    + rewrite Z.compare_refl. apply: IH => //. cbn in F. lia.
    + eexists. split; first done. rewrite cmp_diff.
      case: (Z.compare_spec (ch sg a) (ch sg b)) => // X. exfalso. apply: D. by apply: (ch_inj sg); try lia.
Qed.

Lemma order_ended (sg : bool) (l k : list Z) :
  nonzero l -> nonzero k -> byte_list l -> byte_list k ->
  sg = false \/ (Forall (fun b => b < 128) l /\ Forall (fun b => b < 128) k) ->
  order (ch sg) (l ++ [0]) (k ++ [0]) = order (fun b => b) l k.
Proof.
  elim: l k => [|a l IH] [|b k] Nl Nk Bl Bk H; cbn [app order]; rewrite ?ch_0 ?Z.compare_refl //.
  - inversion Nk; inversion Bk; subst.
    have -> : ch sg b = b.
    { rewrite /ch. case: H => [->//|[_ H]]. inversion H; subst. have -> : (128 <=? b) = false by lia. by rewrite Bool.andb_false_r. }
    destruct (Z.compare_spec 0 b); done || lia.
  - inversion Nl; inversion Bl; subst.
    have -> : ch sg a = a.
    { rewrite /ch. case: H => [->//|[H _]]. inversion H; subst. have -> : (128 <=? a) = false by lia. by rewrite Bool.andb_false_r. }
    destruct (Z.compare_spec a 0); done || lia.
  - inversion Nl; inversion Bl; inversion Nk; inversion Bk; subst.
    have -> : ch sg a = a.
    { rewrite /ch. case: H => [->//|[H _]]. inversion H; subst. have -> : (128 <=? a) = false by lia. by rewrite Bool.andb_false_r. }
    have -> : ch sg b = b.
    { rewrite /ch. case: H => [->//|[_ H]]. inversion H; subst. have -> : (128 <=? b) = false by lia. by rewrite Bool.andb_false_r. }
    rewrite IH //. case: H => [?|[X Y]]; first by left. right. by inversion X; inversion Y; subst.
Qed.
Lemma app_0_inj (l k : list Z) : l ++ [0] = k ++ [0] -> l = k.
Proof. move => H. by have [-> _] := app_inj_tail _ _ _ _ H. Qed.
Lemma ended_eq (sg : bool) (l k : list Z) : byte_list l -> byte_list k ->
  order (ch sg) (l ++ [0]) (k ++ [0]) = Eq <-> l = k.
Proof.
  move => Bl Bk. have X : forall x l, byte_list l -> In x (l ++ [0]) -> 0 <= x < 256.
  { move => x r Br. rewrite in_app_iff /=. move => [Hx|[<-|[]]]; last lia.
    move/Forall_forall: Br => Br. by apply: Br. }
  have K := order_key (ch sg) (l ++ [0]) (k ++ [0]).
  rewrite K; first by (move => a b Ha Hb; apply: ch_inj; [apply: X Ha|apply: X Hb]).
  split; [by apply: app_0_inj|by move => ->].
Qed.

Lemma strcmp_ok (sg : bool) (l k : list Z) (m : mem) (p q : Z) (fuel : nat) :
  str m p l -> str m q k -> byte_list l -> byte_list k -> (length l < fuel)%nat ->
  exists v, strcmp sg fuel m p q = Val v /\ (v = 0 <-> l = k) /\
    (sg = false \/ (Forall (fun b => b < 128) l /\ Forall (fun b => b < 128) k) -> (v ?= 0) = order (fun b => b) l k).
Proof.
  move => Hl Hk Bl Bk F. have [v [E V]] := strcmp_str sg l k m p q fuel Hl Hk Bl Bk F.
  exists v. split => //. rewrite -Z.compare_eq_iff V. split; first by apply: ended_eq.
  move => H. apply: order_ended => //; by [apply Hl|apply Hk].
Qed.

Lemma cut_S (m : mem) (p : Z) (n : nat) (l : list Z) :
  cut m p (Z.of_nat (S n)) l ->
  (l = [] /\ m p = Some 0) \/ exists a r, l = a :: r /\ m p = Some a /\ a <> 0 /\ cut m (p + 1) (Z.of_nat n) r.
Proof.
  rewrite /cut. case: l => [|a r] [H1 [H2 [H3 H4]]].
  - left. split => //. have := H4. rewrite zlen_nil Z.add_0_r. apply. lia.
  - right. exists a, r. move/bytes_cons: H1 => [? ?]. move/nonzero_cons: H2 => [? ?].
    rewrite zlen_cons in H3, H4. repeat (split => //); first lia.
    move => H. rewrite -Z.add_assoc. apply: H4. lia.
Qed.
Lemma cut_0 (m : mem) (p : Z) (l : list Z) : cut m p 0 l -> l = [].
Proof. case: l => // a l [_ [_ [H _]]]. rewrite zlen_cons in H. have := zlen_nonneg l. lia. Qed.

(** Where a cut string ends *)
Lemma strncmp_cut (sg : bool) (n : nat) (l k : list Z) (m : mem) (p q : Z) :
  cut m p (Z.of_nat n) l -> cut m q (Z.of_nat n) k -> byte_list l -> byte_list k ->
  exists v, strncmp sg n m p q = Val v /\ (v ?= 0) = order (ch sg) (l ++ [0]) (k ++ [0]).
Proof.
  elim: n l k p q => [|n IH] l k p q Hl Hk Bl Bk.
  { rewrite (cut_0 _ _ _ Hl) (cut_0 _ _ _ Hk). exists 0. by rewrite /= Z.compare_refl. }
  cbn [strncmp].
  case: (cut_S _ _ _ _ Hl) => [[El Zl]|[a [r [El [Zl [Na Hr]]]]]];
  case: (cut_S _ _ _ _ Hk) => [[Ek Zk]|[b [t [Ek [Zk [Nb Ht]]]]]]; subst; rewrite /ld Zl Zk; cbn [bind].
  - exists 0. cbn [Z.eqb negb andb app order]. rewrite Z.sub_diag ch_0. by split.
  - cbn [Z.eqb negb andb app order]. eexists. split; first done. rewrite cmp_diff. inversion Bk; subst.
    have := ch_range sg b ltac:(lia) Nb. rewrite ch_0. destruct (Z.compare_spec 0 (ch sg b)); done || lia.
  - have -> : (a =? 0) = false by lia. cbn [negb andb app order].
    eexists. split; first done. rewrite cmp_diff. inversion Bl; subst.
    have := ch_range sg a ltac:(lia) Na. rewrite ch_0. destruct (Z.compare_spec (ch sg a) 0); done || lia.
  - have -> : (a =? 0) = false by lia. cbn [negb andb app order].
    inversion Bl; subst. inversion Bk; subst.
    destruct (Z.eqb_spec a b) as [<-|D].
    + rewrite Z.compare_refl. by apply: IH.
    + eexists. split; first done. rewrite cmp_diff.
      case: (Z.compare_spec (ch sg a) (ch sg b)) => // X. exfalso. apply: D. by apply: (ch_inj sg); try lia.
Qed.
Lemma strncmp_ok (sg : bool) (n : nat) (l k : list Z) (m : mem) (p q : Z) :
  cut m p (Z.of_nat n) l -> cut m q (Z.of_nat n) k -> byte_list l -> byte_list k ->
  exists v, strncmp sg n m p q = Val v /\ (v = 0 <-> l = k) /\
    (sg = false \/ (Forall (fun b => b < 128) l /\ Forall (fun b => b < 128) k) -> (v ?= 0) = order (fun b => b) l k).
Proof.
  move => Hl Hk Bl Bk. have [v [E V]] := strncmp_cut sg n l k m p q Hl Hk Bl Bk.
  exists v. split => //. rewrite -Z.compare_eq_iff V. split; first by apply: ended_eq.
  move => H. apply: order_ended => //; by [apply Hl|apply Hk].
Qed.

Lemma memcmp_ok (sg : bool) (l k : list Z) (m : mem) (p q : Z) :
  bytes m p l -> bytes m q k -> length l = length k -> byte_list l -> byte_list k ->
  exists v, memcmp sg (length l) m p q = Val v /\ (v = 0 <-> l = k) /\
    (sg = false \/ (Forall (fun b => b < 128) l /\ Forall (fun b => b < 128) k) -> (v ?= 0) = order (fun b => b) l k).
Proof.
  elim: l k p q => [|a l IH] [|b k] p q Hl Hk L Bl Bk //.
  { exists 0. by split. }
  move/bytes_cons: Hl => [Za Hl]. move/bytes_cons: Hk => [Zb Hk].
  inversion Bl; inversion Bk; subst. cbn [length memcmp]. rewrite /ld Za Zb. cbn [bind].
  destruct (Z.eqb_spec a b) as [<-|D].
  - case: (IH k (p + 1) (q + 1)) => // [|v [E [V O]]]; first by case: L.
    exists v. split => //. split; first (rewrite V; split; [by move => ->|by case]).
    cbn [order]. rewrite Z.compare_refl. move => H. apply: O. case: H => [?|[X Y]]; first by left.
    right. by inversion X; inversion Y.
  - eexists. split; first done. split.
    + split; last by case. move => X. exfalso. apply: D. apply: (ch_inj sg); lia.
    + cbn [order]. move => X. rewrite cmp_diff.
      have [-> ->] : ch sg a = a /\ ch sg b = b.
      { rewrite /ch. case: X => [->//|[X Y]]. inversion X; inversion Y; subst.
        have -> : (128 <=? a) = false by lia. have -> : (128 <=? b) = false by lia. by rewrite Bool.andb_false_r. }
      destruct (Z.compare_spec a b); done || lia.
Qed.


(** Letters of either case *)
Lemma stricmp_ok (sg : bool) (l k : list Z) (m : mem) (p q : Z) (fuel : nat) :
  str m p l -> str m q k -> byte_list l -> byte_list k -> (length l < fuel)%nat ->
  exists v, stricmp sg fuel m p q = Val v /\ (v = 0 <-> map tolower l = map tolower k).
Proof.
  have T0 : forall b, 0 <= b < 256 -> b <> 0 -> tolower (ch sg b) <> 0.
  { move => b B N. rewrite /tolower. have := ch_range sg b B N.
    destruct ((65 <=? ch sg b) && (ch sg b <=? 90)) eqn:X; lia. }
  have TE : forall a b, 0 <= a < 256 -> 0 <= b < 256 -> tolower (ch sg a) = tolower (ch sg b) <-> tolower a = tolower b.
  { move => a b A B. clear T0. rewrite /tolower /ch. case: sg; cbn [andb].
    - case: (Z.leb_spec 128 a) => ?; case: (Z.leb_spec 128 b) => ?; repeat (match goal with |- context [if ?x then _ else _] => destruct x eqn:? end); lia.
    - done. }
  elim: fuel l k p q => [|fuel IH] l k p q Hl Hk Bl Bk F; first lia.
  case: l k Hl Hk Bl Bk F => [|a l] [|b k] Hl Hk Bl Bk F; cbn [stricmp].
  - move/str_nil: Hl => Hl. move/str_nil: Hk => Hk. rewrite /ld Hl Hk /=. eexists. split; first done. rewrite Z.sub_diag. by split.
  - move/str_nil: Hl => Hl. move/str_cons: Hk => [Hk [N _]]. rewrite /ld Hl Hk /=. eexists. split; first done.
    inversion Bk; subst. have := T0 b ltac:(lia) N. rewrite ch_0 /tolower /=. split => //. lia.
  - move/str_nil: Hk => Hk. move/str_cons: Hl => [Hl [N _]]. rewrite /ld Hl Hk /=.
    inversion Bl; subst. have := T0 a ltac:(lia) N. rewrite ch_0 => T.
    have -> : (a =? 0) = false by lia. have -> : (tolower (ch sg a) =? tolower 0) = false by (apply Z.eqb_neq).
    cbn. eexists. split; first done. split => //. move: T. rewrite /tolower. cbn. lia.
  - move/str_cons: Hk => [Hk [N Hk2]]. move/str_cons: Hl => [Hl [M Hl2]]. rewrite /ld Hl Hk.
    have E0 : (a =? 0) = false by lia. cbn [bind]. rewrite E0. cbn [negb andb map].
    inversion Bl; subst. inversion Bk; subst. have E := TE a b ltac:(lia) ltac:(lia).
    destruct (Z.eqb_spec (tolower (ch sg a)) (tolower (ch sg b))) as [D|D].
    + case: (IH l k (p + 1) (q + 1)) => //; first by (cbn in F; lia). move => v [Ev V].
      exists v. split => //. rewrite V. move/E: D => ->. split; [by move => ->|by case].
    + eexists. split; first done. split; first lia. case => X _. by case: D; apply E.
Qed.

(** Lengths *)
Lemma strlen_ok (l : list Z) (m : mem) (p : Z) (fuel : nat) :
  str m p l -> (length l < fuel)%nat -> strlen fuel m p = Val (zlen l).
Proof.
  elim: fuel l p => [|fuel IH] l p H F; first lia.
  case: l H F => [|a l] H F; cbn [strlen].
  - move/str_nil: H => H. by rewrite /ld H.
  - move/str_cons: H => [H [N S]]. rewrite /ld H. cbn [bind]. have -> : (a =? 0) = false by lia.
    rewrite (IH l) //; first by (cbn in F; lia). cbn [bind]. rewrite zlen_cons. f_equal. lia.
Qed.
Lemma strnlen_ok (n : nat) (l : list Z) (m : mem) (p : Z) :
  cut m p (Z.of_nat n) l -> (zlen l = Z.of_nat n -> m (p + Z.of_nat n) <> None) -> strnlen n m p = Val (zlen l).
Proof.
  elim: n l p => [|n IH] l p H M.
  - have El : l = [] by apply: cut_0 H. subst l. cbn [strnlen]. rewrite Z.add_0_r in M. have {}M := M (eq_refl _). rewrite /ld. case: (m p) M => // a _. cbn [bind]. by case: (_ =? _).
  - case: (cut_S _ _ _ _ H) => [[El Z]|[a [r [El [Z [Na Hr]]]]]]; subst l; cbn [strnlen]; rewrite /ld Z //=.
    have -> : (a =? 0) = false by lia. rewrite (IH r) //; first by (move => W; rewrite zlen_cons in M; move: (M ltac:(lia)); rewrite -Z.add_assoc; have -> : 1 + Z.of_nat n = Z.of_nat (S n) by lia).
    cbn [bind]. rewrite zlen_cons. f_equal. lia.
Qed.

(** Searches *)
Lemma memchr_ok (l : list Z) (m : mem) (p c : Z) : bytes m p l ->
  (exists i, memchr (length l) m p c = Val (p + i) /\ 0 <= i < zlen l /\ znth 0 l i = c /\ forall j, 0 <= j < i -> znth 0 l j <> c) \/
  (memchr (length l) m p c = Val 0 /\ ~ In c l).
Proof.
  elim: l p => [|a l IH] p H; first by (right; split => // - []).
  move/bytes_cons: H => [Ha Hl]. cbn [length memchr]. rewrite /ld Ha. cbn [bind]. have L := zlen_nonneg l.
  destruct (Z.eqb_spec c a) as [->|D].
  - left. exists 0. rewrite Z.add_0_r zlen_cons znth_cons_0. repeat split; try lia.
  - case: (IH (p + 1) Hl) => [[i [-> [Hi [E B]]]]|[-> N]].
    + left. exists (1 + i). rewrite zlen_cons Z.add_assoc. repeat split; try lia.
      * rewrite znth_cons_pos; first lia. by have -> : 1 + i - 1 = i by lia.
      * move => j Hj. case: (Z.eq_dec j 0) => [->|?]; first by rewrite znth_cons_0; lia.
        rewrite znth_cons_pos; first lia. apply: B. lia.
    + right. split => //. move => [?|?] //. by subst.
Qed.
Lemma strchr_ok (l : list Z) (m : mem) (p c : Z) (fuel : nat) :
  str m p l -> (length l < fuel)%nat ->
  (exists i, strchr fuel m p c = Val (p + i) /\ 0 <= i <= zlen l /\ znth 0 (l ++ [0]) i = c /\ forall j, 0 <= j < i -> znth 0 l j <> c) \/
  (strchr fuel m p c = Val 0 /\ ~ In c l /\ c <> 0).
Proof.
  elim: fuel l p => [|fuel IH] l p H F; first lia.
  case: l H F => [|a l] H F; cbn [strchr].
  - move/str_nil: H => H. rewrite /ld H. cbn [bind].
    destruct (Z.eqb_spec 0 c) as [<-|D].
    + left. exists 0. rewrite Z.add_0_r zlen_nil. repeat split; try lia.
    + right. cbn. repeat split => //; tauto || lia.
  - move/str_cons: H => [Ha [N S]]. rewrite /ld Ha. cbn [bind]. have L := zlen_nonneg l.
    destruct (Z.eqb_spec a c) as [->|D].
    + left. exists 0. rewrite Z.add_0_r zlen_cons. repeat split; try lia.
    + have -> : (a =? 0) = false by lia.
      case: (IH l (p + 1) S ltac:(cbn in F; lia)) => [[i [-> [Hi [E B]]]]|[-> [X Y]]].
      * left. exists (1 + i). rewrite zlen_cons Z.add_assoc. repeat split; try lia.
        -- cbn [app]. rewrite znth_cons_pos; first lia. by have -> : 1 + i - 1 = i by lia.
        -- move => j Hj. case: (Z.eq_dec j 0) => [->|?]; first by rewrite znth_cons_0; lia.
           rewrite znth_cons_pos; first lia. apply: B. lia.
      * right. repeat split => //. move => [?|?] //.
Qed.
Lemma strrchr_loop_ok (k : nat) (l : list Z) (m : mem) (p c : Z) :
  (forall i, 0 <= i <= Z.of_nat k -> m (p + i) = Some (znth 0 l i)) ->
  (exists i, strrchr_loop k m p c = Val (p + i) /\ 0 <= i <= Z.of_nat k /\ znth 0 l i = c /\ forall j, i < j <= Z.of_nat k -> znth 0 l j <> c) \/
  (strrchr_loop k m p c = Val 0 /\ forall j, 0 <= j <= Z.of_nat k -> znth 0 l j <> c).
Proof.
  elim: k => [|k IH] H; cbn [strrchr_loop]; rewrite /ld H; try lia; cbn [bind].
  - destruct (Z.eqb_spec (znth 0 l (Z.of_nat 0)) c) as [E|D].
    + left. exists 0. rewrite Z.add_0_r. repeat split => //; lia.
    + right. split => // j Hj. by have -> : j = Z.of_nat 0 by lia.
  - destruct (Z.eqb_spec (znth 0 l (Z.of_nat (S k))) c) as [E|D].
    + left. exists (Z.of_nat (S k)). repeat split => //; lia.
    + case: IH => [i Hi|[i [-> [Hi [E B]]]]|[-> B]].
      * apply: H. lia.
      * left. exists i. repeat split => //; try lia. move => j Hj. case: (Z.eq_dec j (Z.of_nat (S k))) => [->|?] //. apply: B. lia.
      * right. split => // j Hj. case: (Z.eq_dec j (Z.of_nat (S k))) => [->|?] //. apply: B. lia.
Qed.
Lemma strrchr_ok (l : list Z) (m : mem) (p c : Z) (fuel : nat) :
  str m p l -> (length l < fuel)%nat ->
  (exists i, strrchr fuel m p c = Val (p + i) /\ 0 <= i <= zlen l /\ znth 0 (l ++ [0]) i = c /\
     forall j, i < j <= zlen l -> znth 0 (l ++ [0]) j <> c) \/
  (strrchr fuel m p c = Val 0 /\ ~ In c l /\ c <> 0).
Proof.
  move => H F. rewrite /strrchr (strlen_ok l) //. cbn [bind]. have L := zlen_nonneg l.
  have Z : Z.of_nat (Z.to_nat (zlen l)) = zlen l by lia.
  case: (strrchr_loop_ok (Z.to_nat (zlen l)) (l ++ [0]) m p c).
  - rewrite Z => i Hi. case: (Z.eq_dec i (zlen l)) => [->|?].
    + rewrite znth_app2; first lia. rewrite Z.sub_diag. apply H.
    + rewrite znth_app1; first lia. apply H. lia.
  - rewrite Z. move => [i X]. left. by exists i.
  - move => [-> B]. rewrite Z in B. right. split => //. split.
    + move => I. have [i [Hi E]] : exists i, 0 <= i < zlen l /\ znth 0 l i = c.
      { have [n [Hn E]] := In_nth l c 0 I. exists (Z.of_nat n). rewrite /znth /zlen Nat2Z.id. split; [lia|by rewrite E]. }
      apply: (B i); first lia. rewrite znth_app1 //.
    + move => X. apply: (B (zlen l)); first lia. rewrite znth_app2; first lia. rewrite Z.sub_diag. by rewrite X.
Qed.
