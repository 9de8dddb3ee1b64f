(** Proofs: strstr; copies and fills. *)
From Verif Require Import Lib Str_Model Str_Spec Str_Proofs.
From Coq Require Import ssreflect.

Lemma str_cut (m : mem) (p n : Z) (l : list Z) : str m p l -> zlen l <= n -> cut m p n l.
Proof. move => [H1 [H2 H3]] H. repeat split => //. Qed.
Lemma bytes_firstn (m : mem) (p : Z) (n : nat) (l : list Z) : bytes m p l -> bytes m p (firstn n l).
Proof. move => H i. rewrite zlen_firstn => Hi. rewrite znth_firstn; first lia. apply: H. lia. Qed.
Lemma Forall_firstn (P : Z -> Prop) (n : nat) (l : list Z) : Forall P l -> Forall P (firstn n l).
Proof. elim: n l => [|n IH] [|a l] H //=; try by constructor. inversion H; subst. constructor => //. by apply: IH. Qed.
Lemma str_cut_firstn (m : mem) (p : Z) (n : nat) (l : list Z) :
  str m p l -> Z.of_nat n <= zlen l -> cut m p (Z.of_nat n) (firstn n l).
Proof.
  move => [H1 [H2 H3]] H. split; first by apply: bytes_firstn. split; first by apply: Forall_firstn.
  rewrite zlen_firstn. lia.
Qed.
Lemma occurs_0 (k l : list Z) : occurs k l 0 <-> firstn (length k) l = k.
Proof.
  split.
  - move => [a [b [-> A]]]. have -> : a = [] by case: a A => // x a; rewrite zlen_cons; have := zlen_nonneg a; lia.
    cbn [app]. by rewrite firstn_app Nat.sub_diag firstn_O firstn_all app_nil_r.
  - move => H. exists [], (skipn (length k) l). split => //. cbn [app]. by rewrite -{1}H firstn_skipn.
Qed.
Lemma occurs_S (k l : list Z) (a i : Z) : 0 <= i -> occurs k (a :: l) (1 + i) <-> occurs k l i.
Proof.
  move => Hi. split.
  - move => [x [b [E A]]]. case: x E A => [|y x]; first by rewrite zlen_nil; lia.
    rewrite zlen_cons /=. case => _ -> A. exists x, b. split => //. lia.
  - move => [x [b [-> A]]]. exists (a :: x), b. rewrite zlen_cons. split => //. lia.
Qed.
Lemma occurs_len (k l : list Z) (i : Z) : occurs k l i -> 0 <= i /\ i + zlen k <= zlen l.
Proof. move => [a [b [-> <-]]]. rewrite !zlen_app. have := zlen_nonneg a. have := zlen_nonneg b. lia. Qed.

Lemma strstr_loop_ok (sg : bool) (fuel : nat) (r k : list Z) (m : mem) (h q : Z) :
  str m h r -> str m q k -> byte_list r -> byte_list k -> k <> [] -> (length r < fuel)%nat ->
  (exists i, strstr_loop sg fuel m h q (zlen r) (zlen k) = Val (h + i) /\ occurs k r i /\ forall j, j < i -> ~ occurs k r j) \/
  (strstr_loop sg fuel m h q (zlen r) (zlen k) = Val 0 /\ forall j, ~ occurs k r j).
Proof.
  elim: fuel r h => [|fuel IH] r h Hr Hk Br Bk N F; first lia.
  have K : 1 <= zlen k. { case: k N {IH Hk Bk} => // x k _. rewrite zlen_cons. have := zlen_nonneg k. lia. }
  cbn [strstr_loop].
  case: r Hr Br F => [|a r] Hr Br F.
  - move/str_nil: Hr => Hr. rewrite /ld Hr /=. right. split => // j /occurs_len. rewrite zlen_nil. lia.
  - have Hr' := Hr. move/str_cons: Hr' => [Ha [Na Hr2]]. rewrite /ld Ha. cbn [bind].
    have -> : (a =? 0) = false by lia. cbn [orb].
    destruct (Z.ltb_spec (zlen (a :: r)) (zlen k)) as [L|L].
    { right. split => // j /occurs_len. lia. }
    have [b [k' Ek]] : exists b k', k = b :: k' by (case: k N {IH Hk Bk K L} => // b k' _; by exists b, k').
    have Hb : m q = Some b. { move: Hk. rewrite Ek. by move/str_cons => [? _]. }
    rewrite Hb. cbn [bind].
    have Sub : zlen (a :: r) - 1 = zlen r by rewrite zlen_cons; lia.
    rewrite Sub.
    have Br2 : byte_list r by inversion Br.
    have Next : ~ occurs k (a :: r) 0 ->
      (exists i, strstr_loop sg fuel m (h + 1) q (zlen r) (zlen k) = Val (h + i) /\ occurs k (a :: r) i /\ forall j, j < i -> ~ occurs k (a :: r) j) \/
      (strstr_loop sg fuel m (h + 1) q (zlen r) (zlen k) = Val 0 /\ forall j, ~ occurs k (a :: r) j).
    { move => O. case: (IH r (h + 1) Hr2 Hk Br2 Bk N ltac:(cbn in F; lia)) => [[i [-> [Oi B]]]|[-> B]].
      - left. have [Pi _] := occurs_len _ _ _ Oi. exists (1 + i). split; first by (f_equal; lia). split; first by apply occurs_S.
        move => j Hj Oj. have [Pj _] := occurs_len _ _ _ Oj. case: (Z.eq_dec j 0) => [Z0|?]; first by (subst j).
        apply: (B (j - 1)); first lia. apply/(occurs_S k r a); first lia. by have -> : 1 + (j - 1) = j by lia.
      - right. split => // j Oj. have [Pj _] := occurs_len _ _ _ Oj. case: (Z.eq_dec j 0) => [Z0|?]; first by (subst j).
        apply: (B (j - 1)). apply/(occurs_S k r a); first lia. by have -> : 1 + (j - 1) = j by lia. }
    destruct (Z.eqb_spec a b) as [E|D].
    + have Zk : Z.of_nat (Z.to_nat (zlen k)) = zlen k by lia.
      have Lk : Z.to_nat (zlen k) = length k by rewrite /zlen; lia.
      case: (strncmp_ok sg (Z.to_nat (zlen k)) (firstn (length k) (a :: r)) k m h q).
      * rewrite Lk. apply: str_cut_firstn => //.
      * rewrite Zk. apply: str_cut => //. lia.
      * by apply: Forall_firstn.
      * done.
      * move => v [-> [V _]]. cbn [bind]. destruct (Z.eqb_spec v 0) as [V0|V0].
        -- left. exists 0. rewrite Z.add_0_r. split => //. split; first by apply occurs_0, V.
           move => j Hj /occurs_len. lia.
        -- apply: Next. move/occurs_0 => X. by apply V0, V.
    + apply: Next. move/occurs_0. rewrite Ek. cbn. by case.
Qed.
Lemma strstr_ok (sg : bool) (fuel : nat) (l k : list Z) (m : mem) (p q : Z) :
  str m p l -> str m q k -> byte_list l -> byte_list k -> k <> [] -> (length l < fuel)%nat -> (length k < fuel)%nat ->
  (exists i, strstr sg fuel m p q = Val (p + i) /\ occurs k l i /\ forall j, j < i -> ~ occurs k l j) \/
  (strstr sg fuel m p q = Val 0 /\ forall j, ~ occurs k l j).
Proof.
  move => Hl Hk Bl Bk N F G. rewrite /strstr. 
  have [b [k' Ek]] : exists b k', k = b :: k' by (case: k N {Hk Bk G} => // b k' _; by exists b, k').
  have [Hb Nb] : m q = Some b /\ b <> 0. { move: Hk. rewrite Ek. move/str_cons. tauto. }
  case: l Hl Bl F => [|a l] Hl Bl F.
  - move/str_nil: Hl => Hl. rewrite /ld Hl /=. right. split => // j /occurs_len. rewrite zlen_nil Ek zlen_cons. have := zlen_nonneg k'. lia.
  - have [Ha Na] : m p = Some a /\ a <> 0 by move/str_cons: Hl; tauto.
    have La : ld m p = Val a by rewrite /ld Ha. have Lb : ld m q = Val b by rewrite /ld Hb.
    rewrite La Lb. cbn [bind]. have -> : (a =? 0) = false by lia. have -> : (b =? 0) = false by lia.
    rewrite (strlen_ok (a :: l)) // (strlen_ok k) //. cbn [bind]. by apply: strstr_loop_ok.
Qed.

(** Copies *)
Lemma sto_ok (m : mem) (p b : Z) : m p <> None -> exists m', sto m p b = Val m' /\ forall x, m' x = if x =? p then Some b else m x.
Proof. rewrite /sto. case: (m p) => // a _. eexists. by split. Qed.
Lemma ld_ok (m : mem) (p : Z) : m p <> None -> exists b, ld m p = Val b /\ m p = Some b.
Proof. rewrite /ld. case: (m p) => // a _. by exists a. Qed.

Lemma movsb_ok (n : nat) (m : mem) (d s : Z) :
  mapped m d (Z.of_nat n) -> mapped m s (Z.of_nat n) -> d <= s \/ s + Z.of_nat n <= d ->
  exists m', movsb n m d s = Val m' /\ replaced m m' d (Z.of_nat n) (fun i => m (s + i)).
Proof.
  elim: n m d s => [|n IH] m d s Md Ms O.
  { exists m. split => // x. have -> : (d <=? x) && (x <? d + Z.of_nat 0) = false by lia. done. }
  cbn [movsb].
  have [a [-> A]] := ld_ok m s ltac:(by have := Ms 0; rewrite Z.add_0_r; apply; lia). cbn [bind].
  have [m1 [-> M1]] := sto_ok m d a ltac:(by have := Md 0; rewrite Z.add_0_r; apply; lia). cbn [bind].
  case: (IH m1 (d + 1) (s + 1)).
  - move => i Hi. rewrite M1. destruct (d + 1 + i =? d); first done. rewrite -Z.add_assoc. apply: Md. lia.
  - move => i Hi. rewrite M1. destruct (s + 1 + i =? d); first done. rewrite -Z.add_assoc. apply: Ms. lia.
  - lia.
  - move => m' [-> R]. exists m'. split => // x. rewrite R.
    destruct (Z.eqb_spec x d) as [->|D].
    + have -> : (d + 1 <=? d) && (d <? d + 1 + Z.of_nat n) = false by lia.
      have -> : (d <=? d) && (d <? d + Z.of_nat (S n)) = true by lia.
      rewrite M1 Z.eqb_refl Z.sub_diag Z.add_0_r. by rewrite A.
    + have -> : (d <=? x) && (x <? d + Z.of_nat (S n)) = (d + 1 <=? x) && (x <? d + 1 + Z.of_nat n) by lia.
      destruct ((d + 1 <=? x) && (x <? d + 1 + Z.of_nat n)) eqn:E.
      * rewrite M1. have -> : s + 1 + (x - (d + 1)) = s + (x - d) by lia.
        have -> : (s + (x - d) =? d) = false by lia. done.
      * rewrite M1. by have -> : (x =? d) = false by lia.
Qed.

Lemma movsl_ok (n : nat) (m : mem) (d s : Z) :
  mapped m d (4 * Z.of_nat n) -> mapped m s (4 * Z.of_nat n) -> d <= s \/ s + 4 * Z.of_nat n <= d ->
  exists m', movsl n m d s = Val m' /\ replaced m m' d (4 * Z.of_nat n) (fun i => m (s + i)).
Proof.
  elim: n m d s => [|n IH] m d s Md Ms O.
  { exists m. split => // x. have -> : (d <=? x) && (x <? d + 4 * Z.of_nat 0) = false by lia. done. }
  cbn [movsl].
  have [a [-> A]] := ld_ok m s ltac:(by have := Ms 0; rewrite Z.add_0_r; apply; lia). cbn [bind].
  have [b [-> B]] := ld_ok m (s + 1) ltac:(apply: Ms; lia). cbn [bind].
  have [c [-> C]] := ld_ok m (s + 2) ltac:(apply: Ms; lia). cbn [bind].
  have [e [-> E]] := ld_ok m (s + 3) ltac:(apply: Ms; lia). cbn [bind].
  have [m1 [-> M1]] := sto_ok m d a ltac:(by have := Md 0; rewrite Z.add_0_r; apply; lia). cbn [bind].
  have D1 : m1 (d + 1) <> None by (rewrite M1; destruct (_ =? _) => //; apply: Md; lia).
  have [m2 [-> M2]] := sto_ok m1 (d + 1) b D1. cbn [bind].
  have D2 : m2 (d + 2) <> None by (rewrite M2 M1; do 2 (destruct (_ =? _) => //); apply: Md; lia).
  have [m3 [-> M3]] := sto_ok m2 (d + 2) c D2. cbn [bind].
  have D3 : m3 (d + 3) <> None by (rewrite M3 M2 M1; do 3 (destruct (_ =? _) => //); apply: Md; lia).
  have [m4 [-> M4]] := sto_ok m3 (d + 3) e D3. cbn [bind].
  have X : forall x, x < d \/ d + 4 <= x -> m4 x = m x.
  { move => x Hx. rewrite M4 M3 M2 M1.
    have -> : (x =? d + 3) = false by lia. have -> : (x =? d + 2) = false by lia. have -> : (x =? d + 1) = false by lia.
    by have -> : (x =? d) = false by lia. }
  have X4 : forall i, 0 <= i < 4 -> m4 (d + i) = m (s + i).
  { move => i Hi. rewrite M4 M3 M2 M1. have [->|[->|[->| ->]]] : i = 0 \/ i = 1 \/ i = 2 \/ i = 3 by lia.
    - rewrite !Z.add_0_r. have -> : (d =? d + 3) = false by lia. have -> : (d =? d + 2) = false by lia. have -> : (d =? d + 1) = false by lia.
      by rewrite Z.eqb_refl A.
    - have -> : (d + 1 =? d + 3) = false by lia. have -> : (d + 1 =? d + 2) = false by lia. by rewrite Z.eqb_refl B.
    - have -> : (d + 2 =? d + 3) = false by lia. by rewrite Z.eqb_refl C.
    - by rewrite Z.eqb_refl E. }
  clear M1 M2 M3 M4 D1 D2 D3 m1 m2 m3.
  have Mp : forall x, m x <> None -> m4 x <> None.
  { move => x Hx. destruct (Z_lt_dec x d); first by rewrite X; [lia|]. destruct (Z_le_dec (d + 4) x); first by rewrite X; [lia|].
    have -> : x = d + (x - d) by lia. rewrite X4; first lia. apply: Ms. lia. }
  case: (IH m4 (d + 4) (s + 4)).
  - move => i Hi. apply: Mp. rewrite -Z.add_assoc. apply: Md. lia.
  - move => i Hi. apply: Mp. rewrite -Z.add_assoc. apply: Ms. lia.
  - lia.
  - move => m' [-> R]. exists m'. split => // x. rewrite R.
    destruct (Z_lt_dec x (d + 4)) as [L|L].
    + have -> : (d + 4 <=? x) && (x <? d + 4 + 4 * Z.of_nat n) = false by lia.
      destruct (Z_lt_dec x d).
      * have -> : (d <=? x) && (x <? d + 4 * Z.of_nat (S n)) = false by lia. apply: X. lia.
      * have -> : (d <=? x) && (x <? d + 4 * Z.of_nat (S n)) = true by lia. have {1}-> : x = d + (x - d) by lia. apply: X4. lia.
    + have -> : (d <=? x) && (x <? d + 4 * Z.of_nat (S n)) = (d + 4 <=? x) && (x <? d + 4 + 4 * Z.of_nat n) by lia.
      destruct ((d + 4 <=? x) && (x <? d + 4 + 4 * Z.of_nat n)) eqn:W.
      * have -> : s + 4 + (x - (d + 4)) = s + (x - d) by lia. apply: X. lia.
      * apply: X. lia.
Qed.

Lemma movsb_down_ok (n : nat) (m : mem) (d s : Z) :
  mapped m d (Z.of_nat n) -> mapped m s (Z.of_nat n) -> s <= d ->
  exists m', movsb_down n m d s = Val m' /\ replaced m m' d (Z.of_nat n) (fun i => m (s + i)).
Proof.
  elim: n m => [|n IH] m Md Ms O.
  { exists m. split => // x. have -> : (d <=? x) && (x <? d + Z.of_nat 0) = false by lia. done. }
  cbn [movsb_down].
  have [a [-> A]] := ld_ok m (s + Z.of_nat n) ltac:(apply: Ms; lia). cbn [bind].
  have [m1 [-> M1]] := sto_ok m (d + Z.of_nat n) a ltac:(apply: Md; lia). cbn [bind].
  case: (IH m1).
  - move => i Hi. rewrite M1. destruct (_ =? _); first done. apply: Md. lia.
  - move => i Hi. rewrite M1. destruct (_ =? _); first done. apply: Ms. lia.
  - lia.
  - move => m' [-> R]. exists m'. split => // x. rewrite R.
    destruct (Z.eqb_spec x (d + Z.of_nat n)) as [->|D].
    + have -> : (d <=? d + Z.of_nat n) && (d + Z.of_nat n <? d + Z.of_nat n) = false by lia.
      have -> : (d <=? d + Z.of_nat n) && (d + Z.of_nat n <? d + Z.of_nat (S n)) = true by lia.
      rewrite M1 Z.eqb_refl -A. f_equal. lia.
    + have -> : (d <=? x) && (x <? d + Z.of_nat (S n)) = (d <=? x) && (x <? d + Z.of_nat n) by lia.
      destruct ((d <=? x) && (x <? d + Z.of_nat n)) eqn:E.
      * rewrite M1. have -> : (s + (x - d) =? d + Z.of_nat n) = false by lia. done.
      * rewrite M1. by have -> : (x =? d + Z.of_nat n) = false by lia.
Qed.

Ltac Zify.zify_post_hook ::= Z.to_euclidean_division_equations.

Lemma memcpy_x86_ok (n : Z) (m : mem) (d s : Z) :
  0 <= n -> mapped m d n -> mapped m s n -> d <= s \/ s + n <= d ->
  exists m', memcpy_x86 n m d s = Val m' /\ replaced m m' d n (fun i => m (s + i)).
Proof.
  move => N Md Ms O. rewrite /memcpy_x86.
  have Q : 4 * Z.of_nat (Z.to_nat (n / 4)) = n / 4 * 4 by lia.
  have R : Z.of_nat (Z.to_nat (n mod 4)) = n mod 4 by lia.
  have QR : n = n / 4 * 4 + n mod 4 by lia.
  have R0 : 0 <= n mod 4 by lia. have Q0 : 0 <= n / 4 * 4 by lia.
  move: (Z.to_nat (n / 4)) (Z.to_nat (n mod 4)) Q R => qn rn. move: (n / 4 * 4) (n mod 4) QR R0 Q0 => q r QR R0 Q0 Q R.
  case: (movsl_ok qn m d s).
  - move => i Hi. apply: Md. lia.
  - move => i Hi. apply: Ms. lia.
  - lia.
  - move => m1 [-> M1]. cbn [bind].
    have X : forall x, m x <> None -> m1 x <> None.
    { move => x Hx. rewrite M1. destruct ((d <=? x) && (x <? d + 4 * Z.of_nat qn)) eqn:E => //. apply: Ms. lia. }
    case: (movsb_ok rn m1 (d + q) (s + q)).
    + move => i Hi. apply: X. rewrite -Z.add_assoc. apply: Md. lia.
    + move => i Hi. apply: X. rewrite -Z.add_assoc. apply: Ms. lia.
    + lia.
    + move => m2 [-> M2]. exists m2. split => // x. rewrite M2 !M1 Q R.
      destruct ((d + q <=? x) && (x <? d + q + r)) eqn:E.
      * have -> : (d <=? x) && (x <? d + n) = true by lia.
        have -> : s + q + (x - (d + q)) = s + (x - d) by lia.
        have -> : (d <=? s + (x - d)) && (s + (x - d) <? d + q) = false by lia. done.
      * destruct ((d <=? x) && (x <? d + q)) eqn:G.
        -- by have -> : (d <=? x) && (x <? d + n) = true by lia.
        -- by have -> : (d <=? x) && (x <? d + n) = false by lia.
Qed.
