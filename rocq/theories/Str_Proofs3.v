(** Proofs: memmove, fills, copies of strings. *)
From Verif Require Import Lib Str_Model Str_Spec Str_Proofs Str_Proofs2.
From Coq Require Import ssreflect.
Ltac Zify.zify_post_hook ::= Z.to_euclidean_division_equations.

Lemma memcpy32_x86_ok (n : Z) (m : mem) (d s : Z) :
  0 <= n -> mapped m d (4 * n) -> mapped m s (4 * n) -> d <= s \/ s + 4 * n <= d ->
  exists m', memcpy32_x86 n m d s = Val m' /\ replaced m m' d (4 * n) (fun i => m (s + i)).
Proof.
  move => N Md Ms O. have Z : Z.of_nat (Z.to_nat n) = n by lia.
  have := movsl_ok (Z.to_nat n) m d s. rewrite Z. by apply.
Qed.
Lemma memmove_x86_ok (n : Z) (m : mem) (d s : Z) :
  0 <= n -> mapped m d n -> mapped m s n ->
  exists m', memmove_x86 n m d s = Val m' /\ replaced m m' d n (fun i => m (s + i)).
Proof.
  move => N Md Ms. rewrite /memmove_x86. destruct ((d <=? s) || (s + n <=? d)) eqn:E.
  - apply: memcpy_x86_ok => //. lia.
  - have Z : Z.of_nat (Z.to_nat n) = n by lia. have := movsb_down_ok (Z.to_nat n) m d s. rewrite Z. apply => //. lia.
Qed.
Lemma memmove_c_ok (n : Z) (m : mem) (d s : Z) :
  0 <= n -> mapped m d n -> mapped m s n ->
  exists m', memmove_c n m d s = Val m' /\ replaced m m' d n (fun i => m (s + i)).
Proof.
  move => N Md Ms. rewrite /memmove_c. have Z : Z.of_nat (Z.to_nat n) = n by lia. destruct (Z.leb_spec d s) as [E|E].
  - have := movsb_ok (Z.to_nat n) m d s. rewrite Z. apply => //. by left.
  - have := movsb_down_ok (Z.to_nat n) m d s. rewrite Z. apply => //. lia.
Qed.

(** Fills *)
Lemma memset_ok (n : nat) (m : mem) (d c : Z) : mapped m d (Z.of_nat n) ->
  exists m', memset n m d c = Val m' /\ replaced m m' d (Z.of_nat n) (fun _ => Some (c mod 256)).
Proof.
  elim: n m d => [|n IH] m d Md.
  { exists m. split => // x. have -> : (d <=? x) && (x <? d + Z.of_nat 0) = false by lia. done. }
  cbn [memset].
  have [m1 [-> M1]] := sto_ok m d (c mod 256) ltac:(by have := Md 0; rewrite Z.add_0_r; apply; lia). cbn [bind].
  case: (IH m1 (d + 1)).
  - move => i Hi. rewrite M1. destruct (_ =? _); first done. rewrite -Z.add_assoc. apply: Md. lia.
  - move => m' [-> R]. exists m'. split => // x. rewrite R M1. move: (c mod 256) => v.
    destruct (Z.eqb_spec x d) as [->|D].
    + have -> : (d + 1 <=? d) && (d <? d + 1 + Z.of_nat n) = false by lia.
      by have -> : (d <=? d) && (d <? d + Z.of_nat (S n)) = true by lia.
    + by have -> : (d <=? x) && (x <? d + Z.of_nat (S n)) = (d + 1 <=? x) && (x <? d + 1 + Z.of_nat n) by lia.
Qed.
(** Byte [i] of a number *)
Lemma memset16_ok (n : nat) (m : mem) (d c : Z) : mapped m d (2 * Z.of_nat n) ->
  exists m', memset16 n m d c = Val m' /\
    replaced m m' d (2 * Z.of_nat n) (fun i => Some (c / 256 ^ (i mod 2) mod 256)).
Proof.
  elim: n m d => [|n IH] m d Md.
  { exists m. split => // x. have -> : (d <=? x) && (x <? d + 2 * Z.of_nat 0) = false by lia. done. }
  cbn [memset16].
  have [m1 [-> M1]] := sto_ok m d (c mod 256) ltac:(by have := Md 0; rewrite Z.add_0_r; apply; lia). cbn [bind].
  have D1 : m1 (d + 1) <> None by (rewrite M1; destruct (_ =? _) => //; apply: Md; lia).
  have [m2 [-> M2]] := sto_ok m1 (d + 1) (c / 256 mod 256) D1. cbn [bind].
  case: (IH m2 (d + 2)).
  - move => i Hi. rewrite M2 M1. do 2 (destruct (_ =? _) => //). rewrite -Z.add_assoc. apply: Md. lia.
  - move => m' [-> R]. exists m'. split => // x. rewrite R M2 M1.
    destruct (Z.eqb_spec x d) as [->|D].
    { have -> : (d + 2 <=? d) && (d <? d + 2 + 2 * Z.of_nat n) = false by lia.
      have -> : (d <=? d) && (d <? d + 2 * Z.of_nat (S n)) = true by lia. have -> : (d =? d + 1) = false by lia.
      rewrite Z.sub_diag. change (256 ^ (0 mod 2)) with 1. by rewrite Z.div_1_r. }
    destruct (Z.eqb_spec x (d + 1)) as [->|D'].
    { have -> : (d + 2 <=? d + 1) && (d + 1 <? d + 2 + 2 * Z.of_nat n) = false by lia.
      have -> : (d <=? d + 1) && (d + 1 <? d + 2 * Z.of_nat (S n)) = true by lia.
      have -> : d + 1 - d = 1 by lia. by change (256 ^ (1 mod 2)) with 256. }
    have -> : (d <=? x) && (x <? d + 2 * Z.of_nat (S n)) = (d + 2 <=? x) && (x <? d + 2 + 2 * Z.of_nat n) by lia.
    by have -> : (x - (d + 2)) mod 2 = (x - d) mod 2 by lia.
Qed.
Lemma memset32_ok (n : nat) (m : mem) (d c : Z) : mapped m d (4 * Z.of_nat n) ->
  exists m', memset32 n m d c = Val m' /\
    replaced m m' d (4 * Z.of_nat n) (fun i => Some (c / 256 ^ (i mod 4) mod 256)).
Proof.
  elim: n m d => [|n IH] m d Md.
  { exists m. split => // x. have -> : (d <=? x) && (x <? d + 4 * Z.of_nat 0) = false by lia. done. }
  cbn [memset32].
  have [m1 [-> M1]] := sto_ok m d (c mod 256) ltac:(by have := Md 0; rewrite Z.add_0_r; apply; lia). cbn [bind].
  have D1 : m1 (d + 1) <> None by (rewrite M1; destruct (_ =? _) => //; apply: Md; lia).
  have [m2 [-> M2]] := sto_ok m1 (d + 1) (c / 256 mod 256) D1. cbn [bind].
  have D2 : m2 (d + 2) <> None by (rewrite M2 M1; do 2 (destruct (_ =? _) => //); apply: Md; lia).
  have [m3 [-> M3]] := sto_ok m2 (d + 2) (c / 65536 mod 256) D2. cbn [bind].
  have D3 : m3 (d + 3) <> None by (rewrite M3 M2 M1; do 3 (destruct (_ =? _) => //); apply: Md; lia).
  have [m4 [-> M4]] := sto_ok m3 (d + 3) (c / 16777216 mod 256) D3. cbn [bind].
  have X : forall x, x < d \/ d + 4 <= x -> m4 x = m x.
  { move => x Hx. rewrite M4 M3 M2 M1.
    have -> : (x =? d + 3) = false by lia. have -> : (x =? d + 2) = false by lia. have -> : (x =? d + 1) = false by lia.
    by have -> : (x =? d) = false by lia. }
  have X4 : forall i, 0 <= i < 4 -> m4 (d + i) = Some (c / 256 ^ (i mod 4) mod 256).
  { move => i Hi. rewrite M4 M3 M2 M1. have [->|[->|[->| ->]]] : i = 0 \/ i = 1 \/ i = 2 \/ i = 3 by lia.
    - rewrite !Z.add_0_r. have -> : (d =? d + 3) = false by lia. have -> : (d =? d + 2) = false by lia. have -> : (d =? d + 1) = false by lia.
      rewrite Z.eqb_refl. change (256 ^ (0 mod 4)) with 1. by rewrite Z.div_1_r.
    - have -> : (d + 1 =? d + 3) = false by lia. have -> : (d + 1 =? d + 2) = false by lia. by rewrite Z.eqb_refl; change (256 ^ (1 mod 4)) with 256.
    - have -> : (d + 2 =? d + 3) = false by lia. by rewrite Z.eqb_refl; change (256 ^ (2 mod 4)) with 65536.
    - by rewrite Z.eqb_refl; change (256 ^ (3 mod 4)) with 16777216. }
  clear M1 M2 M3 M4 D1 D2 D3 m1 m2 m3.
  case: (IH m4 (d + 4)).
  - move => i Hi. rewrite X; first lia. rewrite -Z.add_assoc. apply: Md. lia.
  - move => m' [-> R]. exists m'. split => // x. rewrite R.
    destruct (Z_lt_dec x (d + 4)) as [L|L].
    + have -> : (d + 4 <=? x) && (x <? d + 4 + 4 * Z.of_nat n) = false by lia.
      destruct (Z_lt_dec x d).
      * have -> : (d <=? x) && (x <? d + 4 * Z.of_nat (S n)) = false by lia. apply: X. lia.
      * have -> : (d <=? x) && (x <? d + 4 * Z.of_nat (S n)) = true by lia. have {1}-> : x = d + (x - d) by lia. apply: X4. lia.
    + have -> : (d <=? x) && (x <? d + 4 * Z.of_nat (S n)) = (d + 4 <=? x) && (x <? d + 4 + 4 * Z.of_nat n) by lia.
      have -> : (x - (d + 4)) mod 4 = (x - d) mod 4 by lia.
      destruct ((d + 4 <=? x) && (x <? d + 4 + 4 * Z.of_nat n)) eqn:W => //. apply: X. lia.
Qed.
Lemma bzero_x86_ok (n : Z) (m : mem) (d : Z) : 0 <= n -> mapped m d n ->
  exists m', bzero_x86 n m d = Val m' /\ replaced m m' d n (fun _ => Some 0).
Proof.
  move => N Md. rewrite /bzero_x86.
  have Q : 4 * Z.of_nat (Z.to_nat (n / 4)) = n / 4 * 4 by lia.
  have R : Z.of_nat (Z.to_nat (n mod 4)) = n mod 4 by lia.
  have QR : n = n / 4 * 4 + n mod 4 by lia.
  have R0 : 0 <= n mod 4 by lia. have Q0 : 0 <= n / 4 * 4 by lia.
  move: (Z.to_nat (n / 4)) (Z.to_nat (n mod 4)) Q R => qn rn. move: (n / 4 * 4) (n mod 4) QR R0 Q0 => q r QR R0 Q0 Q R.
  case: (memset32_ok qn m d 0); first by (move => i Hi; apply: Md; lia).
  move => m1 [-> M1]. cbn [bind].
  case: (memset_ok rn m1 (d + q) 0).
  - move => i Hi. rewrite M1. destruct (_ && _) => //. rewrite -Z.add_assoc. apply: Md. lia.
  - move => m2 [-> M2]. exists m2. split => // x. rewrite M2 M1 Q R. rewrite Z.div_0_l; first by (have := Z.pow_pos_nonneg 256 ((x - d) mod 4); lia).
    change (0 mod 256) with 0.
    destruct ((d + q <=? x) && (x <? d + q + r)) eqn:E; first by have -> : (d <=? x) && (x <? d + n) = true by lia.
    have -> : (d <=? x) && (x <? d + n) = (d <=? x) && (x <? d + q) by lia. done.
Qed.

(** Copies of strings *)
Lemma strcpy_ok (l : list Z) (m : mem) (d s : Z) (fuel : nat) :
  str m s l -> (length l < fuel)%nat -> mapped m d (zlen l + 1) -> d <= s \/ s + zlen l < d ->
  exists m', strcpy fuel m d s = Val m' /\ replaced m m' d (zlen l + 1) (fun i => Some (znth 0 (l ++ [0]) i)).
Proof.
  elim: fuel l m d s => [|fuel IH] l m d s Hs F Md O; first lia.
  have D0 : m d <> None by (have := Md 0; rewrite Z.add_0_r; apply; have := zlen_nonneg l; lia).
  case: l Hs F Md O => [|a l] Hs F Md O; cbn [strcpy].
  - move/str_nil: Hs => Hs. rewrite /ld Hs. cbn [bind]. change (0 =? 0) with true. cbn iota.
    have [m1 [-> M1]] := sto_ok m d 0 D0. exists m1. split => // x. rewrite M1 zlen_nil.
    destruct (Z.eqb_spec x d) as [->|D].
    + have -> : (d <=? d) && (d <? d + (0 + 1)) = true by lia. by rewrite Z.sub_diag.
    + by have -> : (d <=? x) && (x <? d + (0 + 1)) = false by lia.
  - have L := zlen_nonneg l. rewrite zlen_cons in Md, O.
    have Hs0 := Hs. move/str_cons: Hs0 => [Ha [Na Hl]]. rewrite /ld Ha. cbn [bind]. have -> : (a =? 0) = false by lia.
    have [m1 [-> M1]] := sto_ok m d a D0. cbn [bind].
    case: (IH l m1 (d + 1) (s + 1)).
    + (* the rest of the source is untouched *)
      move: Hl => [B [Z E]]. split; last split => //.
      * move => i Hi. rewrite M1. have -> : (s + 1 + i =? d) = false by lia. by apply: B.
      * rewrite M1. have -> : (s + 1 + zlen l =? d) = false by lia. done.
    + cbn in F. lia.
    + move => i Hi. rewrite M1. destruct (_ =? _); first done. rewrite -Z.add_assoc. apply: Md. lia.
    + lia.
    + move => m' [-> R]. exists m'. split => // x. rewrite R M1 zlen_cons.
      destruct (Z.eqb_spec x d) as [->|D].
      * have -> : (d + 1 <=? d) && (d <? d + 1 + (zlen l + 1)) = false by lia.
        have -> : (d <=? d) && (d <? d + (1 + zlen l + 1)) = true by lia. by rewrite Z.sub_diag.
      * have -> : (d <=? x) && (x <? d + (1 + zlen l + 1)) = (d + 1 <=? x) && (x <? d + 1 + (zlen l + 1)) by lia.
        destruct ((d + 1 <=? x) && (x <? d + 1 + (zlen l + 1))) eqn:E => //.
        cbn [app]. rewrite znth_cons_pos; first lia. do 2 f_equal. lia.
Qed.
Lemma strcat_ok (k l : list Z) (m : mem) (d s : Z) (fuel : nat) :
  str m d k -> str m s l -> (length k < fuel)%nat -> (length l < fuel)%nat -> mapped m (d + zlen k) (zlen l + 1) ->
  apart d (zlen k + zlen l + 1) s (zlen l + 1) ->
  exists m', strcat fuel m d s = Val m' /\ replaced m m' (d + zlen k) (zlen l + 1) (fun i => Some (znth 0 (l ++ [0]) i)).
Proof.
  move => Hk Hl Fk Fl Md A. rewrite /strcat (strlen_ok k) //. cbn [bind]. apply: strcpy_ok => //.
  rewrite /apart in A. have := zlen_nonneg k. lia.
Qed.

(** The strings cut after [n] bytes; one NUL if there is room; the byte behind the bound must exist *)
Lemma strncpy_ok (n : nat) (l : list Z) (m : mem) (d s : Z) :
  cut m s (Z.of_nat n) l -> (zlen l = Z.of_nat n -> m (s + Z.of_nat n) <> None) -> mapped m d (Z.min (Z.of_nat n) (zlen l + 1)) -> apart d (Z.min (Z.of_nat n) (zlen l + 1)) s (zlen l + 1) ->
  exists m', strncpy n m d s = Val m' /\ replaced m m' d (Z.min (Z.of_nat n) (zlen l + 1)) (fun i => Some (znth 0 (l ++ [0]) i)).
Proof.
  elim: n l m d s => [|n IH] l m d s Hs Mb Md O.
  { have El : l = [] by apply: cut_0 Hs. subst l. cbn [strncpy]. rewrite Z.add_0_r in Mb. have [a [-> _]] := ld_ok m s (Mb (eq_refl _)). cbn [bind].
    exists m. split => // x. by have -> : (d <=? x) && (x <? d + Z.min (Z.of_nat 0) (zlen [] + 1)) = false by (change (zlen (@nil Z)) with 0; lia). }
  have D0 : m d <> None by (have := Md 0; rewrite Z.add_0_r; apply; have := zlen_nonneg l; lia).
  cbn [strncpy]. rewrite /apart in O.
  case: (cut_S _ _ _ _ Hs) => [[El Zl]|[a [r [El [Zl [Na Hr]]]]]]; subst l; rewrite /ld Zl; cbn [bind].
  - change (0 =? 0) with true. cbn iota.
    have [m1 [-> M1]] := sto_ok m d 0 D0. exists m1. split => // x. rewrite M1 zlen_nil.
    have -> : Z.min (Z.of_nat (S n)) (0 + 1) = 1 by lia.
    destruct (Z.eqb_spec x d) as [->|D].
    + have -> : (d <=? d) && (d <? d + 1) = true by lia. by rewrite Z.sub_diag.
    + by have -> : (d <=? x) && (x <? d + 1) = false by lia.
  - have -> : (a =? 0) = false by lia. have [m1 [-> M1]] := sto_ok m d a D0. cbn [bind].
    have L := zlen_nonneg r. have K : zlen r <= Z.of_nat n by apply Hr. rewrite zlen_cons in O, Md, Mb.
    case: (IH r m1 (d + 1) (s + 1)).
    + move: Hr => [B [Z [Ln E]]]. split; last split => //; last split => //.
      * move => i Hi. rewrite M1. have -> : (s + 1 + i =? d) = false by lia. by apply: B.
      * move => W. rewrite M1. have -> : (s + 1 + zlen r =? d) = false by lia. by apply: E.
    + move => W. rewrite M1. have -> : (s + 1 + Z.of_nat n =? d) = false by lia.
      have <- : s + Z.of_nat (S n) = s + 1 + Z.of_nat n by lia. apply: Mb. lia.
    + move => i Hi. rewrite M1. destruct (_ =? _); first done. rewrite -Z.add_assoc. apply: Md. lia.
    + rewrite /apart. lia.
    + move => m' [-> R]. exists m'. split => // x. rewrite R M1 zlen_cons.
      destruct (Z.eqb_spec x d) as [->|D].
      * have -> : (d + 1 <=? d) && (d <? d + 1 + Z.min (Z.of_nat n) (zlen r + 1)) = false by lia.
        have -> : (d <=? d) && (d <? d + Z.min (Z.of_nat (S n)) (1 + zlen r + 1)) = true by lia. by rewrite Z.sub_diag.
      * have -> : (d <=? x) && (x <? d + Z.min (Z.of_nat (S n)) (1 + zlen r + 1)) = (d + 1 <=? x) && (x <? d + 1 + Z.min (Z.of_nat n) (zlen r + 1)) by lia.
        destruct ((d + 1 <=? x) && (x <? d + 1 + Z.min (Z.of_nat n) (zlen r + 1))) eqn:E => //.
        cbn [app]. rewrite znth_cons_pos; first lia. do 2 f_equal. lia.
Qed.
Lemma strncat_loop_ok (n : nat) (l : list Z) (m : mem) (d s : Z) :
  cut m s (Z.of_nat n) l -> (zlen l = Z.of_nat n -> m (s + Z.of_nat n) <> None) -> mapped m d (zlen l + 1) -> apart d (zlen l + 1) s (zlen l + 1) ->
  exists m', strncat_loop n m d s = Val m' /\ replaced m m' d (zlen l + 1) (fun i => Some (znth 0 (l ++ [0]) i)).
Proof.
  elim: n l m d s => [|n IH] l m d s Hs Mb Md O.
  { have El : l = [] by apply: cut_0 Hs. subst l. cbn [strncat_loop]. rewrite Z.add_0_r in Mb. have [a [-> _]] := ld_ok m s (Mb (eq_refl _)). cbn [bind].
    have D0 : m d <> None by (have := Md 0; rewrite Z.add_0_r; apply; change (zlen (@nil Z)) with 0; lia).
    have [m1 [-> M1]] := sto_ok m d 0 D0. exists m1. split => // x. rewrite M1 zlen_nil.
    destruct (Z.eqb_spec x d) as [->|D].
    + have -> : (d <=? d) && (d <? d + (0 + 1)) = true by lia. by rewrite Z.sub_diag.
    + by have -> : (d <=? x) && (x <? d + (0 + 1)) = false by lia. }
  have D0 : m d <> None by (have := Md 0; rewrite Z.add_0_r; apply; have := zlen_nonneg l; lia).
  cbn [strncat_loop]. rewrite /apart in O.
  case: (cut_S _ _ _ _ Hs) => [[El Zl]|[a [r [El [Zl [Na Hr]]]]]]; subst l; rewrite /ld Zl; cbn [bind].
  - change (0 =? 0) with true. cbn iota.
    have [m1 [-> M1]] := sto_ok m d 0 D0. exists m1. split => // x. rewrite M1 zlen_nil.
    destruct (Z.eqb_spec x d) as [->|D].
    + have -> : (d <=? d) && (d <? d + (0 + 1)) = true by lia. by rewrite Z.sub_diag.
    + by have -> : (d <=? x) && (x <? d + (0 + 1)) = false by lia.
  - have -> : (a =? 0) = false by lia. have [m1 [-> M1]] := sto_ok m d a D0. cbn [bind].
    have L := zlen_nonneg r. have K : zlen r <= Z.of_nat n by apply Hr. rewrite zlen_cons in O, Md, Mb.
    case: (IH r m1 (d + 1) (s + 1)).
    + move: Hr => [B [Z [Ln E]]]. split; last split => //; last split => //.
      * move => i Hi. rewrite M1. have -> : (s + 1 + i =? d) = false by lia. by apply: B.
      * move => W. rewrite M1. have -> : (s + 1 + zlen r =? d) = false by lia. by apply: E.
    + move => W. rewrite M1. have -> : (s + 1 + Z.of_nat n =? d) = false by lia.
      have <- : s + Z.of_nat (S n) = s + 1 + Z.of_nat n by lia. apply: Mb. lia.
    + move => i Hi. rewrite M1. destruct (_ =? _); first done. rewrite -Z.add_assoc. apply: Md. lia.
    + rewrite /apart. lia.
    + move => m' [-> R]. exists m'. split => // x. rewrite R M1 zlen_cons.
      destruct (Z.eqb_spec x d) as [->|D].
      * have -> : (d + 1 <=? d) && (d <? d + 1 + (zlen r + 1)) = false by lia.
        have -> : (d <=? d) && (d <? d + (1 + zlen r + 1)) = true by lia. by rewrite Z.sub_diag.
      * have -> : (d <=? x) && (x <? d + (1 + zlen r + 1)) = (d + 1 <=? x) && (x <? d + 1 + (zlen r + 1)) by lia.
        destruct ((d + 1 <=? x) && (x <? d + 1 + (zlen r + 1))) eqn:E => //.
        cbn [app]. rewrite znth_cons_pos; first lia. do 2 f_equal. lia.
Qed.
Lemma strncat_ok (n : nat) (k l : list Z) (m : mem) (d s : Z) (fuel : nat) :
  str m d k -> (length k < fuel)%nat -> cut m s (Z.of_nat n) l -> (zlen l = Z.of_nat n -> m (s + Z.of_nat n) <> None) ->
  mapped m (d + zlen k) (zlen l + 1) -> apart (d + zlen k) (zlen l + 1) s (zlen l + 1) ->
  exists m', strncat fuel n m d s = Val m' /\ replaced m m' (d + zlen k) (zlen l + 1) (fun i => Some (znth 0 (l ++ [0]) i)).
Proof. move => Hk Fk Hl Mb Md A. rewrite /strncat (strlen_ok k) //. cbn [bind]. by apply: strncat_loop_ok. Qed.
