(** Where the string functions differ from those of C. *)
From Verif Require Import Lib Str_Model Str_Spec Str_Proofs.
From Coq Require Import ssreflect.

(** Memory with [l] at [p] *)
Definition at_ (p : Z) (l : list Z) : mem := fun x => if (p <=? x) && (x <? p + zlen l) then Some (znth 0 l (x - p)) else None.
Lemma at_bytes (p : Z) (l : list Z) : bytes (at_ p l) p l.
Proof. move => i Hi. rewrite /at_. have -> : (p <=? p + i) && (p + i <? p + zlen l) = true by lia. do 2 f_equal. lia. Qed.
Lemma at_str (p : Z) (l : list Z) : nonzero l -> str (at_ p (l ++ [0])) p l.
Proof.
  move => N. have L := zlen_nonneg l. split; last split => //.
  - move => i Hi. rewrite (at_bytes p (l ++ [0])) ?zlen_app; first by (change (zlen [0]) with 1; lia). by rewrite znth_app1; first lia.
  - rewrite (at_bytes p (l ++ [0])) ?zlen_app; first by (change (zlen [0]) with 1; lia). rewrite znth_app2; first lia. by rewrite Z.sub_diag.
Qed.

(** x86: 'a' and the byte 0xC8 *)
Lemma signed_order : exists (l k : list Z) (m : mem) (p q v : Z),
  str m p l /\ str m q k /\ byte_list l /\ byte_list k /\ strcmp true 9 m p q = Val v /\ memcmp true 1 m p q = Val v /\
  (v ?= 0) = Gt /\ order (fun b => b) l k = Lt.
Proof.
  exists [97], [200], (at_ 16 [97; 0; 200; 0]), 16, 18, 153.
  split. { apply/Str_Proofs.str_cons. split => //. split => //. by apply/Str_Proofs.str_nil. }
  split. { apply/Str_Proofs.str_cons. split => //. split => //. by apply/Str_Proofs.str_nil. }
  split. { repeat constructor; lia. } split. { repeat constructor; lia. }
  by repeat split; vm_compute.
Qed.
(** The byte behind the bound is read *)
Lemma overread : exists (l : list Z) (m : mem) (p d : Z) (n : nat),
  cut m p (Z.of_nat n) l /\ mapped m d (Z.of_nat n) /\ apart d (Z.of_nat n) p (Z.of_nat n) /\
  strnlen n m p = Fault /\ strncpy n m d p = Fault.
Proof.
  exists [97; 98], (at_ 16 [0; 0; 97; 98]), 18, 16, 2%nat. split.
  { split; first by (move => i; change (zlen [97; 98]) with 2 => Hi; have [->| ->] : i = 0 \/ i = 1 by lia).
    split; first by repeat constructor. by change (zlen [97; 98]) with 2. }
  split. { move => i Hi. by have [->| ->] : i = 0 \/ i = 1 by lia. }
  split; first by (rewrite /apart; lia). by split; vm_compute.
Qed.
(** C: the rest of the [n] bytes is zero *)
Lemma no_padding : exists (l : list Z) (m m' : mem) (d s : Z) (n : nat),
  str m s l /\ mapped m d (Z.of_nat n) /\ mapped m s (Z.of_nat n + 1) /\ apart d (Z.of_nat n) s (Z.of_nat n + 1) /\
  strncpy n m d s = Val m' /\ ~ replaced m m' d (Z.of_nat n) (fun i => Some (znth 0 l i)).
Proof.
  exists [97], (at_ 16 [7; 7; 7; 97; 0; 0; 0]), (fun x => if x =? 17 then Some 0 else if x =? 16 then Some 97 else at_ 16 [7; 7; 7; 97; 0; 0; 0] x), 16, 19, 3%nat.
  split. { apply/Str_Proofs.str_cons. split => //. split => //. by apply/Str_Proofs.str_nil. }
  split. { move => i Hi. by have [->|[->| ->]] : i = 0 \/ i = 1 \/ i = 2 by lia. }
  split. { move => i Hi. by have [->|[->|[->| ->]]] : i = 0 \/ i = 1 \/ i = 2 \/ i = 3 by lia. }
  split; first by (rewrite /apart; lia).
  split; first by vm_compute. move/(_ 18). by vm_compute.
Qed.
Lemma empty_needle : exists (l : list Z) (m : mem) (p q : Z),
  str m p l /\ str m q [] /\ occurs [] l 0 /\ p <> 0 /\ strstr true 9 m p q = Val 0.
Proof.
  exists [97], (at_ 16 [97; 0]), 16, 17.
  split. { apply/Str_Proofs.str_cons. split => //. split => //. by apply/Str_Proofs.str_nil. }
  split. { by apply/Str_Proofs.str_nil. } split. { by exists [], [97]. } by split; vm_compute.
Qed.
(** The ASSERT of memcpy32 allows sources of n, not 4n bytes to be overwritten *)
Lemma assert32 : exists (m : mem) (n d s : Z), 0 <= n /\ mapped m d (4 * n) /\ mapped m s (4 * n) /\
  memcpy32_assert n d s = true /\
  exists m', memcpy32_x86 n m d s = Val m' /\ ~ replaced m m' d (4 * n) (fun i => m (s + i)).
Proof.
  exists (at_ 0 [1; 2; 3; 4; 5; 6; 7; 8; 9; 10; 11; 12]), 2, 4, 0. split => //.
  split. { move => i Hi. have [|[|[|[|[|[|[|]]]]]]] : i = 0 \/ i = 1 \/ i = 2 \/ i = 3 \/ i = 4 \/ i = 5 \/ i = 6 \/ i = 7 by lia. all: by move => ->. }
  split. { move => i Hi. have [|[|[|[|[|[|[|]]]]]]] : i = 0 \/ i = 1 \/ i = 2 \/ i = 3 \/ i = 4 \/ i = 5 \/ i = 6 \/ i = 7 by lia. all: by move => ->. }
  split; first by vm_compute. eexists. split; first by cbn. move/(_ 8). by vm_compute.
Qed.
(** A char above 127, signed *)
Lemma xdigit_negative : exists b, 0 <= b < 256 /\ isxdigit (ch true b) = None.
Proof. exists 233. split; first lia. by vm_compute. Qed.
Lemma xdigit_ok (c : Z) : 0 <= c -> isxdigit c = Some true <-> (48 <= c <= 57 \/ 65 <= c <= 70 \/ 97 <= c <= 102).
Proof.
  move => H. rewrite /isxdigit. destruct (Z.ltb_spec c 128); last by (split => //; lia).
  have -> : (0 <=? c) = true by lia. split; first by (case; lia). move => X. f_equal. lia.
Qed.
