(** C73: string and memory functions. *)
From Verif Require Import Lib Str_Model Str_Spec Str_Proofs Str_Proofs2 Str_Proofs3 Str_Refuted.

(** strcmp is 0 for equal strings only, reads no byte behind them, and has the sign of C where char is unsigned or the text is ASCII. *)
Theorem C73_strcmp : forall (sg : bool) (l k : list Z) (m : mem) (p q : Z) (fuel : nat),
  str m p l -> str m q k -> byte_list l -> byte_list k -> (length l < fuel)%nat ->
  exists v, strcmp sg fuel m p q = Val v /\ (v = 0 <-> l = k) /\
    (sg = false \/ (Forall (fun b => b < 128) l /\ Forall (fun b => b < 128) k) -> (v ?= 0) = order (fun b => b) l k).
Proof. exact strcmp_ok. Qed.
Print Assumptions C73_strcmp.

(** strncmp: the same for strings cut after n bytes; nothing behind the n bytes is read. *)
Theorem C73_strncmp : forall (sg : bool) (n : nat) (l k : list Z) (m : mem) (p q : Z),
  cut m p (Z.of_nat n) l -> cut m q (Z.of_nat n) k -> byte_list l -> byte_list k ->
  exists v, strncmp sg n m p q = Val v /\ (v = 0 <-> l = k) /\
    (sg = false \/ (Forall (fun b => b < 128) l /\ Forall (fun b => b < 128) k) -> (v ?= 0) = order (fun b => b) l k).
Proof. exact strncmp_ok. Qed.
Print Assumptions C73_strncmp.

(** memcmp: the same for n bytes. *)
Theorem C73_memcmp : forall (sg : bool) (l k : list Z) (m : mem) (p q : Z),
  bytes m p l -> bytes m q k -> length l = length k -> byte_list l -> byte_list k ->
  exists v, memcmp sg (length l) m p q = Val v /\ (v = 0 <-> l = k) /\
    (sg = false \/ (Forall (fun b => b < 128) l /\ Forall (fun b => b < 128) k) -> (v ?= 0) = order (fun b => b) l k).
Proof. exact memcmp_ok. Qed.
Print Assumptions C73_memcmp.

(** On x86 a byte above 127 sorts before ASCII; in C after it. *)
Theorem C73_order_refuted : exists (l k : list Z) (m : mem) (p q v : Z),
  str m p l /\ str m q k /\ byte_list l /\ byte_list k /\ strcmp true 9 m p q = Val v /\ memcmp true 1 m p q = Val v /\
  (v ?= 0) = Gt /\ order (fun b => b) l k = Lt.
Proof. exact signed_order. Qed.
Print Assumptions C73_order_refuted.

(** stricmp is 0 for strings equal up to the case of letters only. *)
Theorem C73_stricmp : forall (sg : bool) (l k : list Z) (m : mem) (p q : Z) (fuel : nat),
  str m p l -> str m q k -> byte_list l -> byte_list k -> (length l < fuel)%nat ->
  exists v, stricmp sg fuel m p q = Val v /\ (v = 0 <-> map tolower l = map tolower k).
Proof. exact stricmp_ok. Qed.
Print Assumptions C73_stricmp.

(** strlen counts the bytes before the NUL. *)
Theorem C73_strlen : forall (l : list Z) (m : mem) (p : Z) (fuel : nat),
  str m p l -> (length l < fuel)%nat -> strlen fuel m p = Val (zlen l).
Proof. exact strlen_ok. Qed.
Print Assumptions C73_strlen.

(** strnlen, where the byte behind the bound exists if the string goes on to the bound (missing: where not). *)
Theorem C73_strnlen_partial : forall (n : nat) (l : list Z) (m : mem) (p : Z),
  cut m p (Z.of_nat n) l -> (zlen l = Z.of_nat n -> m (p + Z.of_nat n) <> None) -> strnlen n m p = Val (zlen l).
Proof. exact strnlen_ok. Qed.
Print Assumptions C73_strnlen_partial.

(** strnlen and strncpy read the byte behind the bound; where it does not exist, that is a fault. *)
Theorem C73_bound_refuted : exists (l : list Z) (m : mem) (p d : Z) (n : nat),
  cut m p (Z.of_nat n) l /\ mapped m d (Z.of_nat n) /\ apart d (Z.of_nat n) p (Z.of_nat n) /\
  strnlen n m p = Fault /\ strncpy n m d p = Fault.
Proof. exact overread. Qed.
Print Assumptions C73_bound_refuted.

(** memchr finds the first such byte of n. *)
Theorem C73_memchr : forall (l : list Z) (m : mem) (p c : Z),
  bytes m p l ->
  (exists i, memchr (length l) m p c = Val (p + i) /\ 0 <= i < zlen l /\ znth 0 l i = c /\ forall j, 0 <= j < i -> znth 0 l j <> c) \/
  (memchr (length l) m p c = Val 0 /\ ~ In c l).
Proof. exact memchr_ok. Qed.
Print Assumptions C73_memchr.

(** strchr finds the first such char; the NUL counts. *)
Theorem C73_strchr : forall (l : list Z) (m : mem) (p c : Z) (fuel : nat),
  str m p l -> (length l < fuel)%nat ->
  (exists i, strchr fuel m p c = Val (p + i) /\ 0 <= i <= zlen l /\ znth 0 (l ++ [0]) i = c /\ forall j, 0 <= j < i -> znth 0 l j <> c) \/
  (strchr fuel m p c = Val 0 /\ ~ In c l /\ c <> 0).
Proof. exact strchr_ok. Qed.
Print Assumptions C73_strchr.

(** strrchr finds the last one. *)
Theorem C73_strrchr : forall (l : list Z) (m : mem) (p c : Z) (fuel : nat),
  str m p l -> (length l < fuel)%nat ->
  (exists i, strrchr fuel m p c = Val (p + i) /\ 0 <= i <= zlen l /\ znth 0 (l ++ [0]) i = c /\
     forall j, i < j <= zlen l -> znth 0 (l ++ [0]) j <> c) \/
  (strrchr fuel m p c = Val 0 /\ ~ In c l /\ c <> 0).
Proof. exact strrchr_ok. Qed.
Print Assumptions C73_strrchr.

(** strstr finds the first occurrence, for needles that are not empty (missing: the empty one). *)
Theorem C73_strstr_partial : forall (sg : bool) (fuel : nat) (l k : list Z) (m : mem) (p q : Z),
  str m p l -> str m q k -> byte_list l -> byte_list k -> k <> [] -> (length l < fuel)%nat -> (length k < fuel)%nat ->
  (exists i, strstr sg fuel m p q = Val (p + i) /\ occurs k l i /\ forall j, j < i -> ~ occurs k l j) \/
  (strstr sg fuel m p q = Val 0 /\ forall j, ~ occurs k l j).
Proof. exact strstr_ok. Qed.
Print Assumptions C73_strstr_partial.

(** The empty string is not found; in C it is, at the beginning. *)
Theorem C73_empty_needle_refuted : exists (l : list Z) (m : mem) (p q : Z),
  str m p l /\ str m q [] /\ occurs [] l 0 /\ p <> 0 /\ strstr true 9 m p q = Val 0.
Proof. exact empty_needle. Qed.
Print Assumptions C73_empty_needle_refuted.

(** memcpy of bytes: copies n bytes and changes nothing else, for a destination below the source or behind it. *)
Theorem C73_memcpy_c : forall (n : nat) (m : mem) (d s : Z),
  mapped m d (Z.of_nat n) -> mapped m s (Z.of_nat n) -> d <= s \/ s + Z.of_nat n <= d ->
  exists m', movsb n m d s = Val m' /\ replaced m m' d (Z.of_nat n) (fun i => m (s + i)).
Proof. exact movsb_ok. Qed.
Print Assumptions C73_memcpy_c.

(** memcpy of x86, by four bytes and the rest: the same. *)
Theorem C73_memcpy_x86 : forall (n : Z) (m : mem) (d s : Z),
  0 <= n -> mapped m d n -> mapped m s n -> d <= s \/ s + n <= d ->
  exists m', memcpy_x86 n m d s = Val m' /\ replaced m m' d n (fun i => m (s + i)).
Proof. exact memcpy_x86_ok. Qed.
Print Assumptions C73_memcpy_x86.

(** memcpy32. *)
Theorem C73_memcpy32 : forall (n : Z) (m : mem) (d s : Z),
  0 <= n -> mapped m d (4 * n) -> mapped m s (4 * n) -> d <= s \/ s + 4 * n <= d ->
  exists m', memcpy32_x86 n m d s = Val m' /\ replaced m m' d (4 * n) (fun i => m (s + i)).
Proof. exact memcpy32_x86_ok. Qed.
Print Assumptions C73_memcpy32.

(** The ASSERT of memcpy32 counts n bytes, not 4n: overlaps pass that do not copy. *)
Theorem C73_memcpy32_assert_refuted : exists (m : mem) (n d s : Z), 0 <= n /\ mapped m d (4 * n) /\ mapped m s (4 * n) /\
  memcpy32_assert n d s = true /\
  exists m', memcpy32_x86 n m d s = Val m' /\ ~ replaced m m' d (4 * n) (fun i => m (s + i)).
Proof. exact assert32. Qed.
Print Assumptions C73_memcpy32_assert_refuted.

(** memmove copies n bytes, whatever the overlap. *)
Theorem C73_memmove_x86 : forall (n : Z) (m : mem) (d s : Z),
  0 <= n -> mapped m d n -> mapped m s n ->
  exists m', memmove_x86 n m d s = Val m' /\ replaced m m' d n (fun i => m (s + i)).
Proof. exact memmove_x86_ok. Qed.
Print Assumptions C73_memmove_x86.

(** The same for the generic one. *)
Theorem C73_memmove_c : forall (n : Z) (m : mem) (d s : Z),
  0 <= n -> mapped m d n -> mapped m s n ->
  exists m', memmove_c n m d s = Val m' /\ replaced m m' d n (fun i => m (s + i)).
Proof. exact memmove_c_ok. Qed.
Print Assumptions C73_memmove_c.

(** memset fills n bytes with the low byte and changes nothing else. *)
Theorem C73_memset : forall (n : nat) (m : mem) (d c : Z),
  mapped m d (Z.of_nat n) ->
  exists m', memset n m d c = Val m' /\ replaced m m' d (Z.of_nat n) (fun _ => Some (c mod 256)).
Proof. exact memset_ok. Qed.
Print Assumptions C73_memset.

(** memset16 fills n halfwords, low byte first. *)
Theorem C73_memset16 : forall (n : nat) (m : mem) (d c : Z),
  mapped m d (2 * Z.of_nat n) ->
  exists m', memset16 n m d c = Val m' /\
    replaced m m' d (2 * Z.of_nat n) (fun i => Some (c / 256 ^ (i mod 2) mod 256)).
Proof. exact memset16_ok. Qed.
Print Assumptions C73_memset16.

(** memset32 fills n words, low byte first. *)
Theorem C73_memset32 : forall (n : nat) (m : mem) (d c : Z),
  mapped m d (4 * Z.of_nat n) ->
  exists m', memset32 n m d c = Val m' /\
    replaced m m' d (4 * Z.of_nat n) (fun i => Some (c / 256 ^ (i mod 4) mod 256)).
Proof. exact memset32_ok. Qed.
Print Assumptions C73_memset32.

(** bzero zeroes n bytes and changes nothing else. *)
Theorem C73_bzero : forall (n : Z) (m : mem) (d : Z),
  0 <= n -> mapped m d n ->
  exists m', bzero_x86 n m d = Val m' /\ replaced m m' d n (fun _ => Some 0).
Proof. exact bzero_x86_ok. Qed.
Print Assumptions C73_bzero.

(** strcpy copies the string with its NUL and changes nothing else. *)
Theorem C73_strcpy : forall (l : list Z) (m : mem) (d s : Z) (fuel : nat),
  str m s l -> (length l < fuel)%nat -> mapped m d (zlen l + 1) -> d <= s \/ s + zlen l < d ->
  exists m', strcpy fuel m d s = Val m' /\ replaced m m' d (zlen l + 1) (fun i => Some (znth 0 (l ++ [0]) i)).
Proof. exact strcpy_ok. Qed.
Print Assumptions C73_strcpy.

(** strcat appends it. *)
Theorem C73_strcat : forall (k l : list Z) (m : mem) (d s : Z) (fuel : nat),
  str m d k -> str m s l -> (length k < fuel)%nat -> (length l < fuel)%nat -> mapped m (d + zlen k) (zlen l + 1) ->
  apart d (zlen k + zlen l + 1) s (zlen l + 1) ->
  exists m', strcat fuel m d s = Val m' /\ replaced m m' (d + zlen k) (zlen l + 1) (fun i => Some (znth 0 (l ++ [0]) i)).
Proof. exact strcat_ok. Qed.
Print Assumptions C73_strcat.

(** strncpy copies at most n bytes of the string, with one NUL if it fits (missing: a source that ends at the bound; padding). *)
Theorem C73_strncpy_partial : forall (n : nat) (l : list Z) (m : mem) (d s : Z),
  cut m s (Z.of_nat n) l -> (zlen l = Z.of_nat n -> m (s + Z.of_nat n) <> None) -> mapped m d (Z.min (Z.of_nat n) (zlen l + 1)) -> apart d (Z.min (Z.of_nat n) (zlen l + 1)) s (zlen l + 1) ->
  exists m', strncpy n m d s = Val m' /\ replaced m m' d (Z.min (Z.of_nat n) (zlen l + 1)) (fun i => Some (znth 0 (l ++ [0]) i)).
Proof. exact strncpy_ok. Qed.
Print Assumptions C73_strncpy_partial.

(** strncpy does not fill the rest with zeros as in C. *)
Theorem C73_padding_refuted : exists (l : list Z) (m m' : mem) (d s : Z) (n : nat),
  str m s l /\ mapped m d (Z.of_nat n) /\ mapped m s (Z.of_nat n + 1) /\ apart d (Z.of_nat n) s (Z.of_nat n + 1) /\
  strncpy n m d s = Val m' /\ ~ replaced m m' d (Z.of_nat n) (fun i => Some (znth 0 l i)).
Proof. exact no_padding. Qed.
Print Assumptions C73_padding_refuted.

(** strncat appends at most n bytes and a NUL (missing: a source that ends at the bound). *)
Theorem C73_strncat_partial : forall (n : nat) (k l : list Z) (m : mem) (d s : Z) (fuel : nat),
  str m d k -> (length k < fuel)%nat -> cut m s (Z.of_nat n) l -> (zlen l = Z.of_nat n -> m (s + Z.of_nat n) <> None) ->
  mapped m (d + zlen k) (zlen l + 1) -> apart (d + zlen k) (zlen l + 1) s (zlen l + 1) ->
  exists m', strncat fuel n m d s = Val m' /\ replaced m m' (d + zlen k) (zlen l + 1) (fun i => Some (znth 0 (l ++ [0]) i)).
Proof. exact strncat_ok. Qed.
Print Assumptions C73_strncat_partial.

(** isxdigit for numbers from 0 on. *)
Theorem C73_isxdigit : forall (c : Z),
  0 <= c -> isxdigit c = Some true <-> (48 <= c <= 57 \/ 65 <= c <= 70 \/ 97 <= c <= 102).
Proof. exact xdigit_ok. Qed.
Print Assumptions C73_isxdigit.

(** A signed char above 127 makes isxdigit read before its table. *)
Theorem C73_isxdigit_refuted : exists b, 0 <= b < 256 /\ isxdigit (ch true b) = None.
Proof. exact xdigit_negative. Qed.
Print Assumptions C73_isxdigit_refuted.

(** Text, an overlapping move, a needle at its second chance *)
Example C73_nonvacuous :
  let m := at_ 16 [97; 97; 98; 0; 97; 98; 0; 1; 2; 3; 4; 5; 6; 7; 8; 9] in
  str m 16 [97; 97; 98] /\ str m 20 [97; 98] /\ strstr true 9 m 16 20 = Val 17 /\
  match memmove_x86 6 m 25 23 with Val m' => map m' [22; 23; 24; 25; 26; 27; 28; 29; 30; 31] = map Some [0; 1; 2; 1; 2; 3; 4; 5; 6; 9] | _ => False end /\
  match memcpy_x86 6 m 23 24 with Val m' => map m' [22; 23; 24; 25; 26; 27; 28; 29; 30] = map Some [0; 2; 3; 4; 5; 6; 7; 7; 8] | _ => False end.
Proof.
  split. { apply str_cons. split; [reflexivity|]. split; [lia|]. apply str_cons. split; [reflexivity|]. split; [lia|].
    apply str_cons. split; [reflexivity|]. split; [lia|]. now apply str_nil. }
  split. { apply str_cons. split; [reflexivity|]. split; [lia|]. apply str_cons. split; [reflexivity|]. split; [lia|]. now apply str_nil. }
  repeat split; vm_compute; reflexivity.
Qed.

