(** C33, C34: checks and copies of user memory. *)
From Verif Require Import Lib User_Model User_Spec User_Proofs.

(** user_out_of_range accepts exactly the ranges that do not start at NULL and end at or below BASE_VA. Missing: ranges that end at or past the end of the address space (they are accepted, see C33_wrap_refuted). *)
Theorem C33_exact_partial : forall c p n, good_cfg c -> 0 <= p -> 0 <= n -> p + n < modulus c ->
  out_of_range c p n = false <-> p <> 0 /\ p + n <= base c.
Proof. exact range_exact. Qed.
Print Assumptions C33_exact_partial.

(** copy_from_user stores bytes of user memory only, all of them when it succeeds, and fails only with reason. Missing: see above. *)
Theorem C33_copy_from_user_partial : forall c rd p n rc l, good_cfg c -> 0 <= p -> 0 <= n -> p + n < modulus c -> copy_from_user c rd p n = (rc, l) ->
  bytes_at rd p l /\ p + zlen l <= Z.max p (base c) /\
  (rc = 0 <-> p <> 0 /\ p + n <= base c /\ zlen l = n) /\ (rc <> 0 -> rc = EFAULT /\ (p = 0 \/ base c < p + n \/ (zlen l < n /\ rd (p + zlen l) = None))).
Proof. exact from_user. Qed.
Print Assumptions C33_copy_from_user_partial.

(** copy_to_user writes no address at or above BASE_VA or outside the range, and writes all of it when it succeeds. Missing: see above. *)
Theorem C33_copy_to_user_partial : forall c wr p n rc l, good_cfg c -> 0 <= p -> 0 <= n -> p + n < modulus c -> copy_to_user c wr p n = (rc, l) ->
  (forall a, In a l -> p <= a < p + n /\ a < base c) /\ (rc = 0 -> forall a, p <= a < p + n -> In a l).
Proof. exact to_user. Qed.
Print Assumptions C33_copy_to_user_partial.

(** Ranges of up to a page that start in user space need no condition *)
Theorem C33_short_ranges : forall c p n, good_cfg c -> 0 <= p < base c -> 0 <= n <= 4096 -> out_of_range c p n = false -> p + n <= base c.
Proof. exact range_short. Qed.
Print Assumptions C33_short_ranges.

(** On every architecture there is a kernel address and a length below two pages that the check accepts, and the copy succeeds where it is mapped: `ptr + n` wraps around *)
Theorem C33_wrap_refuted : forall c, good_cfg c -> exists p n, 0 <= p < modulus c /\ 0 < n < 8192 /\ base c <= p /\ out_of_range c p n = false /\
  forall rd, (forall a, rd a = Some 1) -> fst (copy_from_user c rd p n) = 0 /\ exists l, snd (copy_from_user c rd p n) = 1 :: l.
Proof. exact wrap_all. Qed.
Print Assumptions C33_wrap_refuted.

(** The three architectures are such configurations *)
Theorem C33_architectures : good_cfg i386 /\ good_cfg x86_64 /\ good_cfg riscv64.
Proof. exact archs_good. Qed.
Print Assumptions C33_architectures.

Example C33_nontrivial : out_of_range i386 (base i386 - 4) 4 = false /\ out_of_range i386 (base i386 - 4) 5 = true /\ out_of_range i386 0 4 = true /\
  out_of_range i386 4294967295 2 = false /\ copy_from_user i386 (segs [(4096, [1; 2; 3])]) 4097 2 = (0, [2; 3]) /\ copy_from_user i386 (segs [(4096, [1; 2; 3])]) 4097 3 = (EFAULT, [2; 3]).
Proof. vm_compute. auto 10. Qed.

(** copy_str_from_user ends for every memory, address and size, stores at most `max` bytes, reads only ranges in user space, inside one page and with no terminator before, and returns 0 with the whole string, 1 when the string does not fit, or -1 when it runs into unmapped memory or the end of user space *)
Theorem C34_copy_str : forall c rd p max, good_cfg c -> paged rd -> 0 <= p -> 0 <= max ->
  exists rc dest w tr, copy_str_from_user c rd p max = Some (rc, dest, w, tr) /\ zlen dest <= max /\ str_result c rd p max rc dest w /\ Forall (good_range c rd p) tr.
Proof. exact str_ok. Qed.
Print Assumptions C34_copy_str.

(** Conversely, a string that fits is always copied *)
Theorem C34_copy_str_complete : forall c rd p max l, good_cfg c -> paged rd -> 0 <= p -> is_str c rd p l -> zlen l < max ->
  exists rest tr, copy_str_from_user c rd p max = Some (0, l ++ 0 :: rest, zlen l + 1, tr) /\ zlen rest + zlen l + 1 <= max.
Proof. exact str_found. Qed.
Print Assumptions C34_copy_str_complete.

(** There is at most one string at an address *)
Theorem C34_string_unique : forall c rd p l1 l2, is_str c rd p l1 -> is_str c rd p l2 -> l1 = l2.
Proof. exact is_str_unique. Qed.
Print Assumptions C34_string_unique.

(** copy_str_array_from_user (argv and envp) ends, never stores more than `max` bytes in all (pointers, strings and terminators), succeeds exactly when the array is a NULL-terminated array of strings of user space that fits, and then stores the strings in order behind the pointers, each pointer at its string. Missing: arrays so long that the address of a pointer behind the buffer wraps around, see C34_array_wrap_refuted. [fuel] only bounds the iterations of the first loop in the model: any large enough number does *)
Theorem C34_copy_array_partial : forall c rd fuel dest arr max, good_cfg c -> paged rd -> (forall a b, rd a = Some b -> 0 <= b < 256) -> 0 < arr -> arr + word c < modulus c -> 0 <= max ->
  0 <= dest -> short_array c rd dest arr ->
  base c < arr + word c * Z.of_nat fuel -> (0 < fuel)%nat ->
  exists rc argc ptrs data w, copy_str_array c rd fuel dest arr max = Res rc argc ptrs data w /\
    w <= max /\ (ptrs <> [] -> word c * (argc + 1) + zlen data <= max /\ zlen ptrs <= argc) /\
    (rc = 0 <-> exists strs, strings_at c rd arr strs /\ word c * (zlen strs + 1) + zlen (flat strs) <= max) /\
    (rc = 0 -> exists strs, strings_at c rd arr strs /\ argc = zlen strs /\ data = flat strs /\ ptrs = offsets (word c * (argc + 1)) strs /\ w = word c * (argc + 1) + zlen data).
Proof. exact array_ok. Qed.
Print Assumptions C34_copy_array_partial.

(** A string over a page boundary, the same with the second page missing, one byte too
    long; an array of two strings *)
Example C34_nontrivial :
  copy_str_from_user i386 (segs [(8190, [97; 98; 99; 0; 7])]) 8190 4 = Some (0, [97; 98; 99; 0], 4, [(8190, 2); (8192, 2)]) /\
  copy_str_from_user i386 (segs [(8190, [97; 98])]) 8190 4 = Some (-1, [97; 98], 0, [(8190, 2); (8192, 2)]) /\
  copy_str_from_user i386 (segs [(8190, [97; 98; 99; 0; 7])]) 8190 3 = Some (1, [97; 98; 99], 0, [(8190, 2); (8192, 1)]) /\
  copy_str_array i386 (segs [(8192, [0; 16; 0; 0; 1; 16; 0; 0; 0; 0; 0; 0]); (4096, 97 :: 98 :: 0 :: repeat 1 100)]) 10 3300000000 8192 17 =
    Res 0 2 [12; 15] [97; 98; 0; 98; 0] 17 /\
  copy_str_array i386 (segs [(8192, [0; 16; 0; 0; 1; 16; 0; 0; 0; 0; 0; 0]); (4096, 97 :: 98 :: 0 :: repeat 1 100)]) 10 3300000000 8192 16 =
    Res 1 2 [12; 15] [97; 98; 0] 15.
Proof. vm_compute. auto 10. Qed.

(** The pointers are decoded with the least significant byte first. *)
Theorem C34_pointer_bytes : forall l, Forall (fun b => 0 <= b < 256) l -> 0 <= le l < 256 ^ zlen l /\ forall k, (k < length l)%nat -> le l / 256 ^ Z.of_nat k mod 256 = nth k l 0.
Proof. exact le_digits. Qed.
Print Assumptions C34_pointer_bytes.

(** On i386, wherever the kernel's buffer is, there is an array of pointers in user space (about 1 GB of them) with which the check of the size passes, because the address of the last pointer wraps around, and the kernel stores a NULL pointer at address 0 to 3, far outside the buffer *)
Theorem C34_array_wrap_refuted : forall dest max, base i386 <= dest -> dest + max <= modulus i386 -> 4 <= max ->
  exists rd arr, paged rd /\ (forall a b, rd a = Some b -> 0 <= b < 256) /\ 0 < arr /\ arr + 4 < modulus i386 /\
    forall fuel, base i386 < arr + 4 * Z.of_nat fuel -> exists a, copy_str_array i386 rd fuel dest arr max = Wild a /\ 0 <= a < 4.
Proof. exact array_wraps_i386. Qed.
Print Assumptions C34_array_wrap_refuted.
