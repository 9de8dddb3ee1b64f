(** Properties C37 and C38.  Specification in Itoa_Spec.v. *)
From Verif Require Import Lib Itoa_Model Itoa_Spec Itoa_Proofs.

(** Printing then parsing any integer of the type, in any supported base *)
Theorem C37_print_parse_roundtrip :
  forall w sg v base, (w = 32 \/ w = 64) -> in_type w sg v -> 2 <= base <= 16 ->
  forall buf, w + 2 <= zlen buf ->
  exists t, itoa w v buf base = Some (t ++ 0 :: skipn (S (length t)) buf) /\
    is_text base v t /\
    strtol w sg (t ++ 0 :: skipn (S (length t)) buf) base = Some (mk_p v NoErr (zlen t)).
Proof. exact print_parse. Qed.
Print Assumptions C37_print_parse_roundtrip.

(** Decimal output fits 12 bytes (32-bit) or 21 bytes (64-bit), the rest of
    the buffer is not touched *)
Theorem C37_decimal_fits :
  forall w sg v, (w = 32 \/ w = 64) -> in_type w sg v ->
  forall buf, (if w =? 32 then 12 else 21) <= zlen buf ->
  exists t, itoa w v buf 10 = Some (t ++ 0 :: skipn (S (length t)) buf) /\ is_text 10 v t.
Proof. exact decimal_fits. Qed.
Print Assumptions C37_decimal_fits.

(** Fixed-width hexadecimal output *)
Theorem C37_hex_fixed :
  forall w value buf, (w = 32 \/ w = 64) -> 0 <= value < 2 ^ w -> w / 4 + 1 <= zlen buf ->
  exists ds, uitoa_fixed w value buf
     = Some (map digit_char ds ++ 0 :: skipn (S (length ds)) buf) /\
    zlen ds = w / 4 /\ digits_of_base 16 ds /\ numeral_value 16 ds = value.
Proof. exact uitoa_fixed_ok. Qed.
Print Assumptions C37_hex_fixed.

(** The smallest 32-bit integer: the one whose negation does not exist *)
Example C37_concrete :
  itoa 32 (-2147483648) (repeat 7 13) 10
    = Some [45; 50; 49; 52; 55; 52; 56; 51; 54; 52; 56; 0; 7] /\
  strtol 32 true [45; 50; 49; 52; 55; 52; 56; 51; 54; 52; 56; 0; 7] 10
    = Some (mk_p (-2147483648) NoErr 11) /\
  in_type 32 true (-2147483648) /\
  itoa 64 255 (repeat 7 3) 16 = Some [102; 102; 0] /\
  uitoa_fixed 32 48879 (repeat 7 9) = Some [48;48;48;48;98;101;101;102;0].
Proof. repeat split; vm_compute; congruence. Qed.

(** C38 as stated is false of the code: for every supported integer type there
    is a digit string for which a wrong value is returned without error. *)
Theorem C38_overflow_detection_refuted :
  forall w sg, (w = 32 \/ w = 64) -> exists cs ds c r p,
  spells cs ds /\ digits_of_base 10 ds /\ terminator 10 c /\
  strtol w sg (cs ++ c :: r) 10 = Some p /\ p_err p = NoErr /\
  p_val p <> numeral_value 10 ds.
Proof. exact overflow_missed. Qed.
Print Assumptions C38_overflow_detection_refuted.

(** "-05" is reported as out of range *)
Theorem C38_negative_leading_zero_refuted :
  forall w, (w = 32 \/ w = 64) -> exists cs ds c r p,
  spells cs ds /\ digits_of_base 10 ds /\ terminator 10 c /\
  in_type w true (- numeral_value 10 ds) /\
  strtol w true (45 :: cs ++ c :: r) 10 = Some p /\ p_err p = ERANGE.
Proof. exact negative_zero_rejected. Qed.
Print Assumptions C38_negative_leading_zero_refuted.

(** What does hold: a numeral whose value fits the type is returned exactly and
    consumed whole, with any number of digits (leading zeros included, except
    after a minus sign).  Missing: an error for every value that does not fit. *)
Theorem C38_in_range_exact_partial :
  forall w sg base neg cs ds c r,
  0 < w -> 2 <= base <= 16 -> 0 <= c < 256 -> terminator base c ->
  (neg = true -> sg = true) ->
  spells cs ds -> digits_of_base base ds -> (neg = true -> hd 0 ds <> 0) ->
  in_type w sg ((if neg then -1 else 1) * numeral_value base ds) ->
  strtol w sg ((if neg then [45] else []) ++ cs ++ c :: r) base =
  Some (mk_p ((if neg then -1 else 1) * numeral_value base ds) NoErr
             ((if neg then 1 else 0) + zlen cs)).
Proof. exact strtol_exact. Qed.
Print Assumptions C38_in_range_exact_partial.

(** A range error is never reported for a value that fits *)
Theorem C38_range_error_justified_partial :
  forall w sg base neg cs ds c r p,
  0 < w -> 2 <= base <= 16 -> 0 <= c < 256 -> terminator base c ->
  (neg = true -> sg = true) ->
  spells cs ds -> digits_of_base base ds -> (neg = true -> hd 0 ds <> 0) ->
  strtol w sg ((if neg then [45] else []) ++ cs ++ c :: r) base = Some p ->
  p_err p = ERANGE ->
  ~ in_type w sg ((if neg then -1 else 1) * numeral_value base ds).
Proof. exact strtol_range_error. Qed.
Print Assumptions C38_range_error_justified_partial.

(** A text with no digits is an error *)
Theorem C38_no_digits_error :
  forall w sg base neg c r,
  2 <= base <= 16 -> 0 <= c < 256 -> terminator base c -> (neg = false -> c <> 45) ->
  (neg = true -> sg = true) ->
  strtol w sg ((if neg then [45] else []) ++ c :: r) base =
  Some (mk_p 0 EINVAL (if neg then 1 else 0)).
Proof. exact strtol_no_digits. Qed.
Print Assumptions C38_no_digits_error.

Example C38_concrete :
  strtol 32 false [48; 48; 49; 70; 102; 120; 0] 16 = Some (mk_p 511 NoErr 5) /\
  strtol 32 true [50; 49; 52; 55; 52; 56; 51; 54; 52; 56; 0] 10 = Some (mk_p 0 ERANGE 0) /\
  strtol 32 true [45; 120] 10 = Some (mk_p 0 EINVAL 1).
Proof. repeat split. Qed.
