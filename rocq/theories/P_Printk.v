(** C54: formatted printing. *)
From Verif Require Import Lib Itoa_Spec Printk_Model Printk_Spec Printk_Proofs Printk_Proofs2.

(** Formats made of the items of Printk_Spec.v print exactly their text, cut to the size of the buffer: nothing is stored outside, and the terminator is after the text or is the last byte. The fuel is any number above the length of the format *)
Theorem C54_prints : forall W n l, W = 32 \/ W = 64 -> 1 <= n -> Forall (item_ok W) l ->
  exists t, text_of W l t /\ forall fuel, (length (fmt_of l) < fuel)%nat ->
    exists out, vsnprintk n W fuel (fmt_of l) (args_of W l) = Text out /\ out = firstn (Z.to_nat n) t /\ zlen out <= n /\ nul_at n out = Z.min (zlen t) (n - 1).
Proof. exact prints. Qed.
Print Assumptions C54_prints.

(** For all other formats too, at most one byte is stored beyond the buffer (see C54_overflow_refuted for the one) *)
Theorem C54_bounds_partial : forall n W fuel fmt args o, 1 <= n -> vsnprintk n W fuel fmt args = Text o -> zlen o <= n + 1 /\ 0 <= nul_at n o <= n.
Proof. exact bounds. Qed.
Print Assumptions C54_bounds_partial.

(** For all formats, a smaller buffer gets a prefix of what a larger one gets, and the same text if it fits *)
Theorem C54_prefix : forall n m W fuel fmt args om, 1 <= n -> n <= m -> vsnprintk m W fuel fmt args = Text om ->
  exists on, vsnprintk n W fuel fmt args = Text on /\ firstn (Z.to_nat n) on = firstn (Z.to_nat n) om /\ (zlen on < n -> on = om).
Proof. exact prefixes. Qed.
Print Assumptions C54_prefix.

(** An unknown sequence with a width (%5?) stores one byte, then the terminator, just after the end of the buffer *)
Theorem C54_overflow_refuted : exists n fmt out, 1 <= n /\ vsnprintk n 32 9 fmt [] = Text out /\ n < zlen out /\ nul_at n out = n.
Proof. exact unknown_overflows. Qed.
Print Assumptions C54_overflow_refuted.

(** With size 0 the first character is stored all the same *)
Theorem C54_size_zero_refuted : forall fmt c args, c <> 37 -> vsnprintk 0 32 9 (c :: fmt) args = Text [c].
Proof. exact size_zero. Qed.
Print Assumptions C54_size_zero_refuted.

(** The format %## is read beyond its terminator *)
Theorem C54_reads_past_the_end_refuted : vsnprintk 8 32 9 [37; 35; 35] [] = Fails PastEnd.
Proof. exact past_end. Qed.
Print Assumptions C54_reads_past_the_end_refuted.

(** A width which does not fit a long (%3000000000d) is never skipped: the loop does not end *)
Theorem C54_hangs_refuted : forall args fuel, vsnprintk 8 32 fuel (37 :: huge) args = Fails NoFuel.
Proof. exact huge_width. Qed.
Print Assumptions C54_hangs_refuted.

(** %5-3d fails an ASSERT *)
Theorem C54_both_paddings_refuted : vsnprintk 80 32 9 [37; 53; 45; 51; 100] [AWord 1] = Fails AssertFails.
Proof. exact both_paddings. Qed.
Print Assumptions C54_both_paddings_refuted.

(** %05d of -5 is 000-5 *)
Theorem C54_zero_negative_refuted : vsnprintk 80 32 9 [37; 48; 53; 100] [AWord (2 ^ 32 - 5)] = Text [48; 48; 48; 45; 53].
Proof. exact zero_negative. Qed.
Print Assumptions C54_zero_negative_refuted.

(** %0-5d of 42 is 42000 *)
Theorem C54_zero_right_refuted : vsnprintk 80 32 9 [37; 48; 45; 53; 100] [AWord 42] = Text [52; 50; 48; 48; 48].
Proof. exact zero_right. Qed.
Print Assumptions C54_zero_right_refuted.

(** %.1d of 42 is 4 *)
Theorem C54_precision_refuted : vsnprintk 80 32 9 [37; 46; 49; 100] [AWord 42] = Text [52].
Proof. exact short_precision. Qed.
Print Assumptions C54_precision_refuted.

(** %5.2s of "abcd" has 3 characters *)
Theorem C54_width_and_precision_refuted : vsnprintk 80 32 9 [37; 53; 46; 50; 115] [AStr (Some [97; 98; 99; 100])] = Text [32; 97; 98].
Proof. exact width_precision. Qed.
Print Assumptions C54_width_and_precision_refuted.

(** "a=%#06x%-4d|" of 171 and -7 in buffers of 80 and of 5 bytes *)
Example C54_nontrivial :
  let l := [Lit 97; Lit 61; Num true (Zeros [6]) Mnone KX 171; Num false (Right [4]) Mnone KD (-7); Lit 124] in
  let t := [97; 61; 48; 120; 48; 48; 97; 98; 45; 55; 32; 32; 124] in
  Forall (item_ok 32) l /\ fmt_of l = [97; 61; 37; 35; 48; 54; 120; 37; 45; 52; 100; 124] /\
  vsnprintk 80 32 50 (fmt_of l) (args_of 32 l) = Text t /\ vsnprintk 5 32 50 (fmt_of l) (args_of 32 l) = Text (firstn 5 t).
Proof.
  cbv zeta. split; [|vm_compute; auto]. unfold item_ok, pad_ok, width_ok, digits_of_base, in_type, no_zeros.
  repeat constructor; cbn; try lia; auto; discriminate.
Qed.

