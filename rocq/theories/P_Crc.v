(** C47: CRC-32. *)
From Verif Require Import Lib Crc_Model Crc_Spec Crc_Proofs.

(** crc32 is the standard CRC: the complement of the remainder of the polynomial division of the message (with its first 32 coefficients complemented) times x^32 by x^32+x^26+x^23+... *)
Theorem C47_standard : forall buf, bytes buf -> crc32 0 buf = crc_spec buf.
Proof. exact crc_correct. Qed.
Print Assumptions C47_standard.

(** In pieces, from any starting value *)
Theorem C47_pieces : forall c a b, crc32 (crc32 c a) b = crc32 c (a ++ b).
Proof. exact crc_app. Qed.
Print Assumptions C47_pieces.

(** The result is a 32-bit word *)
Theorem C47_range : forall c buf, 0 <= c < 2 ^ 32 -> bytes buf -> 0 <= crc32 c buf < 2 ^ 32.
Proof. exact crc_range. Qed.
Print Assumptions C47_range.

(** Two messages that differ only inside a window of at most 32 bits have different CRCs *)
Theorem C47_detects_bursts : forall c b1 b2 pre w1 w2 post, 0 <= c < 2 ^ 32 -> bytes b1 -> bytes b2 ->
  bits_of b1 = pre ++ w1 ++ post -> bits_of b2 = pre ++ w2 ++ post -> length w1 = length w2 -> (length w1 <= 32)%nat ->
  crc32 c b1 = crc32 c b2 -> w1 = w2.
Proof. exact burst. Qed.
Print Assumptions C47_detects_bursts.

(** "123456789" has the published check value 0xCBF43926 *)
Example C47_nontrivial : let m := [49; 50; 51; 52; 53; 54; 55; 56; 57] in
  crc32 0 m = 3421780262 /\ crc_spec m = 3421780262 /\ crc_spec [] = 0.
Proof. vm_compute. auto. Qed.

