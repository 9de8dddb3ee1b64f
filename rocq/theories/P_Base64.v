(** C48: Base-64. *)
From Verif Require Import Lib Base64_Model Base64_Spec Base64_Proofs.

(** base64_encode returns the RFC 1341 text of every input, inside the buffer it allocates, and NULL exactly from a quarter of the address space on (where its size computation would wrap), for both sizes of size_t *)
Theorem C48_encode : forall w src, w = 32 \/ w = 64 -> bytes src -> zlen src < 2 ^ w ->
  encode w src = if zlen src <? 2 ^ (w - 2) then Ok (text src) else Null.
Proof. exact encode_ok. Qed.
Print Assumptions C48_encode.

(** Its length: four characters for each group of three bytes begun, one line feed for each line of 72 characters begun *)
Theorem C48_encoded_length : forall l, zlen (text l) = 4 * ((zlen l + 2) / 3) + (4 * ((zlen l + 2) / 3) + 71) / 72.
Proof. exact text_len. Qed.
Print Assumptions C48_encoded_length.

(** Decoding inverts encoding. Missing: the empty string (base64_decode fails on its encoding, see below) *)
Theorem C48_roundtrip_partial : forall l, bytes l -> l <> [] -> decode (text l) = Ok l.
Proof. exact roundtrip. Qed.
Print Assumptions C48_roundtrip_partial.

(** The encoding of the empty string is not accepted by base64_decode *)
Theorem C48_empty_refuted : exists l, bytes l /\ encode 64 l = Ok (text l) /\ decode (text l) = Null.
Proof. exact empty_fails. Qed.
Print Assumptions C48_empty_refuted.

(** base64_decode stays inside the buffer it allocates for every input, valid or not *)
Theorem C48_decode_in_bounds : forall src, match decode src with Ok o => 4 * zlen o <= 3 * zlen src | Null => True | Oob => False end.
Proof. exact decode_safe. Qed.
Print Assumptions C48_decode_in_bounds.

(** Characters outside of the alphabet can be inserted and removed anywhere *)
Theorem C48_decode_ignores : forall src keep, (forall c, In c src -> 0 <= c < 256) -> (forall c, keep c = false -> ignored c) -> decode (skip src keep) = decode src.
Proof. exact decode_skip. Qed.
Print Assumptions C48_decode_ignores.

(** "foobar" and its prefixes, RFC 4648; invalid padding *)
Example C48_nontrivial :
  encode 32 [102; 111; 111; 98; 97; 114] = Ok [90; 109; 57; 118; 89; 109; 70; 121; 10] /\
  encode 32 [102; 111; 111; 98; 97] = Ok [90; 109; 57; 118; 89; 109; 69; 61; 10] /\
  encode 32 [102; 111; 111; 98] = Ok [90; 109; 57; 118; 89; 103; 61; 61; 10] /\
  decode [90; 109; 57; 118; 89; 103; 61; 61] = Ok [102; 111; 111; 98] /\ decode [90; 61; 61; 61] = Null /\
  zlen (text (repeat 7 54)) = 73 /\ zlen (text (repeat 7 55)) = 78.
Proof. vm_compute. auto 10. Qed.

