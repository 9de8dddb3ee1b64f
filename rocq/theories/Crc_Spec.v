(** CRC-32 (ISO 3309, ITU-T V.42) by polynomial division. *)
From Verif Require Import Lib.

(** Polynomials over GF(2): lists of coefficients, highest power first.
    [xor_first a l]: [a] added to the leading coefficients of [l] *)
Fixpoint xor_first (a l : list bool) : list bool :=
  match a, l with
  | [], _ => l
  | _, [] => []
  | x :: a, y :: l => xorb x y :: xor_first a l
  end.
(** x^32 + x^26 + x^23 + ... without the leading term *)
Definition poly : list bool :=
  map (fun k => existsb (Nat.eqb (31 - k)) [26; 23; 22; 16; 12; 11; 10; 8; 7; 5; 4; 2; 1; 0]%nat) (seq 0 32).
(** long division: [n] coefficients of the quotient *)
Fixpoint divide (n : nat) (l : list bool) : list bool :=
  match n, l with
  | S n, b :: l => divide n (if b then xor_first poly l else l)
  | _, _ => l
  end.
(** the remainder of the division by [poly] *)
Definition remainder (l : list bool) : list bool := divide (length l - 32) l.

(** the bits of a byte, least significant first, and back *)
Fixpoint bits (n : nat) (z : Z) : list bool := match n with O => [] | S n => Z.odd z :: bits n (Z.div2 z) end.
Definition bits_of (buf : list Z) : list bool := concat (map (bits 8) buf).
Fixpoint number (l : list bool) : Z := match l with [] => 0 | b :: l => Z.b2z b + 2 * number l end.

(** Complement of the remainder of message * x^32 with its first 32 coefficients
    complemented; the coefficient of x^31 is the lowest bit *)
Definition crc_spec (buf : list Z) : Z :=
  number (map negb (remainder (xor_first (repeat true 32) (bits_of buf ++ repeat false 32)))).
Definition bytes (buf : list Z) : Prop := Forall (fun b => 0 <= b < 256) buf.
