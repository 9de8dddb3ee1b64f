(** Formats built from items, and what they must print.  The texts of numbers are those of
    Itoa_Spec.v (C37). *)
From Verif Require Import Lib Itoa_Spec Printk_Model.

Inductive kind := KD | KI | KU | KO | KX | KXU.
(** Minimum width: none; digits; '0' and digits; '-' and digits; '*' and an argument *)
Inductive pad := NoPad | Left (ds : list Z) | Zeros (ds : list Z) | Right (ds : list Z) | Star (n : Z).
Inductive modif := Mnone | Ml | Mll | Mh | Mhh | Mz | Mt | Mj | Mq | ML.
Inductive item :=
  | Lit (c : Z)
  | Percent
  | Num (h : bool) (p : pad) (m : modif) (k : kind) (v : Z)
  | Chr (p : pad) (c : Z)
  | Str (p : pad) (pr : option (list Z)) (s : option (list Z))
  | Ptr (v : Z).

(** the characters of the format *)
Definition kind_char (k : kind) : Z := match k with KD => 100 | KI => 105 | KU => 117 | KO => 111 | KX => 120 | KXU => 88 end.
Definition pad_fmt (p : pad) : list Z :=
  match p with
  | NoPad => []
  | Left ds => map digit_char ds
  | Zeros ds => 48 :: map digit_char ds
  | Right ds => 45 :: map digit_char ds
  | Star _ => [42]
  end.
Definition mod_fmt (m : modif) : list Z :=
  match m with Mnone => [] | Ml => [108] | Mll => [108; 108] | Mh => [104] | Mhh => [104; 104] | Mz => [122] | Mt => [116] | Mj => [106] | Mq => [113] | ML => [76] end.
Definition item_fmt (i : item) : list Z :=
  match i with
  | Lit c => [c]
  | Percent => [37; 37]
  | Num h p m k _ => 37 :: (if h then [35] else []) ++ pad_fmt p ++ mod_fmt m ++ [kind_char k]
  | Chr p _ => 37 :: pad_fmt p ++ [99]
  | Str p pr _ => 37 :: pad_fmt p ++ (match pr with Some ds => 46 :: map digit_char ds | None => [] end) ++ [115]
  | Ptr _ => [37; 112]
  end.

(** the arguments; integers are passed modulo the size of the type which va_arg reads *)
Section Width.
Variable W : Z.
Definition long_long (m : modif) : bool := match m with Mll | Mj | Mq | ML => true | _ => false end.
Definition bits (m : modif) : Z := match m with Mnone => 32 | Mh => 16 | Mhh => 8 | Ml | Mz | Mt => W | _ => 64 end.
Definition is_signed (k : kind) : bool := match k with KD | KI => true | _ => false end.
Definition pad_args (p : pad) : list arg := match p with Star n => [AWord (n mod 2 ^ W)] | _ => [] end.
Definition item_args (i : item) : list arg :=
  match i with
  | Lit _ | Percent => []
  | Num _ p m _ v => pad_args p ++ [if long_long m then A64 (v mod 2 ^ 64) else AWord (v mod 2 ^ W)]
  | Chr p c => pad_args p ++ [AWord c]
  | Str p _ s => pad_args p ++ [AStr s]
  | Ptr v => [AWord v]
  end.

(** the text *)
Definition base_val (k : kind) : Z := match k with KO => 8 | KX | KXU => 16 | _ => 10 end.
Definition upper (c : Z) : Z := if (97 <=? c) && (c <=? 102) then c - 32 else c.
Definition prefix (h : bool) (k : kind) : list Z :=
  if h then match k with KX | KXU => [48; 120] | KO => [48] | _ => [] end else [].
Definition blanks (n : Z) : list Z := repeat 32 (Z.to_nat n).
Definition zeros (n : Z) : list Z := repeat 48 (Z.to_nat n).
Definition field (p : pad) (pre t : list Z) : list Z :=
  let l := zlen pre + zlen t in
  match p with
  | NoPad => pre ++ t
  | Left ds => blanks (numeral_value 10 ds - l) ++ pre ++ t
  | Zeros ds => pre ++ zeros (numeral_value 10 ds - l) ++ t
  | Right ds => pre ++ t ++ blanks (numeral_value 10 ds - l)
  | Star n => if 0 <=? n then blanks (n - l) ++ pre ++ t else pre ++ t ++ blanks (- n - l)
  end.
Definition null_text : list Z := [40; 110; 117; 108; 108; 41]. (* (null) *)
Definition item_text (i : item) (t : list Z) : Prop :=
  match i with
  | Lit c => t = [c]
  | Percent => t = [37]
  | Num h p m k v =>
      exists d, is_text (base_val k) v d /\ t = field p (prefix h k) (match k with KXU => map upper d | _ => d end)
  | Chr p c => t = field p [] [c]
  | Str p pr s =>
      let s := match s with Some s => s | None => null_text end in
      t = field p [] (match pr with Some ds => firstn (Z.to_nat (numeral_value 10 ds)) s | None => s end)
  | Ptr v => exists ds, digits_of_base 16 ds /\ zlen ds = W / 4 /\ numeral_value 16 ds = v /\ t = [48; 120] ++ map digit_char ds
  end.

(** what is required of an item.  Zero padding of negative numbers, a width together with a
    precision, and a precision for numbers are not (the code prints them wrong); zero
    padding and '#' of strings and characters have no meaning *)
Definition width_ok (ds : list Z) : Prop := digits_of_base 10 ds /\ hd 0 ds <> 0 /\ numeral_value 10 ds < 2 ^ 31.
Definition pad_ok (p : pad) : Prop :=
  match p with
  | NoPad => True
  | Left ds | Zeros ds | Right ds => width_ok ds
  | Star n => - 2 ^ 31 < n < 2 ^ 31
  end.
Definition no_zeros (p : pad) : Prop := match p with Zeros _ => False | _ => True end.
Definition item_ok (i : item) : Prop :=
  match i with
  | Lit c => 0 < c < 256 /\ c <> 37
  | Percent => True
  | Num h p m k v => in_type (bits m) (is_signed k) v /\ pad_ok p /\ (v < 0 -> no_zeros p)
  | Chr p c => 0 < c < 256 /\ pad_ok p /\ no_zeros p
  | Str p pr s =>
      pad_ok p /\ no_zeros p /\ match s with Some s => zlen s < 2 ^ 31 | None => True end /\
      match pr with Some ds => p = NoPad /\ digits_of_base 10 ds /\ numeral_value 10 ds < 2 ^ 31 | None => True end
  | Ptr v => 0 <= v < 2 ^ W
  end.
Definition fmt_of (l : list item) : list Z := concat (map item_fmt l).
Definition args_of (l : list item) : list arg := concat (map item_args l).
Definition text_of (l : list item) (t : list Z) : Prop := exists ts, Forall2 item_text l ts /\ t = concat ts.
End Width.
(** 3000000000d *)
Definition huge : list Z := [51; 48; 48; 48; 48; 48; 48; 48; 48; 48; 100].
