(** Model of common/itoa.cpp and str_reverse (common/string_util.c).
    Characters are integers 0..255, buffers are lists; any access outside a
    buffer and any failed ASSERT gives [None].  The kernel is compiled with
    -fwrapv: signed arithmetic wraps. *)
From Verif Require Import Lib.

(** Integer type of [w] bits, signed or not: reduction of a mathematical value
    into the type *)
Definition to_type (w : Z) (sg : bool) (x : Z) : Z :=
  let m := x mod 2 ^ w in
  if sg && (2 ^ (w - 1) <=? m) then m - 2 ^ w else m.

(** The characters of DIGITS, common/itoa.cpp:16 *)
Definition DIGITS : list Z :=
  [48; 49; 50; 51; 52; 53; 54; 55; 56; 57; 97; 98; 99; 100; 101; 102].

(** digit_to_val, common/string_util.c:10-44 *)
Definition digit_to_val (c : Z) : Z :=
  if (48 <=? c) && (c <=? 57) then c - 48
  else if (65 <=? c) && (c <=? 70) then c - 55
  else if (97 <=? c) && (c <=? 102) then c - 87
  else -1.

(** strlen of the string at the start of a buffer *)
Fixpoint strlen (buf : list Z) : option Z :=
  match buf with
  | [] => None
  | c :: r => if c =? 0 then Some 0
              else match strlen r with Some n => Some (n + 1) | None => None end
  end.

(** Loop of str_reverse, common/string_util.c:221-229: the xor swap of the
    characters at offsets [s] and [e] *)
Fixpoint str_reverse_loop (fuel : nat) (buf : list Z) (s e : Z) : option (list Z) :=
  if s <? e then
    match fuel with
    | O => None
    | S f =>
        match aget buf s, aget buf e with
        | Some a, Some b =>
            let a1 := Z.lxor a b in
            let b1 := Z.lxor b a1 in
            let a2 := Z.lxor a1 b1 in
            match aset buf s a2 with
            | None => None
            | Some buf1 =>
                match aset buf1 e b1 with
                | None => None
                | Some buf2 => str_reverse_loop f buf2 (s + 1) (e - 1)
                end
            end
        | _, _ => None
        end
    end
  else Some buf.

(** str_reverse, common/string_util.c:210-230, with its ASSERT.  Simplified:
    the three xor stores are done on the values and stored once. *)
Definition str_reverse (buf : list Z) (len : Z) : option (list Z) :=
  match strlen buf with
  | None => None
  | Some n =>
      if n =? len then
        if len =? 0 then Some buf
        else str_reverse_loop (length buf) buf 0 (len - 1)
      else None
  end.

(** The digit loop of __itoa, common/itoa.cpp:48-51; [fuel] iterations are
    enough when the value is below [2^fuel] *)
Fixpoint itoa_loop (fuel : nat) (value base : Z) (buf : list Z) (ptr : Z)
  : option (list Z * Z) :=
  if value =? 0 then Some (buf, ptr)
  else
    match fuel with
    | O => None
    | S f =>
        match aget DIGITS (value mod base) with
        | None => None
        | Some c =>
            match aset buf ptr c with
            | None => None
            | Some buf' => itoa_loop f (value / base) base buf' (ptr + 1)
            end
        end
    end.

(** __itoa<T>, common/itoa.cpp:31-59, for an integer type of [w] bits *)
Definition itoa (w : Z) (svalue : Z) (buf : list Z) (base : Z) : option (list Z) :=
  if (2 <=? base) && (base <=? 16) then
    if svalue =? 0 then
      match aset buf 0 48 with
      | None => None
      | Some b1 => aset b1 1 0
      end
    else
      let value := if 0 <=? svalue then svalue else (- svalue) mod 2 ^ w in
      match itoa_loop (Z.to_nat w) value base buf 0 with
      | None => None
      | Some (b1, p1) =>
          let signed :=
            if svalue <? 0 then
              match aset b1 p1 45 with Some b => Some (b, p1 + 1) | None => None end
            else Some (b1, p1) in
          match signed with
          | None => None
          | Some (b2, p2) =>
              match aset b2 p2 0 with
              | None => None
              | Some b3 => str_reverse b3 p2
              end
          end
      end
  else None.

(** __uitoa_fixed<T>, common/itoa.cpp:18-29: [n] digits remain, [j] is the shift *)
Fixpoint uitoa_fixed_loop (n : nat) (value j : Z) (buf : list Z) (ptr : Z)
  : option (list Z) :=
  match n with
  | O => aset buf ptr 0
  | S n' =>
      match aget DIGITS (Z.land (Z.shiftr value j) 15) with
      | None => None
      | Some c =>
          match aset buf ptr c with
          | None => None
          | Some buf' => uitoa_fixed_loop n' value (j - 4) buf' (ptr + 1)
          end
      end
  end.
Definition uitoa_fixed (w : Z) (value : Z) (buf : list Z) : option (list Z) :=
  uitoa_fixed_loop (Z.to_nat (w / 4)) value (w - 4) buf 0.

(** is_valid_digit, common/itoa.cpp:61-64 *)
Definition is_valid_digit (d base : Z) : bool :=
  (d <? 128) && (0 <=? digit_to_val d) && (digit_to_val d <? base).

Inductive perr := NoErr | ERANGE | EINVAL.

(** Result of a parse: value, error, offset stored in *endptr *)
Record parsed := mk_p { p_val : Z; p_err : perr; p_end : Z }.

(** The loop of __tilck_strtol, common/itoa.cpp:85-120.  [str] is the offset of
    the first digit position, [n] the number of digits consumed so far. *)
Fixpoint strtol_loop (w : Z) (sg : bool) (base sign : Z) (str : Z)
         (l : list Z) (n res : Z) : option parsed :=
  match l with
  | [] => None
  | c :: l' =>
      if (c =? 0) || negb (is_valid_digit c base) then
        Some (mk_p res (if n =? 0 then EINVAL else NoErr) (str + n))
      else
        let next := to_type w sg (res * base + sign * digit_to_val c) in
        let overflow :=
          if sg then negb (Bool.eqb (0 <? sign) (0 <=? next)) else next <? res in
        if overflow then Some (mk_p 0 ERANGE str)
        else strtol_loop w sg base sign str l' (n + 1) next
  end.

(** __tilck_strtol<T>, common/itoa.cpp:66-121 *)
Definition strtol (w : Z) (sg : bool) (s : list Z) (base : Z) : option parsed :=
  if (2 <=? base) && (base <=? 16) then
    match s with
    | [] => None
    | c :: s' =>
        if sg && (c =? 45) then strtol_loop w sg base (-1) 1 s' 0 0
        else strtol_loop w sg base 1 0 s 0 0
    end
  else None.
