(** Model of kernel/snprintk.c.

    The bytes stored at initial_buf[0], [1], ... are the list [out]: the C code stores them
    in this order, and ctx->buf - initial_buf is its length.  A store is made even when it
    is outside the buffer, as in C; whether this happens is for the theorems to say.
    The format is the list of its characters (0..255) without the terminator; reading
    beyond the terminator is [PastEnd].  The va_list is a list of typed arguments: taking
    one of another type, or a missing one, is [BadArgs].  [W]: bits of long and of
    pointers; int has 32 bits and wraps (-fwrapv).  The strings of the arguments do not
    overlap the destination.  intbuf is always written before it is read. *)
From Verif Require Import Lib Itoa_Model.

Inductive arg := AWord (v : Z) | A64 (v : Z) | AStr (s : option (list Z)).
Inductive width := LongLong | Long | Default | Short | Char.
Definition weqb (a b : width) : bool :=
  match a, b with LongLong, LongLong | Long, Long | Default, Default | Short, Short | Char, Char => true | _, _ => false end.

(** struct snprintk_ctx, lines 59-79, without fmt, args and intbuf; its reset, lines 81-90 *)
Record ctx := Ctx { wid : width; lpad : Z; rpad : Z; prec : Z; zero : bool; hash : bool }.
Definition reset : ctx := Ctx Default 0 0 (-1) false false.
Definition with_wid (c : ctx) w := Ctx w (lpad c) (rpad c) (prec c) (zero c) (hash c).
Definition with_lpad (c : ctx) n := Ctx (wid c) n (rpad c) (prec c) (zero c) (hash c).
Definition with_rpad (c : ctx) n := Ctx (wid c) (lpad c) n (prec c) (zero c) (hash c).
Definition with_prec (c : ctx) n := Ctx (wid c) (lpad c) (rpad c) n (zero c) (hash c).
Definition with_zero (c : ctx) b := Ctx (wid c) (lpad c) (rpad c) (prec c) b (hash c).
Definition with_hash (c : ctx) b := Ctx (wid c) (lpad c) (rpad c) (prec c) (zero c) b.

Section Size.
Variable size : Z.

(** write_in_buf_char, lines 33-40; true: there is room for more *)
Definition wchar (out : list Z) (c : Z) : list Z * bool :=
  let out := out ++ [c] in (out, zlen out <? size).
(** write_in_buf_str, lines 11-31; [s]: the characters before the terminator *)
Fixpoint wchars (out : list Z) (s : list Z) (len : Z) : list Z :=
  match s with
  | [] => out
  | c :: s => if (0 <? len) && (zlen out <? size) then wchars (out ++ [c]) s (len - 1) else out
  end.
Fixpoint wchars_all (out : list Z) (s : list Z) : list Z :=
  match s with
  | [] => out
  | c :: s => if zlen out <? size then wchars_all (out ++ [c]) s else out
  end.
Definition wstr (out s : list Z) (len : Z) : list Z * bool :=
  let out := if 0 <=? len then wchars out s len else wchars_all out s in
  (out, zlen out <? size).

(** a sequence of writes, stopped by the first which fills the buffer *)
Definition andw (r : list Z * bool) (k : list Z -> list Z * bool) : list Z * bool :=
  if snd r then k (fst r) else r.
Definition whenw (b : bool) (out : list Z) (k : list Z -> list Z * bool) : list Z * bool :=
  if b then k out else (out, true).
(** for (int i = 0; i < n; i++) WRITE_CHAR(c); *)
Fixpoint wpad (n : nat) (c : Z) (out : list Z) : list Z * bool :=
  match n with O => (out, true) | S n => andw (wchar out c) (wpad n c) end.

(** write_0x_prefix, lines 98-113: 'x' is 120, 'p' 112, 'o' 111, '0' 48 *)
Definition wprefix (f : Z) (out : list Z) : list Z * bool :=
  if (f =? 120) || (f =? 112) then andw (wchar out 48) (fun out => wchar out 120)
  else if f =? 111 then wchar out 48
  else (out, true).

(** write_str, lines 115-171; None: the ASSERT fails.  's' is 115, 'c' 99 *)
Definition write_str (x : ctx) (f : Z) (str : list Z) (out : list Z) : option (list Z * bool) :=
  let sl := s32 (zlen str) in
  let lp := Z.max 0 (s32 (lpad x - sl)) in
  let rp := Z.max 0 (s32 (rpad x - sl)) in
  if negb (lp =? 0) && negb (rp =? 0) then None
  else
    let isprec := (0 <=? prec x) && negb (f =? 115) in
    let zl := if isprec then true else zero x in
    let lp := if isprec then Z.max 0 (s32 (prec x - sl)) else lp in
    let off := if hash x then if f =? 120 then 2 else if f =? 111 then 1 else 0 else 0 in
    let lp := Z.max 0 (lp - off) in
    let rp := Z.max 0 (rp - off) in
    let pc := if zl && negb (f =? 99) then 48 else 32 in
    Some (andw (whenw (zl && hash x) out (wprefix f)) (fun out =>
          andw (wpad (Z.to_nat lp) pc out) (fun out =>
          andw (whenw (((f =? 112) || hash x) && negb (pc =? 48)) out (wprefix f)) (fun out =>
          andw (wstr out str (prec x)) (fun out =>
          wpad (Z.to_nat rp) pc out))))).

Variable W : Z.
(** the string left in intbuf *)
Fixpoint cstr (l : list Z) : list Z :=
  match l with [] => [] | c :: l => if c =? 0 then [] else c :: cstr l end.
Definition intbuf : list Z := repeat 0 64.

(** width_val, lines 50-57; diuox_base, lines 173-181 *)
Definition width_val (w : width) : Z := match w with LongLong => 0 | Long => W | Default => 32 | Short => 16 | Char => 8 end.
Definition base_of (f : Z) : Z :=
  if (f =? 100) || (f =? 105) || (f =? 117) then 10 else if f =? 111 then 8 else if (f =? 120) || (f =? 88) then 16 else 0.
(** sign_extend, include/3rd_party/bithacks.h:74-79; make_bitmask, include/tilck/common/utils.h:67-72 *)
Definition sign_extend (v w : Z) : Z :=
  Z.shiftr (to_type W true (Z.shiftl v (W - w))) (W - w).
Definition make_bitmask (w : Z) : Z := Z.shiftr (Z.shiftl (2 ^ W - 1) (W - w) mod 2 ^ W) (W - w).
(** toupper, include/tilck/common/string_util.h:70-72 *)
Definition toupper (c : Z) : Z := if (97 <=? c) && (c <=? 122) then c - 32 else c.

(** write_char_param, write_string_param, write_pointer_param, write_number_param, lines
    183-250: the text and the format character given to write_str, the arguments left.
    None: bad argument; an overflow of intbuf would be None too *)
Definition param (x : ctx) (f : Z) (args : list arg) : option (list Z * Z * list arg) :=
  if f =? 99 then
    match args with
    | AWord v :: args => Some (cstr [v mod 256; 0], 99, args)
    | _ => None
    end
  else if f =? 115 then
    match args with
    | AStr s :: args => Some (match s with Some s => s | None => [40; 110; 117; 108; 108; 41] end, 115, args)
    | _ => None
    end
  else if f =? 112 then
    match args with
    | AWord v :: args => option_map (fun b => (cstr b, 112, args)) (uitoa_fixed W v intbuf)
    | _ => None
    end
  else
    let text :=
      if (f =? 100) || (f =? 105) then
        if weqb (wid x) LongLong
        then match args with A64 v :: args => option_map (fun b => (cstr b, args)) (itoa 64 (to_type 64 true v) intbuf 10) | _ => None end
        else match args with AWord v :: args => option_map (fun b => (cstr b, args)) (itoa W (sign_extend v (width_val (wid x))) intbuf 10) | _ => None end
      else
        if weqb (wid x) LongLong
        then match args with A64 v :: args => option_map (fun b => (cstr b, args)) (itoa 64 v intbuf (base_of f)) | _ => None end
        else match args with AWord v :: args => option_map (fun b => (cstr b, args)) (itoa W (Z.land v (make_bitmask (width_val (wid x)))) intbuf (base_of f)) | _ => None end
    in
    match text with
    | None => None
    | Some (t, args) => if f =? 88 then Some (map toupper t, 120, args) else Some (t, f, args)
    end.

(** write_funcs, lines 252-265, and 'X': is there a function for this character *)
Definition is_conv (f : Z) : bool :=
  (f =? 100) || (f =? 105) || (f =? 111) || (f =? 117) || (f =? 120) || (f =? 99) || (f =? 115) || (f =? 112) || (f =? 88).
(** double_mods and single_mods, lines 267-283, with the search of lines 408-424 *)
Definition next_wid (isl : bool) (w : width) : option width :=
  match isl, w with
  | true, Default => Some Long
  | true, Long => Some LongLong
  | false, Default => Some Short
  | false, Short => Some Char
  | _, _ => None
  end.

(** Outcomes of process_seq: go on with the rest of the format; stop; and the bad ones *)
Inductive sres :=
  | Go (fmt : list Z) (args : list arg) (out : list Z)
  | Stop (out : list Z)
  | BadArgs | AssertFails | PastEnd | NoFuel.

(** unknown_seq, lines 429-459.  The result of write_str is ignored. *)
Definition unknown (x : ctx) (fmt : list Z) (args : list arg) (out : list Z) : sres :=
  let r := andw (wchar out 37) (fun out =>
           andw (whenw (hash x) out (fun out => wchar out 35)) (fun out =>
           whenw (zero x) out (fun out => wchar out 48))) in
  if negb (snd r) then Stop (fst r)
  else
    let out := fst r in
    let x := with_zero x false in
    let n := if rpad x =? 0 then lpad x else s32 (- rpad x) in
    let next :=
      if n =? 0 then Some out
      else match itoa W n intbuf 10 with
           | None => None
           | Some b => option_map fst (write_str (with_lpad (with_rpad x 0) 0) 100 (cstr b) out)
           end in
    match next with
    | None => AssertFails
    | Some out =>
        match fmt with
        | [] => if snd (wchar out 0) then PastEnd else Stop (fst (wchar out 0))
        | c :: fmt => if snd (wchar out c) then Go fmt args (fst (wchar out c)) else Stop (fst (wchar out c))
        end
    end.

(** A number in the format: its value and what follows it.  tilck_strtol(.., 10, NULL) *)
Definition number (fmt : list Z) : option (Z * list Z) :=
  match strtol W true (fmt ++ [0]) 10 with
  | None => None
  | Some p => Some (s32 (p_val p), skipn (Z.to_nat (p_end p)) fmt)
  end.
Definition take_int (args : list arg) : option (Z * list arg) :=
  match args with AWord v :: args => Some (s32 v, args) | _ => None end.

(** is the next character a '*' *)
Definition starred (fmt : list Z) : option (list Z) :=
  match fmt with c :: fmt => if c =? 42 then Some fmt else None | [] => None end.

(** process_seq, lines 285-476, from the label process_next_char_in_seq; [prev] is
    ctx->fmt[-1] *)
Fixpoint seq (fuel : nat) (x : ctx) (prev : Z) (fmt : list Z) (args : list arg) (out : list Z) : sres :=
  match fuel with
  | O => NoFuel
  | S fuel =>
      match fmt with
      | [] => Stop out
      | c :: fmt' =>
          if is_conv c then
            match param x c args with
            | None => BadArgs
            | Some (t, f, args) =>
                match write_str x f t out with
                | None => AssertFails
                | Some (out, true) => Go fmt' args out
                | Some (out, false) => Stop out
                end
            end
          else if c =? 48 then seq fuel (with_zero x true) c fmt' args out
          else if (49 <=? c) && (c <=? 57) then
            match number fmt with
            | None => BadArgs
            | Some (n, rest) => seq fuel (with_lpad x n) (nth (length fmt - length rest - 1) fmt prev) rest args out
            end
          else if c =? 42 then
            match take_int args with
            | None => BadArgs
            | Some (n, args) =>
                seq fuel (if n <? 0 then with_lpad (with_rpad x (s32 (- n))) 0 else with_lpad x n) c fmt' args out
            end
          else if c =? 45 then
            match starred fmt' with
            | Some fmt'' =>
                match take_int args with
                | None => BadArgs
                | Some (n, args) => seq fuel (with_rpad x (if n <? 0 then s32 (- n) else n)) 42 fmt'' args out
                end
            | None =>
                match number fmt' with
                | None => BadArgs
                | Some (n, rest) => seq fuel (with_rpad x n) (nth (length fmt - length rest - 1) fmt prev) rest args out
                end
            end
          else if c =? 46 then
            match starred fmt' with
            | Some fmt'' =>
                match take_int args with
                | None => BadArgs
                | Some (n, args) => seq fuel (with_prec x (Z.max 0 n)) 42 fmt'' args out
                end
            | None =>
                match number fmt' with
                | None => BadArgs
                | Some (n, rest) => seq fuel (with_prec x n) (nth (length fmt - length rest - 1) fmt prev) rest args out
                end
            end
          else if c =? 35 then
            if hash x then
              match fmt' with [] => unknown x [] args out | _ => seq fuel x c fmt' args out end
            else if negb (prev =? 37) then unknown x fmt args out
            else match fmt' with [] => unknown x fmt args out | _ => seq fuel (with_hash x true) c fmt' args out end
          else if (c =? 122) || (c =? 116) || (c =? 106) || (c =? 113) || (c =? 76) then
            if weqb (wid x) Default
            then seq fuel (with_wid x (if (c =? 122) || (c =? 116) then Long else LongLong)) c fmt' args out
            else unknown x fmt args out
          else if (c =? 108) || (c =? 104) then
            match next_wid (c =? 108) (wid x) with
            | None => unknown x fmt args out
            | Some w => seq fuel (with_wid x w) c fmt' args out
            end
          else unknown x fmt args out
      end
  end.

(** process_seq from its start, with '%%' *)
Definition process_seq (fuel : nat) (fmt : list Z) (args : list arg) (out : list Z) : sres :=
  match fmt with
  | c :: fmt' =>
      if (c =? 37) || (128 <=? c) then
        let r := wchar out c in if snd r then Go fmt' args (fst r) else Stop (fst r)
      else seq fuel reset 37 fmt args out
  | [] => Stop out
  end.

(** vsnprintk, lines 478-513.  The bytes stored, before the final terminator *)
Inductive pres := Text (out : list Z) | Fails (r : sres).
Fixpoint loop (fuel : nat) (fmt : list Z) (args : list arg) (out : list Z) : pres :=
  match fuel with
  | O => Fails NoFuel
  | S fuel' =>
      match fmt with
      | [] => Text out
      | c :: fmt =>
          if c =? 37 then
            match process_seq fuel fmt args out with
            | Go fmt args out => loop fuel' fmt args out
            | Stop out => Text out
            | r => Fails r
            end
          else
            let r := wchar out c in
            if snd r then loop fuel' fmt args (fst r) else Text (fst r)
      end
  end.
Definition vsnprintk (fuel : nat) (fmt : list Z) (args : list arg) : pres := loop fuel fmt args [].
(** line 511: where the terminator is stored *)
Definition nul_at (out : list Z) : Z := if zlen out <? size then zlen out else zlen out - 1.
End Size.
