(** The kernel's command line: kernel/cmdline.c.

    Modelled: parse_kernel_cmdline, use_kernel_arg, the handlers of the four types of options, the check of
    the table, do_args_validation.  Left out: printk, sysfs, the search for the symbol of a self test
    (only the buffer for its name).  Strings are lists of bytes without the NUL; strcmp on them is
    equality (C73).  The options are a table given from outside (cmdline_opts.h). *)
From Verif Require Import Lib Itoa_Model.

Notation word := (list Z) (only parsing).
Definition eqw (a b : list Z) : bool := if list_eq_dec Z.eq_dec a b then true else false.
Definition w_0 := [48]. Definition w_1 := [49].
Definition w_true := [116; 114; 117; 101]. Definition w_false := [102; 97; 108; 115; 101].
Definition w_cmd := [99; 109; 100].

(** struct kopt, cmdline_types.h *)
Inductive kty := KBool | KLong | KULong | KWord.
Record kopt := Kopt { kname : list Z; kalias : list Z; ktype : kty }.
(** NULL, the string "/initrd/bin/init", args_buf + o *)
Inductive ptr := PNull | PInit | PBuf (o : Z).
Inductive val := VBool (b : bool) | VNum (z : Z) | VPtr (p : ptr).
Inductive mode := Initial | Waiting | Final.
(** struct arg_parse_ctx, the options' variables, cmd_args, last_custom_cmd_n, args_buf, args_buf_used *)
Record ps := Ps { md : mode; lastk : option nat; vars : nat -> val; cargs : list ptr; ncmd : Z; ab : list Z; used : Z }.
Inductive out (A : Type) := Ok (a : A) | Panic | Oob.
Arguments Ok {A}. Arguments Panic {A}. Arguments Oob {A}.

Definition PAGE := 4096.
Definition MAXA := 16.
Definition MAXL := 255.

Definition upd {A} (f : nat -> A) (i : nat) (x : A) : nat -> A := fun j => if Nat.eqb j i then x else f j.
(** kopt_is_bool_value, 34-38 *)
Definition is_bool_value (a : list Z) : bool := eqw a w_0 || eqw a w_false || eqw a w_1 || eqw a w_true.
(** kopt_handle_bool, 41-51; an unknown value leaves the variable *)
Definition h_bool (v : val) (a : list Z) : val :=
  if match a with c :: _ => c =? 45 | [] => false end then VBool true
  else if eqw a w_0 || eqw a w_false then VBool false
  else if eqw a w_1 || eqw a w_true then VBool true
  else v.
(** kopt_handle_long, 53-66 and kopt_handle_ulong, 68-86; [w]: bits of a long *)
Definition h_long (w : Z) (v : val) (a : list Z) : val :=
  match strtol w true (a ++ [0]) 10 with
  | Some r => match p_err r with NoErr => VNum (p_val r) | _ => v end
  | None => v
  end.
Definition h_ulong (w : Z) (v : val) (a : list Z) : val :=
  let '(base, b) := match a with c :: d :: t => if (c =? 48) && (d =? 120) then (16, t) else (10, a) | _ => (10, a) end in
  match strtol w false (b ++ [0]) base with
  | Some r => match p_err r with NoErr => VNum (p_val r) | _ => v end
  | None => v
  end.
(** kopt_handle_wordstr, 88-100 *)
Definition h_word (s : ps) (i : nat) (a : list Z) : out ps :=
  if PAGE <=? used s + zlen a + 1 then Ok s
  else match mem_write (ab s) (used s) (a ++ [0]) with
       | None => Oob
       | Some b => Ok (Ps (md s) (lastk s) (upd (vars s) i (VPtr (PBuf (used s)))) (cargs s) (ncmd s) b (used s + zlen a + 1))
       end.
(** handle_cmdline_arg, 114-128 *)
Definition h_cmd (s : ps) (a : list Z) : out ps :=
  if ncmd s =? MAXA - 1 then Panic
  else if PAGE <=? used s + zlen a + 1 then Panic
  else match mem_write (ab s) (used s) (a ++ [0]), aset (cargs s) (ncmd s) (PBuf (used s)) with
       | Some b, Some c => Ok (Ps (md s) (lastk s) (vars s) c (ncmd s + 1) b (used s + zlen a + 1))
       | _, _ => Oob
       end.
Definition set_var (s : ps) (i : nat) (v : val) : ps := Ps (md s) (lastk s) (upd (vars s) i v) (cargs s) (ncmd s) (ab s) (used s).
Definition set_md (s : ps) (m : mode) : ps := Ps m (lastk s) (vars s) (cargs s) (ncmd s) (ab s) (used s).
Definition set_last (s : ps) (l : option nat) : ps := Ps (md s) l (vars s) (cargs s) (ncmd s) (ab s) (used s).
(** handle_arg_generic, 166-190 *)
Definition generic (w : Z) (t : kty) (s : ps) (i : nat) (a : list Z) : out ps :=
  match t with
  | KBool => Ok (set_var s i (h_bool (vars s i) a))
  | KLong => Ok (set_var s i (h_long w (vars s i) a))
  | KULong => Ok (set_var s i (h_ulong w (vars s i) a))
  | KWord => h_word s i a
  end.
(** The search of use_kernel_arg, 241-252 *)
Fixpoint find_opt (tbl : list kopt) (a : list Z) : option nat :=
  match tbl with
  | [] => None
  | k :: t =>
      if match a with
         | c :: n => (c =? 45) && (eqw n (kname k) || (negb (eqw (kalias k) []) && eqw n (kalias k)))
         | [] => false
         end
      then Some O else match find_opt t a with Some i => Some (S i) | None => None end
  end.
Definition type_of (tbl : list kopt) (i : nat) : kty := match nth_error tbl i with Some k => ktype k | None => KBool end.
(** use_kernel_arg, 192-276 *)
Definition use_arg (w : Z) (tbl : list kopt) (s : ps) (a : list Z) : out ps :=
  match md s with
  | Final => h_cmd s a
  | Waiting =>
      match lastk s with
      | None => Oob
      | Some i => match generic w (type_of tbl i) s i a with Ok s => Ok (set_md s Initial) | r => r end
      end
  | Initial =>
      if is_bool_value a then
        match lastk s with
        | Some i =>
            match type_of tbl i with
            | KBool => match generic w KBool s i a with Ok s => Ok (set_last s None) | r => r end
            | _ => Ok s
            end
        | None => Ok s
        end
      else if eqw a (45 :: w_cmd) || eqw a [45; 45] then Ok (set_md s Final)
      else match find_opt tbl a with
           | None => Ok s
           | Some i =>
               let s := set_last s (Some i) in
               match type_of tbl i with
               | KBool => generic w KBool s i a
               | _ => Ok (set_md s Waiting)
               end
           end
  end.

(** A string in a buffer *)
Fixpoint cstr (l : list Z) : list Z := match l with [] => [] | c :: t => if c =? 0 then [] else c :: cstr t end.
(** end_arg, 304-313 *)
Definition end_arg (w : Z) (tbl : list kopt) (s : ps) (buf : list Z) (n : Z) : out (ps * list Z) :=
  match aset buf n 0 with
  | None => Oob
  | Some buf => match use_arg w tbl s (cstr buf) with Ok s => Ok (s, buf) | Panic => Panic | Oob => Oob end
  end.
(** The loop of parse_kernel_cmdline, 488-511; [sk]: in the loop of 504; [n]: argbuf - buf *)
Fixpoint scan (w : Z) (tbl : list kopt) (l : list Z) (sk : bool) (buf : list Z) (n : Z) (s : ps) : out ps :=
  match l with
  | [] => if n =? 0 then Ok s else match end_arg w tbl s buf n with Ok (s, _) => Ok s | Panic => Panic | Oob => Oob end
  | c :: t =>
      if sk && negb (c =? 32) then scan w tbl t true buf n s
      else if c =? 32
      then if n =? 0 then scan w tbl t false buf n s
           else match end_arg w tbl s buf n with Ok (s, buf) => scan w tbl t false buf 0 s | Panic => Panic | Oob => Oob end
      else if MAXL <=? n
      then match end_arg w tbl s buf n with Ok (s, buf) => scan w tbl t true buf 0 s | Panic => Panic | Oob => Oob end
      else match aset buf n c with None => Oob | Some buf => scan w tbl t false buf (n + 1) s end
  end.
(** handle_selftest_kopt, 130-152: the buffer; "selftest_" has 9 bytes.  [i]: index of the option *)
Definition selftest (s : ps) (i : nat) : out unit :=
  match vars s i with
  | VPtr (PBuf o) => if MAXL + 1 <? 9 + zlen (cstr (skipn (Z.to_nat o) (ab s))) + 1 then Oob else Ok tt
  | _ => Ok tt
  end.
(** do_args_validation, 278-297.  [it], [ist], [isc]: options ttys, selftest, sercon; [tc], [mt]: TTY_COUNT, MAX_TTYS *)
Definition validate (it ist isc : nat) (tc mt : Z) (s : ps) : out ps :=
  let s := match vars s isc with VBool true => set_var s it (VNum 1) | _ => s end in
  let s := match vars s it with VNum z => if (z <=? 0) || (mt <? z) then set_var s it (VNum tc) else s | _ => s end in
  match selftest s ist with Ok _ => Ok s | Panic => Panic | Oob => Oob end.
(** Before the parse: cmdline.c:24, 30-32, the defaults [dv]; [buf], [junk]: what is in the stack buffer and args_buf *)
Definition init (dv : nat -> val) (junk : list Z) : ps :=
  Ps Initial None dv (PInit :: repeat PNull 15) 0 junk 0.
Definition parse (w : Z) (tbl : list kopt) (dv : nat -> val) (junk buf line : list Z) : out ps :=
  scan w tbl line false buf 0 (init dv junk).

(** debug_check_all_kopts, 315-352: no panic *)
Definition clash (x y : kopt) : bool :=
  eqw (kname x) (kname y) || (negb (eqw (kalias y) []) && eqw (kname x) (kalias y)) ||
  (negb (eqw (kalias x) []) && eqw (kalias x) (kname y)) ||
  (negb (eqw (kalias x) []) && negb (eqw (kalias y) []) && eqw (kalias x) (kalias y)).
Fixpoint check_from (pre tbl : list kopt) : bool :=
  match tbl with
  | [] => true
  | x :: t => forallb (fun y => negb (clash x y)) pre && negb (eqw (kname x) w_cmd || eqw (kalias x) w_cmd) && check_from (pre ++ [x]) t
  end.
Definition check (tbl : list kopt) : bool := check_from [] tbl.
