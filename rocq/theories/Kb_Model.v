(** Model of modules/kb8042/generic_x86/kb.c (from the scancodes to the handlers), kb_ansi_seq.c.h,
    and the modifiers of kernel/kb_input.c.  One byte of the ring buffer after the other; the
    layouts and toupper are parameters; the LEDs are left out. *)
From Verif Require Import Lib.

Inductive kst := KDef | KE0 | KE1 | KE1b.
Inductive kout := Ev (key c : Z) (p : bool) | Reboot.
(** kb.c:27-43; [dead]: reboot() was called *)
Record kb := Kb { kstate : kst; prs : bool -> Z -> bool; num : bool; caps : bool; dead : bool }.
Definition kb0 : kb := Kb KDef (fun _ _ => false) false false false.
Definition set_kstate (s : kb) (x : kst) : kb := Kb x (prs s) (num s) (caps s) (dead s).

Section Keyboard.
Variable layout : bool -> Z -> Z.
Variable numkey : Z -> Z.
Variable toupper : Z -> Z.

(** kb_is_pressed, kb.c:45-49 *)
Definition key_e0 (key : Z) : bool := Z.shiftr key 8 =? 224.
Definition is_pressed (s : kb) (key : Z) : bool := prs s (key_e0 key) (Z.land key 255).
(** translate_printable_key, kb.c:56-88 *)
Definition translate (s : kb) (key : Z) : Z :=
  if 256 <=? key then (if key =? 57372 then 13 else if key =? 57397 then 47 else 0)
  else
    let c := layout (is_pressed s 42 || is_pressed s 54) key in
    let c := if num s then Z.lor c (numkey key) else c in
    if caps s then toupper c else c.
(** handle_special_keys_pressed, kb.c:124-153, and handle_key_pressed, lines 155-164 *)
Definition key_pressed (s : kb) (key : Z) (p : bool) : kb * list kout :=
  if p && (key =? 57427) && is_pressed s 29 && is_pressed s 56 then (Kb (kstate s) (prs s) (num s) (caps s) true, [Reboot])
  else if p && (key =? 69) then (Kb (kstate s) (prs s) (negb (num s)) (caps s) (dead s), [])
  else if p && (key =? 58) then (Kb (kstate s) (prs s) (num s) (negb (caps s)) (dead s), [])
  else (s, [Ev key (translate s key) p]).
(** key_int_handler, kb.c:166-171 *)
Definition key_int (s : kb) (key : Z) (p : bool) : kb * list kout :=
  let t e k := if Bool.eqb e (key_e0 key) && (k =? Z.land key 255) then p else prs s e k in
  key_pressed (Kb (kstate s) t (num s) (caps s) (dead s)) key p.
(** kb_handle_default_state and kb_process_scancode, kb.c:173-224 *)
Definition process (s : kb) (b : Z) : kb * list kout :=
  if dead s then (s, [])
  else
    match kstate s with
    | KE1b => (set_kstate s KDef, [])
    | KE1 => (set_kstate s KE1b, [])
    | KE0 =>
        let s := set_kstate s KDef in
        if (b =? 42) || (b =? 170) then (s, [])
        else key_int s (Z.lor (Z.land b 127) 57344) (Z.land b 128 =? 0)
    | KDef =>
        if b =? 224 then (set_kstate s KE0, [])
        else if b =? 225 then (set_kstate s KE1, [])
        else key_int s (Z.land b 127) (Z.land b 128 =? 0)
    end.
(** the loop of kb_irq_bottom_half, kb.c:240-243 *)
Fixpoint run (s : kb) (l : list Z) : kb * list kout :=
  match l with [] => (s, []) | b :: l => let '(s, o) := process s b in let '(s, o') := run s l in (s, o ++ o') end.
End Keyboard.

(** kb_get_current_modifiers, kernel/kb_input.c:22-40 *)
Definition modifiers (s : kb) : Z :=
  (if is_pressed s 42 || is_pressed s 54 then 1 else 0) + 2 * (if is_pressed s 56 || is_pressed s 57400 then 1 else 0)
  + 4 * (if is_pressed s 29 || is_pressed s 57373 then 1 else 0).
(** kb.h:84-87 and kb_exact_match_modifiers, lines 92-95 *)
Definition mod_alt := 1. Definition mod_shift := 2. Definition mod_ctrl := 4.
Definition exact_match (s : kb) (m : Z) : bool := modifiers s =? m.

(** ansi_sequences, kb_ansi_seq.c.h:13-51, characters as numbers *)
Definition ansi_table : list (Z * list Z) :=
  [(57416, [27; 91; 65]); (57424, [27; 91; 66]); (57421, [27; 91; 67]); (57419, [27; 91; 68]);
   (72, [27; 91; 65]); (80, [27; 91; 66]); (77, [27; 91; 67]); (75, [27; 91; 68]);
   (57417, [27; 91; 53; 126]); (73, [27; 91; 53; 126]); (57425, [27; 91; 54; 126]); (81, [27; 91; 54; 126]);
   (57426, [27; 91; 50; 126]); (82, [27; 91; 50; 126]); (57427, [27; 91; 51; 126]); (83, [27; 91; 51; 126]);
   (57415, [27; 91; 49; 126]); (71, [27; 91; 49; 126]); (57423, [27; 91; 52; 126]); (79, [27; 91; 52; 126]);
   (59, [27; 91; 91; 65]); (60, [27; 91; 91; 66]); (61, [27; 91; 91; 67]); (62, [27; 91; 91; 68]); (63, [27; 91; 91; 69]);
   (64, [27; 91; 49; 55; 126]); (65, [27; 91; 49; 56; 126]); (66, [27; 91; 49; 57; 126]); (67, [27; 91; 50; 48; 126]);
   (68, [27; 91; 50; 49; 126]); (87, [27; 91; 50; 51; 126]); (88, [27; 91; 50; 52; 126])].
Definition isdigit (c : Z) : bool := (48 <=? c) && (c <=? 57).
(** kb_scancode_to_ansi_seq, lines 53-146, on a found sequence; None: false.  Zero-terminated strings as lists *)
Definition insert_mod (m : Z) (seq : list Z) : list Z := removelast seq ++ [59; 49 + m; last seq 0].
Definition ansi_of (seq : list Z) (m : Z) : option (list Z) :=
  if m =? 0 then Some seq
  else if negb (nth 1 seq 0 =? 91) then
    (if nth 1 seq 0 =? 79 then Some (insert_mod m [nth 0 seq 0; 91; 49; nth 2 seq 0]) else None)
  else if negb (isdigit (nth 2 seq 0)) then
    (if negb (zlen seq =? 3) then None else Some (insert_mod m [nth 0 seq 0; nth 1 seq 0; 49; nth 2 seq 0]))
  else Some (insert_mod m seq).
Definition ansi (key m : Z) : option (list Z) :=
  match find (fun e => fst e =? key) ansi_table with None => None | Some e => ansi_of (snd e) m end.
