(** The escape sequences of the video console: modules/console/console.c,
    console_def_state.c.h, console_int.h, tables.c; struct term_action and its
    constructors, video_term_int.h:70-352; the loop of term_action_write,
    term_actions.c.h:109-143.

    The screen is the one of Term_Model.  Simplifications: cd->attrs is two
    booleans (no other bit is ever set); the state of the filter stands for
    the function pointer and for non_default_state, which tty_set_state keeps
    in step; a reply (CSI n, CSI c) is recorded, not sent through
    tty_send_keyevent, and its echo is left out; of ESC c, the input buffer and
    kd_gfx_mode are left out; [w] is the number of bits of long.  [None] is an
    access outside an array. *)
From Verif Require Import Lib Itoa_Model Term_Model.

Definition u8 (x : Z) : Z := x mod 256.
Definition s16 (x : Z) : Z := (x + 32768) mod 65536 - 32768.

(** The filter functions *)
Inductive pst := PDef | PEsc | PPar0 | PPar1 | PCsi | PUnk.

(** struct console_data and struct twfilter_ctx, console_int.h:16-45; [pb] and
    [ib] are the first pbc (ibc) bytes of param_bytes (interm_bytes); [gx0],
    [gx1]: whether c_sets_tables[i] is tty_gfx_trans_table; of the tty:
    [tcol] is curr_color; VERASE, VWERASE, VKILL; whether OPOST and ONLCR are
    both set *)
Record con := Con {
  pst_ : pst; pb : list Z; ib : list Z;
  cset : bool; gx0 : bool; gx1 : bool;
  bold : bool; rvs : bool; ucol : Z; tcol : Z;
  srow : Z; scol : Z;
  k_erase : Z; k_werase : Z; k_kill : Z; onlcr : bool
}.

Definition set_st x p := Con p (pb x) (ib x) (cset x) (gx0 x) (gx1 x) (bold x) (rvs x) (ucol x) (tcol x) (srow x) (scol x) (k_erase x) (k_werase x) (k_kill x) (onlcr x).
Definition set_by x p i := Con (pst_ x) p i (cset x) (gx0 x) (gx1 x) (bold x) (rvs x) (ucol x) (tcol x) (srow x) (scol x) (k_erase x) (k_werase x) (k_kill x) (onlcr x).
Definition set_cs x c a b := Con (pst_ x) (pb x) (ib x) c a b (bold x) (rvs x) (ucol x) (tcol x) (srow x) (scol x) (k_erase x) (k_werase x) (k_kill x) (onlcr x).
Definition set_at x b r u t := Con (pst_ x) (pb x) (ib x) (cset x) (gx0 x) (gx1 x) b r u t (srow x) (scol x) (k_erase x) (k_werase x) (k_kill x) (onlcr x).
Definition set_sv x y z := Con (pst_ x) (pb x) (ib x) (cset x) (gx0 x) (gx1 x) (bold x) (rvs x) (ucol x) (tcol x) y z (k_erase x) (k_werase x) (k_kill x) (onlcr x).
Definition set_tm x e v k o := Con (pst_ x) (pb x) (ib x) (cset x) (gx0 x) (gx1 x) (bold x) (rvs x) (ucol x) (tcol x) (srow x) (scol x) e v k o.

(** A new console: kzalloc, reset_console_data, tty_reset_filter_ctx (default
    color 7, termios of tty_ioctl.c:19-48) *)
Definition con_init : con := Con PDef [] [] false false true false false 7 7 0 0 127 23 21 true.

(** What is sent back as input *)
Inductive reply := RCpr (row col : Z) | RDsr | RDa.

(** What a filter function leaves: its context, *color, a character if it
    returns TERM_FILTER_WRITE_C, the action, replies *)
Record out := Out { o_con : con; o_col : Z; o_ch : option Z; o_act : list item; o_rep : list reply }.

Definition nothing (x : con) (k : Z) : out := Out x k None [] [].
Definition act (x : con) (k : Z) (i : item) : out := Out x k None [i] [].

(** term_make_action_*, video_term_int.h:162-352, with the widths of the bit
    fields and of the parameters of the functions of term_actions.c.h *)
Definition mk_move (row col : Z) : item := IMove (u16 row) (u16 col).
Definition mk_move_rel (dr dc : Z) : item := IMoveRel (s16 dr) (s16 dc).
Definition u12 (x : Z) : Z := x mod 4096.
Definition u24 (x : Z) : Z := x mod 16777216.

(** tty_reset_filter_ctx, console.c:56-69 *)
Definition reset_ctx (x : con) : con := set_st (set_by x [] []) PDef.

(** make_color, get_color_fg, get_color_bg, color_defs.h:34-36 *)
Definition make_color (fg bg : Z) : Z := Z.lor fg (Z.shiftl bg 4) mod 256.
Definition col_fg (k : Z) : Z := Z.land k 15.
Definition col_bg (k : Z) : Z := Z.land (Z.shiftr k 4) 15.

(** fg_csi_to_vga, tables.c:11-29 *)
Definition fg_csi_to_vga (p : Z) : Z :=
  match p with
  | 30 => 0 | 31 => 4 | 32 => 2 | 33 => 6 | 34 => 1 | 35 => 5 | 36 => 3 | 37 => 7
  | 90 => 8 | 91 => 12 | 92 => 10 | 93 => 14 | 94 => 9 | 95 => 13 | 96 => 11 | 97 => 15
  | _ => 0
  end.

(** tty_csi_m_handler_param, console.c:90-167: the part after set_color *)
Definition set_color (x : con) (b v : bool) (fg bg : Z) : con * Z :=
  let u := make_color fg bg in
  let fg' := if b && (fg <=? 7) then fg + 8 else fg in
  let t := if v then make_color bg fg' else make_color fg' bg in
  (set_at x b v u t, t).

Definition m_param (x : con) (k : Z) (p : Z) : con * Z :=
  let fg := col_fg (ucol x) in
  let bg := col_bg (ucol x) in
  if p =? 0 then set_color x false false 7 0
  else if p =? 39 then set_color x (bold x) (rvs x) 7 bg
  else if p =? 49 then set_color x (bold x) (rvs x) fg 0
  else if p =? 1 then set_color x true (rvs x) fg bg
  else if p =? 7 then set_color x (bold x) true fg bg
  else if p =? 22 then set_color x false (rvs x) fg bg
  else if p =? 27 then set_color x (bold x) false fg bg
  else if ((30 <=? p) && (p <=? 37)) || ((90 <=? p) && (p <=? 97)) then
    set_color x (bold x) (rvs x) (fg_csi_to_vga p) bg
  else if ((40 <=? p) && (p <=? 47)) || ((100 <=? p) && (p <=? 107)) then
    set_color x (bold x) (rvs x) fg (fg_csi_to_vga (p - 10))
  else (x, k).

(** tty_csi_m_handler, 169-188 *)
Fixpoint m_loop (l : list Z) (x : con) (k : Z) : con * Z :=
  match l with
  | [] => (x, k)
  | p :: l' => let (x1, k1) := m_param x k p in m_loop l' x1 k1
  end.

(** The handlers of console.c:71-87, 190-591, and csi_handlers, 601-635.
    [p0], [p1]: params[0], params[1]; [ps]: the first pc of them; [y], [z]: the
    cursor *)
Definition csi_handler (g : cfg) (c : Z) (p0 p1 : Z) (ps : list Z) (y z : Z)
    (x : con) (k : Z) : out :=
  let n := Z.max 1 p0 in
  let ni := s32 n in
  let a0 := n - 1 in
  let a1 := Z.max 1 p1 - 1 in
  let n16 := Z.max 1 (Z.min p0 65535) in
  let sn := Z.max 1 (s32 p0) in
  match c with
  | 64 (* @ *) => act x k (IInsChars (u16 (u24 n16)))
  | 65 (* A *) => act x k (mk_move_rel (- ni) 0)
  | 66 (* B *) => act x k (mk_move_rel ni 0)
  | 67 (* C *) => act x k (mk_move_rel 0 ni)
  | 68 (* D *) => act x k (mk_move_rel 0 (- ni))
  | 69 (* E *) => act x k (mk_move (clamp (s32 (y + ni)) 0 (rows g - 1)) 0)
  | 70 (* F *) => act x k (mk_move (clamp (s32 (y + s32 (- ni))) 0 (rows g - 1)) 0)
  | 71 | 96 (* G ` *) => act x k (mk_move y (Z.min a0 (cols g - 1)))
  | 72 | 102 (* H f *) => act x k (mk_move (Z.min a0 (rows g - 1)) (Z.min a1 (cols g - 1)))
  | 74 (* J *) => act x k (IEraseDisplay (u12 p0))
  | 75 (* K *) => act x k (IEraseLine (u12 p0))
  | 76 (* L *) => act x k (IInsLines (u24 n))
  | 77 (* M *) => act x k (IDelLines (u24 n))
  | 80 (* P *) => act x k (IDelChars (u16 (u24 n16)))
  | 83 (* S *) => act x k (IScrollUp (u12 n))
  | 84 (* T *) => act x k (IScrollDown (u12 n))
  | 88 (* X *) => act x k (IEraseChars (u16 (u24 n16)))
  | 97 (* a *) => act x k (mk_move_rel 0 sn)
  | 99 (* c *) => Out (reset_ctx x) k None [] [RDa]
  | 100 (* d *) => act x k (mk_move (Z.min a0 (rows g - 1)) z)
  | 101 (* e *) => act x k (mk_move_rel sn 0)
  | 109 (* m *) =>
      let (x1, k1) := m_loop (match ps with [] => [0] | _ => ps end) x k in nothing x1 k1
  | 110 (* n *) =>
      if p0 =? 6 then Out (reset_ctx x) k None [] [RCpr (y + 1) (z + 1)]
      else if p0 =? 5 then Out (reset_ctx x) k None [] [RDsr]
      else nothing x k
  | 114 (* r *) =>
      let s := if p0 =? 0 then 0 else p0 - 1 in
      let e := if p1 =? 0 then rows g - 1 else p1 - 1 in
      if e <=? s then nothing x k else act x k (IRegion (u12 s) (u12 e))
  | 115 (* s *) => nothing (set_sv x y z) k
  | 117 (* u *) => act x k (mk_move (srow x) (scol x))
  | _ => nothing x k
  end.

(** tty_csi_pvt_ext_handler, 425-475; [mem]: whether the alternate buffer can
    be allocated *)
Definition pvt_handler (c p0 : Z) (mem : bool) (x : con) (k : Z) : out :=
  if c =? 99 then nothing x k
  else if p0 =? 25 then
    if c =? 104 then act x k (ICursor true)
    else if c =? 108 then act x k (ICursor false) else nothing x k
  else if p0 =? 1049 then
    if c =? 104 then act x k (IAlt true mem)
    else if c =? 108 then act x k (IAlt false mem) else nothing x k
  else nothing x k.

(** The parameters, console.c:644-664: params has NPAR = 16 elements.  [l]: the
    text from endptr + 1, with its terminator; each round writes params[pc] and
    goes on after the character where strtol stopped *)
Fixpoint get_params (w : Z) (fuel : nat) (l : list Z) (acc : list Z) : option (list Z) :=
  match fuel with
  | O => None
  | S fuel' =>
      if 16 <=? zlen acc then None
      else
        match strtol w true l 10 with
        | None => None
        | Some p =>
            let acc' := acc ++ [u32 (p_val p)] in
            match skipn (Z.to_nat (p_end p)) l with
            | [] => None
            | c :: l' => if c =? 0 then Some acc' else get_params w fuel' l' acc'
            end
        end
  end.

Definition par (ps : list Z) (i : nat) : Z := nth i ps 0.

(** tty_filter_end_csi_seq, console.c:637-678 *)
Definition end_csi (g : cfg) (w : Z) (mem : bool) (c y z : Z) (x : con) (k : Z) : option out :=
  if (64 <=? zlen (pb x)) || (64 <=? zlen (ib x)) then None
  else
    let pvt := match pb x with 63 :: _ => true | _ => false end in
    let txt := (if pvt then tl (pb x) else pb x) ++ [0] in
    obind (match pb x with [] => Some [] | _ => get_params w (S (length (pb x))) txt [] end)
      (fun ps =>
         let o := if pvt then pvt_handler c (par ps 0) mem x k
                  else csi_handler g c (par ps 0) (par ps 1) ps y z x k in
         Some (Out (reset_ctx (o_con o)) (o_col o) (o_ch o) (o_act o) (o_rep o))).

(** tty_state_esc2_csi, 680-731 *)
Definition st_csi (g : cfg) (w : Z) (mem : bool) (c y z : Z) (x : con) (k : Z) : option out :=
  if (48 <=? c) && (c <=? 63) then
    if 64 <=? zlen (pb x) then Some (nothing (reset_ctx x) k)
    else Some (nothing (set_by x (pb x ++ [c]) (ib x)) k)
  else if (32 <=? c) && (c <=? 47) then
    if 64 <=? zlen (ib x) then Some (nothing (reset_ctx x) k)
    else Some (nothing (set_by x (pb x) (ib x ++ [c])) k)
  else if (64 <=? c) && (c <=? 126) then end_csi g w mem c y z x k
  else Some (nothing (reset_ctx x) k).

(** tty_state_esc2_unknown, 733-748 *)
Definition st_unk (c : Z) (x : con) (k : Z) : out :=
  nothing (if (64 <=? c) && (c <=? 95) then set_st x PDef else x) k.

(** tty_state_esc1, 750-817; reset_console_data, 44-54 (user_color is
    curr_color); the termios of tty_ioctl.c:19-48 *)
Definition st_esc (c y : Z) (x : con) (k : Z) : out :=
  match c with
  | 91 (* [ *) => nothing (set_st (reset_ctx x) PCsi) k
  | 99 (* c *) =>
      let x1 := set_at x (bold x) (rvs x) 7 7 in
      let x2 := set_tm (set_cs x1 false false true) 127 23 21 true in
      act (reset_ctx x2) k IReset
  | 40 (* left parenthesis *) => nothing (set_st x PPar0) k
  | 41 (* right parenthesis *) => nothing (set_st x PPar1) k
  | 68 (* D *) => Out (set_st x PDef) k (Some 10) [] []
  | 77 (* M *) =>
      act (set_st x PDef) k (if 0 <? y then mk_move_rel (-1) 0 else IScrollDown (u12 1))
  | _ => st_unk c (set_st x PUnk) k
  end.

(** tty_change_translation_table, 819-843 *)
Definition st_par (one : bool) (c : Z) (x : con) (k : Z) : out :=
  let f old := if c =? 66 then false else if c =? 48 then true else old in
  let x1 := if one then set_cs x (cset x) (gx0 x) (f (gx1 x))
            else set_cs x (cset x) (f (gx0 x)) (gx1 x) in
  nothing (set_st x1 PDef) k.

(** tty_default_trans_table, tty_gfx_trans_table, tables.c:39-99,
    gfx_chars.h *)
Definition trans_default (c : Z) : Z := if (32 <=? c) && (c <=? 126) then c else -1.
Definition trans_gfx (c : Z) : Z :=
  match c with
  | 32 => 32
  | 108 => 0xda | 109 => 0xc0 | 107 => 0xbf | 106 => 0xd9
  | 116 => 0xc3 | 117 => 0xb4 | 118 => 0xc1 | 119 => 0xc2
  | 113 => 0xc4 | 120 => 0xb3 | 110 => 0xc5 | 96 => 0x04
  | 97 => 0xb1 | 102 => 0xf8 | 103 => 0xf1 | 126 => 0x07
  | 44 => 0x1b | 43 => 0x1a | 46 => 0x19 | 45 => 0x18
  | 104 => 0xb0 | 48 => 0xdb
  | _ => -1
  end.

(** def_state_funcs, console_def_state.c.h:139-165, and the functions, 15-137 *)
Definition def_func (c : Z) (x : con) (k : Z) : out :=
  if c =? k_kill x then nothing x k
  else if c =? k_werase x then act x k IWord
  else if c =? k_erase x then act x k IBack
  else
  match c with
  | 10 => if onlcr x then Out x k None [IChar 10 k; IChar 13 k] [] else Out x k (Some 10) [] []
  | 13 => Out x k (Some 13) [] []
  | 9 => Out x k (Some 9) [] []
  | 7 => nothing x k
  | 12 | 11 => Out x k (Some 10) [] []
  | 8 => act x k (mk_move_rel 0 (-1))
  | 27 => nothing (set_st x PEsc) k
  | 14 => nothing (set_cs x true (gx0 x) (gx1 x)) k
  | 15 => nothing (set_cs x false (gx0 x) (gx1 x)) k
  | 127 => nothing x k
  | 155 => nothing (set_st (reset_ctx x) PCsi) k
  | _ => Out x k (Some 63) [] []
  end.

(** tty_state_default, 180-206 *)
Definition st_def (c : Z) (x : con) (k : Z) : out :=
  let tv := if (if cset x then gx1 x else gx0 x) then trans_gfx c else trans_default c in
  if 0 <=? tv then Out x k (Some (u8 tv)) [] [] else def_func c x k.

(** The filter, with tty_pre_filter, console.c:876-895, at its beginning *)
Definition filter (g : cfg) (w : Z) (mem : bool) (c y z : Z) (x : con) (k : Z) : option out :=
  match pst_ x with
  | PDef => Some (st_def c x k)
  | q =>
      if c =? 27 then Some (nothing (set_st (reset_ctx x) PEsc) k)
      else
        match q with
        | PEsc => Some (st_esc c y x k)
        | PPar0 => Some (st_par false c x k)
        | PPar1 => Some (st_par true c x k)
        | PCsi => st_csi g w mem c y z x k
        | _ => Some (st_unk c x k)
        end
  end.

(** A byte of a write, term_actions.c.h:117-138: what is written and done *)
Definition items (o : out) : list item :=
  (match o_ch o with Some c => [IChar c (o_col o)] | None => [] end) ++ o_act o.

Fixpoint execs (g : cfg) (s : st) (l : list item) : option st :=
  match l with
  | [] => Some s
  | i :: l' => obind (exec g s i) (fun s1 => execs g s1 l')
  end.

(** The console, the screen, the color variable of term_action_write, and the
    replies so far *)
Record vt := Vt { v_con : con; v_scr : st; v_col : Z; v_rep : list reply }.

Definition feed1 (g : cfg) (w : Z) (mem : bool) (v : vt) (ch : Z) : option vt :=
  obind (filter g w mem ch (r (v_scr v)) (c (v_scr v)) (v_con v) (v_col v)) (fun o =>
  obind (execs g (v_scr v) (items o)) (fun s1 =>
  Some (Vt (o_con o) s1 (o_col o) (v_rep v ++ o_rep o)))).

Fixpoint feed (g : cfg) (w : Z) (mem : bool) (v : vt) (l : list Z) : option vt :=
  match l with
  | [] => Some v
  | c :: l' => obind (feed1 g w mem v c) (fun v1 => feed g w mem v1 l')
  end.
