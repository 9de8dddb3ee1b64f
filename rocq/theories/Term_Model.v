(** Model of the screen of a video terminal: modules/console/video_term.c and
    modules/console/term_actions.c.h.

    Memory is explicit: [buf] is t->buffer, an array of tot*cols cells indexed
    as in the code, and [tm]/[ta] are main_tabs_buf/alt_tabs_buf, arrays of
    rows*cols bytes.  An access outside them, or drawing outside the screen, is
    the outcome [None].  [slack] is the number of cells past the end of
    t->buffer that may be read without harm (kmalloc rounds sizes up).
    What the video driver shows is [disp]; drawing the cursor is only the flag
    [hcur].  Loops over the columns of a row are written as one update of the
    row.  The tab maps exist (init_vterm fails without them, except for the
    first terminal).  The queue of actions (term_aux.c) is not modelled: actions
    run one after the other. *)
From Verif Require Import Lib.

Definition u16 (x : Z) : Z := x mod 65536.

(** modules/console/vterm_struct.h; [hw]: the driver has scroll_one_line_up *)
Record cfg := Cfg { rows : Z; cols : Z; tot : Z; slack : Z; hw : bool }.

(** [ms]..[ae]: the two scroll regions; [have]: screen_buf_copy is allocated;
    [on]: t->vi is the driver and not no_output_vi *)
Record st := St {
  r : Z; c : Z; buf : Z -> Z; scroll : Z; maxs : Z;
  ms : Z; me : Z; als : Z; ale : Z;
  alt : bool; tm : Z -> Z; ta : Z -> Z;
  have : bool; copy : Z -> Z; svr : Z; svc : Z;
  cen : bool; on : bool; disp : Z -> Z; hcur : bool
}.

Definition set_cur s y x := St y x (buf s) (scroll s) (maxs s) (ms s) (me s) (als s) (ale s) (alt s) (tm s) (ta s) (have s) (copy s) (svr s) (svc s) (cen s) (on s) (disp s) (hcur s).
Definition set_buf s x := St (r s) (c s) x (scroll s) (maxs s) (ms s) (me s) (als s) (ale s) (alt s) (tm s) (ta s) (have s) (copy s) (svr s) (svc s) (cen s) (on s) (disp s) (hcur s).
Definition set_scr s x m := St (r s) (c s) (buf s) x m (ms s) (me s) (als s) (ale s) (alt s) (tm s) (ta s) (have s) (copy s) (svr s) (svc s) (cen s) (on s) (disp s) (hcur s).
Definition set_tabs s x :=
  if alt s
  then St (r s) (c s) (buf s) (scroll s) (maxs s) (ms s) (me s) (als s) (ale s) (alt s) (tm s) x (have s) (copy s) (svr s) (svc s) (cen s) (on s) (disp s) (hcur s)
  else St (r s) (c s) (buf s) (scroll s) (maxs s) (ms s) (me s) (als s) (ale s) (alt s) x (ta s) (have s) (copy s) (svr s) (svc s) (cen s) (on s) (disp s) (hcur s).
Definition set_region s a b :=
  if alt s
  then St (r s) (c s) (buf s) (scroll s) (maxs s) (ms s) (me s) a b (alt s) (tm s) (ta s) (have s) (copy s) (svr s) (svc s) (cen s) (on s) (disp s) (hcur s)
  else St (r s) (c s) (buf s) (scroll s) (maxs s) a b (als s) (ale s) (alt s) (tm s) (ta s) (have s) (copy s) (svr s) (svc s) (cen s) (on s) (disp s) (hcur s).
Definition set_alt s b h cp y x := St (r s) (c s) (buf s) (scroll s) (maxs s) (ms s) (me s) (als s) (ale s) b (tm s) (ta s) h cp y x (cen s) (on s) (disp s) (hcur s).
Definition set_cen s b := St (r s) (c s) (buf s) (scroll s) (maxs s) (ms s) (me s) (als s) (ale s) (alt s) (tm s) (ta s) (have s) (copy s) (svr s) (svc s) b (on s) (disp s) (hcur s).
Definition set_on s b := St (r s) (c s) (buf s) (scroll s) (maxs s) (ms s) (me s) (als s) (ale s) (alt s) (tm s) (ta s) (have s) (copy s) (svr s) (svc s) (cen s) b (disp s) (hcur s).
Definition set_disp s x := St (r s) (c s) (buf s) (scroll s) (maxs s) (ms s) (me s) (als s) (ale s) (alt s) (tm s) (ta s) (have s) (copy s) (svr s) (svc s) (cen s) (on s) x (hcur s).
Definition set_hcur s b := St (r s) (c s) (buf s) (scroll s) (maxs s) (ms s) (me s) (als s) (ale s) (alt s) (tm s) (ta s) (have s) (copy s) (svr s) (svc s) (cen s) (on s) (disp s) (if on s then b else hcur s).

Definition obind {A B} (o : option A) (f : A -> option B) : option B :=
  match o with None => None | Some x => f x end.

(** t->tabs_buf, *t->start_scroll_region, *t->end_scroll_region + 1 *)
Definition tabs (s : st) : Z -> Z := if alt s then ta s else tm s.
Definition sR (s : st) : Z := if alt s then als s else ms s.
Definition eR (s : st) : Z := (if alt s then ale s else me s) + 1.

(** include/tilck/common/color_defs.h:38,44-48: DEFAULT_COLOR16 is 7 *)
Definition entry (ch color : Z) : Z := ch + 256 * color.
Definition e_char (e : Z) : Z := e mod 256.
Definition e_color (e : Z) : Z := e / 256.
Definition blank : Z := entry 32 7.

(** calc_buf_row, get_buf_row, modules/console/video_term_int.h:349-350, as an
    index into t->buffer *)
Definition brow (g : cfg) (s : st) (i : Z) : Z :=
  (u32 (i + scroll s) mod tot g) * cols g.

(** buf_get_entry, line 352 *)
Definition get_entry (g : cfg) (s : st) (i j : Z) : option Z :=
  let k := brow g s i + j in
  if (0 <=? k) && (k <? tot g * cols g + slack g) then Some (buf s k) else None.

(** buf_set_entry, line 351 *)
Definition set_entry (g : cfg) (s : st) (i j e : Z) : option st :=
  let k := brow g s i + j in
  if (0 <=? k) && (k <? tot g * cols g) then Some (set_buf s (fupd (buf s) k e))
  else None.

(** *** The driver *)

(** t->vi->set_char_at *)
Definition vi_char (g : cfg) (s : st) (i j e : Z) : option st :=
  if negb (on s) then Some s
  else if (0 <=? i) && (i <? rows g) && (0 <=? j) && (j <? cols g)
  then Some (set_disp s (fupd (disp s) (i * cols g + j) e))
  else None.

(** t->vi->clear_row(i, DEFAULT_COLOR16) *)
Definition vi_clear (g : cfg) (s : st) (i : Z) : option st :=
  if negb (on s) then Some s
  else if (0 <=? i) && (i <? rows g)
  then Some (set_disp s (fun k => if k / cols g =? i then blank else disp s k))
  else None.

(** term_redraw2, modules/console/video_term.c:80-96, for rows [a, b) *)
Definition redraw (g : cfg) (s : st) (a b : Z) : option st :=
  if negb (on s) then Some s
  else if (0 <=? a) && (b <=? rows g)
  then Some (set_disp s (fun k =>
         if (a <=? k / cols g) && (k / cols g <? b)
         then buf s (brow g s (k / cols g) + k mod cols g)
         else disp s k))
  else None.

Definition redraw_all (g : cfg) (s : st) : option st := redraw g s 0 (rows g).
Definition redraw_region (g : cfg) (s : st) : option st := redraw g s (sR s) (eR s).

(** t->vi->move_cursor(t->r, t->c, get_curr_cell_fg_color(t)): the cell under
    the cursor is read *)
Definition move_cursor (g : cfg) (s : st) : option st :=
  obind (get_entry g s (r s) (c s)) (fun _ => Some s).

(** *** Rows *)

(** buf_copy_row, modules/console/video_term.c:28-41 *)
Definition copy_row (g : cfg) (dest src : Z) (s : st) : option st :=
  if dest =? src then Some s
  else
    let d := brow g s dest in
    let f := brow g s src in
    let b' := fun k => if (d <=? k) && (k <? d + cols g) then buf s (k - d + f) else buf s k in
    if (0 <=? dest) && (dest <? rows g) && (0 <=? src) && (src <? rows g)
    then
      let t' := fun k => if (dest * cols g <=? k) && (k <? dest * cols g + cols g)
                         then tabs s (k - dest * cols g + src * cols g)
                         else tabs s k in
      Some (set_tabs (set_buf s b') t')
    else None.

(** ts_buf_clear_row with DEFAULT_COLOR16, 149-161 *)
Definition buf_clear_row (g : cfg) (row : Z) (s : st) : option st :=
  let d := brow g s row in
  let b' := fun k => if (d <=? k) && (k <? d + cols g) then blank else buf s k in
  if (0 <=? row) && (row <? rows g)
  then
    let t' := fun k => if (row * cols g <=? k) && (k <? row * cols g + cols g)
                       then 0 else tabs s k in
    Some (set_tabs (set_buf s b') t')
  else None.

(** ts_clear_row, 163-167 *)
Definition clear_row (g : cfg) (row : Z) (s : st) : option st :=
  obind (buf_clear_row g row s) (fun s1 => vi_clear g s1 row).

(** `for (row = d; ...; row++) buf_copy_row(t, row, row + n)`, [k] times *)
Fixpoint cp_up (g : cfg) (k : nat) (d n : Z) (s : st) : option st :=
  match k with
  | O => Some s
  | S k' => obind (copy_row g d (d + n) s) (cp_up g k' (d + 1) n)
  end.

(** `for (row = d; ...; row--) buf_copy_row(t, row - 1 + n, row - 1)` *)
Fixpoint cp_down (g : cfg) (k : nat) (d n : Z) (s : st) : option st :=
  match k with
  | O => Some s
  | S k' => obind (copy_row g (d - 1 + n) (d - 1) s) (cp_down g k' (d - 1) n)
  end.

(** `for (row = d; ...; row++) ts_buf_clear_row(t, row, DEFAULT_COLOR16)` *)
Fixpoint buf_clear (g : cfg) (k : nat) (d : Z) (s : st) : option st :=
  match k with
  | O => Some s
  | S k' => obind (buf_clear_row g d s) (buf_clear g k' (d + 1))
  end.

(** The same with ts_clear_row *)
Fixpoint clear (g : cfg) (k : nat) (d : Z) (s : st) : option st :=
  match k with
  | O => Some s
  | S k' => obind (clear_row g d s) (clear g k' (d + 1))
  end.

(** Columns [a, b) of row [i] become [f]: in the buffer, then on the screen *)
Definition put_cols (g : cfg) (s : st) (i a b : Z) (f : Z -> Z) : option st :=
  if b <=? a then Some s
  else
    let d := brow g s i in
    if (0 <=? d + a) && (d + b <=? tot g * cols g)
    then Some (set_buf s (fun k => if (d + a <=? k) && (k <? d + b) then f (k - d) else buf s k))
    else None.

Definition show_cols (g : cfg) (s : st) (i a b : Z) : option st :=
  if b <=? a then Some s
  else if negb (on s) then Some s
  else if (0 <=? i) && (i <? rows g) && (0 <=? a) && (b <=? cols g)
  then Some (set_disp s (fun k =>
         if (i * cols g + a <=? k) && (k <? i * cols g + b)
         then buf s (brow g s i + (k - i * cols g)) else disp s k))
  else None.

(** *** Scrolling the view: ts_set_scroll, ts_scroll_up, ts_scroll_down,
    ts_scroll_to_bottom, 108-147 *)
Definition set_scroll (g : cfg) (s : st) (q : Z) : option st :=
  let extra := tot g - rows g in
  let mn := if extra <? maxs s then maxs s - extra else 0 in
  let q' := Z.min (Z.max q mn) (maxs s) in
  if q' =? scroll s then Some s
  else redraw_all g (set_scr s q' (maxs s)).

Definition ts_up (g : cfg) (s : st) (n : Z) : option st :=
  if scroll s <? n then set_scroll g s 0 else set_scroll g s (scroll s - n).

Definition ts_down (g : cfg) (s : st) (n : Z) : option st :=
  set_scroll g s (u32 (scroll s + n)).

Definition to_bottom (g : cfg) (s : st) : option st :=
  if negb (scroll s =? maxs s) then set_scroll g s (maxs s) else Some s.

(** term_int_scroll_up, term_int_scroll_down, 169-197 *)
Definition int_up (g : cfg) (s : st) (n : Z) : option st :=
  obind (ts_up g s n) (fun s1 =>
  if cen s1 then
    if negb (scroll s1 =? maxs s1) then Some (set_hcur s1 false)
    else move_cursor g (set_hcur s1 true)
  else Some s1).

Definition int_down (g : cfg) (s : st) (n : Z) : option st :=
  obind (ts_down g s n) (fun s1 =>
  if cen s1 && (scroll s1 =? maxs s1) then move_cursor g (set_hcur s1 true)
  else Some s1).

(** *** The scroll region *)

(** term_internal_non_buf_scroll_up, 199-217 *)
Definition nbs_up (g : cfg) (s : st) (n0 : Z) : option st :=
  if n0 =? 0 then Some s
  else
    let n := Z.min n0 (eR s - sR s) in
    obind (cp_up g (Z.to_nat (eR s - n - sR s)) (sR s) n s) (fun s1 =>
    obind (buf_clear g (Z.to_nat n) (eR s - n) s1) (fun s2 =>
    redraw_region g s2)).

(** term_internal_non_buf_scroll_down, 219-236.  When n > eR, the start of the
    first loop wraps to almost 2^32 and the first copy is outside tabs_buf. *)
Definition nbs_down (g : cfg) (s : st) (n0 : Z) : option st :=
  if n0 =? 0 then Some s
  else
    let n := Z.min n0 (rows g) in
    if eR s <? n then None
    else
      obind (cp_down g (Z.to_nat (eR s - n - sR s)) (eR s - n) n s) (fun s1 =>
      obind (buf_clear g (Z.to_nat (n - sR s)) (sR s) s1) (fun s2 =>
      redraw_region g s2)).

(** *** Writing *)

(** term_int_move_cur, 238-248 *)
Definition clamp (x lo hi : Z) : Z := Z.min (Z.max x lo) hi.

Definition move_cur (g : cfg) (s : st) (row col : Z) : option st :=
  let s1 := set_cur s (u16 (clamp row 0 (rows g - 1))) (u16 (clamp col 0 (cols g - 1))) in
  if cen s1 then move_cursor g s1 else Some s1.

(** term_internal_incr_row, 250-298 *)
Definition incr_row (g : cfg) (s : st) : option st :=
  if r s <? eR s - 1 then Some (set_cur s (u16 (r s + 1)) (c s))
  else if (0 <? sR s) || (eR s <? rows g) then
    if r s =? eR s - 1 then nbs_up g s 1
    else if r s <? rows g - 1 then Some (set_cur s (u16 (r s + 1)) (c s))
    else Some s
  else
    let s1 := set_tabs s (fun k => if (0 <=? k) && (k <? (rows g - 1) * cols g)
                                   then tabs s (k + cols g) else tabs s k) in
    if hw g then
      let s2 := set_scr s1 (u32 (scroll s + 1)) (u32 (maxs s + 1)) in
      let s3 := if on s2
                then set_disp s2 (fun k => if (0 <=? k) && (k <? (rows g - 1) * cols g)
                                           then disp s2 (k + cols g) else disp s2 k)
                else s2 in
      clear_row g (rows g - 1) s3
    else
      let s2 := set_scr s1 (u32 (maxs s + 1)) (u32 (maxs s + 1)) in
      obind (buf_clear_row g (rows g - 1) s2) (redraw_all g).

(** term_internal_write_printable_char, 300-306 *)
Definition put_char (g : cfg) (s : st) (ch color : Z) : option st :=
  let e := entry ch color in
  obind (set_entry g s (r s) (c s) e) (fun s1 =>
  obind (vi_char g s1 (r s1) (c s1) e) (fun s2 =>
  Some (set_cur s2 (r s2) (u16 (c s2 + 1))))).

(** term_internal_write_tab, 308-332 (tabsize is 8) *)
Definition put_tab (g : cfg) (s : st) : option st :=
  let tc := u32 (Z.min ((c s + 1 + 7) / 8 * 8) (cols g - 1) - 1) in
  let k := r s * cols g + tc in
  if (0 <=? k) && (k <? rows g * cols g) then
    let s1 := set_tabs s (fupd (tabs s) k ((tc + 1 - c s) mod 256)) in
    Some (set_cur s1 (r s1) (u16 (tc + 1)))
  else None.

(** term_internal_write_backspace, 334-375 *)
Definition backspace (g : cfg) (s : st) (color : Z) : option st :=
  if (c s =? 0) && (r s =? 0) then Some s
  else
    let s1 := if c s =? 0 then set_cur s (r s - 1) (cols g - 1)
              else set_cur s (r s) (c s - 1) in
    let k := r s1 * cols g + c s1 in
    if (0 <=? k) && (k <? rows g * cols g) then
      let w := tabs s1 k in
      if w =? 0 then
        obind (set_entry g s1 (r s1) (c s1) (entry 32 color)) (fun s2 =>
        vi_char g s2 (r s2) (c s2) (entry 32 color))
      else
        let s2 := set_tabs s1 (fupd (tabs s1) k 0) in
        Some (set_cur s2 (r s2) (u16 (c s2 - (w - 1))))
    else None.

(** term_internal_delete_last_word, 377-402: [fuel] is the column, which every
    iteration decreases (or the access fails) *)
Fixpoint del_while (g : cfg) (space : bool) (color : Z) (fuel : nat) (s : st) : option st :=
  match fuel with
  | O => Some s
  | S f =>
      if c s <=? 0 then Some s
      else
        obind (get_entry g s (r s) (c s - 1)) (fun e =>
        if Bool.eqb (e_char e =? 32) space
        then obind (backspace g s color) (del_while g space color f)
        else Some s)
  end.

Definition del_word (g : cfg) (s : st) (color : Z) : option st :=
  obind (del_while g true color (S (Z.to_nat (c s))) s) (fun s1 =>
  del_while g false color (S (Z.to_nat (c s1))) s1).

(** term_internal_write_char2, 404-431 *)
Definition write_char (g : cfg) (s : st) (ch color : Z) : option st :=
  if ch =? 10 then incr_row g s
  else if ch =? 13 then Some (set_cur s (r s) 0)
  else if ch =? 9 then put_tab g s
  else if c s =? cols g then
    obind (incr_row g (set_cur s (r s) 0)) (fun s1 => put_char g s1 ch color)
  else put_char g s ch color.

(** *** Actions, modules/console/term_actions.c.h *)

(** get_curr_cell_color, modules/console/video_term.c:48-54 *)
Definition curr_color (g : cfg) (s : st) : option Z :=
  obind (get_entry g s (r s) (c s)) (fun e => Some (e_color e)).

(** term_action_move_cur_rel, 148-160 *)
Definition move_rel (g : cfg) (s : st) (dr dc : Z) : option st :=
  move_cur g s (r s + dr) (c s + dc).

(** term_action_reset, 164-175 *)
Definition reset (g : cfg) (s : st) : option st :=
  obind (move_cur g (set_hcur s true) 0 0) (fun s1 =>
  obind (clear g (Z.to_nat (rows g)) 0 (set_scr s1 0 0)) (fun s2 =>
  Some (set_tabs s2 (fun k => if (0 <=? k) && (k <? rows g * cols g) then 0 else tabs s2 k)))).

(** term_action_erase_in_line, 243-273 *)
Definition erase_line (g : cfg) (s : st) (m : Z) : option st :=
  if m =? 0 then
    obind (put_cols g s (r s) (c s) (cols g) (fun _ => blank)) (fun s1 =>
    show_cols g s1 (r s) (c s) (cols g))
  else if m =? 1 then
    obind (put_cols g s (r s) 0 (c s) (fun _ => blank)) (fun s1 =>
    show_cols g s1 (r s) 0 (c s))
  else if m =? 2 then clear_row g (r s) s
  else Some s.

(** term_action_erase_in_display, 179-239 *)
Definition erase_display (g : cfg) (s : st) (m : Z) : option st :=
  if m =? 0 then
    obind (erase_line g s 0) (fun s1 =>
    clear g (Z.to_nat (rows g - (r s + 1))) (r s + 1) s1)
  else if m =? 1 then
    obind (clear g (Z.to_nat (r s)) 0 s) (fun s1 => erase_line g s1 1)
  else if m =? 2 then clear g (Z.to_nat (rows g)) 0 s
  else if m =? 3 then reset g s
  else Some s.

(** term_action_ins_blank_chars, 304-318 *)
Definition ins_chars (g : cfg) (s : st) (n0 : Z) : option st :=
  let n := Z.min n0 (cols g - c s) in
  let d := brow g s (r s) in
  obind (put_cols g s (r s) (c s) (cols g)
    (fun j => if j <? c s + n then entry 32 (e_color (buf s (d + j)))
              else buf s (d + (j - n)))) (fun s1 =>
  show_cols g s1 (r s) (c s) (cols g)).

(** term_action_del_chars_in_line, 322-337 *)
Definition del_chars (g : cfg) (s : st) (n0 : Z) : option st :=
  let n := Z.min n0 (cols g - c s) in
  let d := brow g s (r s) in
  obind (put_cols g s (r s) (c s) (cols g)
    (fun j => if j <? cols g - n then buf s (d + (j + n))
              else entry 32 (e_color (buf s (d + j))))) (fun s1 =>
  show_cols g s1 (r s) (c s) (cols g)).

(** term_action_erase_chars_in_line, 341-352 *)
Definition erase_chars (g : cfg) (s : st) (n : Z) : option st :=
  let d := brow g s (r s) in
  obind (put_cols g s (r s) (c s) (Z.min (cols g) (c s + n))
    (fun j => entry 32 (e_color (buf s (d + j))))) (fun s1 =>
  show_cols g s1 (r s) (c s) (cols g)).

(** term_action_use_alt_buffer, 390-449; [ok]: the allocation succeeds *)
Definition enable_cursor (g : cfg) (s : st) (b : bool) : option st :=
  if b then obind (move_cursor g (set_hcur s true)) (fun s1 => Some (set_cen s1 true))
  else Some (set_cen (set_hcur s false) false).

Definition use_alt (g : cfg) (s : st) (b ok : bool) : option st :=
  if Bool.eqb (alt s) b then Some s
  else if b && negb (have s) && negb ok then Some s
  else
    obind (if b then
             Some (set_alt s true true
                     (fun k => if (0 <=? k) && (k <? rows g * cols g)
                               then buf s (brow g s (k / cols g) + k mod cols g)
                               else copy s k) (r s) (c s))
           else
             let b' := fun k =>
               (* the row of the screen that is at index k of the ring *)
               let i := (k / cols g - scroll s) mod tot g in
               if (0 <=? k) && (k <? tot g * cols g) && (i <? rows g)
               then copy s (i * cols g + k mod cols g) else buf s k in
             if have s
             then Some (set_cur (set_alt (set_buf s b') false true (copy s) (svr s) (svc s))
                                (svr s) (svc s))
             else None) (fun s1 =>
    obind (redraw_all g (set_hcur s1 false)) (fun s2 =>
    enable_cursor g s2 (cen s2))).

(** term_action_ins_blank_lines, 453-474 *)
Definition ins_lines (g : cfg) (s : st) (n0 : Z) : option st :=
  if n0 =? 0 then Some s
  else if eR s <=? r s then Some s
  else
    let n := Z.min n0 (eR s - r s) in
    let s0 := set_cur s (r s) 0 in
    obind (cp_down g (Z.to_nat (eR s - n - r s)) (eR s - n) n s0) (fun s1 =>
    obind (buf_clear g (Z.to_nat n) (r s) s1) (fun s2 =>
    redraw_region g s2)).

(** term_action_del_lines, 478-498 *)
Definition del_lines (g : cfg) (s : st) (n0 : Z) : option st :=
  if n0 =? 0 then Some s
  else if eR s <=? r s then Some s
  else
    let n := Z.min n0 (eR s - r s) in
    obind (cp_up g (Z.to_nat (n + 1)) (r s) n s) (fun s1 =>
    obind (buf_clear g (Z.to_nat n) (eR s - n) s1) (fun s2 =>
    redraw_region g s2)).

(** term_action_set_scroll_region, 502-515 *)
Definition set_scroll_region (g : cfg) (s : st) (a b : Z) : option st :=
  let a' := clamp a 0 (rows g - 1) in
  let b' := clamp b 0 (rows g - 1) in
  if b' <=? a' then Some s
  else move_cur g (set_region s a' b') 0 0.

(** *** What the filter makes of a byte: a character to write, or an action
    (struct term_action, modules/console/video_term_int.h:70-101) *)
Inductive item :=
| IChar (ch color : Z)
| IBack | IWord
| IEraseDisplay (m : Z) | IEraseLine (m : Z)
| IMove (row col : Z) | IMoveRel (dr dc : Z)
| IReset
| ICursor (b : bool)
| IAlt (b ok : bool)
| IScrollUp (n : Z) | IScrollDown (n : Z)
| IInsLines (n : Z) | IDelLines (n : Z)
| IRegion (a b : Z)
| IInsChars (n : Z) | IDelChars (n : Z) | IEraseChars (n : Z).

Definition exec (g : cfg) (s : st) (i : item) : option st :=
  match i with
  | IChar ch color => write_char g s ch color
  | IBack => obind (curr_color g s) (fun k => backspace g s k)
  | IWord => obind (curr_color g s) (fun k => del_word g s k)
  | IEraseDisplay m => erase_display g s m
  | IEraseLine m => erase_line g s m
  | IMove y x => move_cur g s y x
  | IMoveRel dy dx => move_rel g s dy dx
  | IReset => reset g s
  | ICursor b => enable_cursor g s b
  | IAlt b ok => use_alt g s b ok
  | IScrollUp n => nbs_up g s n
  | IScrollDown n => nbs_down g s n
  | IInsLines n => ins_lines g s n
  | IDelLines n => del_lines g s n
  | IRegion a b => set_scroll_region g s a b
  | IInsChars n => ins_chars g s n
  | IDelChars n => del_chars g s n
  | IEraseChars n => erase_chars g s n
  end.

(** term_action_write, 105-142, in three parts: its beginning, the items one by
    one, its end; term_action_scroll, 70-82; term_action_pause_output and
    term_action_restart_output, 356-386 *)
Definition write_begin (g : cfg) (s : st) : option st :=
  obind (to_bottom g s) (fun s1 => Some (set_hcur s1 true)).

Definition write_end (g : cfg) (s : st) : option st :=
  if cen s then move_cursor g s else Some s.

Definition pause (s : st) : st := set_on (set_hcur s false) false.

Definition restart (g : cfg) (s : st) : option st :=
  obind (redraw_all g (set_on s true)) (fun s1 =>
  if scroll s1 =? maxs s1 then enable_cursor g s1 (cen s1) else Some s1).

Inductive op :=
| OBegin | OItem (i : item) | OEnd       (* parts of a write *)
| OUp (n : Z) | ODown (n : Z)
| OPause | ORestart.

Definition step (g : cfg) (s : st) (o : op) : option st :=
  match o with
  | OBegin => write_begin g s
  | OItem i => exec g s i
  | OEnd => write_end g s
  | OUp n => int_up g s n
  | ODown n => int_down g s n
  | OPause => Some (pause s)
  | ORestart => restart g s
  end.

Fixpoint run (g : cfg) (s : st) (l : list op) : option st :=
  match l with
  | [] => Some s
  | o :: l' => obind (step g s o) (fun s1 => run g s1 l')
  end.

(** init_vterm, 585-689: [b0] and [d0] are what the memory and the screen held
    before *)
Definition vterm_init (g : cfg) (b0 d0 : Z -> Z) : option st :=
  let s0 := St 0 0 b0 0 0 0 (rows g - 1) 0 (rows g - 1) false (fun _ => 0) (fun _ => 0)
               false b0 0 0 true true d0 true in
  obind (clear g (Z.to_nat (rows g)) 0 s0) (fun s1 => move_cur g s1 0 0).
