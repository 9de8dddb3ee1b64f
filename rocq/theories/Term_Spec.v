(** The screen of a terminal as lines of cells, for C66: no ring buffer, no
    memory, no display. *)
From Verif Require Import Lib Term_Model.

(** Lines are numbered from the first one ever shown (since the last reset);
    the screen is lines [top .. top + rows), those before are the history.
    [tb]: the width of the tab that ends at a cell of the screen, or 0.
    [off]: how many lines the view is scrolled up.  The scroll region is rows
    [rs .. re).  [otb], [ors], [ore]: the same for the other of the main and the
    alternate screen. [sv], [sr], [sc]: the main screen and cursor, saved. *)
Record ab := Ab {
  ln : Z -> Z -> Z; top : Z; ar : Z; ac : Z; off : Z;
  tb : Z -> Z -> Z; rs : Z; re : Z;
  otb : Z -> Z -> Z; ors : Z; ore : Z;
  aalt : bool; ahave : bool; sv : Z -> Z -> Z; sr : Z; sc : Z;
  acen : bool; aon : bool
}.

Definition scrn (a : ab) (i j : Z) : Z := ln a (top a + i) j.

Definition a_cur a y x := Ab (ln a) (top a) y x (off a) (tb a) (rs a) (re a) (otb a) (ors a) (ore a) (aalt a) (ahave a) (sv a) (sr a) (sc a) (acen a) (aon a).
Definition a_off a k := Ab (ln a) (top a) (ar a) (ac a) k (tb a) (rs a) (re a) (otb a) (ors a) (ore a) (aalt a) (ahave a) (sv a) (sr a) (sc a) (acen a) (aon a).
Definition a_reg a x y := Ab (ln a) (top a) (ar a) (ac a) (off a) (tb a) x y (otb a) (ors a) (ore a) (aalt a) (ahave a) (sv a) (sr a) (sc a) (acen a) (aon a).
Definition a_tb a t := Ab (ln a) (top a) (ar a) (ac a) (off a) t (rs a) (re a) (otb a) (ors a) (ore a) (aalt a) (ahave a) (sv a) (sr a) (sc a) (acen a) (aon a).
Definition a_cen a b := Ab (ln a) (top a) (ar a) (ac a) (off a) (tb a) (rs a) (re a) (otb a) (ors a) (ore a) (aalt a) (ahave a) (sv a) (sr a) (sc a) b (aon a).
Definition a_on a b := Ab (ln a) (top a) (ar a) (ac a) (off a) (tb a) (rs a) (re a) (otb a) (ors a) (ore a) (aalt a) (ahave a) (sv a) (sr a) (sc a) (acen a) b.
Definition a_ln a l t := Ab l t (ar a) (ac a) (off a) (tb a) (rs a) (re a) (otb a) (ors a) (ore a) (aalt a) (ahave a) (sv a) (sr a) (sc a) (acen a) (aon a).

(** The cells of the screen become [f]; the history stays *)
Definition a_scr (g : cfg) (a : ab) (f : Z -> Z -> Z) : ab :=
  a_ln a (fun n j => if (top a <=? n) && (n <? top a + rows g)
                     then f (n - top a) j else ln a n j) (top a).

(** Rows are moved: row [i] shows what row [k] showed when [m i = Some k], and
    is blank when [m i = None]; tab stops move along *)
Definition a_rows (g : cfg) (a : ab) (m : Z -> option Z) : ab :=
  a_tb (a_scr g a (fun i j => match m i with Some k => scrn a k j | None => blank end))
       (fun i j => match m i with Some k => tb a k j | None => 0 end).

Definition up (x y n : Z) (i : Z) : option Z :=
  if (x <=? i) && (i <? y) then if i + n <? y then Some (i + n) else None else Some i.
Definition down (x y n : Z) (i : Z) : option Z :=
  if (x <=? i) && (i <? y) then if x <=? i - n then Some (i - n) else None else Some i.
Definition wipe (x y : Z) (i : Z) : option Z :=
  if (x <=? i) && (i <? y) then None else Some i.

(** The cells of the cursor's row, columns [x, y), become [f] *)
Definition a_cells (g : cfg) (a : ab) (i x y : Z) (f : Z -> Z) : ab :=
  a_scr g a (fun i' j => if (i' =? i) && (x <=? j) && (j <? y) then f j else scrn a i' j).

(** The next line: within the region, or scrolling it; scrolling the whole
    screen moves its first line into the history *)
Definition a_next (g : cfg) (a : ab) : ab :=
  if ar a <? re a - 1 then a_cur a (ar a + 1) (ac a)
  else if (rs a =? 0) && (re a =? rows g) then
    a_tb (a_ln a (fun n j => if n =? top a + rows g then blank else ln a n j) (top a + 1))
         (fun i j => if i =? rows g - 1 then 0 else tb a (i + 1) j)
  else if ar a =? re a - 1 then a_rows g a (up (rs a) (re a) 1)
  else if ar a <? rows g - 1 then a_cur a (ar a + 1) (ac a)
  else a.

Definition a_put (g : cfg) (a : ab) (e : Z) : ab :=
  a_cur (a_cells g a (ar a) (ac a) (ac a + 1) (fun _ => e)) (ar a) (ac a + 1).

(** A tab goes to the next multiple of 8, but not beyond the last column *)
Definition a_tab (g : cfg) (a : ab) : ab :=
  let x := Z.min ((ac a / 8 + 1) * 8) (cols g - 1) in
  a_cur (a_tb a (fun i j => if (i =? ar a) && (j =? x - 1) then x - ac a else tb a i j))
        (ar a) x.

Definition a_char (g : cfg) (a : ab) (ch color : Z) : ab :=
  if ch =? 10 then a_next g a
  else if ch =? 13 then a_cur a (ar a) 0
  else if ch =? 9 then a_tab g a
  else if ac a =? cols g then a_put g (a_next g (a_cur a (ar a) 0)) (entry ch color)
  else a_put g a (entry ch color).

(** Erase the character, or the tab, before the cursor, across a line wrap *)
Definition a_back (g : cfg) (a : ab) (color : Z) : ab :=
  if (ac a =? 0) && (ar a =? 0) then a
  else
    let y := if ac a =? 0 then ar a - 1 else ar a in
    let x := if ac a =? 0 then cols g - 1 else ac a - 1 in
    if tb a y x =? 0 then
      a_cur (a_cells g a y x (x + 1) (fun _ => entry 32 color)) y x
    else
      a_cur (a_tb a (fun i j => if (i =? y) && (j =? x) then 0 else tb a i j))
            y (x + 1 - tb a y x).

(** Erase while the character before the cursor is (or is not) a space *)
Fixpoint a_while (g : cfg) (space : bool) (color : Z) (fuel : nat) (a : ab) : ab :=
  match fuel with
  | O => a
  | S f =>
      if ac a <=? 0 then a
      else if Bool.eqb (e_char (scrn a (ar a) (ac a - 1)) =? 32) space
      then a_while g space color f (a_back g a color)
      else a
  end.

Definition a_word (g : cfg) (a : ab) (color : Z) : ab :=
  let a1 := a_while g true color (S (Z.to_nat (ac a))) a in
  a_while g false color (S (Z.to_nat (ac a1))) a1.

Definition a_move (g : cfg) (a : ab) (y x : Z) : ab :=
  a_cur a (clamp y 0 (rows g - 1)) (clamp x 0 (cols g - 1)).

Definition a_reset (g : cfg) (a : ab) : ab :=
  a_off (a_tb (a_ln (a_cur a 0 0) (fun _ _ => blank) 0) (fun _ _ => 0)) 0.

Definition a_erase_line (g : cfg) (a : ab) (m : Z) : ab :=
  if m =? 0 then a_cells g a (ar a) (ac a) (cols g) (fun _ => blank)
  else if m =? 1 then a_cells g a (ar a) 0 (ac a) (fun _ => blank)
  else if m =? 2 then a_rows g a (wipe (ar a) (ar a + 1))
  else a.

Definition a_erase_display (g : cfg) (a : ab) (m : Z) : ab :=
  if m =? 0 then a_rows g (a_erase_line g a 0) (wipe (ar a + 1) (rows g))
  else if m =? 1 then a_erase_line g (a_rows g a (wipe 0 (ar a))) 1
  else if m =? 2 then a_rows g a (wipe 0 (rows g))
  else if m =? 3 then a_reset g a
  else a.

(** The alternate screen starts as a copy of the main one; leaving it brings the
    main screen and its cursor back *)
Definition a_alt (g : cfg) (a : ab) (b ok : bool) : ab :=
  if Bool.eqb (aalt a) b then a
  else if b then
    if negb (ahave a) && negb ok then a
    else Ab (ln a) (top a) (ar a) (ac a) (off a) (otb a) (ors a) (ore a) (tb a) (rs a) (re a)
            true true (scrn a) (ar a) (ac a) (acen a) (aon a)
  else
    let a1 := a_scr g a (sv a) in
    Ab (ln a1) (top a) (sr a) (sc a) (off a) (otb a) (ors a) (ore a) (tb a) (rs a) (re a)
       false true (sv a) (sr a) (sc a) (acen a) (aon a).

Definition blanked (e : Z) : Z := entry 32 (e_color e).

(** One item; [k]: the color of erased cells *)
Definition a_exec (g : cfg) (k : Z) (a : ab) (i : item) : ab :=
  match i with
  | IChar ch color => a_char g a ch color
  | IBack => a_back g a k
  | IWord => a_word g a k
  | IEraseDisplay m => a_erase_display g a m
  | IEraseLine m => a_erase_line g a m
  | IMove y x => a_move g a y x
  | IMoveRel dy dx => a_move g a (ar a + dy) (ac a + dx)
  | IReset => a_reset g a
  | ICursor b => a_cen a b
  | IAlt b ok => a_alt g a b ok
  | IScrollUp n => if n =? 0 then a else a_rows g a (up (rs a) (re a) n)
  | IScrollDown n => if n =? 0 then a else a_rows g a (down (rs a) (re a) n)
  | IInsLines n =>
      if (n =? 0) || (re a <=? ar a) then a
      else a_cur (a_rows g a (down (ar a) (re a) n)) (ar a) 0
  | IDelLines n =>
      if (n =? 0) || (re a <=? ar a) then a else a_rows g a (up (ar a) (re a) n)
  | IRegion x y =>
      let x' := clamp x 0 (rows g - 1) in
      let y' := clamp y 0 (rows g - 1) in
      if y' <=? x' then a else a_move g (a_reg a x' (y' + 1)) 0 0
  | IInsChars n =>
      a_cells g a (ar a) (ac a) (cols g)
        (fun j => if j <? ac a + n then blanked (scrn a (ar a) j) else scrn a (ar a) (j - n))
  | IDelChars n =>
      a_cells g a (ar a) (ac a) (cols g)
        (fun j => if j + n <? cols g then scrn a (ar a) (j + n) else blanked (scrn a (ar a) j))
  | IEraseChars n =>
      a_cells g a (ar a) (ac a) (Z.min (cols g) (ac a + n)) (fun j => blanked (scrn a (ar a) j))
  end.

(** Which items the theorems cover; the others are refuted *)
Definition fits (g : cfg) (a : ab) (i : item) : Prop :=
  match i with
  | IChar ch color => 0 <= ch < 256 /\ (ch = 9 -> ac a < cols g)
  | IScrollUp n => 0 <= n
  | IScrollDown n => n = 0 \/ (0 < n /\ rs a = 0 /\ Z.min n (rows g) <= re a)
  | IInsLines n => 0 <= n /\ (n = 0 \/ re a <= ar a \/ rs a <= ar a)
  | IDelLines n =>
      n = 0 \/ re a <= ar a \/
      (rs a <= ar a /\ 0 < n < re a - ar a /\ re a - ar a <= 2 * n + 1 /\ ar a + 2 * n < rows g)
  | IInsChars n | IDelChars n | IEraseChars n => 0 <= n
  | _ => True
  end.

(** Items are written with the view at the bottom, where [OBegin] brings it *)
Definition may (g : cfg) (a : ab) (o : op) : Prop :=
  top a + rows g + 1 < 2 ^ 32 /\
  match o with
  | OItem i => off a = 0 /\ fits g a i
  | OEnd => off a = 0
  | OUp n | ODown n => 0 <= n /\ top a + n < 2 ^ 32
  | _ => True
  end.

(** The furthest the view can be scrolled up: as far as there is history, and
    room for it in the buffer *)
Definition off_max (g : cfg) (a : ab) : Z := Z.min (top a) (tot g - rows g).

Definition a_step (g : cfg) (k : Z) (a : ab) (o : op) : ab :=
  match o with
  | OBegin => a_off a 0
  | OItem i => a_exec g k a i
  | OEnd => a
  | OUp n => a_off a (Z.min (off a + n) (off_max g a))
  | ODown n => a_off a (Z.max (off a - n) 0)
  | OPause => a_on a false
  | ORestart => a_on a true
  end.

(** Erased cells get the color of the cell under the cursor, when there is one *)
Definition astep (g : cfg) (a : ab) (o : op) (a' : ab) : Prop :=
  exists k, (ac a < cols g -> k = e_color (scrn a (ar a) (ac a))) /\ a' = a_step g k a o.

Definition a_init (g : cfg) (a : ab) : Prop :=
  (forall i j, 0 <= i < rows g -> scrn a i j = blank) /\ top a = 0 /\
  ar a = 0 /\ ac a = 0 /\ off a = 0 /\ tb a = (fun _ _ => 0) /\ otb a = (fun _ _ => 0) /\
  rs a = 0 /\ re a = rows g /\ ors a = 0 /\ ore a = rows g /\
  aalt a = false /\ ahave a = false /\ sr a = 0 /\ sc a = 0 /\ acen a = true /\ aon a = true.

(** *** When a terminal's memory holds these lines *)

Definition wf (g : cfg) : Prop :=
  0 < rows g <= tot g /\ 1 < cols g /\ rows g < 32768 /\ cols g < 32768 /\ 1 <= slack g.

Definition inrow (g : cfg) (i j : Z) : Prop := 0 <= i < rows g /\ 0 <= j < cols g.

(** Main and alternate tab map and region: the current one is [tabs s],
    [sR s], [eR s]; the other one: *)
Definition otabs (s : st) : Z -> Z := if alt s then tm s else ta s.
Definition osR (s : st) : Z := if alt s then ms s else als s.
Definition oeR (s : st) : Z := (if alt s then me s else ale s) + 1.

Record core (g : cfg) (s : st) (a : ab) : Prop := Core {
  k_r : r s = ar a; k_c : c s = ac a;
  k_rb : 0 <= ar a < rows g; k_cb : 0 <= ac a <= cols g;
  k_max : maxs s = top a; k_scr : scroll s = top a - off a;
  k_off : 0 <= off a <= off_max g a; k_top : 0 <= top a /\ top a + rows g < 2 ^ 32;
  k_buf : forall n j, top a - off_max g a <= n < top a + rows g -> 0 <= j < cols g ->
    buf s (n mod tot g * cols g + j) = ln a n j;
  k_tb : forall i j, inrow g i j -> tabs s (i * cols g + j) = tb a i j;
  k_otb : forall i j, inrow g i j -> otabs s (i * cols g + j) = otb a i j;
  k_tbb : forall i j, inrow g i j -> 0 <= tb a i j <= j + 1;
  k_otbb : forall i j, inrow g i j -> 0 <= otb a i j <= j + 1;
  k_s : sR s = rs a; k_e : eR s = re a; k_reg : 0 <= rs a < re a /\ re a <= rows g;
  k_os : osR s = ors a; k_oe : oeR s = ore a; k_oreg : 0 <= ors a < ore a /\ ore a <= rows g;
  k_alt : alt s = aalt a; k_have : have s = ahave a; k_ah : aalt a = true -> ahave a = true;
  k_svr : svr s = sr a; k_svc : svc s = sc a;
  k_sb : 0 <= sr a < rows g /\ 0 <= sc a <= cols g;
  k_sv : ahave a = true -> forall i j, inrow g i j -> copy s (i * cols g + j) = sv a i j;
  k_cen : cen s = acen a; k_on : on s = aon a
}.

Definition corr (g : cfg) (s : st) (a : ab) : Prop :=
  core g s a /\
  (aon a = true -> forall i j, inrow g i j ->
     disp s (i * cols g + j) = ln a (top a - off a + i) j).

(** *** Sequences *)

Fixpoint aruns (g : cfg) (a : ab) (l : list op) (a' : ab) : Prop :=
  match l with
  | [] => a' = a
  | o :: l' => exists a1, astep g a o a1 /\ aruns g a1 l' a'
  end.

Fixpoint mays (g : cfg) (a : ab) (l : list op) : Prop :=
  match l with
  | [] => True
  | o :: l' => may g a o /\ forall a1, astep g a o a1 -> mays g a1 l'
  end.

(** What throws the history away *)
Definition wipes (o : op) : Prop :=
  match o with OItem IReset => True | OItem (IEraseDisplay m) => m = 3 | _ => False end.

(** What leaves the alternate screen *)
Definition leaves (o : op) : Prop :=
  match o with OItem (IAlt b _) => b = false | _ => False end.

(** Characters of a text, one after the other, and as many backspaces *)
Definition printable (ch : Z) : Prop := ch <> 10 /\ ch <> 13 /\ ch <> 9.

Definition typed (l : list (Z * Z)) : list op :=
  map (fun x => OItem (IChar (fst x) (snd x))) l.
Definition backs (k : nat) : list op := repeat (OItem IBack) k.

(** Cells counted from the first one of line 0 *)
Definition pos (g : cfg) (a : ab) : Z := (top a + ar a) * cols g + ac a.
Definition cell (g : cfg) (a : ab) (p : Z) : Z := ln a (p / cols g) (p mod cols g).

(** Lines wrap and scroll as usual, and no tab was written on the screen *)
Definition plain (g : cfg) (a : ab) : Prop :=
  0 < rows g /\ 0 < cols g /\
  rs a = 0 /\ re a = rows g /\ 0 <= ar a < rows g /\ 0 <= ac a <= cols g /\
  (forall i j, inrow g i j -> tb a i j = 0).
