(** C66, C67: the screen of a video terminal. *)
From Verif Require Import Lib Term_Model Term_Spec Term_Proofs6 Term_Proofs7 Term_Proofs8 Term_Refuted.

(** A new terminal shows blank lines, cursor at the top left, whatever its memory and the screen held before. *)
Theorem C66_init : forall g b0 d0,
  wf g ->
  exists s a, vterm_init g b0 d0 = Some s /\ a_init g a /\ corr g s a.
Proof. exact init_ok. Qed.
Print Assumptions C66_init.

(** Every operation (a character, an action of an escape sequence, scrolling the view, pausing and restarting the output) stays within the buffers, and does to buffer, tab maps, cursor and display what the specification does to lines of cells; the operations [may] excludes are refuted below. *)
Theorem C66_step : forall g s a o,
  wf g -> corr g s a -> may g a o ->
  exists s' a', step g s o = Some s' /\ astep g a o a' /\ corr g s' a'.
Proof. exact sim. Qed.
Print Assumptions C66_step.

(** The same for every sequence of operations. *)
Theorem C66_run : forall g l,
  wf g -> forall s a, corr g s a -> mays g a l ->
  exists s' a', run g s l = Some s' /\ aruns g a l a' /\ corr g s' a'.
Proof. exact sim_run. Qed.
Print Assumptions C66_run.

(** CSI M (delete lines) accesses memory outside the tab map, on every terminal, when the row of the cursor plus twice the number of lines reaches the number of rows. *)
Theorem C66_delete_lines_overflow_refuted : forall g s a n,
  wf g -> corr g s a -> 0 < n -> ar a < re a ->
  rows g <= ar a + 2 * Z.min n (re a - ar a) -> del_lines g s n = None.
Proof. exact del_lines_none. Qed.
Print Assumptions C66_delete_lines_overflow_refuted.

(** CSI T (scroll down) does so, on every terminal, for more lines than the end of the scroll region. *)
Theorem C66_scroll_down_overflow_refuted : forall g s a n,
  corr g s a -> re a < Z.min n (rows g) -> nbs_down g s n = None.
Proof. exact scroll_down_none. Qed.
Print Assumptions C66_scroll_down_overflow_refuted.

(** CSI M on row 0 of A B C D E leaves B C C D: only the first n + 1 rows move. *)
Theorem C66_delete_line_refuted : wf gs /\
  col0 gs abcde = Some ([65; 66; 67; 68; 69], [65; 66; 67; 68; 69]) /\
  col0 gs (abcde ++ [OItem (IDelLines 1)]) = Some ([66; 67; 67; 68; 32], [66; 67; 67; 68; 32]).
Proof. exact del_line_dup. Qed.
Print Assumptions C66_delete_line_refuted.

(** CSI M on the last row of the scroll region changes the row below it, in the buffer and not on the display. *)
Theorem C66_delete_line_below_refuted : col0 gs (abcde ++ [OItem (IRegion 0 2); OItem (IMove 2 0); OItem (IDelLines 1)]) =
  Some ([65; 66; 32; 69; 69], [65; 66; 32; 68; 69]).
Proof. exact del_line_below. Qed.
Print Assumptions C66_delete_line_below_refuted.

(** CSI T with a scroll region that starts below row 0 clears no row of it: B is there twice. *)
Theorem C66_scroll_down_region_refuted : col0 gs (abcde ++ [OItem (IRegion 1 3); OItem (IScrollDown 1)]) =
  Some ([65; 66; 66; 67; 69], [65; 66; 66; 67; 69]).
Proof. exact scroll_down_region. Qed.
Print Assumptions C66_scroll_down_region_refuted.

(** CSI L above the scroll region moves rows in the buffer that are not redrawn. *)
Theorem C66_insert_line_above_refuted : col0 gs (abcde ++ [OItem (IRegion 2 4); OItem (IMove 0 0); OItem (IInsLines 1)]) =
  Some ([32; 65; 66; 67; 68], [65; 66; 66; 67; 68]).
Proof. exact ins_line_above. Qed.
Print Assumptions C66_insert_line_above_refuted.

(** A tab after a full line, and a backspace: the cursor is at column 65290, and the next character is written outside the buffer. *)
Theorem C66_tab_at_end_refuted : cursor gs (full ++ chs [9]) = Some (0, 9) /\
  cursor gs (full ++ chs [9] ++ [OItem IBack]) = Some (0, 65290) /\
  after gs (full ++ chs [9] ++ [OItem IBack] ++ chs [65]) = None.
Proof. exact tab_at_end. Qed.
Print Assumptions C66_tab_at_end_refuted.

(** Characters written over a tab do not remove it: one backspace erases none of them and goes back to column 0. *)
Theorem C66_stale_tab_refuted : cursor gs (chs [9; 13; 65; 66; 67; 68; 69; 70; 71; 72]) = Some (0, 8) /\
  cursor gs (chs [9; 13; 65; 66; 67; 68; 69; 70; 71; 72] ++ [OItem IBack]) = Some (0, 0).
Proof. exact tab_stale. Qed.
Print Assumptions C66_stale_tab_refuted.

(** With the last line of the buffer full, showing the cursor reads one cell past the end of the buffer. *)
Theorem C66_cell_past_end_refuted : let g := Cfg 5 10 5 0 true in
  cursor g ([OItem (IMove 4 0)] ++ full) = Some (4, 10) /\
  after g ([OItem (IMove 4 0)] ++ full ++ [OEnd]) = None.
Proof. exact cell_past_end. Qed.
Print Assumptions C66_cell_past_end_refuted.

(** Any write shows the cursor again after CSI ?25l hid it. *)
Theorem C66_hidden_cursor_refuted : obind (after gs [OItem (ICursor false); OBegin; ch 65; OEnd]) (fun s => Some (cen s, hcur s)) =
  Some (false, true).
Proof. exact cursor_hidden. Qed.
Print Assumptions C66_hidden_cursor_refuted.

(** Lines that left the screen never change, and none gets lost, until the terminal is reset (or CSI 3 J). *)
Theorem C67_history : forall g l,
  0 < rows g -> (forall o, In o l -> ~ wipes o) ->
  forall a a', aruns g a l a' ->
  top a <= top a' /\ forall n j, n < top a -> ln a' n j = ln a n j.
Proof. exact history. Qed.
Print Assumptions C67_history.

(** Whatever happens on the alternate screen, leaving it brings back the main screen, its cursor, its scroll region and its tabs. *)
Theorem C67_alternate_screen : forall g l b a a',
  (forall o, In o l -> ~ leaves o) -> aalt a = false ->
  aruns g a (OItem (IAlt true true) :: l ++ [OItem (IAlt false b)]) a' ->
  (forall i j, 0 <= i < rows g -> scrn a' i j = scrn a i j) /\ ar a' = ar a /\ ac a' = ac a /\
  tb a' = tb a /\ rs a' = rs a /\ re a' = re a /\ aalt a' = false.
Proof. exact alt_back. Qed.
Print Assumptions C67_alternate_screen.

(** A text appears cell by cell where the cursor is, wrapping and scrolling; nothing before it changes. *)
Theorem C67_text : forall g l,
  forall a a', plain g a -> Forall (fun x => printable (fst x)) l ->
  aruns g a (typed l) a' ->
  plain g a' /\ pos g a' = pos g a + zlen l /\ top a <= top a' /\
  (forall p, p < pos g a -> cell g a' p = cell g a p) /\
  (forall i ch color, nth_error l i = Some (ch, color) ->
     cell g a' (pos g a + Z.of_nat i) = entry ch color).
Proof. exact text_ok. Qed.
Print Assumptions C67_text.

(** As many backspaces as characters bring the cursor back, across wraps, and leave blanks; nothing before changes. *)
Theorem C67_erase_typed : forall g a a' l,
  plain g a -> Forall (fun x => printable (fst x)) l ->
  aruns g a (typed l ++ backs (length l)) a' -> top a' * cols g <= pos g a ->
  pos g a' = pos g a /\ plain g a' /\
  (forall p, p < pos g a -> cell g a' p = cell g a p) /\
  (forall p, pos g a <= p < pos g a + zlen l -> e_char (cell g a' p) = 32).
Proof. exact type_erase. Qed.
Print Assumptions C67_erase_typed.

(** Two lines, and the view *)
Example C66_nonvacuous :
  col0 gs (line 65 ++ line 66) = Some ([65; 66; 32; 32; 32], [65; 66; 32; 32; 32]) /\
  col0 gs (abcde ++ [OItem (IMove 4 0)] ++ line 70 ++ line 71 ++ [OUp 1]) =
    Some ([66; 67; 68; 70; 71], [66; 67; 68; 70; 71]) /\
  col0 gs (abcde ++ [OItem (IScrollUp 2)]) = Some ([67; 68; 69; 32; 32], [67; 68; 69; 32; 32]) /\
  col0 gs (abcde ++ [OItem (IInsLines 2)]) = Some ([32; 32; 65; 66; 67], [32; 32; 65; 66; 67]).
Proof. vm_compute. do 3 (split; [reflexivity |]). reflexivity. Qed.

(** The alternate screen; a wrapped word, erased *)
Example C67_nonvacuous :
  col0 gs (abcde ++ [OItem (IAlt true true); OItem (IEraseDisplay 2)] ++ line 88 ++
           [OItem (IAlt false true)]) = Some ([65; 66; 67; 68; 69], [65; 66; 67; 68; 69]) /\
  cursor gs (typed (repeat (65, 7) 13)) = Some (1, 3) /\
  cursor gs (typed (repeat (65, 7) 13) ++ backs 13) = Some (0, 0).
Proof. vm_compute. do 2 (split; [reflexivity |]). reflexivity. Qed.

