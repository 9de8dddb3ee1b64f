(** Histories on which video_term.c and term_actions.c.h fail. *)
From Verif Require Import Lib Term_Model Term_Spec.

(** 80 columns, 25 rows, 25 extra rows *)
Definition gx : cfg := Cfg 25 80 50 1 true.
Definition gs : cfg := Cfg 5 10 8 1 true.

Definition t0 (g : cfg) : option st := vterm_init g (fun _ => 0) (fun _ => 0).
Definition after (g : cfg) (l : list op) : option st := obind (t0 g) (fun s => run g s l).

Definition ch (x : Z) : op := OItem (IChar x 7).
Definition chs (l : list Z) : list op := map ch l.
(** A line of the letter [x] *)
Definition line (x : Z) : list op := chs [x; 13; 10].
(** Rows 0..4 start with A B C D E, cursor at row 0 *)
Definition abcde : list op := line 65 ++ line 66 ++ line 67 ++ line 68 ++ chs [69; 13] ++
  [OItem (IMove 0 0)].

(** First character of row [i]: in the buffer, on the display *)
Definition first (g : cfg) (s : st) (i : Z) : Z := e_char (buf s (brow g s i)).
Definition shown (g : cfg) (s : st) (i : Z) : Z := e_char (disp s (i * cols g)).

Definition col0 (g : cfg) (l : list op) : option (list Z * list Z) :=
  obind (after g l) (fun s => Some (map (first g s) [0; 1; 2; 3; 4], map (shown g s) [0; 1; 2; 3; 4])).

(** Column and row of the cursor *)
Definition cursor (g : cfg) (l : list op) : option (Z * Z) :=
  obind (after g l) (fun s => Some (r s, c s)).

(** CSI M: the copied rows run past the tab map whenever the cursor's row plus
    twice the number of lines reaches the last row *)
From Coq Require Import ssreflect.

Lemma cp_up_none g n : 0 < n -> forall k d s, 0 <= d -> 0 < Z.of_nat k ->
  rows g <= d + Z.of_nat k - 1 + n -> cp_up g k d n s = None.
Proof.
  move=> Hn. elim=> [| k IH] d s Hd Hk Hb; first lia.
  cbn [cp_up]. rewrite /copy_row.
  have -> : (d =? d + n) = false by apply Z.eqb_neq; lia.
  case X: (_ && _) => //. cbn [obind]. destruct k as [| k].
  - exfalso. move: X. rewrite !andb_true_iff !Z.ltb_lt. lia.
  - apply IH; lia.
Qed.

Lemma del_lines_none g s a n : wf g -> corr g s a -> 0 < n -> ar a < re a ->
  rows g <= ar a + 2 * Z.min n (re a - ar a) -> del_lines g s n = None.
Proof.
  move=> W [H _] Hn L B. have RB := k_rb _ _ _ H.
  rewrite /del_lines (k_e _ _ _ H) (k_r _ _ _ H).
  have -> : (n =? 0) = false by apply Z.eqb_neq; lia.
  have -> : (re a <=? ar a) = false by apply Z.leb_gt; lia.
  rewrite cp_up_none; try lia. done.
Qed.

(** CSI T with more lines than the end of the region *)
Lemma scroll_down_none g s a n : corr g s a -> re a < Z.min n (rows g) -> nbs_down g s n = None.
Proof.
  move=> [H _] B. have RG := k_reg _ _ _ H. rewrite /nbs_down (k_e _ _ _ H).
  have -> : (n =? 0) = false by apply Z.eqb_neq; lia.
  by have -> : (re a <? Z.min n (rows g)) = true by apply Z.ltb_lt.
Qed.

Lemma del_line_dup : wf gs /\
  col0 gs abcde = Some ([65; 66; 67; 68; 69], [65; 66; 67; 68; 69]) /\
  col0 gs (abcde ++ [OItem (IDelLines 1)]) = Some ([66; 67; 67; 68; 32], [66; 67; 67; 68; 32]).
Proof. split; first by rewrite /wf /=; lia. by split; vm_compute. Qed.

Lemma del_line_below :
  col0 gs (abcde ++ [OItem (IRegion 0 2); OItem (IMove 2 0); OItem (IDelLines 1)]) =
  Some ([65; 66; 32; 69; 69], [65; 66; 32; 68; 69]).
Proof. by vm_compute. Qed.

Lemma scroll_down_region :
  col0 gs (abcde ++ [OItem (IRegion 1 3); OItem (IScrollDown 1)]) =
  Some ([65; 66; 66; 67; 69], [65; 66; 66; 67; 69]).
Proof. by vm_compute. Qed.

Lemma ins_line_above :
  col0 gs (abcde ++ [OItem (IRegion 2 4); OItem (IMove 0 0); OItem (IInsLines 1)]) =
  Some ([32; 65; 66; 67; 68], [65; 66; 66; 67; 68]).
Proof. by vm_compute. Qed.

(** Ten characters fill the line; then a tab, a backspace and a letter *)
Definition full : list op := chs [65; 65; 65; 65; 65; 65; 65; 65; 65; 65].

Lemma tab_at_end :
  cursor gs (full ++ chs [9]) = Some (0, 9) /\
  cursor gs (full ++ chs [9] ++ [OItem IBack]) = Some (0, 65290) /\
  after gs (full ++ chs [9] ++ [OItem IBack] ++ chs [65]) = None.
Proof. by split; [| split]; vm_compute. Qed.

(** A tab, then eight letters over it, then a backspace *)
Lemma tab_stale :
  cursor gs (chs [9; 13; 65; 66; 67; 68; 69; 70; 71; 72]) = Some (0, 8) /\
  cursor gs (chs [9; 13; 65; 66; 67; 68; 69; 70; 71; 72] ++ [OItem IBack]) = Some (0, 0).
Proof. by split; vm_compute. Qed.

(** The cell under the cursor when the last line of the buffer is full *)
Lemma cell_past_end : let g := Cfg 5 10 5 0 true in
  cursor g ([OItem (IMove 4 0)] ++ full) = Some (4, 10) /\
  after g ([OItem (IMove 4 0)] ++ full ++ [OEnd]) = None.
Proof. by split; vm_compute. Qed.

Lemma cursor_hidden :
  obind (after gs [OItem (ICursor false); OBegin; ch 65; OEnd]) (fun s => Some (cen s, hcur s)) =
  Some (false, true).
Proof. by vm_compute. Qed.
