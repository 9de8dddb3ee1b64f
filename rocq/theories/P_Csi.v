(** C68, C69: escape sequences of the console. *)
From Verif Require Import Lib Itoa_Model Itoa_Spec Term_Model Term_Spec Term_Refuted Csi_Model Csi_Spec
  Csi_Proofs4 Csi_Proofs5 Csi_Proofs6 Csi_Proofs7 Csi_Refuted.

(** A new console: default colors, no charset chosen, nothing saved. *)
Theorem C68_init : forall g,
  wf g -> ccorr g con_init v_init.
Proof. exact init_con. Qed.
Print Assumptions C68_init.

(** Every stream of characters and well-formed sequences (any parameters up to the size limits, any digits) does what its sequences mean, one after the other, to screen, colors, charsets, saved cursor and replies. *)
Theorem C68_stream : forall g w mem l,
  forall x s a v rep, wf g -> 32 <= w -> corr g s a -> ccorr g x v ->
  vmays g mem a v l ->
  exists x' s' a' v' rp, feed g w mem (Vt x s (shown v) rep) (flat_map bytes l) =
      Some (Vt x' s' (shown v') (rep ++ rp)) /\
    vruns g mem a v l a' v' rp /\ corr g s' a' /\ ccorr g x' v'.
Proof. exact stream_ok. Qed.
Print Assumptions C68_stream.

(** The same when the stream begins in the middle of another sequence: the ESC of the first sequence drops what was there. *)
Theorem C68_interrupted : forall g w mem l x s a v rep,
  wf g -> 32 <= w -> corr g s a -> pst_ x <> PDef ->
  ccorr g (reset_ctx x) v -> hd_esc l -> vmays g mem a v l ->
  exists x' s' a' v' rp, feed g w mem (Vt x s (shown v) rep) (flat_map bytes l) =
      Some (Vt x' s' (shown v') (rep ++ rp)) /\
    vruns g mem a v l a' v' rp /\ corr g s' a' /\ ccorr g x' v'.
Proof. exact interrupted. Qed.
Print Assumptions C68_interrupted.

(** Whatever bytes come in, the parser keeps at most 64 bytes of each kind, parameter bytes are 0x30-0x3f and intermediate bytes 0x20-0x2f. *)
Theorem C68_parser_bytes : forall g w mem l,
  forall v v', Forall (fun c => 0 <= c < 256) l ->
  parsing (v_con v) -> feed g w mem v l = Some v' -> parsing (v_con v').
Proof. exact feed_parsing. Qed.
Print Assumptions C68_parser_bytes.

(** With at most 15 bytes of parameters and fewer than 64 intermediate bytes, no byte makes the parser access memory outside its arrays. *)
Theorem C68_safe : forall g w mem c y z x k,
  parsing x -> zlen (pb x) <= 15 -> zlen (ib x) < 64 ->
  exists o, filter g w mem c y z x k = Some o.
Proof. exact safe. Qed.
Print Assumptions C68_safe.

(** With 17 separators, or 16 without a leading question mark, or 64 bytes of parameters or of intermediate bytes, the final byte makes it write outside an array, whatever the state of the console. *)
Theorem C68_params_overflow_refuted : forall g w mem f y z x k,
  pst_ x = PCsi -> parsing x -> 64 <= f <= 126 ->
  17 <= separators (pb x) \/ (16 <= separators (pb x) /\ hd 0 (pb x) <> 63) \/
  zlen (pb x) = 64 \/ zlen (ib x) = 64 ->
  filter g w mem f y z x k = None.
Proof. exact overflow. Qed.
Print Assumptions C68_params_overflow_refuted.

(** After ESC and a byte from 0x30 to 0x3f (ESC 7, ESC =, ESC >) all text is lost until a byte from 0x40 to 0x5f. *)
Theorem C68_lost_text_refuted : forall g w mem x s v k rep e l,
  ccorr g x v -> 48 <= e <= 63 ->
  Forall (fun c => c <> 27 /\ ~ 64 <= c <= 95) l ->
  feed g w mem (Vt x s k rep) (27 :: e :: l) = Some (Vt (set_st x PUnk) s k rep).
Proof. exact swallow. Qed.
Print Assumptions C68_lost_text_refuted.

(** A parameter that overflows is read again from its second digit, and the ones after it move. *)
Theorem C68_shifted_params_refuted : get_params 32 64 ([52;48;48;48;48;48;48;48;48;48;59;53] ++ [0]) [] = Some [0; 0; 5] /\
  at_ 32 (csi [57;57;59;53;72]) = Some (4, 4) /\
  at_ 32 (csi [52;48;48;48;48;48;48;48;48;48;59;53;72]) = Some (0, 0).
Proof. exact shifted. Qed.
Print Assumptions C68_shifted_params_refuted.

(** With a 64-bit long, CSI 4294967297 B moves one row instead of to the last. *)
Theorem C68_truncated_refuted : at_ 64 (csi [57;66]) = Some (4, 0) /\
  at_ 64 (csi [52;50;57;52;57;54;55;50;57;55;66]) = Some (1, 0).
Proof. exact truncated. Qed.
Print Assumptions C68_truncated_refuted.

(** CSI 65535 C moves left, CSI 65535 A down, CSI 4096 S does nothing, CSI 4098 J erases the display, CSI 4097;4100 r selects rows 0 to 3: fields of 12 and 16 bits. *)
Theorem C68_wrapped_fields_refuted : forall g y z x k,
  csi_handler g 67 65535 0 [65535] y z x k = act x k (IMoveRel 0 (-1)) /\
  csi_handler g 65 65535 0 [65535] y z x k = act x k (IMoveRel 1 0) /\
  csi_handler g 66 65536 0 [65536] y z x k = act x k (IMoveRel 0 0) /\
  csi_handler g 83 4096 0 [4096] y z x k = act x k (IScrollUp 0) /\
  csi_handler g 74 4098 0 [4098] y z x k = act x k (IEraseDisplay 2) /\
  csi_handler g 114 4097 4100 [4097; 4100] y z x k = act x k (IRegion 0 3).
Proof. exact wrapped. Qed.
Print Assumptions C68_wrapped_fields_refuted.

(** CSI 2147483647 E goes up to the first row. *)
Theorem C68_next_line_refuted : forall g y z x k,
  1 <= y < rows g -> rows g < 32768 ->
  csi_handler g 69 2147483647 0 [2147483647] y z x k = act x k (IMove 0 0).
Proof. exact next_line_wraps. Qed.
Print Assumptions C68_next_line_refuted.

(** CSI > 4;1 m, a request to xterm, resets the colors and turns bold on. *)
Theorem C68_prefix_refuted : obind (fed 32 (csi [51;49;109])) (fun v => Some (bold (v_con v), v_col v)) =
    Some (false, 4) /\
  obind (fed 32 (csi [51;49;109] ++ csi [62;52;59;49;109])) (fun v => Some (bold (v_con v), v_col v)) =
    Some (true, 15).
Proof. exact prefix_ignored. Qed.
Print Assumptions C68_prefix_refuted.

(** The rest of a sequence with more than 64 bytes of parameters is printed. *)
Theorem C68_rest_printed_refuted : at_ 32 (csi (repeat 48 63 ++ [109])) = Some (0, 0) /\
  at_ 32 (csi (repeat 48 65 ++ [59; 49; 109])) = Some (0, 3).
Proof. exact rest_printed. Qed.
Print Assumptions C68_rest_printed_refuted.

(** ESC c leaves bold and reverse on, and the color of what follows. *)
Theorem C68_reset_refuted : forall y x k,
  let o := st_esc 99 y x k in
  bold (o_con o) = bold x /\ rvs (o_con o) = rvs x /\ o_col o = k /\ tcol (o_con o) = 7.
Proof. exact reset_keeps. Qed.
Print Assumptions C68_reset_refuted.

(** After a full line the column reported does not exist. *)
Theorem C68_report_refuted : obind (fed 32 (repeat 65 10 ++ csi [54; 110])) (fun v => Some (v_rep v)) =
  Some [RCpr 1 11].
Proof. exact cpr_column. Qed.
Print Assumptions C68_report_refuted.

(** In the line drawing set, A prints as a question mark. *)
Theorem C68_gfx_letter_refuted : obind (fed 32 [27; 40; 48; 65]) (fun v => Some (e_char (buf (v_scr v) 0))) = Some 63.
Proof. exact gfx_letter. Qed.
Print Assumptions C68_gfx_letter_refuted.

(** CSI 2 SP @ (scroll left) inserts blanks. *)
Theorem C68_intermediate_refuted : obind (fed 32 ([65; 13] ++ csi [50; 32; 64]))
  (fun v => Some (map (fun i => e_char (buf (v_scr v) i)) [0; 1; 2])) = Some [32; 32; 65].
Proof. exact intermediate. Qed.
Print Assumptions C68_intermediate_refuted.

(** CSI R ; C H and a text that fits the row: exactly these cells of the display change, to these characters in the current color, from any state of the terminal that is not scrolled back; the cursor is behind the text. *)
Theorem C69_draw : forall g w mem x s a v rep ds es t,
  wf g -> 32 <= w -> corr g s a -> ccorr g x v -> off a = 0 -> top a + rows g + 1 < 2 ^ 32 ->
  a_one v = false -> a_gx0 v = false -> Forall (fun c => 32 <= c < 127) t ->
  Forall (fun d => 0 <= d < 10) ds -> Forall (fun d => 0 <= d < 10) es ->
  1 <= value ds <= rows g -> 1 <= value es -> value es - 1 + zlen t <= cols g -> value es <= cols g ->
  zlen ds + zlen es < 63 ->
  exists x' s', feed g w mem (Vt x s (shown v) rep)
      ([27; 91] ++ map (Z.add 48) ds ++ [59] ++ map (Z.add 48) es ++ [72] ++ t) =
      Some (Vt x' s' (shown v) rep) /\ ccorr g x' v /\
    r s' = value ds - 1 /\ c s' = value es - 1 + zlen t /\
    (on s = true -> forall i j, 0 <= i < rows g -> 0 <= j < cols g ->
       disp s' (i * cols g + j) =
         if (i =? value ds - 1) && (value es - 1 <=? j) && (j <? value es - 1 + zlen t)
         then entry (nth (Z.to_nat (j - (value es - 1))) t 0) (shown v)
         else disp s (i * cols g + j)).
Proof. exact draw_at. Qed.
Print Assumptions C69_draw.

(** Red, a position, a word, the position; saved and restored; line drawing *)
Example C68_nonvacuous :
  obind (fed 32 (csi [51;49;109] ++ csi [50;59;51;72] ++ [72; 105] ++ csi [54;110]))
    (fun v => Some (map (buf (v_scr v)) [12; 13], v_rep v)) =
    Some ([entry 72 4; entry 105 4], [RCpr 2 5]) /\
  at_ 32 (csi [51;59;52;72] ++ csi [115] ++ csi [72] ++ csi [117]) = Some (2, 3) /\
  obind (fed 32 [27; 40; 48; 113]) (fun v => Some (e_char (buf (v_scr v) 0))) = Some 196 /\
  separators [49; 59; 50; 59] = 2.
Proof. vm_compute. do 3 (split; [reflexivity |]). reflexivity. Qed.

(** Hi at row 2, column 3 *)
Example C69_nonvacuous :
  obind (fed 32 (csi [50;59;51;72] ++ [72; 105]))
    (fun v => Some (map (disp (v_scr v)) [11; 12; 13; 14], r (v_scr v), c (v_scr v))) =
    Some ([entry 32 7; entry 72 7; entry 105 7; entry 32 7], 1, 4) /\
  value [2] = 2 /\ value [0; 3] = 3 /\ shown v_init = 7.
Proof. vm_compute. do 3 (split; [reflexivity |]). reflexivity. Qed.

