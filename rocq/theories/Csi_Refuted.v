(** Sequences on which console.c fails. *)
From Coq Require Import ssreflect.
From Verif Require Import Lib Itoa_Model Term_Model Term_Spec Term_Refuted Csi_Model Csi_Spec.

(** A new console on a new terminal of 10 columns and 5 rows *)
Definition fed (w : Z) (l : list Z) : option vt :=
  obind (t0 gs) (fun s => feed gs w true (Vt con_init s 7 []) l).
Definition at_ (w : Z) (l : list Z) : option (Z * Z) :=
  obind (fed w l) (fun v => Some (r (v_scr v), c (v_scr v))).

Definition csi (l : list Z) : list Z := 27 :: 91 :: l.

(** CSI 4000000000;5 H: strtol reports an overflow and where the number began,
    and the next parameter is read from its second digit *)
Lemma shifted :
  get_params 32 64 ([52;48;48;48;48;48;48;48;48;48;59;53] ++ [0]) [] = Some [0; 0; 5] /\
  at_ 32 (csi [57;57;59;53;72]) = Some (4, 4) /\
  at_ 32 (csi [52;48;48;48;48;48;48;48;48;48;59;53;72]) = Some (0, 0).
Proof. vm_compute. do 2 (split; first done). done. Qed.

(** CSI 4294967297 B with a 64-bit long: one row *)
Lemma truncated :
  at_ 64 (csi [57;66]) = Some (4, 0) /\
  at_ 64 (csi [52;50;57;52;57;54;55;50;57;55;66]) = Some (1, 0).
Proof. vm_compute. split; done. Qed.

(** Fields of 12 and 16 bits *)
Lemma wrapped g y z x k :
  csi_handler g 67 65535 0 [65535] y z x k = act x k (IMoveRel 0 (-1)) /\
  csi_handler g 65 65535 0 [65535] y z x k = act x k (IMoveRel 1 0) /\
  csi_handler g 66 65536 0 [65536] y z x k = act x k (IMoveRel 0 0) /\
  csi_handler g 83 4096 0 [4096] y z x k = act x k (IScrollUp 0) /\
  csi_handler g 74 4098 0 [4098] y z x k = act x k (IEraseDisplay 2) /\
  csi_handler g 114 4097 4100 [4097; 4100] y z x k = act x k (IRegion 0 3).
Proof. do 5 (split; first reflexivity). reflexivity. Qed.

(** CSI 2147483647 E, from any row but the first: up to the first row *)
Lemma next_line_wraps g y z x k : 1 <= y < rows g -> rows g < 32768 ->
  csi_handler g 69 2147483647 0 [2147483647] y z x k = act x k (IMove 0 0).
Proof.
  move=> Y R. cbn [csi_handler].
  have -> : s32 (Z.max 1 2147483647) = 2147483647 by vm_compute.
  have -> : clamp (s32 (y + 2147483647)) 0 (rows g - 1) = 0 by rewrite /clamp /s32; lia.
  by [].
Qed.

(** The prefix of CSI > 4;1 m (a request of xterm) is taken for a parameter:
    the colors are reset, and what follows is bold *)
Lemma prefix_ignored : obind (fed 32 (csi [51;49;109])) (fun v => Some (bold (v_con v), v_col v)) =
    Some (false, 4) /\
  obind (fed 32 (csi [51;49;109] ++ csi [62;52;59;49;109])) (fun v => Some (bold (v_con v), v_col v)) =
    Some (true, 15).
Proof. vm_compute. split; done. Qed.

(** A sequence with more than 64 bytes of parameters: the rest of it is text *)
Lemma rest_printed : at_ 32 (csi (repeat 48 63 ++ [109])) = Some (0, 0) /\
  at_ 32 (csi (repeat 48 65 ++ [59; 49; 109])) = Some (0, 3).
Proof. vm_compute. split; done. Qed.

(** ESC c does not reset the attributes, nor the color of what follows it *)
Lemma reset_keeps y x k : let o := st_esc 99 y x k in
  bold (o_con o) = bold x /\ rvs (o_con o) = rvs x /\ o_col o = k /\ tcol (o_con o) = 7.
Proof. by []. Qed.

(** The position reported after a full line has a column that does not exist *)
Lemma cpr_column : obind (fed 32 (repeat 65 10 ++ csi [54; 110])) (fun v => Some (v_rep v)) =
  Some [RCpr 1 11].
Proof. by vm_compute. Qed.

(** With the line drawing set, characters without a glyph become question marks *)
Lemma gfx_letter : obind (fed 32 [27; 40; 48; 65]) (fun v => Some (e_char (buf (v_scr v) 0))) = Some 63.
Proof. by vm_compute. Qed.

(** CSI 2 SP @ (scroll left) inserts blanks *)
Lemma intermediate : obind (fed 32 ([65; 13] ++ csi [50; 32; 64]))
  (fun v => Some (map (fun i => e_char (buf (v_scr v) i)) [0; 1; 2])) = Some [32; 32; 65].
Proof. by vm_compute. Qed.
