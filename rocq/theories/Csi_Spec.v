(** The sequences a program writes to the console, what they are as bytes, and
    what they mean for the screen of Term_Spec. *)
From Verif Require Import Lib Itoa_Spec Term_Model Term_Spec Csi_Model.

(** A parameter is its decimal digits, none for an omitted one *)
Inductive seq :=
| QByte (c : Z)                                   (* text, or a control character *)
| QCsi (pvt : bool) (ps : list (list Z)) (f : Z)  (* CSI [?] p ; p ; ... f *)
| QDown | QUp                                     (* ESC D, ESC M *)
| QReset                                          (* ESC c *)
| QSet (one gfx : bool).                          (* ESC ( B, ESC ( 0, ESC ) B, ESC ) 0 *)

Fixpoint join (ps : list (list Z)) : list Z :=
  match ps with
  | [] => []
  | [p] => map (Z.add 48) p
  | p :: ps' => map (Z.add 48) p ++ 59 :: join ps'
  end.

Definition ptext (pvt : bool) (ps : list (list Z)) : list Z :=
  (if pvt then [63] else []) ++ join ps.

Definition bytes (q : seq) : list Z :=
  match q with
  | QByte c => [c]
  | QCsi pvt ps f => [27; 91] ++ ptext pvt ps ++ [f]
  | QDown => [27; 68]
  | QUp => [27; 77]
  | QReset => [27; 99]
  | QSet one gfx => [27; if one then 41 else 40; if gfx then 48 else 66]
  end.

Definition value (p : list Z) : Z := numeral_value 10 p.
Definition vals (ps : list (list Z)) : list Z := match ps with [] => [0] | _ => map value ps end.

(** The console as a user knows it: character sets, attributes, colors, the
    saved cursor, the keys that erase, whether a line feed returns *)
Record vcon := VCon {
  a_one : bool; a_gx0 : bool; a_gx1 : bool;
  a_bold : bool; a_rev : bool; a_fg : Z; a_bg : Z;
  a_srow : Z; a_scol : Z;
  a_erase : Z; a_werase : Z; a_kill : Z; a_onlcr : bool
}.

Definition v_init : vcon := VCon false false true false false 7 0 0 0 127 23 21 true.

Definition a_sets v o x y := VCon o x y (a_bold v) (a_rev v) (a_fg v) (a_bg v) (a_srow v) (a_scol v) (a_erase v) (a_werase v) (a_kill v) (a_onlcr v).
Definition a_attr v b r f h := VCon (a_one v) (a_gx0 v) (a_gx1 v) b r f h (a_srow v) (a_scol v) (a_erase v) (a_werase v) (a_kill v) (a_onlcr v).
Definition a_save v y x := VCon (a_one v) (a_gx0 v) (a_gx1 v) (a_bold v) (a_rev v) (a_fg v) (a_bg v) y x (a_erase v) (a_werase v) (a_kill v) (a_onlcr v).

(** The color of what is written: foreground and background of the cell *)
Definition shown (v : vcon) : Z :=
  let f := if a_bold v && (a_fg v <? 8) then a_fg v + 8 else a_fg v in
  if a_rev v then a_bg v + 16 * f else f + 16 * a_bg v.

(** ANSI colors have red in bit 0 and blue in bit 2, those of the VGA the
    other way round *)
Definition vga (n : Z) : Z := n / 4 + 2 * (n / 2 mod 2) + 4 * (n mod 2).

(** SGR, one parameter *)
Definition sgr (v : vcon) (p : Z) : vcon :=
  if p =? 0 then a_attr v false false 7 0
  else if p =? 1 then a_attr v true (a_rev v) (a_fg v) (a_bg v)
  else if p =? 22 then a_attr v false (a_rev v) (a_fg v) (a_bg v)
  else if p =? 7 then a_attr v (a_bold v) true (a_fg v) (a_bg v)
  else if p =? 27 then a_attr v (a_bold v) false (a_fg v) (a_bg v)
  else if (30 <=? p) && (p <? 38) then a_attr v (a_bold v) (a_rev v) (vga (p - 30)) (a_bg v)
  else if p =? 39 then a_attr v (a_bold v) (a_rev v) 7 (a_bg v)
  else if (40 <=? p) && (p <? 48) then a_attr v (a_bold v) (a_rev v) (a_fg v) (vga (p - 40))
  else if p =? 49 then a_attr v (a_bold v) (a_rev v) (a_fg v) 0
  else if (90 <=? p) && (p <? 98) then a_attr v (a_bold v) (a_rev v) (8 + vga (p - 90)) (a_bg v)
  else if (100 <=? p) && (p <? 108) then a_attr v (a_bold v) (a_rev v) (a_fg v) (8 + vga (p - 100))
  else v.

(** The DEC special graphics, in code page 437 *)
Definition glyphs : list (Z * Z) :=
  [(32, 32); (43, 26); (44, 27); (45, 24); (46, 25); (48, 219); (96, 4); (97, 177); (102, 248);
   (103, 241); (104, 176); (106, 217); (107, 191); (108, 218); (109, 192); (110, 197); (113, 196);
   (116, 195); (117, 180); (118, 193); (119, 194); (120, 179); (126, 7)].
Definition glyph (c : Z) : option Z :=
  option_map snd (find (fun x => fst x =? c) glyphs).

(** A byte of text: what is put on the screen *)
Definition text (v : vcon) (c : Z) : option Z :=
  if (if a_one v then a_gx1 v else a_gx0 v) then glyph c
  else if (32 <=? c) && (c <? 127) then Some c else None.

Definition mean_byte (v : vcon) (c : Z) : vcon * list item :=
  let k := shown v in
  match text v c with
  | Some e => (v, [IChar e k])
  | None =>
      if c =? a_kill v then (v, [])
      else if c =? a_werase v then (v, [IWord])
      else if c =? a_erase v then (v, [IBack])
      else if c =? 7 then (v, [])
      else if c =? 8 then (v, [IMoveRel 0 (-1)])
      else if (c =? 9) || (c =? 13) then (v, [IChar c k])
      else if c =? 10 then (v, IChar 10 k :: if a_onlcr v then [IChar 13 k] else [])
      else if (c =? 11) || (c =? 12) then (v, [IChar 10 k])
      else if c =? 14 then (a_sets v true (a_gx0 v) (a_gx1 v), [])
      else if c =? 15 then (a_sets v false (a_gx0 v) (a_gx1 v), [])
      else if c =? 127 then (v, [])
      else (v, [IChar 63 k])
  end.

(** CSI: [y], [x] is the cursor *)
Definition mean_csi (g : cfg) (y x : Z) (v : vcon) (ps : list Z) (f : Z)
  : vcon * list item * list reply :=
  let p := nth 0 ps 0 in
  let q := nth 1 ps 0 in
  let n := if p =? 0 then 1 else p in
  let m := if q =? 0 then 1 else q in
  let row i := Z.min i (rows g) - 1 in
  let col j := Z.min j (cols g) - 1 in
  let it i := (v, [i], []) in
  if f =? 64 (* ICH *) then it (IInsChars n)
  else if f =? 65 (* CUU *) then it (IMoveRel (- n) 0)
  else if (f =? 66) || (f =? 101) (* CUD, VPR *) then it (IMoveRel n 0)
  else if (f =? 67) || (f =? 97) (* CUF, HPR *) then it (IMoveRel 0 n)
  else if f =? 68 (* CUB *) then it (IMoveRel 0 (- n))
  else if f =? 69 (* CNL *) then it (IMove (Z.min (y + n) (rows g - 1)) 0)
  else if f =? 70 (* CPL *) then it (IMove (Z.max (y - n) 0) 0)
  else if (f =? 71) || (f =? 96) (* CHA, HPA *) then it (IMove y (col n))
  else if (f =? 72) || (f =? 102) (* CUP, HVP *) then it (IMove (row n) (col m))
  else if f =? 74 (* ED *) then it (IEraseDisplay p)
  else if f =? 75 (* EL *) then it (IEraseLine p)
  else if f =? 76 (* IL *) then it (IInsLines n)
  else if f =? 77 (* DL *) then it (IDelLines n)
  else if f =? 80 (* DCH *) then it (IDelChars n)
  else if f =? 83 (* SU *) then it (IScrollUp n)
  else if f =? 84 (* SD *) then it (IScrollDown n)
  else if f =? 88 (* ECH *) then it (IEraseChars n)
  else if f =? 99 (* DA *) then (v, [], [RDa])
  else if f =? 100 (* VPA *) then it (IMove (row n) x)
  else if f =? 109 (* SGR *) then (fold_left sgr ps v, [], [])
  else if f =? 110 (* DSR *) then
    (v, [], if p =? 5 then [RDsr] else if p =? 6 then [RCpr (y + 1) (x + 1)] else [])
  else if f =? 114 (* DECSTBM *) then
    let last := if q =? 0 then rows g else q in
    if n <? last then it (IRegion (n - 1) (last - 1)) else (v, [], [])
  else if f =? 115 (* SCP *) then (a_save v y x, [], [])
  else if f =? 117 (* RCP *) then it (IMove (a_srow v) (a_scol v))
  else (v, [], []).

(** CSI ? *)
Definition mean_pvt (mem : bool) (ps : list Z) (f : Z) : list item :=
  let p := nth 0 ps 0 in
  if (f =? 104) || (f =? 108) then
    if p =? 25 then [ICursor (f =? 104)]
    else if p =? 1049 then [IAlt (f =? 104) mem] else []
  else [].

Definition mean (g : cfg) (mem : bool) (a : ab) (v : vcon) (q : seq)
  : vcon * list item * list reply :=
  match q with
  | QByte c => (mean_byte v c, [])
  | QCsi false ps f => mean_csi g (ar a) (ac a) v (vals ps) f
  | QCsi true ps f => (v, mean_pvt mem (vals ps) f, [])
  | QDown => (v, [IChar 10 (shown v)], [])
  | QUp => (v, [if ar a =? 0 then IScrollDown 1 else IMoveRel (-1) 0], [])
  | QReset =>
      (VCon false false true false false 7 0 (a_srow v) (a_scol v) 127 23 21 true, [IReset], [])
  | QSet one gfx =>
      (if one then a_sets v (a_one v) (a_gx0 v) gfx else a_sets v (a_one v) gfx (a_gx1 v), [], [])
  end.

(** Arguments that fit the fields they are packed into *)
Definition arg_ok (g : cfg) (y : Z) (ps : list Z) (f : Z) : Prop :=
  let p := nth 0 ps 0 in
  let q := nth 1 ps 0 in
  (In f [65; 66; 67; 68; 97; 101] -> p < 32768) /\
  (In f [69; 70] -> y + p < 2 ^ 31) /\
  (In f [74; 75; 83; 84] -> p < 4096) /\
  (In f [76; 77] -> p < 2 ^ 24) /\
  (In f [64; 80; 88] -> p < 65536) /\
  (f = 114 -> p <= 4096 /\ (if q =? 0 then rows g else q) <= 4096).

(** Sequences the theorems cover; the others are refuted.  A byte is anything
    but the two that begin a sequence *)
Definition seq_ok (g : cfg) (a : ab) (v : vcon) (q : seq) : Prop :=
  match q with
  | QByte c => 0 <= c < 256 /\ c <> 27 /\ (c = 155 -> In c [a_erase v; a_werase v; a_kill v])
  | QCsi pvt ps f =>
      64 <= f <= 126 /\ zlen ps <= 16 /\ zlen (ptext pvt ps) < 64 /\
      Forall (fun p => Forall (fun d => 0 <= d < 10) p /\ value p < 2 ^ 31) ps /\
      (pvt = false -> arg_ok g (ar a) (vals ps) f)
  | QReset => a_bold v = false /\ a_rev v = false /\ a_fg v = 7 /\ a_bg v = 0
  | _ => True
  end.

(** ESC is not one of the keys that erase *)
Definition keys_ok (v : vcon) : Prop := a_erase v <> 27 /\ a_werase v <> 27 /\ a_kill v <> 27.

Definition fits_vcon (g : cfg) (v : vcon) : Prop :=
  0 <= a_fg v < 16 /\ 0 <= a_bg v < 16 /\
  0 <= a_srow v < rows g /\ 0 <= a_scol v <= cols g /\ keys_ok v.

(** When a console is in this state, between two sequences *)
Definition ccorr (g : cfg) (x : con) (v : vcon) : Prop :=
  pst_ x = PDef /\ cset x = a_one v /\ gx0 x = a_gx0 v /\ gx1 x = a_gx1 v /\
  bold x = a_bold v /\ rvs x = a_rev v /\ ucol x = a_fg v + 16 * a_bg v /\ tcol x = shown v /\
  srow x = a_srow v /\ scol x = a_scol v /\
  k_erase x = a_erase v /\ k_werase x = a_werase v /\ k_kill x = a_kill v /\ onlcr x = a_onlcr v /\
  fits_vcon g v.

(** Sequences one after the other, from the first abstract state to the last *)
Fixpoint vruns (g : cfg) (mem : bool) (a : ab) (v : vcon) (l : list seq)
    (a' : ab) (v' : vcon) (rep : list reply) : Prop :=
  match l with
  | [] => a' = a /\ v' = v /\ rep = []
  | q :: l' =>
      let '(v1, il, r1) := mean g mem a v q in
      exists a1 r2, aruns g a (map OItem il) a1 /\ vruns g mem a1 v1 l' a' v' r2 /\ rep = r1 ++ r2
  end.

Fixpoint vmays (g : cfg) (mem : bool) (a : ab) (v : vcon) (l : list seq) : Prop :=
  match l with
  | [] => True
  | q :: l' =>
      let '(v1, il, _) := mean g mem a v q in
      seq_ok g a v q /\ mays g a (map OItem il) /\
      forall a1, aruns g a (map OItem il) a1 -> vmays g mem a1 v1 l'
  end.

(** The first sequence begins with ESC *)
Definition hd_esc (l : list seq) : Prop :=
  match l with [] => False | QByte _ :: _ => False | _ => True end.

(** Any state of the parser, in the middle of a sequence or not *)
Definition parsing (x : con) : Prop :=
  zlen (pb x) <= 64 /\ zlen (ib x) <= 64 /\
  Forall (fun c => 48 <= c <= 63) (pb x) /\ Forall (fun c => 32 <= c <= 47) (ib x).

(** Bytes between parameters *)
Definition separators (l : list Z) : Z := zlen (List.filter (fun c => 57 <? c) l).
