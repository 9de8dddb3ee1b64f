(** Base-64, RFC 1341 / RFC 4648. *)
From Verif Require Import Lib.

Definition bytes (l : list Z) : Prop := Forall (fun b => 0 <= b < 256) l.
(** A-Z, a-z, 0-9, +, / *)
Definition char (d : Z) : Z :=
  if d <? 26 then 65 + d else if d <? 52 then 97 + (d - 26) else if d <? 62 then 48 + (d - 52) else if d =? 62 then 43 else 47.
(** the [k]-th of the four digits of a group of 24 bits *)
Definition digit (g k : Z) : Z := char (g / 64 ^ (3 - k) mod 64).
Fixpoint quads (l : list Z) : list Z :=
  match l with
  | a :: b :: c :: l => let g := a * 65536 + b * 256 + c in digit g 0 :: digit g 1 :: digit g 2 :: digit g 3 :: quads l
  | [a; b] => let g := a * 65536 + b * 256 in [digit g 0; digit g 1; digit g 2; 61]
  | [a] => let g := a * 65536 in [digit g 0; digit g 1; 61; 61]
  | [] => []
  end.
(** a line feed after every 72 characters and at the end *)
Fixpoint lines (n : Z) (l : list Z) : list Z :=
  match l with
  | [] => if n =? 0 then [] else [10]
  | c :: l => c :: (if n =? 71 then 10 :: lines 0 l else lines (n + 1) l)
  end.
Definition text (l : list Z) : list Z := lines 0 (quads l).
(** characters without a meaning *)
Definition ignored (c : Z) : Prop := c <> 61 /\ forall d, 0 <= d < 64 -> c <> char d.
Definition skip (src : list Z) (keep : Z -> bool) : list Z := filter keep src.
