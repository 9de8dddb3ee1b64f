(** Numerals: a numeral in a base is a list of digit values, most significant
    first; its characters and its value. *)
From Verif Require Import Lib.

Definition numeral_value (base : Z) (ds : list Z) : Z :=
  fold_left (fun acc d => acc * base + d) ds 0.

Definition digits_of_base (base : Z) (ds : list Z) : Prop :=
  ds <> [] /\ Forall (fun d => 0 <= d < base) ds.

(** '0'..'9' then 'a'..'f' *)
Definition digit_char (d : Z) : Z := if d <? 10 then 48 + d else 87 + d.

(** Character [c] reads as digit [d]: both letter cases *)
Definition reads_as (c d : Z) : Prop :=
  0 <= d < 10 /\ c = 48 + d \/ 10 <= d < 16 /\ (c = 55 + d \/ c = 87 + d).

(** [cs] are the characters of the numeral [ds] *)
Definition spells (cs ds : list Z) : Prop := Forall2 reads_as cs ds.

(** [c] does not continue a numeral in this base *)
Definition terminator (base c : Z) : Prop := forall d, 0 <= d < base -> ~ reads_as c d.

(** No superfluous leading zero *)
Definition canonical (ds : list Z) : Prop := ds = [0] \/ hd 0 ds <> 0.

(** [t] is the text of the integer [v] *)
Definition is_text (base v : Z) (t : list Z) : Prop :=
  exists ds, digits_of_base base ds /\ canonical ds /\
    numeral_value base ds = Z.abs v /\
    t = (if v <? 0 then [45] else []) ++ map digit_char ds.

(** Values of an integer type *)
Definition in_type (w : Z) (sg : bool) (v : Z) : Prop :=
  if sg then - 2 ^ (w - 1) <= v < 2 ^ (w - 1) else 0 <= v < 2 ^ w.
