From Verif Require Import Lib Mmap_Model.

(** A region of the firmware: not empty, its last page not the last of the 64-bit space *)
Definition sane (r : region) : Prop := 0 <= addr r /\ 0 < len r /\ addr r + len r <= 2 ^ 64 - 4096 /\ 0 <= type r.
Definition covers (r : region) (a : Z) : bool := (addr r <=? a) && (a <? addr r + len r).
(** it has a byte in the page of [a] *)
Definition touches (r : region) (a : Z) : bool := (addr r <? a / 4096 * 4096 + 4096) && (a / 4096 * 4096 <? addr r + len r).
(** the strictest (highest) type among the regions selected; -1 if there is none *)
Fixpoint strictest (sel : region -> bool) (l : list region) : Z :=
  match l with [] => -1 | r :: l => if sel r then Z.max (type r) (strictest sel l) else strictest sel l end.

(** not empty, made of whole pages *)
Definition paged (r : region) : Prop := 0 <= addr r /\ 0 < len r /\ addr r + len r < 2 ^ 64 /\ addr r mod 4096 = 0 /\ len r mod 4096 = 0 /\ 0 <= type r.
(** sorted and disjoint *)
Fixpoint separate (l : list region) : Prop :=
  match l with
  | a :: (b :: _) as l' => addr a + len a <= addr b /\ separate l'
  | _ => True
  end.
