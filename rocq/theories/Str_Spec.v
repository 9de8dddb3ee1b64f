(** What the string functions of C do. *)
From Verif Require Import Lib Str_Model.

(** [l] are the bytes at [p]; a string; a string cut after [n] bytes *)
Definition bytes (m : mem) (p : Z) (l : list Z) : Prop := forall i, 0 <= i < zlen l -> m (p + i) = Some (znth 0 l i).
Definition nonzero (l : list Z) : Prop := Forall (fun b => b <> 0) l.
Definition byte_list (l : list Z) : Prop := Forall (fun b => 0 <= b < 256) l.
Definition str (m : mem) (p : Z) (l : list Z) : Prop := bytes m p l /\ nonzero l /\ m (p + zlen l) = Some 0.
Definition cut (m : mem) (p n : Z) (l : list Z) : Prop :=
  bytes m p l /\ nonzero l /\ zlen l <= n /\ (zlen l < n -> m (p + zlen l) = Some 0).
(** Addresses that exist *)
Definition mapped (m : mem) (p n : Z) : Prop := forall i, 0 <= i < n -> m (p + i) <> None.

(** Lexicographic order; the sign of a result *)
Fixpoint order (key : Z -> Z) (l k : list Z) : comparison :=
  match l, k with
  | [], [] => Eq
  | [], _ => Lt
  | _, [] => Gt
  | a :: l, b :: k => match key a ?= key b with Eq => order key l k | c => c end
  end.
(** [n] bytes at [d] replaced, nothing else *)
Definition replaced (m m' : mem) (d n : Z) (f : Z -> option Z) : Prop :=
  forall x, m' x = if (d <=? x) && (x <? d + n) then f (x - d) else m x.
Definition apart (a n b k : Z) : Prop := a + n <= b \/ b + k <= a.
(** [k] is in [l] at [i] *)
Definition occurs (k l : list Z) (i : Z) : Prop := exists a b, l = a ++ k ++ b /\ zlen a = i.
