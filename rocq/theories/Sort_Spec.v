(** What sorting means. *)
From Verif Require Import Lib.
From Coq Require Export Permutation Sorted.

Section S.
  Context {A : Type}.
  Variable cmp : A -> A -> Z.

  (** No element is greater than a later one *)
  Definition sorted (l : list A) : Prop := StronglySorted (fun a b => cmp a b <= 0) l.

  Definition equiv (a b : A) : bool := (cmp a b <=? 0) && (cmp b a <=? 0).

  (** Elements that compare equal to [x] appear in the same order *)
  Definition stable (l l' : list A) : Prop :=
    forall x, filter (equiv x) l' = filter (equiv x) l.

  Definition stably_sorted (l l' : list A) : Prop :=
    Permutation l l' /\ sorted l' /\ stable l l'.
End S.
