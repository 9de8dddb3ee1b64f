(** Elements of blocks and who has them. *)
From Verif Require Import Lib Acc_Model.

Definition took (o : list aev) : list Z := flat_map (fun e => match e with Took b => [b] | _ => [] end) o.
Definition gave (o : list aev) : list Z := flat_map (fun e => match e with Gave p => [p] | _ => [] end) o.
Definition freed (o : list aev) : list Z := flat_map (fun e => match e with Freed p => [p] | _ => [] end) o.
(** the elements number i, i + 1, … of the [count] elements of the block at [b] *)
Definition cells_from (size count i b : Z) : list Z := map (fun j => b + size * (i + Z.of_nat j)) (seq 0 (Z.to_nat (count - i))).
Definition cells (size count b : Z) : list Z := cells_from size count 0 b.
(** areas of [w] bytes that do not overlap *)
Definition disj (w p q : Z) : Prop := p + w <= q \/ q + w <= p.
Fixpoint apart (w : Z) (l : list Z) : Prop := match l with [] => True | x :: l => Forall (disj w x) l /\ apart w l end.
(** number of calls of get_elem answered with an element *)
Definition ok_gets (o : list aev) : Z := zlen (gave o).
