(** What the queue of terminal actions should do. *)
From Verif Require Import Lib Tq_Model.

(** going to execute the queue *)
Definition drains (x : pc) : Prop := x = Wait \/ x = Loop \/ x = Exec.
(** inside the mutex *)
Definition inside (x : pc) : Prop := match x with Retry _ | Loop | Exec => True | _ => False end.
(** steps of the tasks that are in a call; no new calls *)
Definition internal (o : op) : Prop := o = Lock \/ o = Redo \/ o = Read \/ o = Done.
(** texts are not changed while they are in the queue *)
Fixpoint careful (cap : Z) (l : list (Z * op)) (s : tq) : Prop :=
  match l with
  | [] => True
  | (i, o) :: l =>
      (match o with Store p _ => ~ In p (q s) | _ => True end) /\
      match step cap i o s with None => True | Some s => careful cap l s end
  end.
