(** Model of kernel/kmalloc/kmalloc_accelerator.c.h.  The heap is given by its answers: the
    address of a block, or nothing.  Products are of type u32. *)
From Verif Require Import Lib.

Section Acc.
Variables size count : Z.
(** struct kmalloc_acc, include/tilck/kernel/kmalloc.h:85-91, without the two constants *)
Record acc := Acc { cur : Z; buf : Z }.
(** kmalloc_create_accelerator, lines 44-49 *)
Definition create : acc := Acc count 0.
(** what is seen from outside: a block taken from the heap, an element given to the caller,
    a failure, an element given back to the heap *)
Inductive aev := Took (b : Z) | Gave (p : Z) | Null | Freed (p : Z).
(** lines 71-72 *)
Definition give (a : acc) : acc * list aev := (Acc (u32 (cur a + 1)) (buf a), [Gave (buf a + u32 (size * cur a))]).
(** kmalloc_accelerator_get_elem, lines 52-73 *)
Definition get (ans : option Z) (a : acc) : acc * list aev :=
  if cur a =? count then
    match ans with
    | None => (Acc (cur a) 0, [Null])
    | Some b => let '(a, o) := give (Acc 0 b) in (a, Took b :: o)
    end
  else give a.
(** kmalloc_destroy_accelerator, lines 75-89; [fuel]: rounds of the loop, None: more of them *)
Fixpoint destroy (fuel : nat) (a : acc) : option (acc * list aev) :=
  if cur a <? count then
    match fuel with
    | O => None
    | S n =>
        match destroy n (Acc (u32 (cur a + 1)) (buf a)) with
        | None => None
        | Some (a', o) => Some (a', Freed (buf a + u32 (cur a * size)) :: o)
        end
    end
  else Some (a, []).
Inductive aop := Get (ans : option Z) | Destroy.
Definition step (op : aop) (a : acc) : option (acc * list aev) :=
  match op with Get ans => Some (get ans a) | Destroy => destroy (Z.to_nat count) a end.
Fixpoint run (ops : list aop) (a : acc) : option (acc * list aev) :=
  match ops with
  | [] => Some (a, [])
  | op :: ops =>
      match step op a with
      | None => None
      | Some (a, o) => match run ops a with None => None | Some (a, o') => Some (a, o ++ o') end
      end
  end.
End Acc.
