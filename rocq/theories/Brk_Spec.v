From Verif Require Import Lib Brk_Model.

Definition heap (s : st) (a : Z) : Prop := initial_brk s <= a < brk s.
Definition aligned (a : Z) : Prop := a mod PAGE = 0.
(** what kmalloc returns is not in use (C07): neither mapped, nor given before *)
Fixpoint fresh (s : st) (seen : list Z) (ans : list answer) : Prop :=
  match ans with
  | [] => True
  | NoMem :: r => fresh s seen r
  | (NoMap p | Page p) :: r => ~ In p seen /\ ~ In p (owned s) /\ (forall v, tab s v <> Some p) /\ fresh s (p :: seen) r
  end.
Definition allowed (s : st) (o : op) : Prop :=
  match o with
  | Brk _ ans => fresh s [] ans
  | Write a _ => heap s a
  | Other t m =>
      (* not the heap's mappings, not the heap's memory *)
      (forall v, aligned v -> heap s v -> t v = tab s v) /\
      (forall v p, ~ (aligned v /\ heap s v) -> t v = Some p -> ~ In p (owned s)) /\
      (forall p i, In p (owned s) -> m p i = mem s p i)
  end.
(** after exec: an empty heap *)
Definition start (s : st) : Prop :=
  brk s = initial_brk s /\ aligned (initial_brk s) /\ 0 < initial_brk s /\ owned s = [] /\ br_len s = brk s - br_vaddr s.
Inductive reach (max : Z) : st -> Prop :=
  | R0 s : start s -> reach max s
  | RS s o : reach max s -> allowed s o -> reach max (step max s o).
Definition valid (max : Z) (s : st) (new : Z) : Prop := aligned new /\ initial_brk s <= new < max.
(** the number of pages which can be had *)
Fixpoint pages (ans : list answer) : Z := match ans with Page _ :: r => 1 + pages r | _ => 0 end.
Definition room (s : st) (new : Z) : Prop := forall v, aligned v -> brk s <= v < new -> tab s v = None.
