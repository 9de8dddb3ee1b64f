(** Model of include/tilck/kernel/list.h (intrusive doubly linked circular lists).

    A node is its address; the memory is the two fields of every node.  struct list has the
    layout of struct list_node (lines 16-17), so a list is its head node: first is next and
    last is prev.  The stores are made in the order of the C code.  The iteration macros go
    over the objects which contain the nodes; CONTAINER_OF is a constant offset (lines
    89-112) and is left out: the loops below go over the nodes. *)
From Verif Require Import Lib.

Record mem := Mem { nx : Z -> Z; pv : Z -> Z }.
Definition set_nx (m : mem) (a v : Z) : mem := Mem (fupd (nx m) a v) (pv m).
Definition set_pv (m : mem) (a v : Z) : mem := Mem (nx m) (fupd (pv m) a v).

(** list_node_init and list_init, lines 26-30 and 40-42 *)
Definition node_init (n : Z) (m : mem) : mem := set_pv (set_nx m n n) n n.
(** list_node_is_null, lines 32-34; list_node_is_empty and list_is_empty, lines 36-38, 48-50 *)
Definition is_null (n : Z) (m : mem) : bool := (nx m n =? 0) && (pv m n =? 0).
Definition is_empty (n : Z) (m : mem) : bool := (nx m n =? n) && (pv m n =? n).
(** list_is_node_in_list, lines 52-56 *)
Definition in_list (n : Z) (m : mem) : bool :=
  negb (is_empty n m) && (nx m (pv m n) =? n) && (pv m (nx m n) =? n).
(** list_add_after, lines 58-66 *)
Definition add_after (curr elem : Z) (m : mem) : mem :=
  let curr_next := nx m curr in
  let m := set_nx m curr elem in
  let m := set_nx m elem curr_next in
  let m := set_pv m elem curr in
  set_pv m curr_next elem.
(** list_add_before, lines 68-72; list_add_tail, list_add_head, lines 74-82 *)
Definition add_before (curr elem : Z) (m : mem) : mem := add_after (pv m curr) elem m.
Definition add_tail (l elem : Z) (m : mem) : mem := add_before l elem m.
Definition add_head (l elem : Z) (m : mem) : mem := add_after l elem m.
(** list_remove, lines 84-88 *)
Definition remove (elem : Z) (m : mem) : mem :=
  let m := set_nx m (pv m elem) (nx m elem) in
  set_pv m (nx m elem) (pv m elem).

(** list_for_each_ro_kp, lines 138-141, and list_for_each_ro, lines 132-135: the nodes
    visited; None: still running after [fuel] iterations *)
Fixpoint for_each_ro_kp (fuel : nat) (pos l : Z) (m : mem) : option (list Z) :=
  if pos =? l then Some []
  else match fuel with
       | O => None
       | S fuel => option_map (cons pos) (for_each_ro_kp fuel (nx m pos) l m)
       end.
Definition for_each_ro (fuel : nat) (l : Z) (m : mem) : option (list Z) := for_each_ro_kp fuel (nx m l) l m.

(** list_for_each, lines 126-130, and list_for_each_reverse, lines 143-147.  The body
    changes the memory.  [tp] is computed before the body, and from [tp] after it. *)
Section Loops.
Variable body : Z -> mem -> mem.
Fixpoint each (next : mem -> Z -> Z) (fuel : nat) (pos tp l : Z) (m : mem) : option (list Z * mem) :=
  if pos =? l then Some ([], m)
  else match fuel with
       | O => None
       | S fuel =>
           let m := body pos m in
           option_map (fun r => (pos :: fst r, snd r)) (each next fuel tp (next m tp) l m)
       end.
Definition for_each (fuel : nat) (l : Z) (m : mem) : option (list Z * mem) :=
  each nx fuel (nx m l) (nx m (nx m l)) l m.
Definition for_each_reverse (fuel : nat) (l : Z) (m : mem) : option (list Z * mem) :=
  each pv fuel (pv m l) (pv m (pv m l)) l m.
End Loops.

(** the operations as data *)
Inductive op := Init (l : Z) | After (c e : Z) | Before (c e : Z) | Tail (l e : Z) | Head (l e : Z) | Remove (e : Z).
Definition exec (m : mem) (o : op) : mem :=
  match o with
  | Init l => node_init l m
  | After c e => add_after c e m
  | Before c e => add_before c e m
  | Tail l e => add_tail l e m
  | Head l e => add_head l e m
  | Remove e => remove e m
  end.
