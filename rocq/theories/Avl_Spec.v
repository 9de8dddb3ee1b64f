(** Specification of the tree as a finite collection of objects, one per key.
    The collection is an unordered list; nothing here mentions tree shapes. *)
From Verif Require Import Lib Avl_Model.
From Coq Require Import Sorted Permutation.

Section Spec.
  Context {A K : Type}.
  Variable key : A -> K.
  Variable cmp : K -> K -> Z.

  (** What a comparison function has to be: a total preorder given by sign *)
  Record good_cmp : Prop := {
    gc_refl : forall a, cmp a a = 0;
    gc_sym : forall a b, Z.sgn (cmp a b) = - Z.sgn (cmp b a);
    gc_trans : forall a b c, cmp a b <= 0 -> cmp b c <= 0 -> cmp a c <= 0
  }.

  Definition same (k : K) (x : A) : bool := cmp (key x) k =? 0.

  Definition spec_step (l : list A) (o : @bt_op A K) : list A * @bt_out A :=
    match o with
    | BIns x =>
        if existsb (same (key x)) l then (l, BBool false)
        else (x :: l, BBool true)
    | BRem k =>
        match List.find (same k) l with
        | None => (l, BObj None)
        | Some x => (filter (fun y => negb (same k y)) l, BObj (Some x))
        end
    | BFind k => (l, BObj (List.find (same k) l))
    end.

  Fixpoint spec_run (l : list A) (ops : list (@bt_op A K)) : list A * list (@bt_out A) :=
    match ops with
    | [] => (l, [])
    | o :: os =>
        let '(l', x) := spec_step l o in
        let '(l'', xs) := spec_run l' os in (l'', x :: xs)
    end.

  Definition contents (ops : list (@bt_op A K)) : list A := fst (spec_run [] ops).

  (** No operation is started on a collection of more than [n] objects *)
  Definition sizes_ok (n : Z) (ops : list (@bt_op A K)) : Prop :=
    forall pre o post, ops = pre ++ o :: post -> zlen (contents pre) <= n.

  (** Objects in increasing key order *)
  Definition increasing (l : list A) : Prop :=
    StronglySorted (fun a b => cmp (key a) (key b) < 0) l.
End Spec.

(** Calling a (stateful) callback on each object of a list until it returns a
    non-zero value *)
Fixpoint visit_list {A S : Type} (cb : S -> A -> S * Z) (l : list A) (acc : S)
  : Z * S :=
  match l with
  | [] => (0, acc)
  | x :: l' =>
      let '(acc', rc) := cb acc x in
      if negb (rc =? 0) then (rc, acc') else visit_list cb l' acc'
  end.

(** Ghost view of a tree, only used to state its shape properties *)
Fixpoint inorder {A} (t : @tree A) : list A :=
  match t with E => [] | N _ l x r => inorder l ++ x :: inorder r end.

(** The real height of a tree: number of nodes on the longest path, minus 1 *)
Fixpoint depth {A} (t : @tree A) : Z :=
  match t with E => -1 | N _ l _ r => 1 + Z.max (depth l) (depth r) end.

(** Every node's subtrees differ in real height by at most one and every
    stored height is the real one *)
Fixpoint avl_shaped {A} (t : @tree A) : Prop :=
  match t with
  | E => True
  | N h l _ r => avl_shaped l /\ avl_shaped r /\ h = depth t /\
                 Z.abs (depth l - depth r) <= 1
  end.

(** Fewest nodes of an AVL tree of height [n - 1] *)
Fixpoint fewest (n : nat) : Z :=
  match n with
  | O => 0
  | S m => match m with O => 1 | S p => 1 + fewest m + fewest p end
  end.
