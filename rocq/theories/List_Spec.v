(** Lists as sequences.  [a h = Some l]: there is a list with head [h], holding the nodes
    [l] in this order. *)
From Verif Require Import Lib List_Model.

Definition lists := Z -> option (list Z).
Definition no_lists : lists := fun _ => None.
Definition used (a : lists) (x : Z) : Prop := exists h l, a h = Some l /\ In x (h :: l).

(** What the operations do to the sequences; operations with no step are not allowed: a node
    must be in no list before it is added, and in a list before it is removed *)
Inductive sstep (a : lists) : op -> lists -> Prop :=
  | SInit h : ~ used a h -> sstep a (Init h) (fupd a h (Some []))
  | SAfterHead h l e : a h = Some l -> ~ used a e -> sstep a (After h e) (fupd a h (Some (e :: l)))
  | SAfter h p c q e : a h = Some (p ++ c :: q) -> ~ used a e -> sstep a (After c e) (fupd a h (Some (p ++ c :: e :: q)))
  | SBeforeHead h l e : a h = Some l -> ~ used a e -> sstep a (Before h e) (fupd a h (Some (l ++ [e])))
  | SBefore h p c q e : a h = Some (p ++ c :: q) -> ~ used a e -> sstep a (Before c e) (fupd a h (Some (p ++ e :: c :: q)))
  | STail h l e : a h = Some l -> ~ used a e -> sstep a (Tail h e) (fupd a h (Some (l ++ [e])))
  | SHead h l e : a h = Some l -> ~ used a e -> sstep a (Head h e) (fupd a h (Some (e :: l)))
  | SRemove h p e q : a h = Some (p ++ e :: q) -> sstep a (Remove e) (fupd a h (Some (p ++ q))).
Inductive sruns (a : lists) : list op -> lists -> Prop :=
  | SNil : sruns a [] a
  | SCons o a' os a'' : sstep a o a' -> sruns a' os a'' -> sruns a (o :: os) a''.

(** The pointers of a list: next goes around through the nodes in order, prev goes back *)
Fixpoint chain (m : mem) (x : Z) (l : list Z) (y : Z) : Prop :=
  match l with
  | [] => nx m x = y /\ pv m y = x
  | z :: l => nx m x = z /\ pv m z = x /\ chain m z l y
  end.
Definition ring (m : mem) (h : Z) (l : list Z) : Prop := chain m h l h.
(** a node is at most once in at most one list, and heads are no members *)
Definition apart (a : lists) : Prop :=
  (forall h l, a h = Some l -> NoDup (h :: l)) /\
  (forall h1 l1 h2 l2 x, a h1 = Some l1 -> a h2 = Some l2 -> In x (h1 :: l1) -> In x (h2 :: l2) -> h1 = h2).
Definition rep (m : mem) (a : lists) : Prop := apart a /\ forall h l, a h = Some l -> ring m h l.

(** A loop body may change what it likes, but must leave the nodes still to be visited in
    the list, in their order and after everything else *)
Definition body_ok (body : Z -> mem -> mem) (h : Z) : Prop :=
  forall m l1 pos l2, ring m h (l1 ++ pos :: l2) -> NoDup (h :: l1 ++ pos :: l2) ->
    exists l1', ring (body pos m) h (l1' ++ l2) /\ NoDup (h :: l1' ++ l2).
Definition body_ok_reverse (body : Z -> mem -> mem) (h : Z) : Prop :=
  forall m l1 pos l2, ring m h (l1 ++ pos :: l2) -> NoDup (h :: l1 ++ pos :: l2) ->
    exists l2', ring (body pos m) h (l1 ++ l2') /\ NoDup (h :: l1 ++ l2').
(** list_remove, then the memory of the node is used for something else *)
Definition drain (junk1 junk2 : Z) (pos : Z) (m : mem) : mem := set_pv (set_nx (remove pos m) pos junk1) pos junk2.
