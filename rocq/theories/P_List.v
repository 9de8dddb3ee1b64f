(** C55: intrusive lists. *)
From Verif Require Import Lib List_Model List_Spec List_Proofs.

(** After any sequence of allowed operations on any number of lists, the pointers are those of the sequences which the specification gives: next and prev go around through exactly the members, in order, and no node is in two lists *)
Theorem C55_lists : forall m os a, sruns no_lists os a -> rep (fold_left exec os m) a.
Proof. exact represents. Qed.
Print Assumptions C55_lists.

(** Loops over a list visit exactly its members, forwards or backwards, each once *)
Theorem C55_enumeration : forall m a h l fuel, rep m a -> a h = Some l -> (length l <= fuel)%nat ->
  for_each_ro fuel h m = Some l /\ for_each (fun _ m => m) fuel h m = Some (l, m) /\ for_each_reverse (fun _ m => m) fuel h m = Some (rev l, m).
Proof. exact enumerates. Qed.
Print Assumptions C55_enumeration.

(** A loop body may remove or move the current node and change everything before it: the loop still visits exactly the members the list had at the start *)
Theorem C55_loop_while_changing : forall m a h l fuel body, rep m a -> a h = Some l -> (length l <= fuel)%nat -> body_ok body h ->
  exists m' l', for_each body fuel h m = Some (l, m') /\ ring m' h l' /\ NoDup (h :: l').
Proof. exact loop_visits_all. Qed.
Print Assumptions C55_loop_while_changing.

(** The same for the reverse loop *)
Theorem C55_reverse_loop_while_changing : forall m a h l fuel body, rep m a -> a h = Some l -> (length l <= fuel)%nat -> body_ok_reverse body h ->
  exists m' l', for_each_reverse body fuel h m = Some (rev l, m') /\ ring m' h l' /\ NoDup (h :: l').
Proof. exact reverse_loop_visits_all. Qed.
Print Assumptions C55_reverse_loop_while_changing.

(** Removing the current node, and then reusing its memory, is such a body *)
Theorem C55_removing_and_freeing : forall v w h, body_ok (drain v w) h /\ body_ok_reverse (drain v w) h.
Proof. exact drain_ok. Qed.
Print Assumptions C55_removing_and_freeing.

(** list_is_empty and list_is_node_in_list tell the truth: of a list, of a member, of a node just removed, of a node just initialised *)
Theorem C55_tests : forall m a, rep m a ->
  (forall h l, a h = Some l -> is_empty h m = match l with [] => true | _ => false end) /\
  (forall h l x, a h = Some l -> In x l -> in_list x m = true) /\
  (forall h p x q, a h = Some (p ++ x :: q) -> in_list x (remove x m) = false) /\
  (forall x, in_list x (node_init x m) = false).
Proof. exact tests. Qed.
Print Assumptions C55_tests.

(** But a body which removes and re-initialises the node after the current one makes the loop run forever *)
Theorem C55_removing_the_next_refuted : exists m l body, rep m (fupd no_lists 1 (Some l)) /\
  (forall x m', body x m' = if x =? 2 then node_init 3 (remove 3 m') else m') /\ forall fuel, for_each body fuel 1 m = None.
Proof. exact remove_next_hangs. Qed.
Print Assumptions C55_removing_the_next_refuted.

(** two lists; a node is moved from one to the other *)
Example C55_nontrivial :
  let os := [Init 10; Init 20; Tail 10 1; Tail 10 2; Head 20 3; Before 2 4; After 10 5; Remove 1; Before 20 1] in
  let m := fold_left exec os (Mem (fun _ => 0) (fun _ => 0)) in
  for_each_ro 9 10 m = Some [5; 4; 2] /\ for_each_ro 9 20 m = Some [3; 1] /\ option_map fst (for_each (drain 0 0) 9 10 m) = Some [5; 4; 2].
Proof. vm_compute. auto. Qed.

