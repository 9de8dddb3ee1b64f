(** Properties C04, C05 and C06 of the AVL tree.  Specification in Avl_Spec.v. *)
From Verif Require Import Lib Avl_Model Avl_Spec Avl_Proofs Avl_Visit Avl_Tight Avl_Final.
From Coq Require Import Sorted Permutation.

(** C04: any history of inserts, removes and finds behaves as on a finite
    collection with one object per key, and never overflows the traversal
    stack, as long as no operation starts on more than 5,702,885 objects. *)
Theorem C04_bintree_is_finite_map :
  forall (A K : Type) (key : A -> K) (cmp : K -> K -> Z), good_cmp cmp ->
  forall ops, sizes_ok key cmp 5702885 ops ->
  exists t, bt_run key cmp E ops = Some (t, snd (spec_run key cmp [] ops)).
Proof. exact Avl_Final.finite_map. Qed.
Print Assumptions C04_bintree_is_finite_map.

(** C04 for the *_ptr functions, which compare word-sized fields by
    subtraction: keys have to lie in a window of half the word's range. *)
Theorem C04_bintree_ptr_is_finite_map :
  forall (w lo : Z), 1 <= w ->
  forall (A : Type) (key : A -> {z | lo <= z < lo + 2 ^ (w - 1)}),
  let cmp := fun a b : {z | lo <= z < lo + 2 ^ (w - 1)} =>
               long_sub w (proj1_sig a) (proj1_sig b) in
  forall ops, sizes_ok key cmp 5702885 ops ->
  exists t, bt_run key cmp E ops = Some (t, snd (spec_run key cmp [] ops)).
Proof. exact Avl_Final.finite_map_ptr. Qed.
Print Assumptions C04_bintree_ptr_is_finite_map.

(** ... and without such a window the *_ptr functions lose objects: a stored
    64-bit key that was never removed is not found any more. *)
Theorem C04_ptr_compare_refuted :
  exists (k1 k2 k3 : Z) t,
    bt_run (fun x => x) (long_sub 64) E [BIns k1; BIns k2; BIns k3; BRem k1; BFind k3]
      = Some (t, [BBool true; BBool true; BBool true; BObj (Some k1); BObj None]) /\
    k1 <> k3 /\ k2 <> k3.
Proof. exact Avl_Final.ptr_compare_loses. Qed.
Print Assumptions C04_ptr_compare_refuted.

(** C05: every reachable tree is AVL shaped with exact stored heights, holds
    exactly the specified objects, and has at least as many nodes as the
    Fibonacci tree of its height. *)
Theorem C05_bintree_stays_balanced :
  forall (A K : Type) (key : A -> K) (cmp : K -> K -> Z), good_cmp cmp ->
  forall ops, sizes_ok key cmp 5702885 ops ->
  exists t outs, bt_run key cmp E ops = Some (t, outs) /\ avl_shaped t /\
    fewest (Z.to_nat (depth t + 1)) <= zlen (contents key cmp ops).
Proof. exact Avl_Final.stays_balanced. Qed.
Print Assumptions C05_bintree_stays_balanced.

(** The Fibonacci bound for every AVL tree, of any size. *)
Theorem C05_height_bound :
  forall (A : Type) (t : @tree A), avl_shaped t ->
  fewest (Z.to_nat (depth t + 1)) <= zlen (inorder t).
Proof. exact Avl_Final.height_bound. Qed.
Print Assumptions C05_height_bound.

(** The bound on the number of objects is exact: after 5,702,886 successful
    inserts one more can overflow the 32-slot traversal stack, although the
    comment at include/tilck/kernel/bintree.h:6-24 claims ~14.9 million fit. *)
Theorem C05_documented_capacity_refuted :
  exists xs : list Z,
    zlen xs = 5702886 /\
    (exists t, bt_run (fun x => x) Z.sub E (map BIns xs) = Some (t, map (fun _ => BBool true) xs)) /\
    bt_run (fun x => x) Z.sub E (map BIns xs ++ [BIns (-1)]) = None.
Proof. exact Avl_Tight.overflow_reachable. Qed.
Print Assumptions C05_documented_capacity_refuted.

(** C06: the in-order visit calls the callback on every object once, in
    increasing key order (decreasing when reversed), stopping at the first
    non-zero result, without leaving the shadow stack. *)
Theorem C06_visit_in_order :
  forall (A K : Type) (key : A -> K) (cmp : K -> K -> Z), good_cmp cmp ->
  forall ops, sizes_ok key cmp 5702885 ops -> zlen (contents key cmp ops) <= 5702885 ->
  exists t outs l, bt_run key cmp E ops = Some (t, outs) /\
    increasing key cmp l /\ Permutation l (contents key cmp ops) /\
    forall (S : Type) (cb : S -> A -> S * Z) (reverse : bool) (acc : S),
    exists n, forall fuel, (n <= fuel)%nat ->
      let res := visit_list cb (if reverse then rev l else l) acc in
      visit cb fuel reverse t acc = VStop (fst res) (snd res).
Proof. exact Avl_Final.visit_in_order. Qed.
Print Assumptions C06_visit_in_order.

(** C06 for the resumable visit: successive calls of next return the objects
    in order and then NULL for ever. *)
Theorem C06_resumable_visit_in_order :
  forall (A K : Type) (key : A -> K) (cmp : K -> K -> Z), good_cmp cmp ->
  forall ops, sizes_ok key cmp 5702885 ops -> zlen (contents key cmp ops) <= 5702885 ->
  exists t outs l, bt_run key cmp E ops = Some (t, outs) /\
    increasing key cmp l /\ Permutation l (contents key cmp ops) /\
    forall reverse : bool,
    exists n, forall fuel k, (n <= fuel)%nat ->
      walk_results fuel k (walk_start t reverse) =
      Some (firstn k (map Some (if reverse then rev l else l) ++ repeat None k)).
Proof. exact Avl_Final.walk_in_order. Qed.
Print Assumptions C06_resumable_visit_in_order.

(** C06: first and last return the minimum and the maximum. *)
Theorem C06_first_last :
  forall (A K : Type) (key : A -> K) (cmp : K -> K -> Z), good_cmp cmp ->
  forall ops, sizes_ok key cmp 5702885 ops ->
  exists t outs, bt_run key cmp E ops = Some (t, outs) /\
    match get_first t with
    | None => contents key cmp ops = []
    | Some m => In m (contents key cmp ops) /\
                forall x, In x (contents key cmp ops) -> cmp (key m) (key x) <= 0
    end /\
    match get_last t with
    | None => contents key cmp ops = []
    | Some m => In m (contents key cmp ops) /\
                forall x, In x (contents key cmp ops) -> cmp (key x) (key m) <= 0
    end.
Proof. exact Avl_Final.first_last. Qed.
Print Assumptions C06_first_last.

(** Concrete cases: the hypotheses hold of a history with rotations on insert
    and on remove (successor case included), duplicates and misses. *)
Definition ex_ops : list (@bt_op Z Z) :=
  [BIns 10; BIns 20; BIns 30; BIns 40; BIns 50; BIns 25; BIns 20; BRem 40;
   BFind 25; BRem 10; BRem 99; BIns 7; BRem 25].

Example C04_C05_C06_hypotheses_met :
  good_cmp Z.sub /\ sizes_ok (fun x => x) Z.sub 5702885 ex_ops.
Proof. exact (conj Avl_Tight.good_sub Avl_Final.ex_sizes_ok). Qed.

Example C04_concrete_run :
  option_map snd (bt_run (fun x => x) Z.sub E ex_ops) =
  Some [BBool true; BBool true; BBool true; BBool true; BBool true; BBool true;
        BBool false; BObj (Some 40); BObj (Some 25); BObj (Some 10); BObj None;
        BBool true; BObj (Some 25)].
Proof. vm_compute. reflexivity. Qed.

Example C06_concrete_visit :
  match bt_run (fun x => x) Z.sub E ex_ops with
  | Some (t, _) =>
      visit (fun acc x => (acc ++ [x], 0)) 100 false t [] = VStop 0 [7; 20; 30; 50] /\
      walk_results 100 6 (walk_start t true) =
        Some [Some 50; Some 30; Some 20; Some 7; None; None]
  | None => False
  end.
Proof. vm_compute. auto. Qed.
