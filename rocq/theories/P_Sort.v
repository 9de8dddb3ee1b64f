(** Property C36.  Specification in Sort_Spec.v. *)
From Verif Require Import Lib Sort_Model Sort_Spec Sort_Proofs.

(** Sorting the first [length l] elements of an array leaves them a sorted,
    stable permutation, and the rest of the array alone. *)
Theorem C36_sort_ptr :
  forall (A : Type) (cmp : A -> A -> Z), total_preorder cmp ->
  forall l rest, exists out,
    insertion_sort_ptr cmp (l ++ rest) (length l) = Some (out ++ rest) /\
    stably_sorted cmp l out.
Proof. exact @sort_ptr_ok. Qed.
Print Assumptions C36_sort_ptr.

(** The same for byte-level elements of any size up to 256 bytes: [cs] is the
    list of elements stored in the array. *)
Theorem C36_sort_generic :
  forall (cmp : list Z -> list Z -> Z) (elem_size : Z),
  total_preorder cmp ->
  forall cs rest, Forall (fun c => zlen c = elem_size) cs -> elem_size <= 256 ->
  exists out,
    insertion_sort_generic cmp elem_size (concat cs ++ rest) (length cs)
      = Some (concat out ++ rest) /\
    stably_sorted cmp cs out.
Proof. exact sort_generic_ok. Qed.
Print Assumptions C36_sort_generic.

Theorem C36_reverse :
  forall (A : Type) (l rest : list A),
  array_reverse_ptr (l ++ rest) (length l) = Some (rev l ++ rest).
Proof. exact @reverse_ok. Qed.
Print Assumptions C36_reverse.

(** Concrete case: pairs compared by the first component only *)
Definition cmp_fst (a b : Z * Z) : Z := fst a - fst b.
Example C36_cmp_fst_ok : total_preorder cmp_fst.
Proof. split; unfold cmp_fst; intros; lia. Qed.
Example C36_concrete :
  insertion_sort_ptr cmp_fst [(3,1); (1,2); (3,3); (2,4); (1,5); (9,9)] 5 =
  Some [(1,2); (1,5); (2,4); (3,1); (3,3); (9,9)].
Proof. reflexivity. Qed.
Definition cmp_hd (a b : list Z) : Z := hd 0 a - hd 0 b.
Example C36_cmp_hd_ok : total_preorder cmp_hd.
Proof. split; unfold cmp_hd; intros; lia. Qed.
Example C36_concrete_bytes :
  insertion_sort_generic cmp_hd 2 [3;1; 1;2; 3;3; 2;4; 77] 4 = Some [1;2; 2;4; 3;1; 3;3; 77].
Proof. reflexivity. Qed.
