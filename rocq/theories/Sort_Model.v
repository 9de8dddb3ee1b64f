(** Model of kernel/sort.c.  Arrays are lists; every access outside the array
    gives [None]. *)
From Verif Require Import Lib.

Section Ptr.
  Context {A : Type}.
  Variable cmp : A -> A -> Z.

  (** Inner loop of insertion_sort_ptr, kernel/sort.c:20-22.  [j] is the C
      variable [j]; returns the array and the final [j]. *)
  Fixpoint sort_inner (arr : list A) (elem : A) (j : nat) : option (list A * nat) :=
    match j with
    | O => Some (arr, O)
    | S j' =>
        match aget arr (Z.of_nat j') with
        | None => None
        | Some y =>
            if 0 <? cmp y elem then
              match aset arr (Z.of_nat j) y with
              | None => None
              | Some arr' => sort_inner arr' elem j'
              end
            else Some (arr, j)
        end
    end.

  (** Outer loop, kernel/sort.c:15-25; [n] iterations remain, [i] is next *)
  Fixpoint sort_outer (n : nat) (i : nat) (arr : list A) : option (list A) :=
    match n with
    | O => Some arr
    | S n' =>
        match aget arr (Z.of_nat i) with
        | None => None
        | Some elem =>
            match sort_inner arr elem i with
            | None => None
            | Some (arr1, j) =>
                match aset arr1 (Z.of_nat j) elem with
                | None => None
                | Some arr2 => sort_outer n' (S i) arr2
                end
            end
        end
    end.

  (** insertion_sort_ptr, kernel/sort.c:11-26.  The counter i of type u32 does
      not wrap because it stays below elem_count. *)
  Definition insertion_sort_ptr (arr : list A) (elem_count : nat) : option (list A) :=
    sort_outer (elem_count - 1) 1 arr.

  (** array_reverse_ptr, kernel/sort.c:56-67 *)
  Fixpoint reverse_loop (n : nat) (i : Z) (count : Z) (arr : list A) : option (list A) :=
    match n with
    | O => Some arr
    | S n' =>
        match aget arr i, aget arr (count - i - 1) with
        | Some tmp, Some y =>
            match aset arr i y with
            | None => None
            | Some arr1 =>
                match aset arr1 (count - i - 1) tmp with
                | None => None
                | Some arr2 => reverse_loop n' (i + 1) count arr2
                end
            end
        | _, _ => None
        end
    end.
  Definition array_reverse_ptr (arr : list A) (count : nat) : option (list A) :=
    reverse_loop (count / 2) 0 (Z.of_nat count) arr.
End Ptr.

Section Generic.
  (** The array is a block of bytes; [cmp] compares the contents of two
      elements.  The temporary [elem] has 256 bytes (kernel/sort.c:35). *)
  Variable cmp : list Z -> list Z -> Z.
  Variable elem_size : Z.

  (** kernel/sort.c:44-48 *)
  Fixpoint gsort_inner (a : list Z) (elem : list Z) (j : nat) : option (list Z * nat) :=
    match j with
    | O => Some (a, O)
    | S j' =>
        match mem_read a (Z.of_nat j' * elem_size) elem_size with
        | None => None
        | Some y =>
            if 0 <? cmp y elem then
              match mem_write a (Z.of_nat j * elem_size) y with
              | None => None
              | Some a' => gsort_inner a' elem j'
              end
            else Some (a, j)
        end
    end.

  (** kernel/sort.c:40-51 *)
  Fixpoint gsort_outer (n : nat) (i : nat) (a : list Z) : option (list Z) :=
    match n with
    | O => Some a
    | S n' =>
        match mem_read a (Z.of_nat i * elem_size) elem_size with
        | None => None
        | Some elem =>
            match gsort_inner a elem i with
            | None => None
            | Some (a1, j) =>
                match mem_write a1 (Z.of_nat j * elem_size) elem with
                | None => None
                | Some a2 => gsort_outer n' (S i) a2
                end
            end
        end
    end.

  (** insertion_sort_generic, kernel/sort.c:32-52, with its ASSERT.  Offsets
      [i * elem_size] are exact: the whole array lies in the address space. *)
  Definition insertion_sort_generic (a : list Z) (elem_count : nat) : option (list Z) :=
    if elem_size <=? 256 then gsort_outer (elem_count - 1) 1 a else None.
End Generic.
