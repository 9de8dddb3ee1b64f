(** Model of the processing of the firmware memory map, kernel/mm/system_mmap.c:42-70,
    125-420, 443-467, 520-531.

    The array mem_regions[] up to mem_regions_count is a list.  Additions on u64 wrap.
    sort_mem_regions is the insertion sort on lists (insertion_sort_generic itself is
    C36).  remove_mem_region calls memcpy on overlapping ranges, which is undefined in C;
    the model shifts the elements, as Tilck's memcpy does.  Loops have fuel. *)
From Verif Require Import Lib.

(** struct mem_region, include/tilck/kernel/system_mmap.h:15-21 *)
Record region := Reg { addr : Z; len : Z; type : Z; extra : Z }.
Definition end_of (r : region) : Z := u64 (addr r + len r).
Definition set_len (r : region) (n : Z) : region := Reg (addr r) n (type r) (extra r).
Definition MAX_MEM_REGIONS := 512.

(** sort_mem_regions, lines 50-70: each element goes before the greater ones *)
Fixpoint ins (x : region) (l : list region) : list region :=
  match l with
  | [] => [x]
  | y :: l' => if addr x <? addr y then x :: l else y :: ins x l'
  end.
Definition sort (l : list region) : list region := fold_left (fun acc x => ins x acc) l [].

(** align_mem_regions_to_page_boundary, lines 152-168 *)
Definition align (r : region) : region :=
  let ma_end := u64 (end_of r + 4095) / 4096 * 4096 in
  let a := addr r / 4096 * 4096 in
  Reg a (u64 (ma_end - a)) (type r) (extra r).
(** merge_adj_mem_regions, lines 170-189; [ma] is mem_regions[i] *)
Definition mergeable (ma next : region) : bool :=
  (type next =? type ma) && (extra next =? extra ma) && (addr next =? end_of ma).
Fixpoint merge (ma : region) (l : list region) : list region :=
  match l with
  | [] => [ma]
  | next :: l => if mergeable ma next then merge (set_len ma (u64 (len ma + len next))) l else ma :: merge next l
  end.
Definition merge_adj (l : list region) : list region := match l with [] => [] | ma :: l => merge ma l end.

Fixpoint upd (l : list region) (i : nat) (x : region) : list region :=
  match l, i with
  | [], _ => []
  | _ :: l, O => x :: l
  | y :: l, S i => y :: upd l i x
  end.
(** remove_mem_region_by_swap_with_last, lines 134-150 *)
Definition swap_remove (l : list region) (i : nat) : list region :=
  removelast (upd l i (last l (Reg 0 0 0 0))).
(** append_mem_region, lines 42-48 *)
Inductive outcome := Same | Changed (l : list region) | TooMany.
Definition append (l : list region) (x : region) : outcome :=
  if MAX_MEM_REGIONS <=? zlen l then TooMany else Changed (l ++ [x]).

(** handle_region_overlap, lines 191-395, once region [i] starts first: lines 224-394 *)
Definition overlap1 (l : list region) (i j : nat) (r1 r2 : region) : outcome :=
  let s1 := addr r1 in let s2 := addr r2 in
  let e1 := end_of r1 in let e2 := end_of r2 in
  if e1 <=? s2 then Same
  else if (s1 <=? s2) && (e2 <=? e1) then
    if type r2 <=? type r1 then Changed (swap_remove l j)
    else if (s1 =? s2) && (e1 =? e2) then Changed (swap_remove l i)
    else if s1 =? s2 then Changed (upd l i (Reg e2 (u64 (e1 - e2)) (type r1) (extra r1)))
    else if e1 =? e2 then Changed (upd l i (set_len r1 (u64 (s2 - s1))))
    else append (upd l i (set_len r1 (u64 (s2 - s1)))) (Reg e2 (u64 (e1 - e2)) (type r1) (extra r1))
  else
    if type r2 <=? type r1 then Changed (upd l j (Reg e1 (u64 (e2 - e1)) (type r2) (extra r2)))
    else if s1 =? s2 then Changed (swap_remove l i)
    else Changed (upd l i (set_len r1 (u64 (s2 - s1)))).
(** the whole function: it calls itself, once, with the regions exchanged when [r2] starts first *)
Definition overlap (l : list region) (i j : nat) : outcome :=
  let r1 := nth i l (Reg 0 0 0 0) in
  let r2 := nth j l (Reg 0 0 0 0) in
  if addr r2 <? addr r1 then overlap1 l j i r2 r1 else overlap1 l i j r1 r2.

Inductive result := Done (l : list region) | Panic | NoFuel.
(** handle_overlapping_regions, lines 397-412: the for loop, from [i] *)
Fixpoint pass (fuel : nat) (i : nat) (l : list region) (any : bool) : option (option (list region * bool)) :=
  match fuel with
  | O => None
  | S fuel =>
      if (S i <? length l)%nat then
        match overlap l i (S i) with
        | Same => pass fuel (S i) l any
        | Changed l' => pass fuel (S i) l' true
        | TooMany => Some None
        end
      else Some (Some (l, any))
  end.
(** and the do ... while loop *)
Fixpoint handle_overlaps (fuel : nat) (l : list region) : result :=
  match fuel with
  | O => NoFuel
  | S fuel' =>
      match pass fuel 0 l false with
      | None => NoFuel
      | Some None => Panic
      | Some (Some (l, any)) => if any then handle_overlaps fuel' (sort l) else Done (sort l)
      end
  end.
(** fix_mem_regions, lines 414-420 *)
Definition fix_mem_regions (fuel : nat) (l : list region) : result :=
  handle_overlaps fuel (merge_adj (sort (map align l))).

(** system_mmap_get_region_of, lines 520-531 *)
Fixpoint region_of (l : list region) (i paddr : Z) : Z :=
  match l with
  | [] => -1
  | m :: l => if (addr m <=? paddr) && (paddr <? end_of m) then i else region_of l (i + 1) paddr
  end.
(** set_lower_and_upper_kb, lines 443-466; MULTIBOOT_MEMORY_AVAILABLE is 1 *)
Fixpoint first_avail (l : list region) : option region :=
  match l with [] => None | m :: l => if type m =? 1 then Some m else first_avail l end.
Definition lower_kb (l : list region) : Z := match first_avail l with Some m => u32 (addr m / 1024) | None => 0 end.
Definition upper_kb (l : list region) : Z := match first_avail (rev l) with Some m => u32 (end_of m / 1024) | None => 0 end.
