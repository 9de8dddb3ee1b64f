(** The kernel's allocator over all heaps: kernel/kmalloc/general_kmalloc.c.h and kmalloc_small_heaps.c.h
    over the heaps of Buddy_Model.

    Modelled: general_kmalloc and general_kfree without flags (kmalloc, kzmalloc, kfree, kfree2, the aligned ones),
    preemption disabled, debug asserts on ([None]: one fails).  [W]: bits of a word.  [me]:
    MAX_EMPTY_SMALL_HEAPS.  Left out: statistics other than empty_count (not_full_count and tot_count are
    the lengths of the lists), leak detector, poisoning, contents, sub-block and multi-step flags.
    The lock in_use of alloc_new_small_heap is never taken with preemption disabled.  Small heaps are
    named by their addresses. *)
From Verif Require Import Lib Bits Buddy_Model.

(** struct kmalloc_heap, kmalloc_heap_struct.h; struct small_heap_node, kmalloc_int.h:37-41 (its own address: [node]) *)
Record hp := Hp { base : Z; dma : bool; node : Z; bh : heap }.
(** heaps[] from the last to the first, small_heaps_list, avail_small_heaps_list, shs.empty_count *)
Record st := St { mains : list hp; smalls : list hp; avail : list Z; empties : Z }.
Definition set_h (x : hp) (h : heap) : hp := Hp (base x) (dma x) (node x) h.

(** kmalloc_int.h:19-22 and config_kmalloc.h: SMALL_HEAP_MAX_ALLOC, SMALL_HEAP_SIZE, SMALL_HEAP_MBS, SMALL_HEAP_MD_SIZE, node size *)
Definition SMAX := 2047.
Definition SSIZE := 32768.
Definition SMBS := 32.
Definition SMD := 2048.
Definition SNODE := 2048.

(** main_heaps_kmalloc, general_kmalloc.c.h:24-61 *)
Fixpoint try_main (d : bool) (l : list hp) (size : Z) : option (list hp * option (Z * Z)) :=
  match l with
  | [] => Some ([], None)
  | x :: t =>
      let rest x := match try_main d t size with Some (t, r) => Some (x :: t, r) | None => None end in
      if (hsize (bh x) <? size) || (hsize (bh x) - mem (bh x) <? size) || negb (Bool.eqb (dma x) d) then rest x
      else match kmalloc (bh x) size false 0 true with
           | None => None
           | Some (h, Some (a, b)) => Some (set_h x h :: t, Some (base x + a, b))
           | Some (h, None) => rest (set_h x h)
           end
  end.
(** general_kmalloc, 125-129: DMA heaps as the last resort *)
Definition main_alloc (l : list hp) (size : Z) : option (list hp * option (Z * Z)) :=
  match try_main false l size with
  | Some (l, None) => try_main true l size
  | r => r
  end.
(** IN_RANGE_INC of 73-76 *)
Definition contains (x : hp) (p : Z) : bool := (base x <=? p) && (p <=? base x + hsize (bh x) - hmin (bh x)).
(** main_heaps_kfree, 63-103; [Some None]: -ENOENT *)
Fixpoint main_free (l : list hp) (p size : Z) : option (option (list hp)) :=
  match l with
  | [] => Some None
  | x :: t =>
      if contains x p
      then if p mod hmin (bh x) =? 0
           then match kfree (bh x) (p - base x) size false false with
                | Some (h, _) => Some (Some (set_h x h :: t))
                | None => None
                end
           else None
      else match main_free t p size with
           | Some (Some t) => Some (Some (x :: t))
           | r => r
           end
  end.

(** alloc_new_small_heap_unsafe, kmalloc_small_heaps.c.h:93-151 *)
Definition new_small (W : Z) (s : st) : option (st * option Z) :=
  match main_alloc (mains s) SSIZE with
  | None => None
  | Some (ms, None) => Some (St ms (smalls s) (avail s) (empties s), None)
  | Some (ms, Some (a, _)) =>
      match main_alloc ms SNODE with
      | None => None
      | Some (ms, None) =>
          match main_free ms a SSIZE with
          | Some (Some ms) => Some (St ms (smalls s) (avail s) (empties s), None)
          | _ => None
          end
      | Some (ms, Some (n, _)) =>
          match kmalloc (heap_init W SSIZE SMBS) SMD false 0 true with
          | Some (h, Some (0, _)) => Some (St ms (smalls s ++ [Hp a false n h]) (avail s ++ [a]) (empties s), Some a)
          | _ => None
          end
      end
  end.

Definition find_h (b : Z) (l : list hp) : option hp := List.find (fun x => base x =? b) l.
Definition set_in (l : list hp) (b : Z) (h : heap) : list hp := map (fun y => if base y =? b then set_h y h else y) l.
Definition drop_z (l : list Z) (b : Z) : list Z := filter (fun x => negb (x =? b)) l.

(** The loop of small_heaps_kmalloc, 187-213: lists, heap chosen as it was, its new state, block *)
Fixpoint try_small (av : list Z) (ss : list hp) (size : Z) : option (list hp * option (hp * heap * (Z * Z))) :=
  match av with
  | [] => Some (ss, None)
  | b :: av =>
      match find_h b ss with
      | None => None
      | Some x =>
          if hsize (bh x) - mem (bh x) <? size then try_small av ss size
          else match kmalloc (bh x) size false 0 true with
               | None => None
               | Some (h, Some (a, z)) => Some (set_in ss b h, Some (x, h, (base x + a, z)))
               | Some (h, None) => try_small av (set_in ss b h) size
               end
      end
  end.
(** small_heaps_kmalloc, 176-226 *)
Definition small_alloc (W : Z) (s : st) (size : Z) : option (st * option (Z * Z)) :=
  if SSIZE - SMBS <? size then None
  else match try_small (avail s) (smalls s) size with
  | None => None
  | Some (ss, Some (x, h, r)) =>
      let e := if mem (bh x) =? SMD then empties s - 1 else empties s in
      if e <? 0 then None
      else Some (St (mains s) ss (if mem h =? hsize h then drop_z (avail s) (base x) else avail s) e, Some r)
  | Some (ss, None) =>
      match new_small W (St (mains s) ss (avail s) (empties s)) with
      | None => None
      | Some (s, None) => Some (s, None)
      | Some (s, Some b) =>
          match find_h b (smalls s) with
          | None => None
          | Some x =>
              match kmalloc (bh x) size false 0 true with
              | Some (h, Some (a, z)) => Some (St (mains s) (set_in (smalls s) b h) (avail s) (empties s), Some (base x + a, z))
              | _ => None
              end
          end
      end
  end.
(** destroy_small_heap, 169-174 *)
Definition destroy (s : st) (x : hp) : option st :=
  match main_free (mains s) (base x) SSIZE with
  | Some (Some ms) =>
      match main_free ms (node x) SNODE with
      | Some (Some ms) =>
          Some (St ms (filter (fun y => negb (base y =? base x)) (smalls s)) (drop_z (avail s) (base x)) (empties s))
      | _ => None
      end
  | _ => None
  end.
(** small_heaps_kfree, 228-278 *)
Definition small_free (me : Z) (s : st) (p size : Z) : option (option st) :=
  match List.find (fun x => contains x p) (smalls s) with
  | None => Some None
  | Some x =>
      match kfree (bh x) (p - base x) size false false with
      | None => None
      | Some (h, _) =>
          let ss := set_in (smalls s) (base x) h in
          if mem (bh x) =? hsize (bh x)
          then if mem h <=? SMD then None else Some (Some (St (mains s) ss (avail s ++ [base x]) (empties s)))
          else if mem h =? SMD
          then if empties s <? me then Some (Some (St (mains s) ss (avail s) (empties s + 1)))
               else match destroy (St (mains s) ss (avail s) (empties s)) x with Some s => Some (Some s) | None => None end
          else Some (Some (St (mains s) ss (avail s) (empties s)))
      end
  end.

(** general_kmalloc, general_kmalloc.c.h:105-138 *)
Definition gen_alloc (W : Z) (s : st) (size : Z) : option (st * option (Z * Z)) :=
  if size =? 0 then None
  else if size <=? SMAX then small_alloc W s size
  else match main_alloc (mains s) size with
       | None => None
       | Some (ms, r) => Some (St ms (smalls s) (avail s) (empties s), r)
       end.
(** general_kfree, 140-186; a panic is [None] too *)
Definition gen_free (me : Z) (s : st) (p size : Z) : option st :=
  let main :=
    match main_free (mains s) p size with
    | Some (Some ms) => Some (St ms (smalls s) (avail s) (empties s))
    | _ => None
    end in
  let small := small_free me s p size in
  if p =? 0 then Some s
  else if negb (size =? 0)
       then if size <=? SMAX then match small with Some (Some s) => Some s | _ => None end else main
       else match small with
            | Some (Some s) => Some s
            | Some None => main
            | None => None
            end.
