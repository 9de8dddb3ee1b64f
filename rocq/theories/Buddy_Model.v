(** Model of the buddy heap, kernel/kmalloc/kmalloc.c: per_heap_kmalloc and
    per_heap_kfree with all their flags on one heap.  Addresses are offsets from
    h->vaddr.  The result [None] stands for a failed ASSERT, a panic or an access
    outside the metadata array.  Modelled for linear-mapping heaps and for
    KMALLOC_FL_NO_ACTUAL_ALLOC: the flags `allocated` and `alloc_failed` and the
    calls of valloc_and_map / vfree_and_unmap are left out; so is the deferred
    free from an interrupt handler (h->in_use).  mem_allocated is unbounded here;
    C09 shows that it stays between 0 and the heap's size. *)
From Verif Require Import Lib Bits.

(** struct block_node, kernel/kmalloc/kmalloc_block_node.h:15-34 *)
Record node := mk_node { nsplit : bool; nfull : bool }.
Definition zero_node : node := mk_node false false.
Definition nodes := Z -> node.

(** struct kmalloc_heap, kernel/kmalloc/kmalloc_heap_struct.h:13-45 *)
Record heap := mk_heap { hW : Z; hsize : Z; hmin : Z; nd : nodes; mem : Z }.

(** kmalloc_create_heap, kernel/kmalloc/kmalloc_heaps.c.h:69-122 *)
Definition heap_init (W size min : Z) : heap := mk_heap W size min (fun _ => zero_node) 0.

Definition set_full (ns : nodes) (n : Z) (b : bool) : nodes := fupd ns n (mk_node (nsplit (ns n)) b).
Definition set_split (ns : nodes) (n : Z) (b : bool) : nodes := fupd ns n (mk_node b (nfull (ns n))).

(** NODE_LEFT, NODE_RIGHT, NODE_PARENT, kernel/kmalloc/kmalloc.c:55-57 *)
Definition left (n : Z) : Z := 2 * n + 1.
Definition right (n : Z) : Z := 2 * n + 2.
Definition parent (n : Z) : Z := Z.shiftr (n - 1) 1.

(** ptr_to_node, node_to_ptr, kernel/kmalloc/kmalloc.c:78-99 *)
Definition ptr_to_node (h : heap) (off size : Z) : Z :=
  2 ^ (Z.log2 (hsize h) - Z.log2 size) - 1 + Z.shiftr off (Z.log2 size).
Definition node_to_ptr (h : heap) (n size : Z) : Z :=
  Z.shiftl (n - (2 ^ (Z.log2 (hsize h) - Z.log2 size) - 1)) (Z.log2 size).

(** is_block_node_free, kernel/kmalloc/kmalloc.c:101-104 *)
Definition is_free (x : node) : bool := negb (nsplit x || nfull x).

(** set_free_uplevels, first loop, kernel/kmalloc/kmalloc.c:118-144.  Result:
    metadata, the node reached, the biggest free node and its size. *)
Fixpoint coalesce_up (fuel : nat) (ns : nodes) (n best sz : Z) : option (nodes * Z * Z * Z) :=
  match fuel with
  | O => None
  | S f =>
      if n <? 0 then None                                   (* nodes[-1] *)
      else if is_free (ns n) then Some (ns, n, best, sz)
      else
        let l := ns (left n) in
        let r := ns (right n) in
        if negb (is_free l) || negb (is_free r) then
          if nsplit (ns n) then Some (set_full ns n (nfull l && nfull r), n, best, sz / 2) else None
        else
          let ns1 := fupd ns n zero_node in
          if n =? 0 then Some (ns1, n, n, sz) else coalesce_up f ns1 (parent n) n (2 * sz)
  end.

(** second loop, kernel/kmalloc/kmalloc.c:152-155 *)
Fixpoint clear_up (fuel : nat) (ns : nodes) (n : Z) : option nodes :=
  match fuel with
  | O => None
  | S f => if n <? 0 then Some ns else clear_up f (set_full ns n false) (parent n)
  end.

Definition set_free_uplevels (ns : nodes) (n size : Z) : option (nodes * Z * Z) :=
  if nsplit (ns n) then None
  else
    match coalesce_up 64 (set_full ns n false) (parent n) n (2 * size) with
    | None => None
    | Some (ns1, n1, best, sz) =>
        match clear_up 64 ns1 n1 with None => None | Some ns2 => Some (ns2, best, sz) end
    end.

(** Ranges of the metadata array *)
Definition fill (ns : nodes) (n cnt : Z) (x : node) : nodes :=
  fun i => if (n <=? i) && (i <? n + cnt) then x else ns i.
Definition count_free (ns : nodes) (n cnt : Z) : Z :=
  zlen (filter (fun j => is_free (ns (n + Z.of_nat j))) (seq 0 (Z.to_nat cnt))).

(** internal_kmalloc_split_block, kernel/kmalloc/kmalloc.c:240-286 *)
Fixpoint split_loop (fuel : nat) (ns : nodes) (n cnt s leaf : Z) : option nodes :=
  match fuel with
  | O => None
  | S f =>
      if s >? leaf then split_loop f (fill ns n cnt (mk_node true true)) (left n) (2 * cnt) (s / 2) leaf
      else if s =? leaf then Some (fill ns n cnt (mk_node false true)) else None
  end.
Definition split_block (h : heap) (ns : nodes) (off size leaf : Z) : option nodes :=
  let n := ptr_to_node h off size in
  if (leaf <? hmin h) || (size <? hmin h) || negb (roundup_pow2 (hW h) leaf =? leaf) ||
     negb (roundup_pow2 (hW h) size =? size) || negb (nfull (ns n)) || nsplit (ns n) then None
  else split_loop 64 ns n 1 size leaf.

(** internal_kmalloc_coalesce_block, kernel/kmalloc/kmalloc.c:288-330 *)
Fixpoint coalesce_loop (fuel : nat) (h : heap) (ns : nodes) (n cnt s acc : Z) : option (nodes * Z) :=
  match fuel with
  | O => None
  | S f =>
      if s >=? hmin h then
        let acc1 := if s >? hmin h then acc else acc + count_free ns n cnt * s in
        coalesce_loop f h (fill ns n cnt zero_node) (left n) (2 * cnt) (s / 2) acc1
      else Some (ns, acc)
  end.
Definition coalesce_block (h : heap) (ns : nodes) (off size : Z) : option (nodes * Z) :=
  let n := ptr_to_node h off size in
  match coalesce_loop 64 h ns n 1 size 0 with
  | None => None
  | Some (ns1, acc) => Some (set_full ns1 n true, acc)
  end.

(** internal_kmalloc, kernel/kmalloc/kmalloc.c:332-466.  [fuel] is the space left
    on the explicit stack: 31 entries, because SIMULATE_CALL2 also writes the
    entry after the one it pushes (include/tilck/common/norec.h:117-128).
    Result: metadata and the node found with its size. *)
Definition stack_size : nat := 31.
Definition fix_full (ns : nodes) (n : Z) : option nodes :=
  if nfull (ns (left n)) && nfull (ns (right n)) then
    if nfull (ns n) then None else Some (set_full ns n true)
  else Some ns.

Fixpoint find (fuel : nat) (size : Z) (mark : bool) (ns : nodes) (n nsz : Z) : option (nodes * option (Z * Z)) :=
  match fuel with
  | O => None
  | S f =>
      if nfull (ns n) then Some (ns, None)
      else if nsz / 2 <? size then
        if nsplit (ns n) then Some (ns, None)
        else Some (if mark then set_full ns n true else ns, Some (n, nsz))
      else
        let ns1 := if nsplit (ns n) then ns else set_split ns n true in
        let up ns' r :=
          match fix_full ns' n with None => None | Some ns'' => Some (ns'', Some r) end in
        let try_right ns2 :=
          if nfull (ns2 (right n)) then Some (ns2, None)
          else
            match find f size mark ns2 (right n) (nsz / 2) with
            | None => None
            | Some (ns3, Some r) => up ns3 r
            | Some (ns3, None) => Some (ns3, None)
            end in
        if nfull (ns1 (left n)) then try_right ns1
        else
          match find f size mark ns1 (left n) (nsz / 2) with
          | None => None
          | Some (ns2, Some r) => up ns2 r
          | Some (ns2, None) => try_right ns2
          end
  end.

(** The heap after it and the address; mem_allocated grows with do_actual_alloc *)
Definition internal_kmalloc (h : heap) (size start start_size : Z) (mark act : bool) : option (heap * option Z) :=
  match find stack_size size mark (nd h) start start_size with
  | None => None
  | Some (ns, None) => Some (mk_heap (hW h) (hsize h) (hmin h) ns (mem h), None)
  | Some (ns, Some (n, nsz)) =>
      Some (mk_heap (hW h) (hsize h) (hmin h) ns (if act then mem h + nsz else mem h), Some (node_to_ptr h n nsz))
  end.

Definition with_nodes (h : heap) (ns : nodes) : heap := mk_heap (hW h) (hsize h) (hmin h) ns (mem h).

(** internal_kmalloc followed by the optional split ([leaf] = 0: none) *)
Definition split_opt (h : heap) (off size leaf : Z) : option heap :=
  if leaf =? 0 then Some h
  else match split_block h (nd h) off size leaf with None => None | Some ns => Some (with_nodes h ns) end.

(** The loop of the multi-step allocation, kernel/kmalloc/kmalloc.c:551-629; bit
    [i] of [desired].  A sub-block that cannot be allocated fails
    ASSERT(do_actual_alloc) or, with it set, is impossible without valloc. *)
Fixpoint multi_loop (i : nat) (h : heap) (big bign rsz desired tot leaf : Z) (act : bool) : option (heap * Z) :=
  match i with
  | O => Some (h, tot)
  | S i' =>
      if tot <? desired then
        if Z.testbit desired (Z.of_nat i') then
          let sub := 2 ^ Z.of_nat i' in
          match internal_kmalloc h sub bign rsz true act with
          | Some (h1, Some a) =>
              if a =? big + tot then
                match split_opt h1 a sub leaf with
                | None => None
                | Some h2 => multi_loop i' h2 big bign rsz desired (tot + sub) leaf act
                end
              else None
          | _ => None
          end
        else multi_loop i' h big bign rsz desired tot leaf act
      else Some (h, tot)
  end.

(** per_heap_kmalloc_unsafe, kernel/kmalloc/kmalloc.c:468-634: heap, address, *size *)
Definition kmalloc (h : heap) (size : Z) (multi : bool) (leaf : Z) (act : bool) : option (heap * option (Z * Z)) :=
  if (size =? 0) || (negb (leaf =? 0) && (leaf <? hmin h)) then None
  else if size >? hsize h then Some (h, None)
  else
    let r := Z.max (roundup_pow2 (hW h) size) (hmin h) in
    if negb multi || (r - size <? hmin h) then
      match internal_kmalloc h r 0 (hsize h) true act with
      | None => None
      | Some (h1, None) => Some (h1, None)
      | Some (h1, Some a) =>
          match split_opt h1 a r leaf with None => None | Some h2 => Some (h2, Some (a, r)) end
      end
    else
      match internal_kmalloc h r 0 (hsize h) false false with
      | None => None
      | Some (h1, None) => Some (h1, None)
      | Some (h1, Some big) =>
          match multi_loop (Z.to_nat (Z.log2 (hsize h))) h1 big (ptr_to_node h1 big r) r size 0 leaf act with
          | None => None
          | Some (h2, tot) => if tot >=? size then Some (h2, Some (big, tot)) else None
          end
      end.

(** internal_kfree, kernel/kmalloc/kmalloc.c:649-737 *)
Definition internal_kfree (h : heap) (off size : Z) (allow_split : bool) : option heap :=
  let n := ptr_to_node h off size in
  if (size =? 0) || negb (node_to_ptr h n size =? off) || negb (roundup_pow2 (hW h) size =? size) ||
     (size <? hmin h) then None
  else
    let c :=
      if allow_split && nsplit (nd h n) then coalesce_block h (nd h) off size else Some (nd h, 0) in
    match c with
    | None => None
    | Some (ns, corr) =>
        if nsplit (ns n) then None
        else
          match set_free_uplevels ns n size with
          | None => None
          | Some (ns2, best, bsz) =>
              if (best =? n) || negb (bsz =? size)
              then Some (mk_heap (hW h) (hsize h) (hmin h) ns2 (mem h - (size - corr))) else None
          end
    end.

(** calculate_block_size, kernel/kmalloc/kmalloc.c:739-761 *)
Fixpoint block_size_loop (fuel : nat) (h : heap) (n va size off : Z) : option Z :=
  match fuel with
  | O => None
  | S f =>
      if size >? hmin h then
        if nsplit (nd h n) then
          if off >=? va + size / 2 then block_size_loop f h (right n) (va + size / 2) (size / 2) off
          else block_size_loop f h (left n) va (size / 2) off
        else Some size
      else Some size
  end.
Definition calculate_block_size (h : heap) (off : Z) : option Z := block_size_loop 64 h 0 0 (hsize h) off.

(** The loop of the multi-step free, kernel/kmalloc/kmalloc.c:826-837 *)
Fixpoint multi_free (i : nat) (h : heap) (off size tot : Z) (allow_split : bool) : option (heap * Z) :=
  match i with
  | O => Some (h, tot)
  | S i' =>
      if tot <? size then
        if Z.testbit size (Z.of_nat i') then
          match internal_kfree h (off + tot) (2 ^ Z.of_nat i') allow_split with
          | None => None
          | Some h1 => multi_free i' h1 off size (tot + 2 ^ Z.of_nat i') allow_split
          end
        else multi_free i' h off size tot allow_split
      else Some (h, tot)
  end.

(** per_heap_kfree_unsafe, kernel/kmalloc/kmalloc.c:775-840, debug build; the
    result includes *user_size *)
Definition kfree (h : heap) (off usize : Z) (multi allow_split : bool) : option (heap * Z) :=
  if off <? 0 then None
  else if multi then
    if (usize =? 0) || (off + usize - 1 >? hsize h - 1) ||
       negb (pow2_round_up_at (hW h) usize (hmin h) =? usize) then None
    else
      match multi_free (Z.to_nat (Z.log2 (hsize h))) h off usize 0 allow_split with
      | None => None
      | Some (h1, tot) => if tot =? usize then Some (h1, usize) else None
      end
  else
    let s :=
      if usize =? 0 then if allow_split then None else calculate_block_size h off
      else
        let s := roundup_pow2 (hW h) (Z.max usize (hmin h)) in
        if allow_split then Some s
        else match calculate_block_size h off with
             | Some cs => if cs =? s then Some s else None    (* debug_check_block_size *)
             | None => None
             end in
    match s with
    | None => None
    | Some s =>
        if off + s - 1 >? hsize h - 1 then None
        else match internal_kfree h off s allow_split with None => None | Some h1 => Some (h1, s) end
    end.
