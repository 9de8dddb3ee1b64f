(** What kmalloc and kfree promise to their callers. *)
From Verif Require Import Lib Bits Buddy_Model Buddy_Spec Gk_Model.

(** A caller's block: address and the size asked for; the block reserved for it *)
Definition reserved (q : Z) : Z := if q <=? SMAX then Z.max (2 ^ Z.log2_up q) SMBS else Z.max (2 ^ Z.log2_up q) (SMAX + 1).
Definition blk (x : Z * Z) : block := (fst x, reserved (snd x)).

Inductive gop := KMalloc (size : Z) | KFree (p size : Z).
Definition gstep (W me : Z) (s : st) (o : gop) : option (st * option (Z * Z)) :=
  match o with
  | KMalloc size => gen_alloc W s size
  | KFree p size => match gen_free me s p size with Some s => Some (s, None) | None => None end
  end.
(** Callers free what they have, with the size they asked for or with none; kfree(NULL) *)
Definition fair (cl : list (Z * Z)) (o : gop) : Prop :=
  match o with
  | KMalloc size => 0 < size
  | KFree p size => p = 0 \/ exists q, In (p, q) cl /\ (size = 0 \/ size = q)
  end.
Definition clients (cl : list (Z * Z)) (o : gop) (r : option (Z * Z)) : list (Z * Z) :=
  match o, r with
  | KMalloc size, Some (a, _) => (a, size) :: cl
  | KFree p _, _ => filter (fun x => negb (fst x =? p)) cl
  | _, _ => cl
  end.

(** Main heaps as kmalloc_internal_add_heap leaves them: their own metadata is allocated in them *)
Definition region (x : hp) : block := (base x, hsize (bh x)).
Definition new_main (W : Z) (x : hp) : Prop :=
  exists K h b, good (mk_cfg W 11 K) /\ 0 < base x /\ (2048 | base x) /\
    kmalloc (heap_init W (total (mk_cfg W 11 K)) 2048) (2 ^ Z.of_nat (S K)) false 0 true = Some (h, Some (0, b)) /\ bh x = h.
Definition start (W : Z) (s : st) : Prop :=
  (W = 32 \/ W = 64) /\ Forall (new_main W) (mains s) /\ ForallOrdPairs disjoint (map region (mains s)) /\ smalls s = [] /\ avail s = [] /\ empties s = 0.

Inductive history (W me : Z) : st -> list (Z * Z) -> Prop :=
| h_start s : start W s -> history W me s []
| h_step s cl o s' r : history W me s cl -> fair cl o -> gstep W me s o = Some (s', r) -> history W me s' (clients cl o r).

(** What the allocator keeps for itself *)
Definition own (s : st) : list block :=
  map (fun x => (base x, Z.max (hsize (bh x) / 1024) 2048)) (mains s) ++
  map (fun x => (base x, SMD)) (smalls s) ++ map (fun x => (node x, SNODE)) (smalls s).
(** What is taken in the main heaps: metadata, chunks of the small heaps, their nodes, large blocks *)
Definition taken (s : st) (cl : list (Z * Z)) : list block :=
  map (fun x => (base x, Z.max (hsize (bh x) / 1024) 2048)) (mains s) ++ map blk (filter (fun x => SMAX <? snd x) cl) ++
  map (fun x => (base x, SSIZE)) (smalls s) ++ map (fun x => (node x, SNODE)) (smalls s).
(** No main heap has [z] bytes free at a multiple of [z] from its base *)
Definition full (s : st) (t : list block) (z : Z) : Prop :=
  forall x, In x (mains s) -> forall off, 0 <= off -> off + z <= hsize (bh x) -> (z | off) -> exists y, In y t /\ ~ disjoint y (base x + off, z).
(** No small heap has [z] bytes free at a multiple of [z] from its base *)
Definition full_small (s : st) (cl : list (Z * Z)) (z : Z) : Prop :=
  forall x, In x (smalls s) -> forall off, 0 <= off -> off + z <= SSIZE -> (z | off) ->
  exists y, In y (map (fun x => (base x, SMD)) (smalls s) ++ map blk (filter (fun x => snd x <=? SMAX) cl)) /\ ~ disjoint y (base x + off, z).
Definition zsum (l : list Z) : Z := fold_right Z.add 0 l.
