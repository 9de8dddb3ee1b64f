(** C74: kmalloc and kfree over main heaps and small heaps. *)
From Coq Require Import Permutation.
From Verif Require Import Lib Bits Buddy_Model Buddy_Spec Gk_Model Gk_Spec Gk_Proofs8 Gk_Refuted.

(** No ASSERT and no panic, for callers that free what they have, with the size they asked for or with none. *)
Theorem C74_no_assert : forall W me s cl o,
  0 <= me -> history W me s cl -> fair cl o -> gstep W me s o <> None.
Proof. exact gk_no_assert. Qed.
Print Assumptions C74_no_assert.

(** Blocks of callers overlap neither each other nor what the allocator keeps for itself. *)
Theorem C74_disjoint : forall W me s cl,
  0 <= me -> history W me s cl -> ForallOrdPairs disjoint (own s ++ map blk cl).
Proof. exact gk_disjoint. Qed.
Print Assumptions C74_disjoint.

(** They are as large as asked for, lie in one main heap, and are never NULL. *)
Theorem C74_inside : forall W me s cl p q,
  0 <= me -> history W me s cl -> In (p, q) cl ->
  0 < p /\ q <= reserved q /\ exists x, In x (mains s) /\ base x <= p /\ p + reserved q <= base x + hsize (bh x).
Proof. exact gk_inside. Qed.
Print Assumptions C74_inside.

(** They are aligned to their size, up to 2048. *)
Theorem C74_aligned : forall W me s cl p q,
  0 <= me -> history W me s cl -> In (p, q) cl -> (Z.min (reserved q) 2048 | p).
Proof. exact gk_aligned. Qed.
Print Assumptions C74_aligned.

(** The size told to the caller, and: a new block overlaps nothing in use. *)
Theorem C74_alloc : forall W me s cl q s' a b,
  0 <= me -> history W me s cl -> 0 < q -> gstep W me s (KMalloc q) = Some (s', Some (a, b)) ->
  b = reserved q /\ Forall (disjoint (a, b)) (own s' ++ map blk cl).
Proof. exact gk_alloc. Qed.
Print Assumptions C74_alloc.

(** NULL for a large request: no main heap has room. *)
Theorem C74_null_large : forall W me s cl q s',
  0 <= me -> history W me s cl -> SMAX < q -> gstep W me s (KMalloc q) = Some (s', None) -> full s (taken s cl) (reserved q).
Proof. exact gk_null_big. Qed.
Print Assumptions C74_null_large.

(** NULL for a small request: no main heap has room for another small heap or for its node. *)
Theorem C74_null_small : forall W me s cl q s',
  0 <= me -> history W me s cl -> 0 < q <= SMAX -> gstep W me s (KMalloc q) = Some (s', None) ->
  full s (taken s cl) SSIZE \/ exists a, full s ((a, SSIZE) :: taken s cl) SNODE.
Proof. exact gk_null_small. Qed.
Print Assumptions C74_null_small.

(** A small heap is added, or NULL returned, only if no existing small heap has room. *)
Theorem C74_small_heaps_first : forall W me s cl q s' r,
  0 <= me -> history W me s cl -> 0 < q <= SMAX -> gstep W me s (KMalloc q) = Some (s', r) ->
  r = None \/ zlen (smalls s') <> zlen (smalls s) -> full_small s cl (reserved q).
Proof. exact gk_new_small. Qed.
Print Assumptions C74_small_heaps_first.

(** The list of available small heaps: exactly those not full. *)
Theorem C74_available : forall W me s cl,
  0 <= me -> history W me s cl -> Permutation (avail s) (map base (filter (fun x => negb (mem (bh x) =? SSIZE)) (smalls s))).
Proof. exact gk_avail. Qed.
Print Assumptions C74_available.

(** The counter of empty small heaps is right and never above the limit. *)
Theorem C74_empty_heaps : forall W me s cl,
  0 <= me -> history W me s cl -> empties s = zlen (filter (fun x => mem (bh x) =? SMD) (smalls s)) /\ empties s <= me.
Proof. exact gk_empties. Qed.
Print Assumptions C74_empty_heaps.

(** Memory in use: what callers have and what the allocator keeps; nothing is lost. *)
Theorem C74_memory : forall W me s cl,
  0 <= me -> history W me s cl ->
  zsum (map (fun x => mem (bh x)) (mains s)) = sum_sizes (taken s cl) /\
  zsum (map (fun x => mem (bh x)) (smalls s)) = SMD * zlen (smalls s) + zsum (map (fun x => reserved (snd x)) (filter (fun x => snd x <=? SMAX) cl)).
Proof. exact gk_memory. Qed.
Print Assumptions C74_memory.

(** When all is freed, only metadata and at most the limit of empty small heaps are left. *)
Theorem C74_all_freed : forall W me s,
  0 <= me -> history W me s [] -> zlen (smalls s) = empties s /\ empties s <= me /\
  zsum (map (fun x => mem (bh x)) (mains s)) = sum_sizes (map (fun x => (base x, Z.max (hsize (bh x) / 1024) 2048)) (mains s)) + (SSIZE + SNODE) * empties s.
Proof. exact gk_all_freed. Qed.
Print Assumptions C74_all_freed.

(** Freeing with the size that general_kmalloc wrote back, for requests of 1025 to 2047 bytes, is an ASSERT. *)
Theorem C74_written_back_size_refuted : exists s cl p b, history 32 1 s cl /\ In (p, 1500) cl /\ gstep 32 1 s0 (KMalloc 1500) = Some (s, Some (p, b)) /\
  gstep 32 1 s (KFree p b) = None /\ gstep 32 1 s (KFree p 0) <> None /\ gstep 32 1 s (KFree p 1500) <> None.
Proof. exact gk_written_back. Qed.
Print Assumptions C74_written_back_size_refuted.

(** A small heap is added, kept when empty, a second one destroyed; a request too large; small blocks freed without a size *)
Example C74_nonvacuous :
  start 32 s0 /\
  obs (run s0 [KMalloc 100; KMalloc 5000; KMalloc 2000; KFree 239616 0; KMalloc 524288; KFree 212992 5000; KFree 241664 2000]) =
    Some ([36864], [(237568, 206848, 2048)], [237568], 1, [Some (239616, 128); Some (212992, 8192); Some (241664, 2048); None; None; None; None]) /\
  obs (run s0 (repeat (KMalloc 2047) 16)) =
    Some ([71680], [(237568, 206848, 32768); (270336, 208896, 4096)], [270336], 0,
      map (fun i => Some (239616 + 2048 * Z.of_nat i, 2048)) (seq 0 15) ++ [Some (272384, 2048)]) /\
  obs (run s0 (repeat (KMalloc 2047) 16 ++ [KFree 272384 0; KFree 239616 2047] ++ map (fun i => KFree (241664 + 2048 * Z.of_nat i) 0) (seq 0 14))) =
    Some ([36864], [(270336, 208896, 2048)], [270336], 1,
      map (fun i => Some (239616 + 2048 * Z.of_nat i, 2048)) (seq 0 15) ++ [Some (272384, 2048)] ++ repeat None 16).
Proof. split; [exact start_s0|]. repeat split; vm_compute; reflexivity. Qed.

