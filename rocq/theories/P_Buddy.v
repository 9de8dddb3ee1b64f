(** Properties of the buddy heap (kernel/kmalloc/kmalloc.c), C07-C09.  All
    statements are about every heap reachable by correct use. *)
From Verif Require Import Lib Bits Buddy_Model Buddy_Spec Buddy_Tree Buddy_Ops Buddy_Proofs.

(** Live blocks: inside the heap, power-of-two sized, aligned, disjoint *)
Theorem C07_live_blocks :
  forall c acct h live, good c -> reach c acct h live ->
  NoDup live /\
  (forall b, In b live -> 0 <= fst b /\ fst b + snd b <= total c /\ minimum c <= snd b /\
     (exists e, 0 <= e /\ snd b = 2 ^ e) /\ (snd b | fst b)) /\
  (forall b1 b2, In b1 live -> In b2 live -> b1 <> b2 -> disjoint b1 b2).
Proof. exact disjoint_inside_out. Qed.
Print Assumptions C07_live_blocks.

(** The range handed out: as big as requested, in the heap, aligned, and disjoint
    from everything live; refused only if no aligned free range is left *)
Theorem C07_allocation_result :
  forall c acct h live size multi leaf act h' res, good c -> reach c acct h live ->
  allowed c live (Alloc size multi leaf act) -> step h (Alloc size multi leaf act) = Some (h', res) ->
  match res with
  | Some r => size <= snd r /\ 0 <= fst r /\ fst r + block_of c size <= total c /\ (block_of c size | fst r) /\
      snd r = (if multi then size else block_of c size) /\ forall b, In b live -> disjoint b r
  | None => total c < size \/ crowded c live (block_of c size)
  end.
Proof. exact alloc_result. Qed.
Print Assumptions C07_allocation_result.

(** Correct use never fails an assertion *)
Theorem C07_no_assertion_fails :
  forall c acct h live o, good c -> reach c acct h live -> allowed c live o -> step h o <> None.
Proof. exact no_assert. Qed.
Print Assumptions C07_no_assertion_fails.

(** Nothing outside the metadata array is written *)
Theorem C07_metadata_in_bounds :
  forall c acct h live i, good c -> reach c acct h live -> ~ (0 <= i < 2 ^ Z.of_nat (S (cK c)) - 1) -> nd h i = zero_node.
Proof. exact metadata_only. Qed.
Print Assumptions C07_metadata_in_bounds.

(** With a multi-step size that is no multiple of the minimum block it is: node
    415 of 15 *)
Theorem C07_metadata_odd_size_refuted :
  exists h, step (heap_init 32 256 32) (Alloc 161 true 0 true) = Some (h, Some (0, 161)) /\ nd h 415 <> zero_node.
Proof. exact odd_multi. Qed.
Print Assumptions C07_metadata_odd_size_refuted.

(** A block as big as the heap cannot be freed: nodes[-1] is read, or an
    assertion of the multi-step free fails *)
Theorem C07_whole_heap_refuted :
  exists h, reach (mk_cfg 32 5 3) true h [(0, 256)] /\
  step h (Free 0 256 false false) = None /\ step h (Free 0 0 false false) = None /\ step h (Free 0 256 true true) = None.
Proof. exact whole_heap. Qed.
Print Assumptions C07_whole_heap_refuted.

(** A multi-step free fails on a range of live blocks not aligned to its biggest
    binary digit *)
Theorem C07_unaligned_range_refuted :
  exists h, reach (mk_cfg 32 5 3) true h [(0, 32); (32, 32); (64, 32); (96, 32)] /\
  step h (Free 32 64 true true) = None.
Proof. exact unaligned_range. Qed.
Print Assumptions C07_unaligned_range_refuted.

(** An allocation succeeds whenever some aligned range of its block size is free *)
Theorem C08_allocation_succeeds :
  forall c acct h live size multi leaf act h' res off, good c -> reach c acct h live ->
  allowed c live (Alloc size multi leaf act) -> step h (Alloc size multi leaf act) = Some (h', res) ->
  0 <= off -> off + block_of c size <= total c -> (block_of c size | off) ->
  (forall b, In b live -> disjoint b (off, block_of c size)) -> res <> None.
Proof. exact alloc_succeeds. Qed.
Print Assumptions C08_allocation_succeeds.

(** With everything freed the metadata is that of a new heap *)
Theorem C08_empty_again :
  forall c acct h, good c -> reach c acct h [] ->
  forall i, 0 <= i < 2 ^ Z.of_nat (S (cK c)) - 1 -> nd h i = zero_node.
Proof. exact empty_again. Qed.
Print Assumptions C08_empty_again.

(** Missing for the full claim: histories with allocations without actual memory,
    and ALLOW_SPLIT frees of ranges of several blocks bigger than the minimum; with
    either it is false (below) *)
Theorem C09_counter_exact_partial :
  forall c h live, good c -> reach c true h live -> mem h = sum_sizes live.
Proof. exact reach_exact. Qed.
Print Assumptions C09_counter_exact_partial.

Theorem C09_counter_in_range :
  forall c h live, good c -> reach c true h live -> 0 <= mem h <= total c.
Proof. exact mem_bounds. Qed.
Print Assumptions C09_counter_in_range.

(** The size found from the address alone is the one handed out *)
Theorem C09_size_found :
  forall c acct h live off b, good c -> reach c acct h live -> In (off, b) live -> calculate_block_size h off = Some b.
Proof. exact size_found. Qed.
Print Assumptions C09_size_found.

Theorem C09_size_written_back :
  forall c acct h live off usize multi sp h' res, good c -> reach c acct h live ->
  allowed c live (Free off usize multi sp) -> step h (Free off usize multi sp) = Some (h', res) ->
  exists s, res = Some (off, s) /\ (multi = true -> s = usize) /\ (multi = false -> sp = false -> In (off, s) live).
Proof. exact free_result. Qed.
Print Assumptions C09_size_written_back.

Theorem C09_split_free_refuted : exists h, reach (mk_cfg 32 5 3) false h [] /\ mem h = 128.
Proof. exact split_drift. Qed.
Print Assumptions C09_split_free_refuted.

Theorem C09_virtual_alloc_refuted : exists h, reach (mk_cfg 32 5 3) false h [] /\ mem h = -64.
Proof. exact virtual_drift. Qed.
Print Assumptions C09_virtual_alloc_refuted.

(** Non-vacuity: on a 256-byte heap three blocks, a refusal, a free in the
    middle, a reuse, and everything merged again *)
Example C07_C08_C09_nontrivial :
  let go l := fold_left (fun s o => match s with
     | Some (h, out) => match step h o with Some (h', r) => Some (h', out ++ [r]) | None => None end
     | None => None end) l (Some (heap_init 32 256 32, [])) in
  match go [Alloc 33 false 0 true; Alloc 20 false 0 true; Alloc 100 false 0 true; Alloc 64 false 0 true;
            Free 0 0 false false; Alloc 64 false 32 true] with
  | Some (h, out) =>
      out = [Some (0, 64); Some (64, 32); Some (128, 128); None; Some (0, 64); Some (0, 64)] /\ mem h = 224 /\
      calculate_block_size h 32 = Some 32 /\ nfull (nd h 0) = false /\ nfull (nd h 1) = false /\ nfull (nd h 3) = true
  | None => False
  end /\
  match go [Alloc 160 true 0 true; Free 0 160 true false; Alloc 64 false 0 true; Free 0 60 false false] with
  | Some (h, out) => out = [Some (0, 160); Some (0, 160); Some (0, 64); Some (0, 64)] /\ mem h = 0 /\ nd h 0 = zero_node /\ nd h 3 = zero_node
  | None => False
  end.
Proof. vm_compute. repeat split. Qed.
