(** C35: the processed memory map is sorted, without overlaps, and says for each page the
    strictest type that the firmware gave to any byte of that page. *)
From Verif Require Import Lib Mmap_Model Mmap_Spec Mmap_Proofs.

(** For all maps of at most 512 sane regions the processing ends (there is a bound on the rounds), and unless the array of 512 regions overflows the result is sorted, disjoint, made of whole pages, and gives to each address the strictest of the types of the regions which have a byte in its page (-1: none has) *)
Theorem C35_map_is_normalised_partial : forall l, Forall sane l -> zlen l <= 512 -> exists N, forall fuel, (N <= fuel)%nat -> fix_mem_regions fuel l = Panic \/
  exists l', fix_mem_regions fuel l = Done l' /\ separate l' /\ Forall paged l' /\ zlen l' <= 512 /\ forall a, strictest (fun r => covers r a) l' = strictest (fun r => touches r a) l.
Proof. exact fix_ok. Qed.
Print Assumptions C35_map_is_normalised_partial.

(** In a map of whole pages the lookup finds a region which contains the address, or there is none *)
Theorem C35_lookup : forall l a, Forall paged l ->
  (0 <= region_of l 0 a < zlen l /\ covers (nth (Z.to_nat (region_of l 0 a)) l (Reg 0 0 0 0)) a = true) \/ (region_of l 0 a = -1 /\ strictest (fun r => covers r a) l = -1).
Proof. exact region_of_ok. Qed.
Print Assumptions C35_lookup.

(** and in a disjoint one no other region contains it, *)
Theorem C35_lookup_is_unique : forall l i j a, Forall paged l -> separate l -> (i < length l)%nat -> (j < length l)%nat ->
  covers (nth i l (Reg 0 0 0 0)) a = true -> covers (nth j l (Reg 0 0 0 0)) a = true -> i = j.
Proof. exact separate_unique. Qed.
Print Assumptions C35_lookup_is_unique.

(** and its type is the one of the map *)
Theorem C35_lookup_type : forall l i a, Forall paged l -> separate l -> (i < length l)%nat -> covers (nth i l (Reg 0 0 0 0)) a = true -> strictest (fun r => covers r a) l = type (nth i l (Reg 0 0 0 0)).
Proof. exact separate_type. Qed.
Print Assumptions C35_lookup_type.

(** The limits computed from the map are those of the available memory (below 4 TB) *)
Theorem C35_limits : forall l, Forall paged l -> separate l -> Forall (fun r => addr r + len r < 2 ^ 42) l -> (exists r, In r l /\ type r = 1) ->
  (forall r a, In r l -> type r = 1 -> covers r a = true -> lower_kb l * 1024 <= a < upper_kb l * 1024) /\
  (exists r, In r l /\ type r = 1 /\ addr r = lower_kb l * 1024) /\ (exists r, In r l /\ type r = 1 /\ addr r + len r = upper_kb l * 1024).
Proof. exact limits. Qed.
Print Assumptions C35_limits.

(** An empty region of a stricter type at the start of another region: the loop never ends *)
Theorem C35_empty_region_hangs_refuted : forall fuel, fix_mem_regions fuel [Reg 4096 4096 1 0; Reg 4096 0 2 0] = NoFuel.
Proof. exact empty_loops. Qed.
Print Assumptions C35_empty_region_hangs_refuted.

(** Regions which reach the end of the 64-bit space: the sum wraps and the overlap stays *)
Theorem C35_top_of_memory_refuted : forall fuel, (2 <= fuel)%nat -> exists l, fix_mem_regions fuel [Reg (2 ^ 64 - 8192) 8192 1 0; Reg (2 ^ 64 - 4096) 4096 2 0] = Done l /\ ~ separate l.
Proof. exact top_overlaps. Qed.
Print Assumptions C35_top_of_memory_refuted.

(** a map with the four kinds of overlap; 640 KB of low memory, 1 MB to 16 MB above *)
Example C35_nontrivial : fix_mem_regions 50 [Reg 0x100000 0xf00000 1 0; Reg 0 0x9fc00 1 0; Reg 0x9f000 0x1000 2 0; Reg 0x200010 0x20 3 0; Reg 0x9fc00 0x400 2 0; Reg 0xfff000 0x2000 2 1; Reg 0x100000 0x1000 2 7] =
  Done [Reg 0 0x9f000 1 0; Reg 0x9f000 0x1000 2 0; Reg 0x100000 0x1000 2 7; Reg 0x101000 0xff000 1 0; Reg 0x200000 0x1000 3 0; Reg 0x201000 0xdfe000 1 0; Reg 0xfff000 0x2000 2 1].
Proof. vm_compute. reflexivity. Qed.
Example C35_lookup_nontrivial : let l := [Reg 0 0x9f000 1 0; Reg 0x9f000 0x1000 2 0; Reg 0x100000 0x1000 2 7] in (region_of l 0 0x9f800, region_of l 0 0xa0000, lower_kb l, upper_kb l) = (1, -1, 0, 636).
Proof. vm_compute. reflexivity. Qed.

