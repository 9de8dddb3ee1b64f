(** C59: moving the first data sector to a page boundary. *)
From Coq Require Import String Ascii.
From Verif Require Import Lib Fat_Model Fat_Spec Fat_Refuted Fatdir_Model Fatdir_Spec Fatdir_Refuted
  Fatcomp_Model Fatcomp_Spec Fatcomp_Refuted Fatalign_Spec Fatalign_Proofs Fatalign_Proofs2 Fatalign_Refuted.

(** The data area starts at a page boundary; everything from the tables to the last used cluster is found [gap] bytes later, what is before stays; read through the new header, every table entry and every cluster up to the last used one is as before. Missing: a volume already aligned (refuted below: assertion), one that changes kind by losing sectors (refuted below), the last two clusters (refuted below). *)
Theorem C59_align_partial : forall v page c, wf v -> movable v page c ->
  exists v', align v page = Ok v' /\ vh v' = shifted (vh v) (gap (vh v) page / bps (vh v)) /\
    vsz v' = vsz v /\ (sp_data_sector (vh v') * bps (vh v')) mod page = 0 /\
    (forall a, rsvd (vh v) * bps (vh v) <= a < used_end (vh v) c ->
       vm v' (a + gap (vh v) page) = vm v a) /\
    (forall a, a < rsvd (vh v) * bps (vh v) -> vm v' a = vm v a) /\
    (same_kind (vh v) (vh v') -> wf v' /\
       (forall k x, 0 <= k < nfats (vh v) -> 0 <= x < sp_clusters (vh v) + 2 ->
          fat_val v' k x = fat_val v k x) /\
       (forall x, 2 <= x <= c -> cdata v' x = cdata v x)).
Proof. exact align_ok. Qed.
Print Assumptions C59_align_partial.

(** The tree of files and directories is the same, in the same clusters. *)
Theorem C59_tree_partial : forall v page c rl rs ts l, wf v -> movable v page c -> holds v rl rs ts l -> root_fits v ->
  let h' := shifted (vh v) (gap (vh v) page / bps (vh v)) in
  same_kind (vh v) h' -> (forall x, In x (rl ++ l) -> x < sp_clusters (vh v) /\ valid h' x) ->
  exists v', align v page = Ok v' /\ wf v' /\ vh v' = h' /\ vsz v' = vsz v /\
    (sp_data_sector h' * bps h') mod page = 0 /\ holds v' rl rs ts l.
Proof. exact align_keeps. Qed.
Print Assumptions C59_tree_partial.

(** What is done to the ram disk at boot: compaction, then moving. The tree survives both. *)
Theorem C59_after_compaction_partial : forall v rl rs ts l d fuel page, wf v -> holds v rl rs ts l -> root_fits v ->
  (exists c, valid (vh v) c /\ free v c) -> (depths ts < d)%nat ->
  2 * sp_clusters (vh v) + 3 < Z.of_nat fuel -> all_used v (rl ++ l) -> in_front rl -> rl ++ l <> [] ->
  let h := vh v in let g := gap h page in let h' := shifted h (g / bps h) in
  let n := zlen rl + zlen l in
  0 < page -> page mod bps h = 0 -> (sp_data_sector h * bps h) mod page <> 0 ->
  same_kind h h' -> 2 + n <= sp_clusters h' -> rsvd h' < 65536 ->
  sp_cluster_off h (2 + n) + bps h + g <= vsz v ->
  exists v1 v2 l2 rs2, compact d fuel v = Ok v1 /\ align v1 page = Ok v2 /\ wf v2 /\
    (sp_data_sector (vh v2) * bps (vh v2)) mod page = 0 /\
    holds v2 rl rs2 ts l2 /\ view_of rs2 = view_of rs.
Proof. exact compact_align. Qed.
Print Assumptions C59_after_compaction_partial.

(** On a volume that is aligned already the function does not return at once, as its comment says: the remainder it computes is a whole page, and the assertion fails. *)
Theorem C59_already_aligned_refuted : forall v page c, wf v -> 0 < page -> page mod bps (vh v) = 0 -> last v c ->
  (sp_data_sector (vh v) * bps (vh v)) mod page = 0 -> align v page = Assert.
Proof. exact already_aligned. Qed.
Print Assumptions C59_already_aligned_refuted.

(** The number of sectors is not changed, so the number of clusters drops; at 65525 clusters a FAT32 volume becomes a FAT16 one. *)
Theorem C59_kind_changes_refuted : exists v c v', wf v /\ movable v 4096 c /\ align v 4096 = Ok v' /\
  sp_width (vh v) = 4 /\ sp_width (vh v') = 2 /\ fat_val v 0 3 = 0 /\ fat_val v' 0 3 = 4095.
Proof. exact type_flips. Qed.
Print Assumptions C59_kind_changes_refuted.

(** A file in the last cluster is left where it was, and reads differently afterwards. *)
Theorem C59_last_cluster_lost_refuted : exists v c v', wf v /\ movable v 4096 c /\ align v 4096 = Ok v' /\
  same_kind (vh v) (vh v') /\ chain v 4101 [4101] /\ chain v' 4101 [4101] /\
  cdata v' 4101 <> cdata v 4101.
Proof. exact tail_lost. Qed.
Print Assumptions C59_last_cluster_lost_refuted.

(** Non-vacuity: the volume of C51, compacted and moved. *)
Example ex_both : exists v1 v2 l2 rs2, compact 3 (Z.to_nat 9000) vc = Ok v1 /\ align v1 4096 = Ok v2 /\ wf v2 /\
    (sp_data_sector (vh v2) * bps (vh v2)) mod 4096 = 0 /\
    holds v2 [] rs2 vc_tree l2 /\ view_of rs2 = view_of (map (raw vc) (root_slots vc [])).
Proof. exact vc_both. Qed.

