(** C51: FAT cluster compaction. *)
From Coq Require Import String Ascii.
From Verif Require Import Lib Fat_Model Fat_Spec Fat_Refuted Fatdir_Model Fatdir_Spec Fatdir_Refuted
  Fatcomp_Model Fatcomp_Spec Fatcomp_Proofs7 Fatcomp_Refuted.

(** Every file and directory of the tree reads as before (names, attributes, data), with as many clusters as before, all of them below the first free one; clusters outside the tree keep their entry and data. Missing: a volume without a free cluster, the entries of a FAT16 root directory beyond a cluster's worth (both loops stop there; refuted below), dot entries (refuted below). *)
Theorem C51_keeps_files_partial : forall v rl rs ts l d fuel, wf v -> holds v rl rs ts l -> root_fits v ->
  (exists c, valid (vh v) c /\ free v c) -> (depths ts < d)%nat ->
  2 * sp_clusters (vh v) + 3 < Z.of_nat fuel ->
  exists v' l', compact d fuel v = Ok v' /\ wf v' /\ vh v' = vh v /\ vsz v' = vsz v /\
    holds v' rl (map (raw v') (root_slots v' rl)) ts l' /\
    view_of (map (raw v') (root_slots v' rl)) = view_of rs /\
    length l' = length l /\
    (forall c, valid (vh v) c -> (free v' c <-> (free v c \/ In c l) /\ ~ In c l')) /\
    (forall c x, In c l' -> 2 <= x < c -> ~ free v' x) /\
    (forall c, valid (vh v) c -> ~ In c l -> ~ free v c ->
      fat_val v' 0 c = fat_val v 0 c /\ (~ In c rl -> cdata v' c = cdata v c)).
Proof. exact compact_ok. Qed.
Print Assumptions C51_keeps_files_partial.

(** When the tree is all there is and the clusters of the root directory come first, the used clusters are exactly the first ones. Missing: as above; a FAT32 root directory elsewhere is not moved (refuted below). *)
Theorem C51_contiguous_partial : forall v rl rs ts l d fuel, wf v -> holds v rl rs ts l -> root_fits v ->
  (exists c, valid (vh v) c /\ free v c) -> (depths ts < d)%nat ->
  2 * sp_clusters (vh v) + 3 < Z.of_nat fuel -> all_used v (rl ++ l) -> in_front rl ->
  exists v', compact d fuel v = Ok v' /\
    forall c, valid (vh v) c -> (~ free v' c <-> c < 2 + zlen rl + zlen l).
Proof. exact compact_dense. Qed.
Print Assumptions C51_contiguous_partial.

(** The boot loader's check after compaction succeeds: the place of the first free cluster is the number of used bytes. *)
Theorem C51_boot_check_partial : forall v rl rs ts l d fuel, wf v -> holds v rl rs ts l -> root_fits v ->
  (exists c, valid (vh v) c /\ free v c) -> (depths ts < d)%nat ->
  2 * sp_clusters (vh v) + 3 < Z.of_nat fuel -> all_used v (rl ++ l) -> in_front rl ->
  rl ++ l <> [] ->
  exists v', compact d fuel v = Ok v' /\
    let c := Z.min (2 + zlen rl + zlen l) (sp_clusters (vh v)) in
    first_free_off v' = Ok (sp_cluster_off (vh v) c + bps (vh v)) /\
    used_bytes v' = Ok (sp_cluster_off (vh v) c + bps (vh v)).
Proof. exact compact_sizes. Qed.
Print Assumptions C51_boot_check_partial.

(** The dot entry of a directory that moved still names the old cluster, now free. *)
Theorem C51_stale_dot_refuted : exists v e d, wf v /\ raw v d = ent ".          " 16 (de_cluster v e) /\
  exists x, look (compact 3 20 v) [de_cluster v e] [e] = Ok ([0], [x]) /\ x <> de_cluster v e /\
    look (compact 3 20 v) [] [sp_cluster_off (vh v) x] = Ok ([], [de_cluster v e]).
Proof. exact stale_dot. Qed.
Print Assumptions C51_stale_dot_refuted.

(** Only the first copy of the table is updated. *)
Theorem C51_second_table_refuted : exists v, wf v /\ nfats (vh v) = 2 /\
  look2 (Ok v) 0 [2; 5] = look2 (Ok v) 1 [2; 5] /\
  look2 (compact 2 20 v) 0 [2; 5] = Ok [65535; 0] /\ look2 (compact 2 20 v) 1 [2; 5] = Ok [0; 65535].
Proof. exact second_table. Qed.
Print Assumptions C51_second_table_refuted.

(** A file whose entry lies in the FAT16 root directory beyond a cluster's worth of entries is not moved. *)
Theorem C51_root_tail_refuted : exists v e, wf v /\ raw v e = ent "A       TXT" 32 9 /\
  e + 32 <= sp_data_sector (vh v) * bps (vh v) /\
  look (compact 2 20 v) [2; 9] [e] = Ok ([0; 65535], [9]).
Proof. exact root_tail. Qed.
Print Assumptions C51_root_tail_refuted.

(** The clusters of a FAT32 root directory are not moved: a free cluster stays below a used one. *)
Theorem C51_root_clusters_refuted : exists v, wf v /\ sp_width (vh v) = 4 /\ rootclus (vh v) = 9 /\ chain v 9 [9] /\
  look2 (compact 1 20 v) 0 [2; 9] = Ok [0; 268435455].
Proof. exact root32. Qed.
Print Assumptions C51_root_clusters_refuted.

(** The last two clusters do not count as used. *)
Theorem C51_last_two_clusters_refuted : exists v e c, wf v /\ de_cluster v e = c /\ chain v c [c] /\
  used_bytes v = Ok (sp_cluster_off (vh v) 2 + 512) /\ 2 + 2 < c.
Proof. exact last_two. Qed.
Print Assumptions C51_last_two_clusters_refuted.

(** A directory entry with first cluster 0 that is not a dot entry makes the recursion endless. *)
Theorem C51_endless_recursion_refuted : exists v, wf v /\ forall d fuel x, sp_clusters (vh v) + 2 < Z.of_nat fuel -> compact d fuel v <> Ok x.
Proof. exact loops. Qed.
Print Assumptions C51_endless_recursion_refuted.

(** Non-vacuity: files in 5 9 and 12 6, a directory in 7; compacted to 2 3, 5 6 and 4. *)
Example ex_holds : wf vc /\ holds vc [] (map (raw vc) (root_slots vc [])) vc_tree [5; 9; 7; 12; 6] /\
  root_fits vc /\ (exists c, valid (vh vc) c /\ free vc c) /\ (depths vc_tree < 3)%nat /\ all_used vc [5; 9; 7; 12; 6] /\ in_front [].
Proof.
  split; [exact vc_wf|]. split; [exact vc_holds|]. split; [intros _; vm_compute; discriminate|].
  split; [exists 2; split; [vld|reflexivity]|]. split; [cbn; lia|]. split; [exact vc_all|intros c x []].
Qed.
Example ex_run : look (compact 3 20 vc) [2; 3; 4; 5; 6; 7; 8; 9; 10; 11; 12; 13]
    [rslot v16 1; rslot v16 3; cslot v16 [4] 2] =
  Ok ([3; 65535; 65535; 6; 65535; 0; 0; 0; 0; 0; 0; 0], [2; 4; 5]).
Proof. exact vc_run. Qed.

