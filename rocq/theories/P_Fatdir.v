(** C58: FAT directories: walk, listing, lookup. *)
From Coq Require Import String Ascii.
From Verif Require Import Lib Fat_Model Fat_Spec Fat_Proofs Fat_Proofs2 Fat_Refuted Fatdir_Model Fatdir_Spec
  Fatdir_Proofs Fatdir_Proofs2 Fatdir_Proofs3 Fatdir_Proofs4 Fatdir_Refuted.

(** The walk calls the callback on exactly the live entries, in order, with the long name stored for them, until it asks to stop. Missing: leftover long names with the checksum of what follows (refuted below), more than 19 in a row; the part of a FAT16 root directory beyond a cluster's worth of entries. *)
Theorem C58_walk_partial : forall (S : Type) (cb : S -> vol -> Z -> option (list Z) -> res (S * vol * bool)) v clu slot l fuel s,
  wf v -> dir_of v clu slot l ->
  (forall s e n s1 v1 st, cb s v e n = Ok (s1, v1, st) -> v1 = v) ->
  (Z.to_nat (sp_clusters (vh v)) < fuel)%nat ->
  walk cb fuel true clu s v = bnd s' <- visit cb s v (listing slot 0 l); Ok (s', v).
Proof. exact @walk_ok. Qed.
Print Assumptions C58_walk_partial.

(** The listing: place, name and kind of each live entry. *)
Theorem C58_listing_partial : forall v clu slot l fuel, wf v -> dir_of v clu slot l ->
  (Z.to_nat (sp_clusters (vh v)) < fuel)%nat ->
  getdents fuel v clu =
  Ok (map (fun x => (fst (fst x), sp_name x, r_dir (snd x))) (listing slot 0 l)).
Proof. exact getdents_ok. Qed.
Print Assumptions C58_listing_partial.

(** A name is looked up to the first entry that answers to it (a directory entry for the root: to the root). *)
Theorem C58_lookup_partial : forall v dir clu slot l fuel name r, wf v -> in_image v dir ->
  clu = (if dir =? root_off v then root_clu v else de_cluster v dir) ->
  dir_of v clu slot l -> (Z.to_nat (sp_clusters (vh v)) < fuel)%nat ->
  zlen (first_comp name) < 256 ->
  ~ (dir = root_off v /\ (first_comp name = [46] \/ first_comp name = [46; 46])) ->
  first_match (first_comp name) (listing slot 0 l) r ->
  get_entry fuel v dir name =
  Ok (match r with
      | None => None
      | Some (e, _, raw) =>
          Some (if r_dir raw && ((r_cluster raw =? 0) || (r_cluster raw =? root_clu v))
                then (root_off v, true) else (e, r_dir raw))
      end).
Proof. exact get_entry_ok. Qed.
Print Assumptions C58_lookup_partial.

(** A path is looked up component by component (up to the kind of error; not through an entry for the root). *)
Theorem C58_path_partial : forall v p x n fuel, wf v -> lookup v 0 p x -> p <> [] -> comps_ok p ->
  (Z.to_nat (sp_clusters (vh v)) < fuel)%nat -> (length p <= n)%nat ->
  exists y, search_entry n fuel v p = Ok y /\ agree x y.
Proof. exact search_ok. Qed.
Print Assumptions C58_path_partial.

(** The name of an entry without a long name: base and extension. *)
Theorem C58_short_names : forall base ext rest, (length base <= 8)%nat -> (length ext <= 3)%nat ->
  ~ In 32 (base ++ ext) -> ~ In 0 (base ++ ext) -> znth 0 rest 1 = 0 ->
  sp_short (base ++ repeat 32 (8 - length base) ++ ext ++ repeat 32 (3 - length ext) ++ rest) =
  base ++ match ext with [] => [] | _ => 46 :: ext end.
Proof. exact short_83. Qed.
Print Assumptions C58_short_names.

(** A chain that ends has no cluster twice (the bound on the fuel above is enough for all directories). *)
Theorem C58_chain_no_cycle : forall v c l, wf v -> chain v c l -> NoDup l.
Proof. exact chain_nodup. Qed.
Print Assumptions C58_chain_no_cycle.

(** An entry without a long name is shown under the long name of a deleted file, if the checksums agree. *)
Theorem C58_stale_long_name_refuted : exists v e r, wf v /\ in_image v e /\ bytes (vm v) e 32 = r /\ live r /\
  vm v (e - 32) = 229 /\ sp_short r = z "A.TXT" /\
  getdents 10 v 0 = Ok [(e, z "gone.txt", false)].
Proof. exact stale_name. Qed.
Print Assumptions C58_stale_long_name_refuted.

(** Twenty deleted long-name entries with the same checksum: the buffer overflows. *)
Theorem C58_deleted_names_overflow_refuted : exists v c cl, wf v /\ chain v c cl /\
  (forall i, 0 <= i < 20 -> vm v (cslot v cl i) = 229) /\
  vm v (cslot v cl 20) = 0 /\ vm v (cslot v cl 20 + 11) = 0 /\ getdents 10 v c = Oob.
Proof. exact dead_overflow. Qed.
Print Assumptions C58_deleted_names_overflow_refuted.

(** A long name with a space is not shown. *)
Theorem C58_name_with_space_refuted : exists v n r, wf v /\
  (forall i, 0 <= i < 2 -> bytes (vm v) (rslot v i) 32 = znth [] (enc (Long n r)) i) /\
  live r /\ n = z "my file.txt" /\
  names (getdents 10 v 0) = Ok [z "MYFILE~1.TXT"].
Proof. exact space_name. Qed.
Print Assumptions C58_name_with_space_refuted.

(** A directory whose chain is a cycle: the walk does not end. *)
Theorem C58_cyclic_chain_hangs_refuted : exists v, wf v /\ fat_val v 0 5 = 5 /\ forall fuel, getdents fuel v 5 = Fuel.
Proof. exact cycle_hangs. Qed.
Print Assumptions C58_cyclic_chain_hangs_refuted.

(** The 17th entry of a FAT16 root directory with 512-byte clusters is not seen. *)
Theorem C58_root_entries_cut_refuted : exists v, wf v /\ rootent (vh v) = 32 /\ live (bytes (vm v) (rslot v 16) 32) /\
  (forall i, 0 <= i < 16 -> vm v (rslot v i) = 229) /\ getdents 10 v 0 = Ok [].
Proof. exact root_cut. Qed.
Print Assumptions C58_root_entries_cut_refuted.

(** With a root directory smaller than a cluster, file data is read as directory entries. *)
Theorem C58_root_spills_into_data_refuted : exists v e, wf v /\ rootent (vh v) = 16 /\
  (forall i, 0 <= i < 16 -> vm v (rslot v i) = 229) /\
  sp_data_sector (vh v) * bps (vh v) <= e /\ getdents 10 v 0 = Ok [(e, z "DATA", false)].
Proof. exact root_spill. Qed.
Print Assumptions C58_root_spills_into_data_refuted.

(** A component of 256 characters overflows the buffer. *)
Theorem C58_component_overflow_refuted : exists v p, wf v /\ dir_of v 0 (rslot v16) root1 /\
  zlen (first_comp p) = 256 /\ search_entry 300 10 v p = Oob.
Proof. exact component_overflow. Qed.
Print Assumptions C58_component_overflow_refuted.

(** A file in the middle of a path gives "not found". *)
Theorem C58_not_a_directory_refuted : exists v p, wf v /\ lookup v 0 p NotDir /\ search_entry 10 10 v p = Ok NoEnt.
Proof. exact middle_file. Qed.
Print Assumptions C58_not_a_directory_refuted.

(** A path through the parent of a top-level directory is not found. *)
Theorem C58_parent_of_top_directory_refuted : exists v, wf v /\ dir_of v 0 (rslot v16) root1 /\ dir_of v 5 s5 sub1 /\
  search_entry 20 10 v (z "A.TXT") = Ok (Found (9216 + 32)) /\
  search_entry 20 10 v (z "SUB/..") = Ok (Found (s5 1)) /\
  search_entry 20 10 v (z "SUB/../A.TXT") = Ok NoEnt.
Proof. exact dotdot_lost. Qed.
Print Assumptions C58_parent_of_top_directory_refuted.

(** On a volume without a label the first directory of the root is taken for the root. *)
Theorem C58_first_directory_is_root_refuted : exists v d, wf v /\ dir_of v 5 s5 sub1 /\
  r_cluster (bytes (vm v) d 32) = 5 /\ r_dir (bytes (vm v) d 32) = true /\
  get_entry 10 v (root_off v) (z "SUB") = Ok (Some (d, true)) /\
  get_entry 10 v d (z "C") = Ok None /\
  get_entry 10 v d (z "A.TXT") = Ok (Some (d + 32, false)) /\
  get_entry 10 v d (z "SUB") = Ok (Some (d, true)).
Proof. exact first_dir_is_root. Qed.
Print Assumptions C58_first_directory_is_root_refuted.

(** Non-vacuity: a directory of two clusters, with a long name across them and leftovers of a
    deleted file before it, listed and searched through the theorems. *)
Example ex_list : names (getdents 5000 vd 5) =
  Ok ([z "."; z ".."] ++ map (fun c => [c]) (z "CDEFGHIJKLM") ++ [z "across-the-clusters.tar.gz"]).
Proof. rewrite (getdents_ok vd 5 s5 sub1 5000 vd_wf vd_sub) by (vm_compute; lia). vm_compute. reflexivity. Qed.
Example ex_lookup : lookup vd 0 (z "SUB/across-the-clusters.tar.gz") (Found (s5 17)).
Proof.
  eapply (lk_down _ _ _ _ _ _ _ _ (z "across-the-clusters.tar.gz")).
  - exact vd_root.
  - cbn [listing root1]. do 2 (apply fm_miss; [vm_compute; congruence|]). apply fm_hit. vm_compute. reflexivity.
  - reflexivity.
  - discriminate.
  - reflexivity.
  - discriminate.
  - eapply lk_last; [exact vd_sub| |reflexivity].
    unfold sub1. cbn [list_ascii_of_string map app listing].
    do 13 (apply fm_miss; [vm_compute; congruence|]). apply fm_hit. vm_compute. reflexivity.
Qed.

