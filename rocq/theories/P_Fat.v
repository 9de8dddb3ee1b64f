(** C50, C57, C60: FAT volumes: layout, table, file contents, mappings, time stamps. *)
From Verif Require Import Lib Fat_Model Fat_Spec Fat_Proofs Fat_Proofs2 Fat_Proofs3 Fat_Proofs4 Fat_Refuted.

(** The type decision and all addresses are those of the FAT specification. *)
Theorem C50_layout : forall v, wf v ->
  fat_type (vh v) = sp_width (vh v) /\ cluster_count (vh v) = sp_clusters (vh v) /\
  (forall k c, 0 <= k < nfats (vh v) -> 0 <= c < sp_clusters (vh v) + 2 ->
     entry_ptr (vh v) (fat_type (vh v)) k c = sp_fat_off (vh v) k c) /\
  (forall c, valid (vh v) c -> cluster_ptr (vh v) c = sp_cluster_off (vh v) c).
Proof. exact layout_ok. Qed.
Print Assumptions C50_layout.

(** Table entries and clusters do not overlap and are inside the image. *)
Theorem C50_layout_disjoint : forall v, wf v ->
  (forall k c k' c', 0 <= k < nfats (vh v) -> 0 <= c < sp_clusters (vh v) + 2 ->
     0 <= k' < nfats (vh v) -> 0 <= c' < sp_clusters (vh v) + 2 -> (k, c) <> (k', c') ->
     sp_fat_off (vh v) k c + sp_width (vh v) <= sp_fat_off (vh v) k' c' \/
     sp_fat_off (vh v) k' c' + sp_width (vh v) <= sp_fat_off (vh v) k c) /\
  (forall k c x, 0 <= k < nfats (vh v) -> 0 <= c < sp_clusters (vh v) + 2 -> valid (vh v) x ->
     512 <= sp_fat_off (vh v) k c /\ sp_fat_off (vh v) k c + sp_width (vh v) <= sp_cluster_off (vh v) x) /\
  (forall c c', valid (vh v) c -> valid (vh v) c' -> c < c' ->
     sp_cluster_off (vh v) c + csize v <= sp_cluster_off (vh v) c') /\
  (forall c, valid (vh v) c -> sp_cluster_off (vh v) c + csize v <= vsz v).
Proof. exact layout_apart. Qed.
Print Assumptions C50_layout_disjoint.

(** fat_read_fat_entry returns the entry (28 bits on FAT32). *)
Theorem C50_read_entry : forall v k c, wf v -> 0 <= k < nfats (vh v) -> 0 <= c < sp_clusters (vh v) + 2 ->
  read_fat v (fat_type (vh v)) k c = Ok (fat_val v k c).
Proof. exact read_fat_ok. Qed.
Print Assumptions C50_read_entry.

(** fat_write_fat_entry changes exactly the entry, keeping the top 4 bits on FAT32. *)
Theorem C50_write_entry : forall v k c val, wf v -> 0 <= k < nfats (vh v) -> 0 <= c < sp_clusters (vh v) + 2 ->
  0 <= val < (if sp_width (vh v) =? 2 then 65536 else 268435456) ->
  exists v', write_fat v (fat_type (vh v)) k c val = Ok v' /\ wf v' /\ vh v' = vh v /\
    fat_val v' k c = val /\
    (forall k' c', 0 <= k' < nfats (vh v) -> 0 <= c' < sp_clusters (vh v) + 2 -> (k, c) <> (k', c') ->
       fat_val v' k' c' = fat_val v k' c') /\
    (forall x, x < sp_fat_off (vh v) k c \/ sp_fat_off (vh v) k c + sp_width (vh v) <= x ->
       vm v' x = vm v x) /\
    (sp_width (vh v) = 4 ->
       vm v' (sp_fat_off (vh v) k c + 3) / 16 = vm v (sp_fat_off (vh v) k c + 3) / 16) /\
    (forall x, valid (vh v) x -> cdata v' x = cdata v x).
Proof. exact write_ok. Qed.
Print Assumptions C50_write_entry.

(** Reading a whole file gives its bytes, cut at the buffer's size. *)
Theorem C50_read_whole_file : forall v e l d bufsize fuel, wf v -> is_file v e l d -> 0 <= bufsize ->
  (length l < fuel)%nat ->
  read_whole_file fuel v e bufsize = Ok (firstn (Z.to_nat bufsize) d).
Proof. exact read_whole_ok. Qed.
Print Assumptions C50_read_whole_file.

(** Also when the chain ends before the size in the directory entry. *)
Theorem C50_read_short_chain : forall v e l bufsize fuel, wf v -> in_image v e -> chain v (de_cluster v e) l ->
  0 <= bufsize -> (length l < fuel)%nat ->
  read_whole_file fuel v e bufsize =
    Ok (firstn (Z.to_nat (Z.min (de_size v e) bufsize)) (content v l)).
Proof. exact read_whole_short. Qed.
Print Assumptions C50_read_short_chain.

(** Any sequence of reads and seeks on an open file behaves as a position in its bytes; not SEEK_END with an offset >= 0 (below). *)
Theorem C50_open_file_partial : forall M v e l d, wf v -> is_file v e l d -> 2147483648 <= M -> de_size v e < M ->
  forall fuel os, (length l < fuel)%nat -> ops_ok M d 0 os ->
  (bnd h <- open_handle v e; run fuel M v h os) = Ok (sp_run d 0 os).
Proof. exact history_ok. Qed.
Print Assumptions C50_open_file_partial.

(** SEEK_END with an offset >= 0 counts from the current position. *)
Theorem C50_seek_end_from_current : forall M v e l d, wf v -> is_file v e l d -> 2147483648 <= M -> de_size v e < M ->
  forall fuel os off, (length l < fuel)%nat -> ops_ok M d 0 os -> 0 <= off ->
  let p := fold_left (fun q o => snd (sp_step d q o)) os 0 in p + off < M ->
  (bnd h <- open_handle v e; run fuel M v h (os ++ [Seek off SEEK_END])) =
    Ok (sp_run d 0 os ++ [Pos (p + off)]).
Proof. exact end_after. Qed.
Print Assumptions C50_seek_end_from_current.

(** lseek(fd, 0, SEEK_END) right after open returns 0, not the size (600). *)
Theorem C50_seek_end_refuted : exists v e l d os, wf v /\ is_file v e l d /\
  Forall (fun o => in_range 2147483648 d 0 o) os /\
  (bnd h <- open_handle v e; run 10 2147483648 v h os) = Ok [Pos 0] /\
  sp_run d 0 os = [Pos 600].
Proof. exact seek_end_wrong. Qed.
Print Assumptions C50_seek_end_refuted.

(** On 32-bit systems a file of 2 GB or more is read as empty. *)
Theorem C50_big_file_32bit_refuted : forall fuel v e n p c, wf v -> in_image v e ->
  Z.testbit (vm v (e + 11)) 4 = false -> 2147483648 <= de_size v e -> 0 <= p ->
  fat_read fuel 2147483648 v (Handle e p c) n = Ok (0, [], Handle e p c).
Proof. exact big_file_empty. Qed.
Print Assumptions C50_big_file_32bit_refuted.

(** A file of 600 bytes in two clusters: seek back and forth, past the end. *)
Example C50_nontrivial : wf v16 /\ is_file v16 9216 [5; 9] d16 /\
  (bnd h <- open_handle v16 9216;
   run 10 2147483648 v16 h [Read 2; Seek 509 SEEK_CUR; Read 3; Seek (-600) SEEK_END; Read 3;
                            Seek 900 SEEK_SET; Read 5; Seek (-388) SEEK_CUR; Read 2])
  = Ok [Data [1; 2]; Pos 511; Data [0; 7; 8]; Pos 0; Data [1; 2; 3]; Pos 900; Data [];
        Pos 512; Data [7; 8]].
Proof. split; [exact v16_wf|]. split; [exact v16_file|]. vm_compute. reflexivity. Qed.

(** A mapping of whole clusters maps each page onto the file's bytes at that offset, up to the end of the chain. *)
Theorem C57_mmap_partial : forall v e l off len vaddr fuel, wf v -> in_image v e -> chain v (de_cluster v e) l ->
  csize v mod PAGE = 0 -> off mod csize v = 0 -> len mod csize v = 0 -> 0 <= off -> 0 <= len ->
  (length l < fuel)%nat ->
  exists pl, fat_mmap fuel v e off len vaddr = Ok pl /\
    map fst pl = map (fun k => vaddr + Z.of_nat k * PAGE)
      (seq 0 (Z.to_nat (Z.max 0 (Z.min (zlen l * csize v) (off + len) - off) / PAGE))) /\
    forall p q, In (p, q) pl -> 0 <= q /\ q + PAGE <= vsz v /\
      bytes (vm v) q PAGE =
        firstn (Z.to_nat PAGE) (skipn (Z.to_nat (off + (p - vaddr))) (content v l)).
Proof. exact mmap_ok. Qed.
Print Assumptions C57_mmap_partial.

(** Clusters of two pages: mapping the second page of a file maps its first page. *)
Theorem C57_mmap_inside_cluster_refuted : exists v e l va q, wf v /\ in_image v e /\ chain v (de_cluster v e) l /\
  csize v mod PAGE = 0 /\ fat_mmap 10 v e PAGE PAGE va = Ok [(va, q)] /\
  vm v q = 1 /\ znth 0 (content v l) PAGE = 2.
Proof. exact mmap_middle_wrong. Qed.
Print Assumptions C57_mmap_inside_cluster_refuted.

(** Mapping only the first page fails an assertion. *)
Theorem C57_mmap_part_of_cluster_refuted : exists v e l, wf v /\ in_image v e /\ chain v (de_cluster v e) l /\
  csize v mod PAGE = 0 /\ fat_mmap 10 v e 0 PAGE 1073741824 = Assert.
Proof. exact mmap_part_assert. Qed.
Print Assumptions C57_mmap_part_of_cluster_refuted.

(** Mapping an empty file maps memory that is not the file's, here outside the image. *)
Theorem C57_mmap_empty_file_refuted : exists v e q, wf v /\ in_image v e /\ de_cluster v e = 0 /\ de_size v e = 0 /\
  csize v mod PAGE = 0 /\
  fat_mmap 10 v e 0 8192 1073741824 = Ok [(1073741824, q); (1073745920, q + PAGE)] /\ vsz v <= q.
Proof. exact mmap_empty_maps. Qed.
Print Assumptions C57_mmap_empty_file_refuted.

Example C57_nontrivial : wf vmm /\ chain vmm 5 [5] /\
  fat_mmap 10 vmm 11776 0 8192 1073741824 = Ok [(1073741824, 36864); (1073745920, 40960)].
Proof. split; [exact vmm_wf|]. split; [exact vmm_chain|]. vm_compute. reflexivity. Qed.

(** Year, month, day, hour and minute of a time stamp are decoded as packed; the seconds are the stored units of two seconds, not doubled. *)
Theorem C60_time_stamp_partial : forall y mo dd hh mi s tenth, 1980 <= y <= 2107 -> 0 <= mo < 16 -> 0 <= dd < 32 ->
  0 <= hh < 24 -> 0 <= mi < 60 -> 0 <= s < 60 ->
  exists s', datetime (pack_date y mo dd) (pack_time hh mi s) tenth = (y, mo, dd, hh, mi, s') /\
    s' = s / 2 + tenth / 10.
Proof. exact date_ok. Qed.
Print Assumptions C60_time_stamp_partial.

(** 2026-11-16 14:45:50 becomes 14:45:25 *)
Theorem C60_seconds_refuted : exists y mo dd hh mi s, 
  datetime (pack_date y mo dd) (pack_time hh mi s) 0 = (y, mo, dd, hh, mi, 25) /\ s = 50.
Proof. exact (ex_intro _ 2026 (ex_intro _ 11 (ex_intro _ 16 (ex_intro _ 14 (ex_intro _ 45 (ex_intro _ 50 (conj eq_refl eq_refl))))))). Qed.
Print Assumptions C60_seconds_refuted.

