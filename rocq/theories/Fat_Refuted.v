(** Concrete volumes, and where the code departs from the specification. *)
From Verif Require Import Lib Fat_Model Fat_Spec Fat_Proofs Fat_Proofs2 Fat_Proofs3.

(** an image given by its non-zero parts *)
Fixpoint img (l : list (Z * list Z)) (a : Z) : Z :=
  match l with
  | [] => 0
  | (o, d) :: r => if (o <=? a) && (a <? o + zlen d) then znth 0 d (a - o) else img r a
  end.
Definition small (b : Z) : bool := (0 <=? b) && (b <? 256).
Lemma img_byte l : forallb (fun p => forallb small (snd p)) l = true ->
  forall a, 0 <= img l a < 256.
Proof.
  induction l as [|(o, d) l IH]; intros H a; cbn [img]; [lia|].
  cbn [forallb snd] in H. apply andb_prop in H as [H1 H2].
  destruct ((o <=? a) && (a <? o + zlen d)) eqn:E; [|apply IH; exact H2].
  rewrite forallb_forall in H1.
  assert (I : In (znth 0 d (a - o)) d) by (apply nth_In; unfold zlen in E; lia).
  apply H1 in I. unfold small in I. lia.
Qed.
Definition wfb (v : vol) : bool :=
  let h := vh v in
  existsb (Z.eqb (bps h)) [512; 1024; 2048; 4096] &&
  (1 <=? spc h) && (spc h <=? 128) && (1 <=? rsvd h) && (rsvd h <? 65536) &&
  (1 <=? nfats h) && (nfats h <? 256) && (0 <=? rootent h) && (rootent h <? 65536) &&
  (0 <=? fatsz16 h) && (1 <=? FATSz h) && (sp_data_sector h <=? TotSec h) &&
  (TotSec h * bps h <=? vsz v) && (vsz v <=? 4294967296) && (4085 <=? sp_clusters h) &&
  ((sp_clusters h + 2) * sp_width h <=? FATSz h * bps h).
Lemma wfb_ok v : wfb v = true -> (forall a, 0 <= vm v a < 256) -> wf v.
Proof.
  unfold wfb. rewrite !andb_true_iff. rewrite existsb_exists.
  intros ((((((((((((((((x & X1 & X2) & H1) & H2) & H3) & H4) & H5) & H6) & H7) & H8) & H9) & H10) & H11) & H12) & H13) & H14) & H15) B.
  apply Z.eqb_eq in X2. subst x.
  constructor; try assumption; lia.
Qed.

(** FAT16, 512-byte clusters, 4100 clusters; root directory at 9216, data from 9728 *)
Definition h16 : hdr := Hdr 512 1 1 1 16 4119 17 0 0 0.
Definition dent (name0 attr clu size : Z) : list Z :=
  [name0; 32; 32; 32; 32; 32; 32; 32; 32; 32; 32; attr; 0; 0; 0; 0; 0; 0; 0; 0;
   0; 0; 0; 0; 0; 0; clu mod 256; clu / 256; size mod 256; size / 256; 0; 0].
(** table: entries 0 and 1 reserved, 5 -> 9 -> end *)
Definition tab16 : list (Z * list Z) :=
  [(512, [248; 255; 255; 255]); (512 + 10, le2 9); (512 + 18, le2 65535)].
Definition v16 : vol :=
  Vol h16 2108928 (img (tab16 ++ [(9216, dent 65 32 5 600);
    (9728 + 3 * 512, [1; 2; 3]); (9728 + 7 * 512, [7; 8; 9])])).

Lemma v16_wf : wf v16.
Proof. apply wfb_ok; [reflexivity|]. apply img_byte. reflexivity. Qed.

Ltac vld := split; [vm_compute; discriminate | vm_compute; reflexivity].

Lemma v16_chain : chain v16 5 [5; 9].
Proof.
  apply chain_cons; [vld|]. change (fat_val v16 0 5) with 9.
  apply chain_last; [vld|]. vld.
Qed.

Definition d16 : list Z := firstn 600 (content v16 [5; 9]).
Lemma d16_len : zlen d16 = 600.
Proof. vm_compute. reflexivity. Qed.
Lemma v16_file : is_file v16 9216 [5; 9] d16.
Proof.
  constructor.
  - split; cbn; lia.
  - reflexivity.
  - intros _. exact v16_chain.
  - vm_compute. discriminate.
  - reflexivity.
Qed.

(** SEEK_END with offset 0: the position asked for is the end of the file *)
Lemma seek_end_wrong : exists v e l d os, wf v /\ is_file v e l d /\
  Forall (fun o => in_range 2147483648 d 0 o) os /\
  (bnd h <- open_handle v e; run 10 2147483648 v h os) = Ok [Pos 0] /\
  sp_run d 0 os = [Pos 600].
Proof.
  exists v16, 9216, [5; 9], d16, [Seek 0 SEEK_END].
  split; [exact v16_wf|]. split; [exact v16_file|]. split.
  - repeat constructor; try lia. intros _ p. unfold seek_to. rewrite d16_len. cbn. intros E. injection E as <-. lia.
  - split; vm_compute; reflexivity.
Qed.

(** 32-bit: a file of 2 GB or more reads as empty *)
Lemma big_file_empty fuel v e n p c : wf v -> in_image v e ->
  Z.testbit (vm v (e + 11)) 4 = false -> 2147483648 <= de_size v e -> 0 <= p ->
  fat_read fuel 2147483648 v (Handle e p c) n = Ok (0, [], Handle e p c).
Proof.
  intros W I R S P. unfold fat_read. cbn [h_e h_pos]. rewrite file_size_ok by assumption. cbn [bind].
  pose proof (de_size_range v e W) as SR.
  assert (E : sw 2147483648 (de_size v e) = de_size v e - 4294967296) by (unfold sw; lia).
  rewrite E. unfold e_byte. destruct I as [I1 I2]. rewrite ld_ok by lia. cbn [bind]. rewrite bytes_1.
  cbn [le]. rewrite Z.mul_0_r, Z.add_0_r. unfold is_dir. rewrite R. cbn iota.
  replace (de_size v e - 4294967296 <=? p) with true by lia. reflexivity.
Qed.

(** FAT16, clusters of two pages, data area page aligned (sector 24) *)
Definition hm : hdr := Hdr 512 16 6 1 16 0 17 65624 0 0.
Definition vmm : vol :=
  Vol hm 33599488 (img [(3072, [248; 255; 255; 255]); (3072 + 10, le2 65535);
    ((6 + 17) * 512, dent 65 32 5 8192); ((6 + 17) * 512 + 32, dent 66 32 0 0);
    (12288 + 3 * 8192, [1]); (12288 + 3 * 8192 + 4096, [2])]).
Lemma vmm_wf : wf vmm.
Proof. apply wfb_ok; [reflexivity|]. apply img_byte. reflexivity. Qed.
Lemma vmm_chain : chain vmm 5 [5].
Proof. apply chain_last; [vld|]. vld. Qed.

(** mapping the second page of the file maps its first page *)
Lemma mmap_middle_wrong : exists v e l va q, wf v /\ in_image v e /\ chain v (de_cluster v e) l /\
  csize v mod PAGE = 0 /\ fat_mmap 10 v e PAGE PAGE va = Ok [(va, q)] /\
  vm v q = 1 /\ znth 0 (content v l) PAGE = 2.
Proof.
  exists vmm, 11776, [5], 1073741824, (12288 + 3 * 8192).
  split; [exact vmm_wf|]. split; [split; cbn; lia|]. split; [exact vmm_chain|].
  split; [reflexivity|]. split; [vm_compute; reflexivity|]. split; [reflexivity|].
  rewrite content_nth; [reflexivity|exact vmm_wf|]. split; [vm_compute; discriminate|reflexivity].
Qed.

(** mapping the first page of a two-page cluster: assertion *)
Lemma mmap_part_assert : exists v e l, wf v /\ in_image v e /\ chain v (de_cluster v e) l /\
  csize v mod PAGE = 0 /\ fat_mmap 10 v e 0 PAGE 1073741824 = Assert.
Proof.
  exists vmm, 11776, [5].
  split; [exact vmm_wf|]. split; [split; cbn; lia|]. split; [exact vmm_chain|].
  split; [reflexivity|]. vm_compute; reflexivity.
Qed.

(** mapping an empty file maps memory before the data area (here before the image) *)
Lemma mmap_empty_maps : exists v e q, wf v /\ in_image v e /\ de_cluster v e = 0 /\ de_size v e = 0 /\
  csize v mod PAGE = 0 /\
  fat_mmap 10 v e 0 8192 1073741824 = Ok [(1073741824, q); (1073745920, q + PAGE)] /\ vsz v <= q.
Proof.
  exists vmm, 11808, (4294967296 - 4096).
  split; [exact vmm_wf|]. split; [split; cbn; lia|]. split; [reflexivity|]. split; [reflexivity|].
  split; [reflexivity|]. split; [vm_compute; reflexivity|]. cbn; lia.
Qed.

(** time stamps *)
Lemma date_ok y mo dd hh mi s tenth : 1980 <= y <= 2107 -> 0 <= mo < 16 -> 0 <= dd < 32 ->
  0 <= hh < 24 -> 0 <= mi < 60 -> 0 <= s < 60 ->
  exists s', datetime (pack_date y mo dd) (pack_time hh mi s) tenth = (y, mo, dd, hh, mi, s') /\
    s' = s / 2 + tenth / 10.
Proof.
  intros. unfold datetime, pack_date, pack_time.
  rewrite !Z.shiftr_div_pow2 by lia.
  change 127 with (Z.ones 7). change 15 with (Z.ones 4). change 31 with (Z.ones 5).
  change 63 with (Z.ones 6). rewrite !Z.land_ones by lia.
  change (2 ^ 9) with 512. change (2 ^ 7) with 128. change (2 ^ 5) with 32. change (2 ^ 4) with 16.
  change (2 ^ 11) with 2048. change (2 ^ 6) with 64.
  eexists. split; [|reflexivity].
  assert (E1 : ((y - 1980) * 512 + mo * 32 + dd) / 512 mod 128 + 1980 = y) by lia.
  assert (E2 : ((y - 1980) * 512 + mo * 32 + dd) / 32 mod 16 = mo) by lia.
  assert (E3 : ((y - 1980) * 512 + mo * 32 + dd) mod 32 = dd) by lia.
  assert (S2 : 0 <= s / 2 < 30) by lia. set (q := s / 2) in *. clearbody q.
  assert (E4 : (hh * 2048 + mi * 32 + q) / 2048 mod 32 = hh) by lia.
  assert (E5 : (hh * 2048 + mi * 32 + q) / 32 mod 64 = mi) by lia.
  assert (E6 : (hh * 2048 + mi * 32 + q) mod 32 = q) by lia.
  rewrite E1, E2, E3, E4, E5, E6. reflexivity.
Qed.
