(** Where moving the data of a FAT volume departs from the claim, and an example. *)
From Coq Require Import String Ascii.
From Verif Require Import Lib Fat_Model Fat_Spec Fat_Proofs Fat_Proofs2 Fat_Refuted
  Fatdir_Model Fatdir_Spec Fatdir_Refuted Fatcomp_Model Fatcomp_Spec Fatcomp_Refuted
  Fatalign_Spec Fatalign_Proofs Fatalign_Proofs2.

(** a volume that is aligned already *)
Lemma already_aligned v page c : wf v -> 0 < page -> page mod bps (vh v) = 0 -> last v c ->
  (sp_data_sector (vh v) * bps (vh v)) mod page = 0 -> align v page = Assert.
Proof.
  intros W P PM L A. unfold align. cbv zeta. rewrite (used_ok v c W L). cbn [bind].
  rewrite (fds_eq v W).
  assert (S : u32 (sp_data_sector (vh v) * bps (vh v)) = sp_data_sector (vh v) * bps (vh v)).
  { destruct L as [LR _ _]. assert (V : valid (vh v) (c + 1)) by (unfold valid; lia).
    destruct (cluster_off_bounds v W (c + 1) V) as (B1 & _ & B2). pose proof (wf_4g v W).
    pose proof (data_in v W). pose proof (csize_pos v W). apply Lib.u32_small. lia. }
  rewrite S, A. rewrite Z.sub_0_r, PM. change (negb (0 =? 0) || negb (0 =? 0)) with false. cbn iota.
  replace (page =? 0) with false by lia. unfold aligned. rewrite (fds_eq v W), S, A. reflexivity.
Qed.
Lemma zero_rest l a : Forall (fun q => a < fst q \/ fst q + zlen (snd q) <= a) l -> img l a = 0.
Proof.
  induction 1 as [|[p d] l H F IH]; [reflexivity|]. cbn [img]. cbn [fst snd] in H.
  destruct (_ && _) eqn:Q; [lia|exact IH].
Qed.

(** 65525 clusters, FAT32: seven sectors later it is taken for FAT16 *)
Definition hflip : hdr := Hdr 512 1 33 1 0 0 0 66070 512 2.
Definition vflip : vol := Vol hflip 33827840 (img [(16896, [248; 255; 255; 15; 255; 255; 255; 15; 255; 255; 255; 15])]).
Lemma vflip_wf : wf vflip.
Proof. apply wfb_ok; [reflexivity|]. apply img_byte. vm_compute. reflexivity. Qed.
Lemma vflip_mov : movable vflip 4096 2.
Proof.
  constructor; [vm_compute; reflexivity|vm_compute; reflexivity|vm_compute; discriminate| |
    vm_compute; discriminate|vm_compute; reflexivity].
  constructor; [split; [lia|vm_compute; reflexivity]|split; vm_compute; discriminate|].
  intros x X. left. change (sp_clusters (vh vflip)) with 65525 in X.
  unfold fat_val. change (sp_width (vh vflip) =? 2) with false. cbn iota.
  replace (sp_fat_off (vh vflip) 0 x) with (16896 + 4 * x)
    by (unfold sp_fat_off; change (sp_width (vh vflip)) with 4; cbn [vh vflip hflip rsvd bps]; lia).
  cbn [vm vflip].
  assert (Z1 : forall a, 16908 <= a -> img [(16896, [248; 255; 255; 15; 255; 255; 255; 15; 255; 255; 255; 15])] a = 0).
  { intros a A. apply zero_rest. apply Forall_cons; [|constructor]. cbn [fst snd]. unfold zlen. cbn [List.length]. lia. }
  rewrite !Z1 by lia. reflexivity.
Qed.
Lemma type_flips : exists v c v', wf v /\ movable v 4096 c /\ align v 4096 = Ok v' /\
  sp_width (vh v) = 4 /\ sp_width (vh v') = 2 /\ fat_val v 0 3 = 0 /\ fat_val v' 0 3 = 4095.
Proof.
  destruct (align_ok vflip 4096 2 vflip_wf vflip_mov) as (v' & E & EH & _ & _ & IN & _).
  exists vflip, 2, v'. split; [exact vflip_wf|]. split; [exact vflip_mov|]. split; [exact E|].
  split; [reflexivity|]. rewrite EH. split; [vm_compute; reflexivity|]. split; [vm_compute; reflexivity|].
  unfold fat_val. rewrite EH. change (gap (vh vflip) 4096) with 3584 in *.
  change (sp_width (shifted (vh vflip) (3584 / bps (vh vflip))) =? 2) with true. cbv zeta iota.
  change (sp_fat_off (shifted (vh vflip) (3584 / bps (vh vflip))) 0 3) with (16902 + 3584).
  change (16902 + 3584 + 1) with (16903 + 3584).
  change (rsvd (vh vflip) * bps (vh vflip)) with 16896 in IN.
  change (used_end (vh vflip) 2) with 280064 in IN.
  assert (A1 : vm v' (16902 + 3584) = 255) by (rewrite (IN 16902 ltac:(clear; lia)); vm_compute; reflexivity).
  assert (A2 : vm v' (16903 + 3584) = 15) by (rewrite (IN 16903 ltac:(clear; lia)); vm_compute; reflexivity).
  rewrite A1, A2. reflexivity.
Qed.

(** a file in the last cluster is not moved *)
Definition htail : hdr := Hdr 512 8 1 1 16 0 17 32826 0 0.
Definition ltail : list (Z * list Z) :=
  [(512, [248; 255; 255; 255]); (8714, [255; 255]); (9216, ent "A       TXT" 32 4101); (16799232, [65])].
Definition vtail : vol := Vol htail 16806912 (img ltail).
Lemma vtail_wf : wf vtail.
Proof. apply wfb_ok; [reflexivity|]. apply img_byte. vm_compute. reflexivity. Qed.
Lemma vtail_mov : movable vtail 4096 1.
Proof.
  constructor; [vm_compute; reflexivity|vm_compute; reflexivity|vm_compute; discriminate| |
    vm_compute; discriminate|vm_compute; reflexivity].
  constructor; [split; [lia|vm_compute; reflexivity]|split; vm_compute; discriminate|].
  intros x X. left. change (sp_clusters (vh vtail)) with 4100 in X.
  unfold fat_val. change (sp_width (vh vtail) =? 2) with true. cbn iota.
  replace (sp_fat_off (vh vtail) 0 x) with (512 + 2 * x)
    by (unfold sp_fat_off; change (sp_width (vh vtail)) with 2; cbn [vh vtail htail rsvd bps]; lia).
  assert (Z1 : forall a, 516 <= a < 8714 -> img ltail a = 0).
  { intros a A. apply zero_rest. unfold ltail.
    repeat (apply Forall_cons; [cbn [fst snd]; unfold zlen; cbn [List.length ent app map]; lia|]). constructor. }
  change (img ltail (512 + 2 * x) + 256 * img ltail (512 + 2 * x + 1) = 0).
  rewrite !Z1 by lia. reflexivity.
Qed.
Lemma tail_lost : exists v c v', wf v /\ movable v 4096 c /\ align v 4096 = Ok v' /\
  same_kind (vh v) (vh v') /\ chain v 4101 [4101] /\ chain v' 4101 [4101] /\
  cdata v' 4101 <> cdata v 4101.
Proof.
  destruct (align_run vtail 4096 1 vtail_wf vtail_mov) as (m & E & IN & OUT & _).
  eexists vtail, 1, _. split; [exact vtail_wf|]. split; [exact vtail_mov|]. split; [exact E|].
  change (gap (vh vtail) 4096) with 2560 in *.
  split. { constructor; [vm_compute; discriminate|vm_compute; discriminate|vm_compute; reflexivity]. }
  split. { apply chain_last; [vld|]. vld. }
  change (rsvd (vh vtail) * bps (vh vtail)) with 512 in *.
  change (used_end (vh vtail) 1) with 10240 in *.
  split.
  { apply chain_last; [vld|]. unfold fat_val. cbn [vh vm].
    set (h' := shifted (vh vtail) (2560 / bps (vh vtail))).
    change (sp_width h' =? 2) with true. cbv zeta iota.
    change (sp_fat_off h' 0 4101) with (8714 + 2560). change (8714 + 2560 + 1) with (8715 + 2560).
    assert (A1 : m (8714 + 2560) = 255) by (rewrite (IN 8714 ltac:(clear; lia)); vm_compute; reflexivity).
    assert (A2 : m (8715 + 2560) = 255) by (rewrite (IN 8715 ltac:(clear; lia)); vm_compute; reflexivity).
    rewrite A1, A2. vld. }
  unfold cdata. intros Q. apply (f_equal (fun l => znth 0 l 0)) in Q.
  rewrite !bytes_nth in Q by (vm_compute; split; [discriminate|reflexivity]). cbn [vm vh] in Q.
  set (h' := shifted (vh vtail) (2560 / bps (vh vtail))) in *.
  change (sp_cluster_off h' 4101 + 0) with 16801792 in Q.
  rewrite (OUT 16801792 ltac:(right; clear; lia)) in Q. revert Q. vm_compute. discriminate.
Qed.

(** the example of compaction, then moved to a page boundary *)
Lemma vc_both : exists v1 v2 l2 rs2, compact 3 (Z.to_nat 9000) vc = Ok v1 /\ align v1 4096 = Ok v2 /\ wf v2 /\
    (sp_data_sector (vh v2) * bps (vh v2)) mod 4096 = 0 /\
    holds v2 [] rs2 vc_tree l2 /\ view_of rs2 = view_of (map (raw vc) (root_slots vc [])).
Proof.
  apply (compact_align vc [] _ vc_tree [5; 9; 7; 12; 6]).
  - exact vc_wf.
  - exact vc_holds.
  - intros _. vm_compute. discriminate.
  - exists 2. split; [vld|reflexivity].
  - cbn. lia.
  - change (sp_clusters (vh vc)) with 4100. lia.
  - exact vc_all.
  - intros c x [].
  - discriminate.
  - lia.
  - reflexivity.
  - vm_compute. discriminate.
  - constructor; vm_compute; try discriminate; reflexivity.
  - vm_compute. discriminate.
  - reflexivity.
  - vm_compute. discriminate.
Qed.
