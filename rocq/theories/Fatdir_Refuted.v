(** Concrete directories, and where the walk departs from the specification. *)
From Coq Require Import String Ascii.
From Verif Require Import Lib Fat_Model Fat_Spec Fat_Proofs Fat_Proofs2 Fat_Proofs3 Fat_Refuted
  Fatdir_Model Fatdir_Spec Fatdir_Proofs Fatdir_Proofs2 Fatdir_Proofs4.

Definition z (s : string) : list Z := map (fun a => Z.of_N (N_of_ascii a)) (list_ascii_of_string s).
Definition ent (name : string) (at_ clu : Z) : list Z :=
  z name ++ [at_; 0; 0; 0; 0; 0; 0; 0; 0; 0; 0; 0; 0; 0; 0; clu mod 256; clu / 256; 0; 0; 0; 0].
Definition at_slots (slot : Z -> Z) (rs : list (list Z)) : list (Z * list Z) :=
  combine (map (fun i => slot (Z.of_nat i)) (seq 0 (length rs))) rs.
Definition dir_atb (v : vol) (slot : Z -> Z) (n : Z) (l : list item) : bool :=
  (zlen (raws l) <=? n) &&
  forallb (fun i => leq (bytes (vm v) (slot (Z.of_nat i)) 32) (znth [] (raws l) (Z.of_nat i)))
    (seq 0 (length (raws l))) &&
  ((n <=? zlen (raws l)) || ((vm v (slot (zlen (raws l))) =? 0) &&
     negb (Z.testbit (vm v (slot (zlen (raws l)) + 11)) 3))).
Lemma dir_atb_ok v slot n l : ok None l -> dir_atb v slot n l = true -> dir_at v slot n l.
Proof.
  unfold dir_atb. rewrite !andb_true_iff. intros O ((A & B) & C). constructor; auto.
  - lia.
  - intros i I. rewrite forallb_forall in B. specialize (B (Z.to_nat i)).
    rewrite Z2Nat.id in B by lia. apply leq_iff, B. apply in_seq. unfold zlen in I. lia.
  - intros L. apply orb_true_iff in C. destruct C as [C|C]; [lia|].
    apply andb_true_iff in C. destruct C as [C1 C2]. apply negb_true_iff in C2. split; [lia|exact C2].
Qed.

(** * A volume: root with a label, a deleted entry, a long name and a directory; the directory
    has two clusters, an entry with a long name across them *)
Definition root1 : list item :=
  [Skip (ent "MYDISK     " 8 0); Short (ent "A       TXT" 32 0);
   Skip (229 :: tl (ent "XOLD    TXT" 32 0));
   Long (z "long-file-name.text") (ent "LONG-F~1TEX" 32 0); Short (ent "SUB        " 16 5)].
Definition dead (k : Z) (s : string) : list Z := 229 :: tl (lfn_raw 65 k (z s)).
Definition sub1 : list item :=
  [Short (ent ".          " 16 5); Short (ent "..         " 16 0)] ++
  map (fun c => Short (ent (String c "          ") 32 0)) (list_ascii_of_string "CDEFGHIJKLM") ++
  [Junk 7 [dead 7 "gone"; dead 7 "gone"]; Long (z "across-the-clusters.tar.gz") (ent "ACROSS~1GZ " 32 0)].
Definition s5 : Z -> Z := cslot v16 [5; 9].
Definition vd : vol :=
  Vol h16 2108928 (img (tab16 ++ at_slots (rslot v16) (raws root1) ++ at_slots s5 (raws sub1))).
Lemma vd_wf : wf vd.
Proof. apply wfb_ok; [reflexivity|]. apply img_byte. vm_compute. reflexivity. Qed.
Lemma vd_chain : chain vd 5 [5; 9].
Proof.
  apply chain_cons; [vld|]. change (fat_val vd 0 5) with 9. apply chain_last; [vld|]. vld.
Qed.
Ltac chr := split; [lia|cbn; intros H; decompose [or] H; try discriminate; try contradiction].
Ltac nm := split; [vm_compute; split; discriminate|
  match goal with |- Forall _ ?l => let x := eval vm_compute in l in change l with x end;
  repeat (constructor; [chr|]); constructor].
Ltac lv := vm_compute; repeat split; discriminate.
Lemma root1_ok : ok None root1.
Proof.
  cbn [ok root1]. split. { split; [reflexivity|]. split; [vm_compute; discriminate|left; reflexivity]. }
  split; [lv|]. split; [discriminate|].
  split. { split; [reflexivity|]. split; [vm_compute; discriminate|right; reflexivity]. }
  split; [lv|]. split; [nm|]. split; [discriminate|].
  split; [lv|]. split; [discriminate|exact Logic.I].
Qed.
Lemma sub1_ok : ok None sub1.
Proof.
  unfold sub1. cbn [list_ascii_of_string map app ok].
  do 13 (split; [lv|]; split; [discriminate|]).
  split. { repeat constructor; vm_compute; repeat split; discriminate. }
  split; [cbn; lia|]. split; [lia|]. split; [discriminate|].
  split; [lv|]. split; [nm|]. split; [vm_compute; discriminate|exact Logic.I].
Qed.
Lemma vd_root : dir_of vd 0 (rslot v16) root1.
Proof.
  split; [discriminate|]. split; [reflexivity|]. apply dir_atb_ok; [exact root1_ok|].
  vm_compute. reflexivity.
Qed.
Lemma vd_sub : dir_of vd 5 s5 sub1.
Proof.
  exists [5; 9]. split; [exact vd_chain|]. split; [reflexivity|]. apply dir_atb_ok; [exact sub1_ok|].
  vm_compute. reflexivity.
Qed.
Definition names (x : res (list (Z * list Z * bool))) : res (list (list Z)) :=
  bnd l <- x; Ok (map (fun y => snd (fst y)) l).

(** * Departures *)
(** long-name entries left behind by a deleted file, with the checksum of the entry that follows:
    the entry is shown under the deleted name *)
Definition vdead : vol := Vol h16 2108928
  (img (tab16 ++ at_slots (rslot v16) [dead (short_sum (ent "A       TXT" 32 0)) "gone.txt"; ent "A       TXT" 32 0])).
Lemma stale_name : exists v e r, wf v /\ in_image v e /\ bytes (vm v) e 32 = r /\ live r /\
  vm v (e - 32) = 229 /\ sp_short r = z "A.TXT" /\
  getdents 10 v 0 = Ok [(e, z "gone.txt", false)].
Proof.
  exists vdead, (9216 + 32), (ent "A       TXT" 32 0).
  split. { apply wfb_ok; [reflexivity|]. apply img_byte. vm_compute. reflexivity. }
  split; [split; cbn; lia|]. split; [vm_compute; reflexivity|]. split; [lv|].
  split; [reflexivity|]. split; vm_compute; reflexivity.
Qed.

(** 20 such entries: the name buffer overflows *)
Definition vover : vol := Vol h16 2108928
  (img (tab16 ++ at_slots s5 (repeat (dead 7 "0123456789abc") 20))).
Lemma dead_overflow : exists v c cl, wf v /\ chain v c cl /\
  (forall i, 0 <= i < 20 -> vm v (cslot v cl i) = 229) /\
  vm v (cslot v cl 20) = 0 /\ vm v (cslot v cl 20 + 11) = 0 /\ getdents 10 v c = Oob.
Proof.
  exists vover, 5, [5; 9].
  split. { apply wfb_ok; [reflexivity|]. apply img_byte. vm_compute. reflexivity. }
  split. { apply chain_cons; [vld|]. change (fat_val vover 0 5) with 9. apply chain_last; [vld|]. vld. }
  split.
  { assert (H : forallb (fun i => vm vover (cslot vover [5; 9] (Z.of_nat i)) =? 229) (seq 0 20) = true)
      by (vm_compute; reflexivity).
    intros i I. rewrite forallb_forall in H. specialize (H (Z.to_nat i)).
    rewrite Z2Nat.id in H by lia. apply Z.eqb_eq, H. apply in_seq. lia. }
  split; [reflexivity|]. split; [reflexivity|]. vm_compute. reflexivity.
Qed.

(** a long name with a space: shown by its short name *)
Definition vspace : vol := Vol h16 2108928
  (img (tab16 ++ at_slots (rslot v16) (enc (Long (z "my file.txt") (ent "MYFILE~1TXT" 32 0))))).
Lemma space_name : exists v n r, wf v /\
  (forall i, 0 <= i < 2 -> bytes (vm v) (rslot v i) 32 = znth [] (enc (Long n r)) i) /\
  live r /\ n = z "my file.txt" /\
  names (getdents 10 v 0) = Ok [z "MYFILE~1.TXT"].
Proof.
  exists vspace, (z "my file.txt"), (ent "MYFILE~1TXT" 32 0).
  split. { apply wfb_ok; [reflexivity|]. apply img_byte. vm_compute. reflexivity. }
  split. { intros i I. assert (E : i = 0 \/ i = 1) by lia. destruct E as [-> | ->]; vm_compute; reflexivity. }
  split; [lv|]. split; [reflexivity|]. vm_compute; reflexivity.
Qed.

(** a chain that comes back to itself: the walk does not end *)
Definition vcyc : vol := Vol h16 2108928
  (img ([(512 + 10, le2 5)] ++ at_slots (cslot v16 [5]) (repeat (repeat 229 11 ++ repeat 0 21) 16))).
Definition skipb (v : vol) (e : Z) : bool :=
  (0 <=? e) && (e + 32 <=? vsz v) && negb (attr (bytes (vm v) e 32) mod 16 =? 15) &&
  (znth 0 (bytes (vm v) e 32) 0 =? 229).
Lemma walk_skips {S} (cb : S -> vol -> Z -> option (list Z) -> res (S * vol * bool)) v es :
  forallb (skipb v) es = true -> forall s c,
  walk_list cb es s v (Some c) = Ok (s, v, Some c, false).
Proof.
  induction es as [|e es IH]; intros H s c; [reflexivity|]. cbn [forallb] in H.
  apply andb_true_iff in H. destruct H as [H1 H2]. cbn [walk_list]. unfold skipb in H1.
  rewrite !andb_true_iff in H1. destruct H1 as (((A & B) & C) & D).
  rewrite (one_skip cb v e (bytes (vm v) e 32) s c); [cbn [bind]; apply IH; exact H2|split; lia|reflexivity|].
  split; [apply bytes_len; lia|]. apply negb_true_iff in C. split; [lia|]. right. lia.
Qed.
Lemma cycle_hangs : exists v, wf v /\ fat_val v 0 5 = 5 /\ forall fuel, getdents fuel v 5 = Fuel.
Proof.
  exists vcyc. split. { apply wfb_ok; [reflexivity|]. apply img_byte. vm_compute. reflexivity. }
  split; [reflexivity|]. intros fuel. unfold getdents, walk.
  change (good_type (fat_type (vh vcyc))) with true. cbn iota. change (5 =? 0) with false. cbn iota.
  assert (W : walk_entries list_cb (Z.to_nat (entries_per_cluster (vh vcyc))) (cluster_ptr (vh vcyc) 5) []
                vcyc (Some (L false [] (-1))) = Ok ([], vcyc, Some (L false [] (-1)), false))
    by (rewrite walk_entries_list; apply (walk_skips list_cb vcyc); vm_compute; reflexivity).
  assert (R : read_fat vcyc (fat_type (vh vcyc)) 0 5 = Ok 5) by (vm_compute; reflexivity).
  assert (H : walk_clusters list_cb fuel 0 5 [] vcyc (Some (L false [] (-1))) = Fuel).
  { induction fuel as [|fuel IH]; [reflexivity|]. cbn [walk_clusters]. cbv zeta.
    change (5 =? 0) with false. cbn iota. rewrite W. cbn [bind]. rewrite R. cbn [bind].
    change (is_eoc (fat_type (vh vcyc)) 5) with false.
    change (is_bad (fat_type (vh vcyc)) 5) with false. cbn iota. exact IH. }
  rewrite H. reflexivity.
Qed.

(** a FAT16 root directory of 32 entries on a volume with 16 entries per cluster: the 17th entry
    is not seen *)
Definition h32e : hdr := Hdr 512 1 1 1 32 4120 17 0 0 0.
Definition vroot : vol := Vol h32e 2109440
  (img ([(512, [248; 255; 255; 255])] ++
    at_slots (fun i => 9216 + 32 * i) (repeat (229 :: tl (ent "XOLD    TXT" 32 0)) 16 ++ [ent "A       TXT" 32 0]))).
Lemma root_cut : exists v, wf v /\ rootent (vh v) = 32 /\ live (bytes (vm v) (rslot v 16) 32) /\
  (forall i, 0 <= i < 16 -> vm v (rslot v i) = 229) /\ getdents 10 v 0 = Ok [].
Proof.
  exists vroot. split. { apply wfb_ok; [reflexivity|]. apply img_byte. vm_compute. reflexivity. }
  split; [reflexivity|]. split; [lv|]. split; [|vm_compute; reflexivity].
  assert (H : forallb (fun i => vm vroot (rslot vroot (Z.of_nat i)) =? 229) (seq 0 16) = true)
    by (vm_compute; reflexivity).
  intros i I. rewrite forallb_forall in H. specialize (H (Z.to_nat i)).
  rewrite Z2Nat.id in H by lia. apply Z.eqb_eq, H. apply in_seq. lia.
Qed.
(** a full root directory smaller than a cluster: the data of a file is read as entries *)
Definition h2s : hdr := Hdr 512 2 1 1 16 8219 17 0 0 0.
Definition vspill : vol := Vol h2s 4208128
  (img ([(512, [248; 255; 255; 255])] ++
    at_slots (fun i => 9216 + 32 * i) (repeat (229 :: tl (ent "XOLD    TXT" 32 0)) 16 ++ [ent "DATA       " 32 0]))).
Lemma root_spill : exists v e, wf v /\ rootent (vh v) = 16 /\
  (forall i, 0 <= i < 16 -> vm v (rslot v i) = 229) /\
  sp_data_sector (vh v) * bps (vh v) <= e /\ getdents 10 v 0 = Ok [(e, z "DATA", false)].
Proof.
  exists vspill, 9728. split. { apply wfb_ok; [reflexivity|]. apply img_byte. vm_compute. reflexivity. }
  split; [reflexivity|]. split.
  { assert (H : forallb (fun i => vm vspill (rslot vspill (Z.of_nat i)) =? 229) (seq 0 16) = true)
      by (vm_compute; reflexivity).
    intros i I. rewrite forallb_forall in H. specialize (H (Z.to_nat i)).
    rewrite Z2Nat.id in H by lia. apply Z.eqb_eq, H. apply in_seq. lia. }
  split; vm_compute; [discriminate|reflexivity].
Qed.

(** a component of 256 characters overflows the buffer *)
Lemma component_overflow : exists v p, wf v /\ dir_of v 0 (rslot v16) root1 /\
  zlen (first_comp p) = 256 /\ search_entry 300 10 v p = Oob.
Proof.
  exists vd, (repeat 65 256). split; [exact vd_wf|]. split; [exact vd_root|]. split; vm_compute; reflexivity.
Qed.
(** a file in the middle of a path: not found instead of not a directory *)
Lemma middle_file : exists v p, wf v /\ lookup v 0 p NotDir /\ search_entry 10 10 v p = Ok NoEnt.
Proof.
  exists vd, (z "A.TXT/x"). split; [exact vd_wf|]. split; [|vm_compute; reflexivity].
  eapply (lk_file _ _ _ _ _ _ _ _ (z "x")); [exact vd_root| |reflexivity|discriminate|].
  - cbn [listing root1]. apply fm_hit. vm_compute. reflexivity.
  - reflexivity.
Qed.
(** the parent of a directory of the root *)
Lemma dotdot_lost : exists v, wf v /\ dir_of v 0 (rslot v16) root1 /\ dir_of v 5 s5 sub1 /\
  search_entry 20 10 v (z "A.TXT") = Ok (Found (9216 + 32)) /\
  search_entry 20 10 v (z "SUB/..") = Ok (Found (s5 1)) /\
  search_entry 20 10 v (z "SUB/../A.TXT") = Ok NoEnt.
Proof.
  exists vd. split; [exact vd_wf|]. split; [exact vd_root|]. split; [exact vd_sub|].
  repeat split; vm_compute; reflexivity.
Qed.
(** no label: the first directory of the root is taken for the root *)
Definition valias : vol := Vol h16 2108928
  (img (tab16 ++ at_slots (rslot v16) [ent "SUB        " 16 5; ent "A       TXT" 32 0] ++ at_slots s5 (raws sub1))).
Lemma first_dir_is_root : exists v d, wf v /\ dir_of v 5 s5 sub1 /\
  r_cluster (bytes (vm v) d 32) = 5 /\ r_dir (bytes (vm v) d 32) = true /\
  get_entry 10 v (root_off v) (z "SUB") = Ok (Some (d, true)) /\
  get_entry 10 v d (z "C") = Ok None /\
  get_entry 10 v d (z "A.TXT") = Ok (Some (d + 32, false)) /\
  get_entry 10 v d (z "SUB") = Ok (Some (d, true)).
Proof.
  exists valias, 9216. split. { apply wfb_ok; [reflexivity|]. apply img_byte. vm_compute. reflexivity. }
  split. { exists [5; 9].
    split. { apply chain_cons; [vld|]. change (fat_val valias 0 5) with 9. apply chain_last; [vld|]. vld. }
    split; [reflexivity|]. apply dir_atb_ok; [exact sub1_ok|]. vm_compute. reflexivity. }
  repeat split; vm_compute; reflexivity.
Qed.
