(** Concrete volumes for compaction, and where it departs from the claim. *)
From Coq Require Import String Ascii.
From Verif Require Import Lib Fat_Model Fat_Spec Fat_Proofs Fat_Proofs2 Fat_Proofs4 Fat_Refuted
  Fatdir_Model Fatdir_Spec Fatdir_Proofs Fatdir_Proofs2 Fatdir_Proofs3 Fatdir_Proofs4 Fatdir_Refuted
  Fatcomp_Model Fatcomp_Spec Fatcomp_Proofs Fatcomp_Proofs2 Fatcomp_Proofs3 Fatcomp_Proofs4
  Fatcomp_Proofs5 Fatcomp_Proofs6 Fatcomp_Proofs7.

(** table entries at [base], from a list of (cluster, value) *)
Definition tab (base : Z) (l : list (Z * Z)) : list (Z * list Z) :=
  map (fun p => (base + 2 * fst p, le2 (snd p))) ((0, 65528) :: (1, 65535) :: l).

(** root: label, A in 5 9, SUB in 7; SUB: dot, dot dot, B in 12 6 *)
Definition rents : list (list Z) :=
  [ent "MYDISK     " 8 0; ent "A       TXT" 32 5; 229 :: tl (ent "XOLD    TXT" 32 0);
   ent "SUB        " 16 7; ent "EMPTY      " 32 0].
Definition sents : list (list Z) :=
  [ent ".          " 16 7; ent "..         " 16 0; ent "B       TXT" 32 12].
Definition vc : vol := Vol h16 2108928
  (img (tab 512 [(5, 9); (9, 65535); (7, 65535); (12, 6); (6, 65535)] ++
        at_slots (rslot v16) rents ++ at_slots (cslot v16 [7]) sents ++
        [(sp_cluster_off h16 5, [1; 2; 3]); (sp_cluster_off h16 9, [4; 5; 6]);
         (sp_cluster_off h16 12, [7; 8; 9]); (sp_cluster_off h16 6, [10; 11])])).
Definition vc_tree : list tree :=
  [File (content vc [5; 9]);
   Dir (view_of (map (raw vc) (slots vc [7]))) [File (content vc [12; 6])];
   File []].
Lemma vc_wf : wf vc.
Proof. apply wfb_ok; [reflexivity|]. apply img_byte. vm_compute. reflexivity. Qed.
Lemma vc_kids : kids_of (map (raw vc) (root_slots vc [])) =
  [ent "A       TXT" 32 5; ent "SUB        " 16 7; ent "EMPTY      " 32 0].
Proof. vm_compute. reflexivity. Qed.
Lemma vc_sub : kids_of (map (raw vc) (slots vc [7])) = [ent "B       TXT" 32 12].
Proof. vm_compute. reflexivity. Qed.
Lemma vc_chain1 : chain vc 5 [5; 9].
Proof. apply chain_cons; [vld|]. change (fat_val vc 0 5) with 9. apply chain_last; [vld|]. vld. Qed.
Lemma vc_chain2 : chain vc 7 [7].
Proof. apply chain_last; [vld|]. vld. Qed.
Lemma vc_chain3 : chain vc 12 [12; 6].
Proof. apply chain_cons; [vld|]. change (fat_val vc 0 12) with 6. apply chain_last; [vld|]. vld. Qed.
Lemma vc_holds : holds vc [] (map (raw vc) (root_slots vc [])) vc_tree [5; 9; 7; 12; 6].
Proof.
  constructor.
  - change (sp_width (vh vc) =? 2) with true. cbn iota. split; [discriminate|reflexivity].
  - reflexivity.
  - rewrite vc_kids. unfold vc_tree.
    change [5; 9; 7; 12; 6] with ([5; 9] ++ [7; 12; 6] ++ [] ++ []).
    apply reps_cons; [|apply reps_cons; [|apply reps_cons; [|apply reps_nil]]].
    + change (r_cluster (ent "A       TXT" 32 5)) with 5. change (r_dir _) with false.
      constructor. exact vc_chain1.
    + change (r_cluster (ent "SUB        " 16 7)) with 7. change (r_dir _) with true.
      change [7; 12; 6] with ([7] ++ [12; 6]). apply rep_dir; [exact vc_chain2|].
      rewrite vc_sub. change [12; 6] with ([12; 6] ++ []). apply reps_cons; [|apply reps_nil].
      change (r_cluster (ent "B       TXT" 32 12)) with 12. change (r_dir _) with false.
      constructor. exact vc_chain3.
    + change (r_cluster (ent "EMPTY      " 32 0)) with 0. change (r_dir _) with false. constructor.
  - cbn [app]. repeat constructor; cbn; intuition discriminate.
  - vm_compute. split; [discriminate|reflexivity].
  - vm_compute. discriminate.
Qed.
(** what is used after compaction, and where the entries point *)
Definition look (x : res vol) (cs es : list Z) : res (list Z * list Z) :=
  bnd v <- x; Ok (map (fat_val v 0) cs, map (de_cluster v) es).
Lemma vc_run : look (compact 3 20 vc) [2; 3; 4; 5; 6; 7; 8; 9; 10; 11; 12; 13]
    [rslot v16 1; rslot v16 3; cslot v16 [4] 2] =
  Ok ([3; 65535; 65535; 6; 65535; 0; 0; 0; 0; 0; 0; 0], [2; 4; 5]).
Proof. vm_compute. reflexivity. Qed.

(** * Departures *)
(** the dot entry of a directory that moved still names its old cluster, which is now free *)
Lemma stale_dot : exists v e d, wf v /\ raw v d = ent ".          " 16 (de_cluster v e) /\
  exists x, look (compact 3 20 v) [de_cluster v e] [e] = Ok ([0], [x]) /\ x <> de_cluster v e /\
    look (compact 3 20 v) [] [sp_cluster_off (vh v) x] = Ok ([], [de_cluster v e]).
Proof.
  exists vc, (rslot v16 3), (cslot v16 [7] 0). split; [exact vc_wf|]. split; [vm_compute; reflexivity|].
  exists 4. split; [vm_compute; reflexivity|]. split; [vm_compute; discriminate|].
  vm_compute. reflexivity.
Qed.
(** the second copy of the table is not updated *)
Definition h16x2 : hdr := Hdr 512 1 1 2 16 4136 17 0 0 0.
Definition vx2 : vol := Vol h16x2 2117632
  (img (tab 512 [(5, 65535)] ++ tab 9216 [(5, 65535)] ++ [(17920, ent "A       TXT" 32 5)])).
Definition look2 (x : res vol) (k : Z) (cs : list Z) : res (list Z) :=
  bnd v <- x; Ok (map (fat_val v k) cs).
Lemma second_table : exists v, wf v /\ nfats (vh v) = 2 /\
  look2 (Ok v) 0 [2; 5] = look2 (Ok v) 1 [2; 5] /\
  look2 (compact 2 20 v) 0 [2; 5] = Ok [65535; 0] /\ look2 (compact 2 20 v) 1 [2; 5] = Ok [0; 65535].
Proof.
  exists vx2. split. { apply wfb_ok; [reflexivity|]. apply img_byte. vm_compute. reflexivity. }
  split; [reflexivity|]. split; [vm_compute; reflexivity|]. split; vm_compute; reflexivity.
Qed.
(** FAT16: an entry of the root directory beyond the first cluster's worth is not visited, its
    file stays where it is *)
Definition h16r : hdr := Hdr 512 1 1 1 32 4120 17 0 0 0.
Definition vroot : vol := Vol h16r 2109440
  (img (tab 512 [(9, 65535)] ++
        at_slots (rslot v16) (repeat (ent "EMPTY      " 32 0) 16 ++ [ent "A       TXT" 32 9]))).
Lemma root_tail : exists v e, wf v /\ raw v e = ent "A       TXT" 32 9 /\
  e + 32 <= sp_data_sector (vh v) * bps (vh v) /\
  look (compact 2 20 v) [2; 9] [e] = Ok ([0; 65535], [9]).
Proof.
  exists vroot, (9216 + 32 * 16).
  split. { apply wfb_ok; [reflexivity|]. apply img_byte. vm_compute. reflexivity. }
  split; [vm_compute; reflexivity|]. split; [vm_compute; discriminate|]. vm_compute. reflexivity.
Qed.
(** FAT32: the clusters of the root directory are not moved *)
Definition h32c : hdr := Hdr 512 1 32 1 0 0 0 66145 513 9.
Definition vroot32 : vol := Vol h32c 33866240
  (img [(16384, le4 268435448 ++ le4 268435455); (16384 + 36, le4 268435455)]).
Lemma root32 : exists v, wf v /\ sp_width (vh v) = 4 /\ rootclus (vh v) = 9 /\ chain v 9 [9] /\
  look2 (compact 1 20 v) 0 [2; 9] = Ok [0; 268435455].
Proof.
  exists vroot32.
  split. { apply wfb_ok; [reflexivity|]. apply img_byte. vm_compute. reflexivity. }
  split; [reflexivity|]. split; [reflexivity|].
  split. { apply chain_last; [vld|]. vld. }
  vm_compute. reflexivity.
Qed.
(** the last two clusters do not count as used *)
Definition vlast : vol := Vol h16 2108928
  (img (tab 512 [(4101, 65535); (4100, 65535)] ++
        at_slots (rslot v16) [ent "A       TXT" 32 4101; ent "B       TXT" 32 4100])).
Lemma last_two : exists v e c, wf v /\ de_cluster v e = c /\ chain v c [c] /\
  used_bytes v = Ok (sp_cluster_off (vh v) 2 + 512) /\ 2 + 2 < c.
Proof.
  exists vlast, (rslot v16 0), 4101.
  split. { apply wfb_ok; [reflexivity|]. apply img_byte. vm_compute. reflexivity. }
  split; [vm_compute; reflexivity|]. split. { apply chain_last; [vld|]. vld. }
  split; [vm_compute; reflexivity|lia].
Qed.
(** a directory entry with first cluster 0 that is not dot or dot dot is taken for the root
    directory: the recursion never ends *)
Definition vloop : vol := Vol h16 2108928 (img (tab 512 [] ++ [(9216, ent "LOOP       " 16 0)])).
Lemma vloop_wf : wf vloop.
Proof. apply wfb_ok; [reflexivity|]. apply img_byte. vm_compute. reflexivity. Qed.
Lemma loop_cb fuel : sp_clusters h16 + 2 < Z.of_nat fuel -> forall d ffc x, rdy vloop ffc ->
  compact_cb d fuel ffc vloop (rslot v16 0) None <> Ok x.
Proof.
  intros FU. assert (IM : in_image vloop (rslot v16 0)) by (split; vm_compute; discriminate).
  induction d as [|d IH]; intros ffc x R; [discriminate|]. cbn [compact_cb].
  rewrite (first_cluster_ok vloop _ vloop_wf IM). cbn [bind].
  change (de_cluster vloop (rslot v16 0)) with 0.
  destruct (dots_iff vloop _ vloop_wf IM) as (n & -> & Q). cbn [bind].
  destruct (is_dots n) eqn:E.
  { exfalso. assert (D : dots (raw vloop (rslot v16 0))) by (apply Q; reflexivity). revert D.
    unfold dots. vm_compute. intros [D|D]; discriminate. }
  destruct (move_chain_empty (rslot v16 0) fuel vloop ffc R FU) as (f1 & E1 & R1 & _).
  rewrite E1. cbn [bind].
  rewrite (e_byte_ok vloop _ (raw vloop (rslot v16 0)) 11 IM eq_refl) by lia. cbn [bind].
  change (is_dir (znth 0 (raw vloop (rslot v16 0)) 11)) with true. cbn iota.
  rewrite (first_cluster_ok vloop _ vloop_wf IM). cbn [bind].
  change (de_cluster vloop (rslot v16 0)) with 0. unfold walk.
  change (good_type (fat_type (vh vloop))) with true. change (0 =? 0) with true. cbn iota.
  change (rootdir (vh vloop) (fat_type (vh vloop))) with (9216, 0). cbn iota.
  destruct fuel as [|fuel]; [discriminate|]. cbn [walk_clusters]. cbv zeta.
  change (0 =? 0) with true. cbn iota. change (Z.to_nat (entries_per_cluster (vh vloop))) with 16%nat.
  rewrite walk_entries_list, from_S. cbn [walk_list].
  change (9216 + 32 * 0) with (rslot v16 0).
  rewrite (one_none _ vloop _ _ IM).
  change (hid (raw vloop (rslot v16 0))) with false. cbn iota.
  change (znth 0 (raw vloop (rslot v16 0)) 0 =? 0) with false. cbn iota.
  specialize (IH f1). 
  destruct (compact_cb d (Datatypes.S fuel) f1 vloop (rslot v16 0) None) as [[[s1 v1] st]| | |] eqn:C;
    cbn [bind]; try discriminate.
  exfalso. apply (IH (s1, v1, st) R1). reflexivity.
Qed.
Lemma loops : exists v, wf v /\ forall d fuel x, sp_clusters (vh v) + 2 < Z.of_nat fuel ->
  compact d fuel v <> Ok x.
Proof.
  exists vloop. split; [exact vloop_wf|]. intros d fuel x FU. unfold compact.
  assert (IM : in_image vloop (rslot v16 0)) by (split; vm_compute; discriminate).
  assert (F0 : first_zero (Z.to_nat (cluster_count (vh vloop))) vloop 0 = Ok 2) by (vm_compute; reflexivity).
  rewrite F0. cbn [bind].
  assert (R : rdy vloop 2).
  { constructor; [exact vloop_wf|vld|vm_compute; discriminate|split; vm_compute; discriminate| |exists 2; split; [vld|vm_compute; reflexivity]].
    intros c C. assert (c = 0 \/ c = 1) as [->| ->] by lia; vm_compute; intros Q; discriminate. }
  unfold walk. change (good_type (fat_type (vh vloop))) with true. change (0 =? 0) with true. cbn iota.
  change (rootdir (vh vloop) (fat_type (vh vloop))) with (9216, 0). cbn iota.
  destruct fuel as [|fuel]; [discriminate|]. cbn [walk_clusters]. cbv zeta.
  change (0 =? 0) with true. cbn iota. change (Z.to_nat (entries_per_cluster (vh vloop))) with 16%nat.
  rewrite walk_entries_list, from_S. cbn [walk_list].
  change (9216 + 32 * 0) with (rslot v16 0).
  rewrite (one_none _ vloop _ _ IM).
  change (hid (raw vloop (rslot v16 0))) with false. cbn iota.
  change (znth 0 (raw vloop (rslot v16 0)) 0 =? 0) with false. cbn iota.
  destruct (compact_cb d (Datatypes.S fuel) 2 vloop (rslot v16 0) None) as [[[s1 v1] st]| | |] eqn:C;
    cbn [bind]; try discriminate.
  exfalso. apply (loop_cb (Datatypes.S fuel) FU d 2 (s1, v1, st) R). exact C.
Qed.
Lemma vc_all : all_used vc [5; 9; 7; 12; 6].
Proof.
  assert (Q : forallb (fun c => (fat_val vc 0 c =? 0) || existsb (Z.eqb c) [5; 9; 7; 12; 6])
    (map (fun n => 2 + Z.of_nat n) (seq 0 (Z.to_nat 4100))) = true) by (vm_compute; reflexivity).
  intros c [V1 V2] N. change (c < 4102) in V2. rewrite forallb_forall in Q. specialize (Q c).
  assert (I : In c (map (fun n => 2 + Z.of_nat n) (seq 0 (Z.to_nat 4100)))).
  { apply in_map_iff. exists (Z.to_nat (c - 2)). split; [lia|]. apply in_seq. lia. }
  specialize (Q I). apply orb_prop in Q. destruct Q as [Q|Q].
  - exfalso. apply N. unfold free. lia.
  - apply existsb_exists in Q. destruct Q as (x & X & E). replace c with x by lia. exact X.
Qed.
