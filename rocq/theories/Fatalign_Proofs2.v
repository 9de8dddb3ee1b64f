(** Compacting and then moving. *)
From Verif Require Import Lib Fat_Model Fat_Spec Fat_Proofs Fat_Proofs2 Fat_Proofs4
  Fatdir_Model Fatdir_Spec Fatcomp_Model Fatcomp_Spec Fatcomp_Proofs Fatcomp_Proofs2 Fatcomp_Proofs3
  Fatcomp_Proofs4 Fatcomp_Proofs7 Fatalign_Spec Fatalign_Proofs.

Theorem compact_align v rl rs ts l d fuel page : wf v -> holds v rl rs ts l -> root_fits v ->
  (exists c, valid (vh v) c /\ free v c) -> (depths ts < d)%nat ->
  2 * sp_clusters (vh v) + 3 < Z.of_nat fuel -> all_used v (rl ++ l) -> in_front rl -> rl ++ l <> [] ->
  let h := vh v in let g := gap h page in let h' := shifted h (g / bps h) in
  let n := zlen rl + zlen l in
  0 < page -> page mod bps h = 0 -> (sp_data_sector h * bps h) mod page <> 0 ->
  same_kind h h' -> 2 + n <= sp_clusters h' -> rsvd h' < 65536 ->
  sp_cluster_off h (2 + n) + bps h + g <= vsz v ->
  exists v1 v2 l2 rs2, compact d fuel v = Ok v1 /\ align v1 page = Ok v2 /\ wf v2 /\
    (sp_data_sector (vh v2) * bps (vh v2)) mod page = 0 /\
    holds v2 rl rs2 ts l2 /\ view_of rs2 = view_of rs.
Proof.
  intros W H RF FR D FU AU IF NE h g h' n P PM PN SK FIT RV ROOM.
  destruct (compact_dense v rl rs ts l d fuel W H RF FR D FU AU IF) as (v' & E & U).
  destruct (compact_ok v rl rs ts l d fuel W H RF FR D FU)
    as (v1 & l' & E1 & W1 & HH & HS & HO & VW & LN & ZE & _).
  rewrite E in E1. injection E1 as ->. fold n in U.
  assert (LN' : zlen l' = zlen l) by (unfold zlen; rewrite LN; reflexivity).
  assert (CL : sp_clusters h' <= sp_clusters h).
  { unfold sp_clusters. unfold h'. rewrite shifted_data. change (TotSec (shifted h (g / bps h))) with (TotSec h).
    cbn [shifted spc]. pose proof (wf_spc v W). pose proof (bps_pos v W).
    assert (0 <= g / bps h).
    { apply Z.div_pos; [|unfold h; lia]. unfold g, gap. pose proof (Z.mod_pos_bound (sp_data_sector h * bps h) page). lia. }
    apply Z.div_le_mono; unfold h in *; lia. }
  assert (N1 : 1 <= n).
  { destruct (rl ++ l) as [|x r] eqn:Q; [congruence|]. assert (A : zlen (rl ++ l) = 1 + zlen r) by (rewrite Q, zlen_cons; lia).
    rewrite zlen_app in A. pose proof (zlen_nonneg r). unfold n. lia. }
  assert (IN : forall c, valid h c -> c < 2 + n -> In c (rl ++ l')).
  { intros c V L. assert (NF : ~ free v1 c) by (apply U; [exact V|lia]).
    apply in_or_app. destruct (in_dec Z.eq_dec c rl) as [I|I]; [auto|]. right.
    destruct (in_dec Z.eq_dec c l') as [J|J]; [exact J|]. exfalso. apply NF. apply (ZE c V).
    split; [|exact J].
    assert (DEC : free v c \/ ~ free v c) by (unfold free; lia).
    destruct DEC as [Q|Q]; [auto|]. right. specialize (AU c V Q). apply in_app_or in AU.
    destruct AU; [contradiction|assumption]. }
  assert (GOOD : forall c, In c (rl ++ l') -> valid h c /\ ~ free v1 c /\ is_bad (sp_width (vh v1)) (fat0 v1 c) = false).
  { intros c C. unfold h. rewrite <- HH. apply in_app_or in C. destruct C as [C|C].
    - pose proof (h_root _ _ _ _ _ HO) as HR. destruct (_ =? 2).
      + destruct HR as [_ HR]. rewrite HR in C. destruct C.
      + split; [apply (chain_valid _ _ _ HR c C)|]. split; [apply (chain_nz v1 _ _ W1 HR c C)|].
        apply (chain_good v1 _ _ W1 HR c C).
    - pose proof (proj2 (rep_used v1 W1) _ _ _ (h_kids _ _ _ _ _ HO) c C) as [A B].
      split; [exact A|]. split; [exact B|]. apply (proj2 (rep_good v1 W1) _ _ _ (h_kids _ _ _ _ _ HO) c C). }
  assert (M : movable v1 page (1 + n)).
  { constructor; rewrite ?HH; fold h; fold g; try assumption.
    - constructor; rewrite ?HH; fold h.
      + lia.
      + assert (V : valid h (1 + n)) by (unfold valid; lia).
        destruct (GOOD (1 + n)) as (_ & NF & NB); [apply IN; [exact V|lia]|].
        split; [exact NF|]. intros Q. unfold h in Q. rewrite <- HH in Q. apply (bad_iff v1 _ W1) in Q. unfold fat0 in NB. congruence.
      + intros x X. left. assert (V : valid h x) by (unfold valid; lia).
        assert (DEC : free v1 x \/ ~ free v1 x) by (unfold free; lia).
        destruct DEC as [Q|Q]; [exact Q|]. apply (U x V) in Q. unfold n in X. lia.
    - unfold used_end. replace (1 + n + 1) with (2 + n) by lia. rewrite HS. exact ROOM. }
  destruct (align_keeps v1 page (1 + n) rl _ ts l' W1 M HO) as (v2 & E2 & W2 & H2 & _ & AL & HO2).
  - unfold root_fits. rewrite HH. unfold rslot. rewrite HH. rewrite (epc_hdr v v1 HH). exact RF.
  - rewrite HH. exact SK.
  - rewrite HH. fold h; fold g; fold h'. intros x X. destruct (GOOD x X) as (V & NF & _).
    apply (U x V) in NF. unfold valid in *. unfold n in *. lia.
  - exists v1, v2, l', (map (raw v1) (root_slots v1 rl)). split; [exact E|]. split; [exact E2|].
    split; [exact W2|]. split; [rewrite H2; exact AL|]. split; [exact HO2|exact VW].
Qed.
