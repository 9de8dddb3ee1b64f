(** Names, listing and lookup. *)
From Verif Require Import Lib Fat_Model Fat_Spec Fat_Proofs Fat_Proofs2 Fat_Proofs4 Fatdir_Model
  Fatdir_Spec Fatdir_Proofs Fatdir_Proofs2 Fatdir_Proofs3.

(** * Names *)
Lemma before_space l : to_space l = before 32 l.
Proof. induction l as [|c r IH]; cbn [to_space before]; [reflexivity|]. rewrite IH. reflexivity. Qed.
Lemma before_nul l : cstr l = before 0 l.
Proof. induction l as [|c r IH]; cbn [cstr before]; [reflexivity|]. rewrite IH. reflexivity. Qed.
Lemma before_slash l : comp l = before 47 l.
Proof. induction l as [|c r IH]; cbn [comp before]; [reflexivity|]. rewrite IH. reflexivity. Qed.
Lemma leq_iff a b : leq a b = true <-> a = b.
Proof.
  revert b. induction a as [|x a IH]; intros [|y b]; cbn [leq]; try (split; congruence).
  rewrite andb_true_iff, IH, Z.eqb_eq. split; [intros [-> ->]; reflexivity|intros [= -> ->]; auto].
Qed.
Lemma leq_neq a b : leq a b = false <-> a <> b.
Proof.
  rewrite <- (leq_iff a b). destruct (leq a b); split; congruence.
Qed.
Lemma short_ok v e r : in_image v e -> bytes (vm v) e 32 = r -> zlen r = 32 ->
  short_name v e = Ok (sp_short r).
Proof.
  intros I E L. unfold short_name. rewrite (name_ok11 v e r I E). cbn [bind].
  rewrite (e_byte_ok v e r 12 I E) by lia. cbn [bind]. f_equal. rewrite before_nul.
  unfold short_of, sp_short. cbv zeta. f_equal.
  assert (E8 : firstn 8 (firstn 11 r) = firstn 8 r) by (rewrite firstn_firstn; reflexivity).
  assert (E3 : skipn 8 (firstn 11 r) = firstn 3 (skipn 8 r)) by (rewrite firstn_skipn_comm; reflexivity).
  rewrite E8, E3, !before_space. f_equal.
  - destruct (Z.testbit _ 3); [reflexivity|]. rewrite map_id. reflexivity.
  - assert (NE : exists c t, firstn 3 (skipn 8 r) = c :: t).
    { destruct (firstn 3 (skipn 8 r)) as [|c t] eqn:Q; [|eauto].
      apply (f_equal (@length Z)) in Q. rewrite firstn_length, skipn_length in Q.
      unfold zlen in L. cbn [length] in Q. lia. }
    destruct NE as (c & t & ->). rewrite znth_cons_0. cbn [before].
    destruct (c =? 32); [reflexivity|]. f_equal.
    destruct (Z.testbit _ 4); [reflexivity|]. rewrite map_id. reflexivity.
Qed.

(** * The entries of a listing are in the image *)
Definition good (v : vol) (x : Z * option (list Z) * list Z) : Prop :=
  let '(e, _, r) := x in in_image v e /\ bytes (vm v) e 32 = r /\ live r.
Lemma listing_good v slot : forall l p i n,
  ok p l -> zlen (raws l) <= n ->
  (forall j, 0 <= j < n -> in_image v (slot (i + j))) ->
  (forall j, 0 <= j < zlen (raws l) -> bytes (vm v) (slot (i + j)) 32 = znth [] (raws l) j) ->
  Forall (good v) (listing slot i l).
Proof.
  induction l as [|x l IH]; intros p i n OK LE IM RW; [constructor|].
  assert (RS : raws (x :: l) = enc x ++ raws l) by reflexivity.
  rewrite RS in *. rewrite zlen_app in *.
  pose proof (zlen_nonneg (raws l)) as N0. pose proof (zlen_nonneg (enc x)) as N1.
  assert (REST : forall p', ok p' l -> Forall (good v) (listing slot (i + zlen (enc x)) l)).
  { intros p' OK'. apply (IH p' _ (n - zlen (enc x))); auto; [lia| |].
    - intros j J. rewrite <- Z.add_assoc. apply IM. lia.
    - intros j J. rewrite <- Z.add_assoc. rewrite RW by lia. rewrite znth_app2 by lia. f_equal. lia. }
  assert (LAST : forall r j, live r -> 0 <= j < zlen (enc x) -> znth [] (enc x) j = r ->
            good v (slot (i + j), None, r)).
  { intros r j LV J E. split; [apply IM; lia|]. split; [|exact LV].
    rewrite RW by lia. rewrite znth_app1 by lia. exact E. }
  destruct x as [r|nm r|r|k rs]; cbn [ok listing] in *.
  - destruct OK as (LV & _ & OK). constructor; [|apply (REST None OK)].
    destruct (LAST r 0 LV) as (A & B & C); [split; reflexivity|reflexivity|].
    rewrite Z.add_0_r in *. split; auto.
  - destruct OK as (LV & _ & _ & OK).
    assert (ZE : zlen (enc (Long nm r)) = Z.of_nat (parts nm) + 1).
    { unfold zlen. cbn [enc]. rewrite app_length, lfn_set_len. cbn [length]. lia. }
    constructor.
    + destruct (LAST r (Z.of_nat (parts nm)) LV) as (A & B & C); [lia| |split; auto].
      cbn [enc]. rewrite znth_app2 by (unfold zlen; rewrite lfn_set_len; lia).
      unfold zlen. rewrite lfn_set_len, Z.sub_diag. reflexivity.
    + replace (i + Z.of_nat (parts nm) + 1) with (i + zlen (enc (Long nm r))) by lia.
      apply (REST None OK).
  - apply (REST p). apply OK.
  - apply (REST (Some k)). apply OK.
Qed.
Lemma dir_good v clu slot l : wf v -> dir_of v clu slot l -> Forall (good v) (listing slot 0 l).
Proof.
  intros W D. unfold dir_of in D. destruct (epc_pos v W) as [EP _].
  destruct ((clu =? 0) && (sp_width (vh v) =? 2)).
  - destruct D as (F & -> & [OK FIT RAW EN]). apply (listing_good v (rslot v) l None 0 (epc v)); auto.
    intros j J. cbn [Z.add]. apply rslot_in; auto.
  - destruct D as (cl & CH & -> & [OK FIT RAW EN]).
    apply (listing_good v (cslot v cl) l None 0 (zlen cl * epc v)); auto.
    intros j J. cbn [Z.add]. apply cslot_in; auto. apply (chain_valid _ _ _ CH).
Qed.

(** * Listing *)
Lemma name_of v x : good v x ->
  match (snd (fst x)) with Some l => Ok l | None => short_name v (fst (fst x)) end = Ok (sp_name x).
Proof.
  destruct x as [[e [n|]] r]; intros (I & E & LV); cbn [fst snd sp_name]; [reflexivity|].
  apply short_ok; auto. apply LV.
Qed.
Lemma visit_list v L : Forall (good v) L -> forall s,
  visit list_cb s v L = Ok (s ++ map (fun x => (fst (fst x), sp_name x, r_dir (snd x))) L).
Proof.
  intros F. induction F as [|[[e n] r] L G F IH]; intros s; cbn [visit map].
  - rewrite app_nil_r. reflexivity.
  - unfold list_cb. pose proof (name_of v (e, n, r) G) as N. cbn [fst snd] in N. rewrite N.
    destruct G as (I & E & LV). cbn [bind]. rewrite (e_byte_ok v e r 11 I E) by lia. cbn [bind].
    rewrite IH, <- app_assoc. reflexivity.
Qed.
Lemma list_pure v s e n s1 v1 st : list_cb s v e n = Ok (s1, v1, st) -> v1 = v.
Proof.
  unfold list_cb. destruct n as [l|]; [|destruct (short_name v e)]; cbn [bind]; try discriminate.
  all: destruct (e_byte v e 11); cbn [bind]; try discriminate; congruence.
Qed.
Theorem getdents_ok v clu slot l fuel : wf v -> dir_of v clu slot l ->
  (Z.to_nat (sp_clusters (vh v)) < fuel)%nat ->
  getdents fuel v clu =
  Ok (map (fun x => (fst (fst x), sp_name x, r_dir (snd x))) (listing slot 0 l)).
Proof.
  intros W D FU. unfold getdents.
  rewrite (walk_ok list_cb v clu slot l fuel [] W D (list_pure v) FU).
  rewrite (visit_list v _ (dir_good v clu slot l W D)). reflexivity.
Qed.

(** * Lookup *)
Lemma search_pure v s e n s1 v1 st : search_cb s v e n = Ok (s1, v1, st) -> v1 = v.
Proof.
  unfold search_cb.
  match goal with |- bind ?x _ = _ -> _ => destruct x as [[s2 pc]| | |]; cbn [bind]; try discriminate end.
  match goal with |- bind ?x _ = _ -> _ => destruct x as [m| | |]; cbn [bind]; try discriminate end.
  destruct (negb m); [congruence|].
  destruct (e_byte v e 11) as [at1| | |]; cbn [bind]; try discriminate.
  destruct (s_single s2 || _); [congruence|]. cbv zeta.
  destruct (tl (s_path s2)) as [|q p]; [destruct (is_dir at1); congruence|].
  destruct (negb (is_dir at1)); [congruence|].
  destruct (first_cluster v e); cbn [bind]; try discriminate. congruence.
Qed.
(** the state with the component fetched *)
Definition fetched (s : sctx) : sctx :=
  match s_pc s with
  | Some _ => s
  | None => SC (after (s_path s)) (s_single s) (Some (first_comp (s_path s))) (s_res s) (s_sub s)
              (s_notdir s)
  end.
Definition wanted (s : sctx) : list Z :=
  match s_pc s with Some c => c | None => first_comp (s_path s) end.
Lemma fetched_eq s : (s_pc s = None -> zlen (first_comp (s_path s)) < 256) ->
  match s_pc s with Some c => Ok (s, c) | None => fetch s end = Ok (fetched s, wanted s).
Proof.
  unfold fetched, wanted, fetch, after, first_comp. destruct (s_pc s); [reflexivity|].
  intros H. specialize (H eq_refl). rewrite !before_slash.
  replace (zlen _ <? 256) with true by lia. reflexivity.
Qed.
Lemma match_ok v x c : good v x ->
  exists m, match snd (fst x) with
            | Some l => Ok (leq l c)
            | None => bnd sn <- short_name v (fst (fst x)); Ok (same_nocase sn c)
            end = Ok m /\ (m = true <-> answers c x).
Proof.
  destruct x as [[e [n|]] r]; intros (I & E & LV); cbn [fst snd answers].
  - exists (leq n c). split; [reflexivity|]. apply leq_iff.
  - rewrite (short_ok v e r I E) by apply LV. cbn [bind]. eexists. split; [reflexivity|].
    unfold same_nocase. apply leq_iff.
Qed.
(** what happens at the entry that matches *)
Definition hit (v : vol) (s : sctx) (x : Z * option (list Z) * list Z) : sctx :=
  let '(e, _, r) := x in
  if s_single s || (match s_path s with [] => true | _ => false end) then
    SC (s_path s) (s_single s) (s_pc s) (Some e) (s_sub s) (s_notdir s)
  else match tl (s_path s) with
       | [] => if r_dir r then SC [] (s_single s) (s_pc s) (Some e) (s_sub s) (s_notdir s)
               else SC [] (s_single s) (s_pc s) (s_res s) (s_sub s) true
       | p => if r_dir r then SC p (s_single s) None (s_res s) (r_cluster r) (s_notdir s)
              else SC p (s_single s) (s_pc s) (s_res s) (s_sub s) (s_notdir s)
       end.
Lemma cluster_of v e r : in_image v e -> bytes (vm v) e 32 = r -> de_cluster v e = r_cluster r.
Proof.
  intros [A B] <-. unfold de_cluster, r_cluster. rewrite !bytes_nth by lia. reflexivity.
Qed.
Lemma hit_ok v s x : wf v -> good v x -> (s_pc s = None -> zlen (first_comp (s_path s)) < 256) ->
  answers (wanted s) x ->
  search_cb s v (fst (fst x)) (snd (fst x)) = Ok (hit v (fetched s) x, v, true).
Proof.
  intros W G B A. unfold search_cb. rewrite (fetched_eq s B). cbn [bind].
  destruct (match_ok v x (wanted s) G) as (m & E & M). rewrite E. cbn [bind].
  apply M in A. rewrite A. cbn [negb]. destruct x as [[e n] r]. cbn [fst snd].
  destruct G as (I & R & LV). rewrite (e_byte_ok v e r 11 I R) by lia. cbn [bind].
  unfold hit. fold (attr r). unfold is_dir. fold (r_dir r).
  destruct (s_single (fetched s) || _); [reflexivity|].
  destruct (tl (s_path (fetched s))) as [|q p]; [destruct (r_dir r); reflexivity|].
  destruct (r_dir r); cbn [negb]; [|reflexivity].
  rewrite (first_cluster_ok v e W I). cbn [bind]. rewrite (cluster_of v e r I R). reflexivity.
Qed.
Lemma miss_ok v s x : good v x -> (s_pc s = None -> zlen (first_comp (s_path s)) < 256) ->
  ~ answers (wanted s) x ->
  search_cb s v (fst (fst x)) (snd (fst x)) = Ok (fetched s, v, false).
Proof.
  intros G B A. unfold search_cb. rewrite (fetched_eq s B). cbn [bind].
  destruct (match_ok v x (wanted s) G) as (m & E & M). rewrite E. cbn [bind].
  destruct m; [exfalso; apply A, M; reflexivity|]. reflexivity.
Qed.
Lemma fetched_fix s : s_pc (fetched s) <> None /\ wanted (fetched s) = wanted s /\
  fetched (fetched s) = fetched s.
Proof.
  unfold fetched, wanted. destruct (s_pc s) eqn:E; cbn [s_pc]; rewrite ?E; repeat split; congruence.
Qed.
Lemma visit_search v L : wf v -> Forall (good v) L -> forall s r,
  (s_pc s = None -> zlen (first_comp (s_path s)) < 256) ->
  first_match (wanted s) L r ->
  visit search_cb s v L =
  Ok (match r with Some x => hit v (fetched s) x
      | None => match L with [] => s | _ => fetched s end end).
Proof.
  intros W F. induction F as [|x L G F IH]; intros s r B M.
  - inversion M; subst. reflexivity.
  - destruct x as [[e n] raw]. cbn [visit].
    inversion M as [|x' t A|x' t r' A M']; subst.
    + pose proof (hit_ok v s (e, n, raw) W G B A) as H. cbn [fst snd] in H. rewrite H. reflexivity.
    + pose proof (miss_ok v s (e, n, raw) G B A) as H. cbn [fst snd] in H. rewrite H. cbn [bind].
      destruct (fetched_fix s) as (F1 & F2 & F3).
      rewrite (IH (fetched s) r); [|intros; contradiction|rewrite F2; exact M'].
      rewrite F3. destruct r; [reflexivity|]. destruct L; reflexivity.
Qed.

Lemma fm_in c L r : first_match c L r -> forall P, Forall P L ->
  match r with Some x => P x | None => True end.
Proof.
  intros M P G. induction M as [|x t A|x t r A M IH]; [exact Logic.I| |]; inversion G; subst; [assumption|].
  apply IH. assumption.
Qed.
Theorem get_entry_ok v dir clu slot l fuel name r : wf v -> in_image v dir ->
  clu = (if dir =? root_off v then root_clu v else de_cluster v dir) ->
  dir_of v clu slot l -> (Z.to_nat (sp_clusters (vh v)) < fuel)%nat ->
  zlen (first_comp name) < 256 ->
  ~ (dir = root_off v /\ (first_comp name = [46] \/ first_comp name = [46; 46])) ->
  first_match (first_comp name) (listing slot 0 l) r ->
  get_entry fuel v dir name =
  Ok (match r with
      | None => None
      | Some (e, _, raw) =>
          Some (if r_dir raw && ((r_cluster raw =? 0) || (r_cluster raw =? root_clu v))
                then (root_off v, true) else (e, r_dir raw))
      end).
Proof.
  intros W I C D FU B ND M. unfold get_entry.
  assert (Q : (dir =? root_off v) && is_dots (comp name) = false).
  { apply not_true_is_false. intros Q. apply andb_true_iff in Q. destruct Q as [Q1 Q2].
    apply ND. split; [lia|]. unfold is_dots in Q2. rewrite before_slash in Q2.
    apply orb_true_iff in Q2. rewrite !leq_iff in Q2. exact Q2. }
  rewrite Q. unfold dir_cluster.
  assert (DC : (if dir =? root_off v then Ok (root_clu v) else first_cluster v dir) = Ok clu).
  { rewrite C. destruct (dir =? root_off v); [reflexivity|]. apply first_cluster_ok; assumption. }
  rewrite DC. cbn [bind].
  rewrite (walk_ok search_cb v clu slot l fuel _ W D (search_pure v) FU).
  pose proof (dir_good v clu slot l W D) as G.
  rewrite (visit_search v _ W G (search_init name true) r); [|intros _; exact B|exact M].
  cbn [bind]. destruct r as [[[e n] raw]|].
  - assert (GX : good v (e, n, raw)).
    { apply (fm_in _ _ _ M) in G. exact G. }
    cbn [hit fetched search_init s_pc s_single orb s_notdir s_res].
    destruct GX as (I2 & R & LV). rewrite (e_byte_ok v e raw 11 I2 R) by lia. cbn [bind].
    rewrite (first_cluster_ok v e W I2). cbn [bind]. rewrite (cluster_of v e raw I2 R).
    fold (attr raw). unfold is_dir. fold (r_dir raw).
    destruct (r_dir raw && _); reflexivity.
  - destruct (listing slot 0 l); reflexivity.
Qed.

Lemma comp_app p : p = first_comp p ++ after p.
Proof.
  unfold after, first_comp. induction p as [|c p IH]; [reflexivity|]. cbn [before].
  destruct (c =? 47); [reflexivity|]. cbn [length app skipn]. f_equal. exact IH.
Qed.
Definition outcome (s : sctx) : found :=
  match s_res s with Some e => Found e | None => if s_notdir s then NotDir else NoEnt end.
Lemma search_steps v : wf v -> forall clu p x, lookup v clu p x -> forall fuel n,
  (Z.to_nat (sp_clusters (vh v)) < fuel)%nat -> (length p <= n)%nat -> comps_ok p -> p <> [] ->
  exists s1, (bnd (s, _) <- walk search_cb fuel true clu (search_init p false) v;
              search_loop n fuel s v) = Ok s1 /\ agree x (outcome s1).
Proof.
  intros W clu p x LK. 
  assert (ST : forall clu p slot l r fuel, dir_of v clu slot l -> (Z.to_nat (sp_clusters (vh v)) < fuel)%nat ->
     comps_ok p -> first_match (first_comp p) (listing slot 0 l) r ->
     walk search_cb fuel true clu (search_init p false) v =
     Ok (match r with Some x => hit v (fetched (search_init p false)) x
         | None => match listing slot 0 l with [] => search_init p false | _ => fetched (search_init p false) end end, v)).
  { clear -W. intros clu p slot l r fuel D FU CO M.
    rewrite (walk_ok search_cb v clu slot l fuel _ W D (search_pure v) FU).
    rewrite (visit_search v _ W (dir_good v clu slot l W D) (search_init p false) r); [reflexivity| |exact M].
    intros _. apply (CO [] p). reflexivity. }
  induction LK as [clu p slot l D M|clu p slot l e nm r D M A|clu p slot l e nm r D M A
    |clu p slot l e nm r q x D M A Q RD RC LK IH|clu p slot l e nm r q D M A Q RD];
    intros fuel n FU N CO NE; rewrite (ST _ _ _ _ _ fuel D FU CO M); cbn [bind].
  - exists (match listing slot 0 l with [] => search_init p false | _ => fetched (search_init p false) end).
    split; [|destruct (listing slot 0 l); exact Logic.I].
    destruct n; destruct (listing slot 0 l); reflexivity.
  - cbn [hit fetched search_init s_pc s_path s_single]. rewrite A. cbn [orb].
    eexists. split; [destruct n; reflexivity|]. reflexivity.
  - cbn [hit fetched search_init s_pc s_path s_single]. rewrite A. cbn [orb tl].
    destruct (r_dir r); (eexists; split; [destruct n; reflexivity|]); reflexivity || exact Logic.I.
  - cbn [hit fetched search_init s_pc s_path s_single]. rewrite A. cbn [orb tl].
    destruct q as [|q0 q]; [congruence|]. rewrite RD.
    pose proof (comp_app p) as PA. rewrite A in PA.
    assert (LN : (length (q0 :: q) < n)%nat).
    { rewrite PA in N. rewrite app_length in N. cbn [length] in *. lia. }
    destruct n as [|n]; [lia|]. cbn [search_loop s_sub s_res s_path s_single s_pc s_notdir].
    replace (r_cluster r =? 0) with false by lia.
    destruct (IH fuel n FU) as (s1 & E1 & E2); [lia| |congruence|].
    + intros a b E. apply (CO (first_comp p ++ 47 :: a) b). rewrite PA at 1. rewrite E.
      rewrite <- app_assoc. reflexivity.
    + exists s1. split; [exact E1|exact E2].
  - cbn [hit fetched search_init s_pc s_path s_single]. rewrite A. cbn [orb tl].
    destruct q as [|q0 q]; [congruence|]. rewrite RD.
    eexists. split; [destruct n; reflexivity|]. exact Logic.I.
Qed.
Theorem search_ok v p x n fuel : wf v -> lookup v 0 p x -> p <> [] -> comps_ok p ->
  (Z.to_nat (sp_clusters (vh v)) < fuel)%nat -> (length p <= n)%nat ->
  exists y, search_entry n fuel v p = Ok y /\ agree x y.
Proof.
  intros W LK NE CO FU N. destruct (search_steps v W 0 p x LK fuel n FU N CO NE) as (s1 & E & A).
  exists (outcome s1). split; [|exact A]. unfold search_entry. destruct p as [|c p]; [congruence|].
  destruct (walk search_cb fuel true 0 (search_init (c :: p) false) v) as [[s v1]| | |];
    cbn [bind] in *; try discriminate. rewrite E. reflexivity.
Qed.
(** 8.3 names *)
Lemma before_pad c a k : ~ In c a -> before c (a ++ repeat c k) = a.
Proof.
  induction a as [|x a IH]; intros N; cbn [app].
  - destruct k; [reflexivity|]. cbn [repeat before]. rewrite Z.eqb_refl. reflexivity.
  - cbn [before]. destruct (Z.eqb_spec x c); [exfalso; apply N; left; congruence|].
    f_equal. apply IH. intros I. apply N. right. exact I.
Qed.
Lemma before_none c a : ~ In c a -> before c a = a.
Proof. intros N. rewrite <- (app_nil_r a) at 1. apply (before_pad c a 0 N). Qed.
Theorem short_83 base ext rest : (length base <= 8)%nat -> (length ext <= 3)%nat ->
  ~ In 32 (base ++ ext) -> ~ In 0 (base ++ ext) -> znth 0 rest 1 = 0 ->
  sp_short (base ++ repeat 32 (8 - length base) ++ ext ++ repeat 32 (3 - length ext) ++ rest) =
  base ++ match ext with [] => [] | _ => 46 :: ext end.
Proof.
  intros B X S0 N0 NT.
  assert (F8 : firstn 8 (base ++ repeat 32 (8 - length base) ++ ext ++ repeat 32 (3 - length ext) ++ rest)
             = base ++ repeat 32 (8 - length base)).
  { rewrite app_assoc, firstn_app. rewrite firstn_all2 by (rewrite app_length, repeat_length; lia).
    rewrite app_length, repeat_length. replace (8 - (length base + (8 - length base)))%nat with 0%nat by lia. cbn [firstn].
    apply app_nil_r. }
  assert (F3 : firstn 3 (skipn 8 (base ++ repeat 32 (8 - length base) ++ ext ++ repeat 32 (3 - length ext) ++ rest))
             = ext ++ repeat 32 (3 - length ext)).
  { rewrite app_assoc, skipn_app. rewrite skipn_all2 by (rewrite app_length, repeat_length; lia).
    rewrite app_length, repeat_length. replace (8 - (length base + (8 - length base)))%nat with 0%nat by lia. cbn [skipn app].
    rewrite app_assoc, firstn_app. rewrite firstn_all2 by (rewrite app_length, repeat_length; lia).
    rewrite app_length, repeat_length. replace (3 - (length ext + (3 - length ext)))%nat with 0%nat by lia. cbn [firstn].
    apply app_nil_r. }
  unfold sp_short. rewrite F8, F3.
  replace (znth 0 _ 12) with 0.
  2:{ rewrite !app_assoc. rewrite znth_app2.
      - assert (L : zlen (((base ++ repeat 32 (8 - length base)) ++ ext) ++ repeat 32 (3 - length ext)) = 11).
        { unfold zlen. rewrite !app_length, !repeat_length. lia. }
        rewrite L. symmetry. exact NT.
      - unfold zlen. rewrite !app_length, !repeat_length. lia. }
  cbn [Z.testbit]. cbv zeta.
  rewrite !before_pad by (intros I; apply S0; apply in_or_app; auto).
  apply before_none. intros I. apply in_app_or in I. destruct I as [I|I].
  - apply N0. apply in_or_app. auto.
  - destruct ext as [|c ext]; [destruct I|]. destruct I as [I|I]; [discriminate|].
    apply N0. apply in_or_app. right. exact I.
Qed.
