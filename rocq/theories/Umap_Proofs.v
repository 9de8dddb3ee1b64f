From Verif Require Import Lib Umap_Model Umap_Spec.

Ltac sp := repeat match goal with |- _ /\ _ => split end.
Section U.
Variable W : Z.

Lemma apart_sym : forall a b, apart a b -> apart b a.
Proof. unfold apart. tauto. Qed.
Lemma disjoint_mid : forall l1 m l2, disjoint (l1 ++ m :: l2) <-> Forall (apart m) (l1 ++ l2) /\ disjoint (l1 ++ l2).
Proof.
  induction l1 as [|x l1 IH]; intros m l2; cbn; [tauto|]. rewrite IH. rewrite Forall_app. split.
  - intros ((F1 & F2) & F3 & F4). inversion F2; subst. split; [constructor; auto using apart_sym|]. split; auto. apply Forall_app; auto.
  - intros (F1 & F2 & F3). inversion F1; subst. apply Forall_app in F2. destruct F2. split; auto. split; auto. constructor; auto using apart_sym.
Qed.
Lemma good_mid : forall l1 m l2, Forall (good W) (l1 ++ m :: l2) <-> good W m /\ Forall (good W) (l1 ++ l2).
Proof. intros. rewrite !Forall_app. split; [intros [? F]; inversion F; auto | intros (? & ? & ?); auto]. Qed.
Lemma valid_mid : forall l1 m l2, valid W (l1 ++ m :: l2) <-> good W m /\ Forall (apart m) (l1 ++ l2) /\ valid W (l1 ++ l2).
Proof. intros. unfold valid. rewrite disjoint_mid, good_mid. tauto. Qed.

Lemma look_app : forall l1 l2 a, look (l1 ++ l2) a = match look l1 a with Some x => Some x | None => look l2 a end.
Proof. induction l1; intros; cbn; auto. destruct (at_addr a a0); auto. Qed.
Lemma look_apart : forall l m a x, Forall (apart m) l -> at_addr m a = Some x -> look l a = None.
Proof.
  induction l as [|y l IH]; intros m a x F E; cbn; auto. inversion F; subst. rewrite (IH m a x); auto.
  unfold at_addr, apart in *. destruct ((vaddr m <=? a) && (a <? vaddr m + len m)) eqn:C; [|discriminate].
  destruct ((vaddr y <=? a) && (a <? vaddr y + len y)) eqn:C2; auto. exfalso. lia.
Qed.
Lemma look_mid : forall l1 m l2 a, Forall (apart m) (l1 ++ l2) -> look (l1 ++ m :: l2) a = match at_addr m a with Some x => Some x | None => look (l1 ++ l2) a end.
Proof.
  intros l1 m l2 a F. rewrite !look_app. cbn. destruct (at_addr m a) eqn:E.
  - apply Forall_app in F. destruct F as [F _]. rewrite (look_apart _ _ _ _ F E). reflexivity.
  - reflexivity.
Qed.
Lemma get_some : forall l a x y z, get W l a = Some (x, y, z) -> l = x ++ y :: z /\ in_um W y a = true.
Proof.
  induction l as [|m l IH]; cbn; intros a x y z E; [discriminate|]. destruct (in_um W m a) eqn:I.
  - inversion E; subst. auto.
  - destruct (get W l a) as [[[x' y'] z']|] eqn:Gt; [|discriminate]. inversion E; subst. destruct (IH a x' y z Gt) as [-> ?]. auto.
Qed.
Lemma get_none : forall l a, get W l a = None -> Forall (fun m => in_um W m a = false) l.
Proof.
  induction l as [|m l IH]; cbn; intros a E; constructor; destruct (in_um W m a) eqn:I; auto; try discriminate.
  apply IH. destruct (get W l a) as [[[x y] z]|]; auto. discriminate.
Qed.
Lemma w_small : forall x, 0 <= x < W -> w W x = x.
Proof. intros. unfold w. apply Z.mod_small. auto. Qed.
Lemma in_um_good : forall m a, good W m -> in_um W m a = true <-> vaddr m <= a < vaddr m + len m.
Proof. intros m a (G1 & G2 & G3 & G4 & _). unfold in_um. rewrite w_small by lia. lia. Qed.
Lemma round_up_eq : forall n, 0 < n -> (n + 4095) / PAGE * PAGE < W -> n + 4095 < W -> round_up W n = (n + 4095) / PAGE * PAGE.
Proof. intros. unfold round_up. rewrite w_small by lia. reflexivity. Qed.
Lemma apart_sub : forall m m' l, vaddr m <= vaddr m' -> vaddr m' + len m' <= vaddr m + len m -> Forall (apart m) l -> Forall (apart m') l.
Proof. intros m m' l A B F. eapply Forall_impl; [|exact F]. unfold apart. intros. lia. Qed.
Lemma mod_sub : forall a b, aligned a -> aligned b -> aligned (a - b).
Proof. unfold aligned. intros a b A B. rewrite Zminus_mod, A, B. reflexivity. Qed.
Lemma mod_plus : forall a b, aligned a -> aligned b -> aligned (a + b).
Proof. unfold aligned. intros a b A B. rewrite Zplus_mod, A, B. reflexivity. Qed.

Lemma al_bounds : forall n, n <= (n + 4095) / PAGE * PAGE < n + 4096.
Proof. intros n. unfold PAGE. pose proof (Z.div_mod (n + 4095) 4096 ltac:(lia)). pose proof (Z.mod_pos_bound (n + 4095) 4096 ltac:(lia)). lia. Qed.
Lemma multiple_ge : forall x, 0 < x -> aligned x -> PAGE <= x.
Proof. unfold aligned. intros x P M. apply Z.div_exact in M; [|unfold PAGE; lia]. unfold PAGE in *. assert (0 < x / 4096) by lia. lia. Qed.
Lemma round_fit : forall m v n, aligned W -> good W m -> 0 < n -> vaddr m <= v -> v + (n + 4095) / PAGE * PAGE <= vaddr m + len m -> round_up W n = (n + 4095) / PAGE * PAGE.
Proof.
  intros m v n Wm (G1 & G2 & G3 & G4 & G5 & G6 & G7 & G8) Hn L1 L2. pose proof (al_bounds n) as B.
  assert (X : PAGE <= W - (vaddr m + len m)) by (apply multiple_ge; [lia|apply mod_sub; auto; apply mod_plus; auto]).
  clear G6 G7 G8 Wm. set (al := (n + 4095) / PAGE * PAGE) in *. apply round_up_eq; fold al; auto; unfold PAGE in X; lia.
Qed.

(** the range is exactly in one mapping *)
Lemma munmap_inside : forall l v n oom, W > 0 -> aligned W -> valid W l -> inside l v n ->
  forall r, munmap_int W l v n oom = r ->
  valid W (maps r) /\
  (code r = Ok -> forall a, look (maps r) a = if in_range v n a then None else look l a) /\
  (code r <> Ok -> code r = Enomem /\ oom = true /\ maps r = l /\ calls r = []) /\
  (oom = false -> code r = Ok).
Proof.
  intros l v n oom W0 Wm V (Av & Hn & m0 & Im & L1 & L2) r Hr.
  assert (G0 : good W m0) by (destruct V as [V _]; rewrite Forall_forall in V; auto).
  pose proof (round_fit m0 v n Wm G0 Hn L1 L2) as Er. pose proof (al_bounds n) as Hge.
  set (al := (n + 4095) / PAGE * PAGE) in *.
  assert (Hal : aligned al) by (apply Z.mod_mul; unfold PAGE; lia).
  assert (Hir : forall a, in_range v n a = (v <=? a) && (a <? v + al)) by reflexivity. clearbody al.
  destruct (get W l v) as [[[bef m] aft]|] eqn:G.
  2: { exfalso. pose proof (get_none _ _ G) as F. rewrite Forall_forall in F. specialize (F m0 Im). assert (in_um W m0 v = true) by (apply in_um_good; auto; lia). congruence. }
  destruct (get_some _ _ _ _ _ G) as [El Iv]. rewrite El in V. apply valid_mid in V. destruct V as (Gm & Fm & Vr).
  pose proof (proj1 (in_um_good _ _ Gm) Iv) as Bv.
  assert (m0 = m) as ->.
  { rewrite El in Im. apply in_app_iff in Im. destruct Im as [I|[E|I]]; auto; exfalso; rewrite Forall_forall in Fm;
      assert (Ap : apart m m0) by (apply Fm, in_app_iff; auto); unfold apart in Ap; destruct G0 as (? & ? & _); lia. }
  clear Im G0.
  destruct Gm as (G1 & G2 & G3 & G4 & G5 & G6 & G7 & G8).
  assert (Mv : aligned (v - vaddr m)) by (apply mod_sub; auto).
  assert (Base : forall a, look l a = match at_addr m a with Some x => Some x | None => look (bef ++ aft) a end) by (intros; rewrite El; apply look_mid; auto).
  assert (Own : forall a x, at_addr m a = Some x -> look (bef ++ aft) a = None) by (intros; eapply look_apart; eauto).
  unfold munmap_int in Hr. rewrite G, Er in Hr. cbv zeta in Hr.
  destruct (al =? len m) eqn:C1.
  { subst r; cbn. split; auto. split; [|split; [congruence|auto]]. intros _ a. rewrite Base. rewrite Hir.
    destruct (at_addr m a) eqn:Ea.
    - rewrite (Own _ _ Ea). unfold at_addr in Ea. destruct ((v <=? a) && (a <? v + al)) eqn:Cr; auto. destruct (_ && _) eqn:Cm in Ea; [exfalso; lia|discriminate].
    - unfold at_addr in Ea. destruct ((v <=? a) && (a <? v + al)) eqn:Cr; auto. destruct (_ && _) eqn:Cm in Ea; [discriminate|exfalso; lia]. }
  destruct (v =? vaddr m) eqn:C2.
  { rewrite !w_small in Hr by lia. subst r; cbn [maps code calls].
    set (m' := Um (h m) (vaddr m + al) (len m - al) (off m + al) (prot m)).
    assert (Gm' : good W m'). { unfold good, m'; cbn. sp; try lia; repeat (apply mod_sub || apply mod_plus); auto. }
    assert (Fm' : Forall (apart m') (bef ++ aft)) by (eapply apart_sub; [| |exact Fm]; cbn; lia).
    split; [apply valid_mid; auto|]. split; [|split; [congruence|auto]]. intros _ a. rewrite look_mid by auto. rewrite Base. rewrite Hir.
    assert (Oa := Own a). unfold at_addr in *; subst m'; cbn in *.
    destruct ((vaddr m <=? a) && (a <? vaddr m + len m)) eqn:Cm.
    - rewrite (Oa _ eq_refl). destruct ((vaddr m + al <=? a) && (a <? vaddr m + al + (len m - al))) eqn:Cm'; destruct ((v <=? a) && (a <? v + al)) eqn:Cr; auto; try (exfalso; lia).
      do 3 f_equal. lia.
    - destruct ((vaddr m + al <=? a) && (a <? vaddr m + al + (len m - al))) eqn:Cm'; destruct ((v <=? a) && (a <? v + al)) eqn:Cr; auto; exfalso; lia. }
  assert (Wv : w W (v + al) = v + al) by (apply w_small; lia). assert (We : w W (vaddr m + len m) = vaddr m + len m) by (apply w_small; lia).
  rewrite Wv, We in Hr. destruct (v + al =? vaddr m + len m) eqn:C3.
  { rewrite !w_small in Hr by lia. subst r; cbn [maps code calls].
    set (m' := Um (h m) (vaddr m) (len m - al) (off m) (prot m)).
    assert (Gm' : good W m'). { unfold good, m'; cbn. sp; try lia; repeat (apply mod_sub || apply mod_plus); auto. }
    assert (Fm' : Forall (apart m') (bef ++ aft)) by (eapply apart_sub; [| |exact Fm]; cbn; lia).
    split; [apply valid_mid; auto|]. split; [|split; [congruence|auto]]. intros _ a. rewrite look_mid by auto. rewrite Base. rewrite Hir.
    assert (Oa := Own a). unfold at_addr in *; subst m'; cbn in *.
    destruct ((vaddr m <=? a) && (a <? vaddr m + len m)) eqn:Cm.
    - rewrite (Oa _ eq_refl). destruct ((vaddr m <=? a) && (a <? vaddr m + (len m - al))) eqn:Cm'; destruct ((v <=? a) && (a <? v + al)) eqn:Cr; auto; exfalso; lia.
    - destruct ((vaddr m <=? a) && (a <? vaddr m + (len m - al))) eqn:Cm'; destruct ((v <=? a) && (a <? v + al)) eqn:Cr; auto; exfalso; lia. }
  assert (Wd : w W (v - vaddr m) = v - vaddr m) by (apply w_small; lia). rewrite Wd in Hr. cbn [len vaddr off h prot] in Hr.
  destruct oom.
  { subst r; cbn [maps code calls]. rewrite w_small by lia.
    replace (vaddr m + len m - vaddr m) with (len m) by lia.
    assert (Em : Um (h m) (vaddr m) (len m) (off m) (prot m) = m) by (destruct m; reflexivity). rewrite Em, <- El.
    split; [rewrite El; apply valid_mid; unfold good; auto 10|]. split; [discriminate|]. split; [auto|discriminate]. }
  rewrite !w_small in Hr by lia. subst r; cbn [maps code calls].
  set (m1 := Um (h m) (vaddr m) (v - vaddr m) (off m) (prot m)). set (m2 := Um (h m) (v + al) (vaddr m + len m - (v + al)) (off m + (v - vaddr m) + al) (prot m)).
  assert (Gm1 : good W m1). { unfold good, m1; cbn. sp; try lia; auto. }
  assert (Gm2 : good W m2). { unfold good, m2; cbn. sp; try lia; repeat (apply mod_sub || apply mod_plus); auto. }
  assert (Fm1 : Forall (apart m1) (bef ++ aft)) by (eapply apart_sub; [| |exact Fm]; cbn; lia).
  assert (Fm2 : Forall (apart m2) (bef ++ aft)) by (eapply apart_sub; [| |exact Fm]; cbn; lia).
  assert (A12 : apart m2 m1) by (unfold apart; cbn; lia).
  assert (V1 : valid W (bef ++ m1 :: aft)) by (apply valid_mid; auto).
  assert (Fm2' : Forall (apart m2) ((bef ++ m1 :: aft) ++ [])). { rewrite app_nil_r. apply Forall_app in Fm2. destruct Fm2. apply Forall_app. auto. }
  split; [apply valid_mid; rewrite app_nil_r in *; auto|]. split; [|split; [congruence|auto]]. intros _ a.
  rewrite look_mid by auto. rewrite app_nil_r. rewrite look_mid by auto. rewrite Base. rewrite Hir.
  assert (Oa := Own a). unfold at_addr in *; subst m1 m2; cbn in *.
  destruct ((vaddr m <=? a) && (a <? vaddr m + len m)) eqn:Cm.
  - rewrite (Oa _ eq_refl). destruct ((v + al <=? a) && (a <? v + al + (vaddr m + len m - (v + al)))) eqn:Cm2; destruct ((vaddr m <=? a) && (a <? vaddr m + (v - vaddr m))) eqn:Cm1; destruct ((v <=? a) && (a <? v + al)) eqn:Cr; auto; try (exfalso; lia).
    do 3 f_equal. lia.
  - destruct ((v + al <=? a) && (a <? v + al + (vaddr m + len m - (v + al)))) eqn:Cm2; destruct ((vaddr m <=? a) && (a <? vaddr m + (v - vaddr m))) eqn:Cm1; destruct ((v <=? a) && (a <? v + al)) eqn:Cr; auto; exfalso; lia.
Qed.
(** the calls: exactly the range is unmapped and given back *)
Lemma munmap_calls : forall l v n oom m, W > 0 -> aligned W -> valid W l -> inside l v n -> In m l -> vaddr m <= v < vaddr m + len m -> code (munmap_int W l v n oom) = Ok ->
  let al := (n + 4095) / PAGE * PAGE in
  In (HeapFree v al (match h m with Some _ => false | None => true end)) (calls (munmap_int W l v n oom)) /\
  (forall v' n' b, In (HeapFree v' n' b) (calls (munmap_int W l v n oom)) -> v' = v /\ n' = al) /\
  (forall hd v' n', In (FsMunmap hd v' n') (calls (munmap_int W l v n oom)) <-> h m = Some hd /\ v' = v /\ n' = al).
Proof.
  intros l v n oom m W0 Wm V Hin Im Bm Ok al. pose proof Hin as (Av & Hn & m0 & Im0 & L1 & L2). fold al in L2.
  assert (G0 : good W m0) by (destruct V as [V _]; rewrite Forall_forall in V; auto).
  pose proof (round_fit m0 v n Wm G0 Hn L1 L2) as Er. fold al in Er. pose proof (al_bounds n) as Hge. fold al in Hge. clearbody al.
  unfold munmap_int in *. rewrite Er in *. destruct (get W l v) as [[[bef x] aft]|] eqn:G.
  2: { exfalso. pose proof (get_none _ _ G) as F. rewrite Forall_forall in F. specialize (F m0 Im0). assert (in_um W m0 v = true) by (apply in_um_good; auto; lia). congruence. }
  destruct (get_some _ _ _ _ _ G) as [El Iv]. rewrite El in V. apply valid_mid in V. destruct V as (Gm & Fm & Vr).
  assert (m = x) as <-.
  { pose proof (proj1 (in_um_good _ _ Gm) Iv) as Bv. rewrite El in Im. apply in_app_iff in Im. destruct Im as [I|[E|I]]; auto; exfalso; rewrite Forall_forall in Fm;
      assert (Ap : apart x m) by (apply Fm, in_app_iff; auto); unfold apart in Ap; lia. }
  cbv zeta in *.
  destruct (al =? len m); [|destruct (v =? vaddr m); [|destruct (w W (v + al) =? w W (vaddr m + len m)); [|destruct oom; [cbn in Ok; discriminate|]]]];
    cbn; destruct (h m) as [hd|]; cbn.
  all: split; [tauto|split; [intros v' n' b I; intuition congruence|]].
  all: intros hd' v' n'; split; [intros I; intuition congruence | intros (E1 & -> & ->); try discriminate; left; congruence].
Qed.
Lemma close_valid : forall l hd, valid W l -> valid W (close_handle l hd) /\ forall a, look (close_handle l hd) a = match look l a with Some (Some x, o, p) => if x =? hd then None else look l a | y => y end.
Proof.
  induction l as [|m l IH]; intros hd V; cbn; [split; [split; constructor|auto]|].
  apply (valid_mid [] m l) in V. cbn in V. destruct V as (G & F & V). destruct (IH hd V) as [V1 L1].
  assert (Sub : forall P, Forall P l -> Forall P (close_handle l hd)).
  { intros P Fp. unfold close_handle. rewrite Forall_forall in *. intros x I. apply filter_In in I. apply Fp, I. }
  assert (Keep : valid W (m :: close_handle l hd)) by (apply (valid_mid [] m); cbn; auto).
  destruct (h m) as [x|] eqn:Eh; [destruct (x =? hd) eqn:Ex|]; cbn [negb]; fold (close_handle l hd).
  - split; auto. intros a. rewrite L1. unfold at_addr. destruct ((vaddr m <=? a) && (a <? vaddr m + len m)) eqn:C; auto.
    rewrite Eh, Ex. assert (N : look l a = None) by (eapply look_apart; [exact F|]; unfold at_addr; rewrite C; reflexivity). rewrite N. reflexivity.
  - split; auto. intros a. cbn. unfold at_addr. destruct ((vaddr m <=? a) && (a <? vaddr m + len m)) eqn:C; [rewrite Eh, Ex; reflexivity|apply L1].
  - split; auto. intros a. cbn. unfold at_addr. destruct ((vaddr m <=? a) && (a <? vaddr m + len m)) eqn:C; [rewrite Eh; reflexivity|apply L1].
Qed.
Lemma history : forall l f, W > 0 -> aligned W -> reach W l f -> valid W l /\ forall a, look l a = f a.
Proof.
  intros l f W0 Wm. induction 1 as [|l f o R [V L] A]; [split; [split; constructor|auto]|].
  destruct o as [m|v n oom|hd]; cbn [step sstep allowed failed] in *.
  - destruct A as [G F]. unfold add. split; [apply (valid_mid l m []); rewrite app_nil_r; auto|]. intros a. rewrite look_mid by (rewrite app_nil_r; auto). rewrite app_nil_r, L. reflexivity.
  - destruct (munmap_inside l v n oom W0 Wm V A _ eq_refl) as (V1 & K1 & K2 & _). split; auto. intros a. destruct (code (munmap_int W l v n oom)) eqn:C.
    + rewrite K1 by auto. rewrite L. reflexivity.
    + destruct K2 as (_ & _ & -> & _); [congruence|]. apply L.
    + destruct K2 as (K2 & _); congruence.
  - destruct (close_valid l hd V) as [V1 L1]. split; auto. intros a. rewrite L1, L. reflexivity.
Qed.
Lemma unknown : forall l v n oom, valid W l -> (forall m, In m l -> ~ (vaddr m <= v < vaddr m + len m)) -> munmap_int W l v n oom = Res l Ok [] false.
Proof.
  intros l v n oom [G _] N. unfold munmap_int. destruct (get W l v) as [[[x m] z]|] eqn:E; auto. exfalso. destruct (get_some _ _ _ _ _ E) as [El I].
  assert (Im : In m l) by (rewrite El; apply in_app_iff; right; left; auto). rewrite Forall_forall in G. apply (N m Im). apply in_um_good; auto.
Qed.
End U.

(** ** mapping a file of ramfs *)
Lemma map_from : forall blocks o v ob oe, dense o blocks -> ob <= o ->
  map_blocks v ob oe blocks = map (fun b => (v + (fst b - o), snd b)) (filter (fun b => (ob <=? fst b) && (fst b <? oe)) blocks).
Proof.
  induction blocks as [|[x p] r IH]; intros o v ob oe D L; auto. destruct D as [-> D]. cbn [map_blocks filter fst]. replace (o <? ob) with false by lia. replace (ob <=? o) with true by lia.
  destruct (o >=? oe) eqn:C.
  - replace (o <? oe) with false by lia. cbn [andb]. assert (E : filter (fun b => (ob <=? fst b) && (fst b <? oe)) r = []); [|rewrite E; auto].
    clear - D C. revert o D C. induction r as [|[y q] r IH]; intros o D C; cbn; auto. destruct D as [-> D]. replace (o + PAGE <? oe) with false by (unfold PAGE; lia). rewrite andb_false_r. apply (IH (o + PAGE)); auto. unfold PAGE. lia.
  - replace (o <? oe) with true by lia. cbn [andb map fst snd]. f_equal; [f_equal; lia|]. rewrite (IH (o + PAGE) (v + PAGE)) by (auto; unfold PAGE; lia).
    apply map_ext. intros b. f_equal. lia.
Qed.
Lemma map_dense : forall blocks o v ob oe, dense o blocks -> o <= ob -> (ob - o) mod PAGE = 0 ->
  map_blocks v ob oe blocks = map (fun b => (v + (fst b - ob), snd b)) (filter (fun b => (ob <=? fst b) && (fst b <? oe)) blocks).
Proof.
  induction blocks as [|[x p] r IH]; intros o v ob oe D L M; auto. destruct (Z.eq_dec o ob) as [->|N]; [apply map_from; auto; lia|].
  destruct D as [-> D]. cbn [map_blocks filter fst]. replace (o <? ob) with true by lia. replace (ob <=? o) with false by lia. cbn [andb]. unfold PAGE in *.
  pose proof (Z.div_mod (ob - o) 4096 ltac:(lia)). assert (0 < (ob - o) / 4096) by lia. apply (IH (o + 4096)); auto; [lia|].
  replace (ob - (o + 4096)) with (ob - o + (-1) * 4096) by lia. rewrite Z.mod_add by lia. auto.
Qed.
Lemma ramfs_map : forall blocks v off n, dense 0 blocks -> 0 <= off -> aligned off ->
  map_blocks v off (off + n) blocks = expected v off n blocks.
Proof. intros. unfold expected. apply (map_dense _ 0); auto. rewrite Z.sub_0_r. auto. Qed.

(** ** refuted *)
Definition M := Um None 0x10000000 0x4000 0 3.
Definition M2 := Um None 0x10004000 0x4000 0 3.
Lemma wrong_start : valid (2 ^ 32) [M] /\ maps (munmap_int (2 ^ 32) [M] 0x10001000 0x4000 false) = [].
Proof. split; [|reflexivity]. split; [|cbn; auto]. constructor; auto. repeat split; cbn; lia || reflexivity. Qed.
Lemma two_mappings : valid (2 ^ 32) [M; M2] /\ exists a, look (maps (munmap_int (2 ^ 32) [M; M2] 0x10000000 0x8000 false)) a <> None /\ in_range 0x10000000 0x8000 a = true.
Proof.
  split; [|exists 0x10004000; split; [vm_compute; discriminate|reflexivity]]. split; [|cbn; repeat split; auto; constructor; auto; unfold apart; cbn; lia].
  constructor; [|constructor; auto]; repeat split; cbn; lia || reflexivity.
Qed.
Lemma bad_record : valid (2 ^ 32) [M; M2] /\ exists m, In m (maps (munmap_int (2 ^ 32) [M; M2] 0x10000000 0x8000 false)) /\ len m = 2 ^ 32 - 0x4000.
Proof. split; [apply two_mappings|]. eexists. split; [left; reflexivity|reflexivity]. Qed.
Lemma gap_before : valid (2 ^ 32) [M2] /\ munmap_int (2 ^ 32) [M2] 0x10003000 0x5000 false = Res [M2] Ok [] false.
Proof. split; [|reflexivity]. split; [|cbn; auto]. constructor; auto. repeat split; cbn; lia || reflexivity. Qed.
Lemma unaligned : valid (2 ^ 32) [M] /\ munmap_int (2 ^ 32) [M] 0x10000800 0x1000 false =
  Res [Um None 0x10000000 0x800 0 3; Um None 0x10001800 0x2800 0x1800 3] Ok [HeapFree 0x10000800 0x1000 true] false.
Proof. split; [apply wrong_start|]. reflexivity. Qed.
Lemma freed_read : exists l v n m, valid (2 ^ 32) l /\ inside l v n /\ In m l /\ h m <> None /\ stale (munmap_int (2 ^ 32) l v n false) = true.
Proof.
  exists [Um (Some 7) 0x10000000 0x4000 0 1], 0x10000000, 0x4000, (Um (Some 7) 0x10000000 0x4000 0 1).
  split; [split; [constructor; auto; repeat split; cbn; lia || reflexivity|cbn; auto]|]. split; [split; [reflexivity|]; split; [lia|]; eexists; split; [left; reflexivity|split; vm_compute; discriminate]|]. split; [left; auto|]. split; [discriminate|reflexivity].
Qed.
Lemma sparse : map_blocks 0x10000000 0 0x3000 [(0, 1); (0x2000, 2)] = [(0x10000000, 1); (0x10001000, 2)] /\ expected 0x10000000 0 0x3000 [(0, 1); (0x2000, 2)] = [(0x10000000, 1); (0x10002000, 2)].
Proof. split; reflexivity. Qed.
Lemma big_offset : pgoff (2 ^ 32) (2 ^ 20) = 0 /\ round_up (2 ^ 32) (2 ^ 32 - 1) = 0.
Proof. split; reflexivity. Qed.
