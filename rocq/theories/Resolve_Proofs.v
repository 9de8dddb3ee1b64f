From Verif Require Import Lib Resolve_Model Resolve_Spec.

(** ** Paths *)
Definition plain (c : list Z) : Prop := Forall (fun x => x <> SLASH) c.
Definition opt (c : list Z) : list (list Z) := match c with [] => [] | _ => [c] end.

Lemma pieces_plain : forall c acc, plain c -> pieces c acc = [rev acc ++ c].
Proof.
  induction c as [|x c IH]; cbn; intros acc P; [now rewrite app_nil_r|].
  inversion P; subst. destruct (x =? SLASH) eqn:E; [lia|]. rewrite IH by assumption. cbn. now rewrite <- app_assoc.
Qed.
Lemma pieces_slash : forall c acc s, plain c -> pieces (c ++ SLASH :: s) acc = (rev acc ++ c) :: pieces s [].
Proof.
  induction c as [|x c IH]; cbn; intros acc s P; [now rewrite app_nil_r|].
  inversion P; subst. destruct (x =? SLASH) eqn:E; [lia|]. rewrite IH by assumption. cbn. now rewrite <- app_assoc.
Qed.
Lemma filter_opt : forall c l, filter nonempty (c :: l) = opt c ++ filter nonempty l.
Proof. destruct c; reflexivity. Qed.
Lemma names_plain : forall c, plain c -> names c = opt c.
Proof. intros. unfold names. rewrite pieces_plain by assumption. cbn [rev app]. rewrite filter_opt. apply app_nil_r. Qed.
Lemma names_slash : forall c s, plain c -> names (c ++ SLASH :: s) = opt c ++ names s.
Proof. intros. unfold names. rewrite pieces_slash by assumption. cbn [rev app]. apply filter_opt. Qed.

Lemma last_app_ne : forall (a b : list Z) x, b <> [] -> last (a ++ b) x = last b x.
Proof.
  induction a; cbn; intros b x H; [reflexivity|]. rewrite IHa by assumption.
  destruct (a0 ++ b) eqn:E; [apply app_eq_nil in E; tauto|reflexivity].
Qed.
Lemma trailing_app : forall a b, b <> [] -> trailing (a ++ b) = trailing b.
Proof. intros. unfold trailing. now rewrite last_app_ne. Qed.
Lemma trailing_plain : forall c, plain c -> trailing c = false.
Proof.
  unfold trailing. induction c as [|x c IH]; intro P; [reflexivity|]. inversion P; subst.
  destruct c; cbn [last] in *; [unfold SLASH in *; lia|]. auto.
Qed.

(** A non-empty path without names is slashes *)
Lemma no_names : forall s, s <> [] -> names s = [] -> trailing s = true.
Proof.
  assert (H: forall n s, (length s <= n)%nat -> s <> [] -> names s = [] -> trailing s = true).
  { induction n; intros s L NE E; [destruct s; cbn in L; [tauto|lia]|].
    destruct s as [|x s]; [tauto|]. destruct (Z.eq_dec x SLASH) as [->|X].
    - destruct s as [|y s]; [reflexivity|].
      change (SLASH :: y :: s) with ([SLASH] ++ (y :: s)). rewrite trailing_app by discriminate.
      change (SLASH :: y :: s) with ([] ++ SLASH :: y :: s) in E. rewrite names_slash in E by constructor.
      apply IHn; [cbn in *; lia|discriminate|exact E].
    - exfalso. clear -X E.
      assert (Q: forall l acc, acc <> [] -> filter nonempty (pieces l acc) <> []).
      { induction l; cbn; intros acc A.
        - destruct (rev acc) eqn:R; [|discriminate]. apply (f_equal (@rev Z)) in R. rewrite rev_involutive in R. tauto.
        - destruct (a =? SLASH).
          + destruct (rev acc) eqn:R; [apply (f_equal (@rev Z)) in R; rewrite rev_involutive in R; tauto|discriminate].
          + apply IHl. discriminate. }
      unfold names in E. cbn [pieces] in E. destruct (x =? SLASH) eqn:XX; [lia|]. eapply Q; [|exact E]. discriminate. }
  intros. eapply H; eauto.
Qed.

Lemma skipn_skipn : forall A (l : list A) a b, skipn a (skipn b l) = skipn (a + b) l.
Proof.
  induction l; intros a0 b; [now rewrite !skipn_nil|]. destruct b; [now rewrite Nat.add_0_r|].
  rewrite Nat.add_succ_r. cbn [skipn]. apply IHl.
Qed.
Lemma plain_app : forall a b, plain (a ++ b) <-> plain a /\ plain b.
Proof. intros. apply Forall_app. Qed.

(** ** Names and the test for ".." *)
Lemma is_dotdot_spec : forall c s, plain c -> (s = [] \/ exists s', s = SLASH :: s') ->
  is_dotdot (c ++ s) = true <-> c = DOTDOT.
Proof.
  intros c s P S. unfold DOTDOT.
  destruct S as [->|(s' & ->)]; [rewrite app_nil_r|].
  - destruct c as [|a [|b [|x c]]]; cbn; try (split; [discriminate|intro E; discriminate E]).
    + rewrite andb_true_iff, !Z.eqb_eq. split; [intros [-> ->]; reflexivity|intro E; injection E; auto].
    + inversion P as [|? ? ? P1]; subst. inversion P1 as [|? ? ? P2]; subst. inversion P2; subst.
      rewrite !andb_true_iff, !Z.eqb_eq. split; [intros [_ E]; tauto|discriminate].
  - destruct c as [|a [|b [|x c]]]; cbn.
    + destruct s' as [|y [|z l]]; cbn; split; try discriminate; destruct (_ =? 46); discriminate.
    + inversion P as [|? ? ? P1]; subst. split; [|discriminate].
      destruct s'; rewrite ?andb_false_r; discriminate.
    + rewrite !andb_true_iff, !Z.eqb_eq. split; [intros [[-> ->] _]; reflexivity|intro E; injection E; auto].
    + inversion P as [|? ? ? P1]; subst. inversion P1 as [|? ? ? P2]; subst. inversion P2; subst.
      rewrite !andb_true_iff, !Z.eqb_eq. split; [intros [_ E]; tauto|discriminate].
Qed.

Section Walk.
  Variables (dbg : bool) (NAMEMAX : Z) (W : world).
  Hypothesis GW : good W.

  Definition okv (v : vpath) : Prop :=
    in_tree W (v_fs v) /\ forall i t, v_obj v = Some (i, t) -> i = root W (v_fs v) -> t = VDir.

  (** ** Mounts *)
  Lemma find_some_iff : forall A (g : A -> bool) l, 
    match find g l with Some x => In x l /\ g x = true | None => forall x, In x l -> g x = false end.
  Proof.
    intros. destruct (find g l) eqn:E; [apply find_some; auto|]. intros; eapply find_none; eauto.
  Qed.

  Lemma mp_at_spec : forall f i, match mp_at W f i with
    | Some t => mounted W (f, i) (t, root W t) | None => uncovered W (f, i) end.
  Proof.
    intros. unfold mp_at.
    pose proof (find_some_iff _ (fun m => (m_hino m =? i) && (m_host m =? f)) (mnts W)) as H.
    destruct find as [m|].
    - destruct H as [H B]. exists m. split; [exact H|]. split; [|reflexivity]. f_equal; lia.
    - intros m M E. injection E as A B. specialize (H m M). cbn in H. lia.
  Qed.
  Lemma mp_of_spec : forall f, match mp_of W f with
    | Some m => In m (mnts W) /\ m_target m = f | None => forall m, In m (mnts W) -> m_target m <> f end.
  Proof.
    intros. unfold mp_of.
    pose proof (find_some_iff _ (fun m => m_target m =? f) (mnts W)) as H.
    destruct find as [m|]; [split; [tauto|lia]|]. intros m M E. specialize (H m M). cbn in H. lia.
  Qed.

  Lemma comp_eq : forall path lc c s, skipn lc path = c ++ s -> comp path lc (lc + length c) = c.
  Proof.
    intros path lc c s H. unfold comp. rewrite H. replace (lc + length c - lc)%nat with (length c) by lia.
    rewrite firstn_app, Nat.sub_diag, firstn_all. cbn. apply app_nil_r.
  Qed.

  (** The entry found, as a struct vfs_path *)
  Definition shows (np top : vpath) (d : Z) (e : option (place * vtype)) : Prop :=
    match e with
    | Some ((f, i), t) => v_fs np = f /\ v_obj np = Some (i, t)
    | None => v_fs np = v_fs top /\ v_obj np = None /\ v_dir np = d
    end.

  Definition after rec top np (b : bool) log1 : gres :=
    match v_obj np with
    | Some (_, VLink) => if b then symlink W rec top np log1 else GRet 0 np log1
    | _ => GRet 0 np log1
    end.

  Lemma get_entry_ok : forall rec path c s top d b log,
    plain c -> c <> [] -> (s = [] \/ exists s', s = SLASH :: s') ->
    skipn (v_lc top) path = c ++ s -> v_obj top = Some (d, VDir) -> okv top ->
    (get_entry dbg NAMEMAX W rec path (v_lc top + length c) top b log = GCrash TooLong /\ NAMEMAX <= zlen c)
    \/ exists np log1 e, entry W (v_fs top, d) c e /\ shows np top d e /\ v_lc np = v_lc top /\ okv np /\
       get_entry dbg NAMEMAX W rec path (v_lc top + length c) top b log = after rec top np b log1.
  Proof.
    intros rec path c s top d b log P NE S SK V [T R].
    unfold get_entry. destruct (cross_dotdot dbg W path top log) as [g|] eqn:C.
    - unfold cross_dotdot in C. rewrite SK, V in C.
      destruct (is_dotdot (c ++ s)) eqn:D; cbn [negb] in C; [|discriminate].
      apply is_dotdot_spec in D; [|assumption..]. subst c.
      destruct (d =? root W (v_fs top)) eqn:DR; cbn [negb] in C; [|discriminate]. apply Z.eqb_eq in DR. subst d.
      right. destruct (v_fs top =? rootfs W) eqn:F.
      + injection C as <-. apply Z.eqb_eq in F. exists top, log, (Some ((v_fs top, root W (v_fs top)), VDir)).
        split; [rewrite F; constructor|]. split; [split; [reflexivity|exact V]|]. split; [reflexivity|].
        split; [split; assumption|]. unfold after. now rewrite V.
      + pose proof (mp_of_spec (v_fs top)) as M. destruct (mp_of W (v_fs top)) as [m|].
        2:{ destruct T as [T|(m & T1 & T2)]; [lia|]. exfalso. eapply M; eauto. }
        destruct M as [M1 M2]. destruct (g_tree W GW m M1) as [TH NS]. destruct (g_up W GW m M1) as (j & GJ & UJ).
        replace (m_host m =? v_fs top) with false in C by lia. rewrite andb_false_r in C.
        rewrite GJ in C. cbn [negb] in C. rewrite andb_false_r in C. injection C as <-.
        eexists (mkV (m_host m) (Some (j, VDir)) (m_hino m) (Some (m_hino m, DOTDOT)) (v_lc top)), _, (Some ((m_host m, j), VDir)).
        split; [eapply entry_up with (j:=j); [lia|exact M1|exact M2|exact GJ|reflexivity|now constructor]|].
        split; [split; reflexivity|]. split; [reflexivity|].
        split; [split; [exact TH|]|reflexivity]. cbn [v_obj v_fs]. intros i t E _. now injection E.
    - assert (ND: ~ (c = DOTDOT /\ d = root W (v_fs top))).
      { intros [-> ->]. unfold cross_dotdot in C. rewrite SK, V in C.
        rewrite (proj2 (is_dotdot_spec DOTDOT s P S) eq_refl), Z.eqb_refl in C. cbn [negb] in C.
        destruct (_ =? _); [discriminate|]. destruct (mp_of _ _); [|discriminate].
        destruct (dbg && _); [discriminate|]. destruct (dbg && _); discriminate. }
      destruct (Nat.eqb_spec (v_lc top) (v_lc top + length c)) as [E|_]; [destruct c; cbn in E; [tauto|lia]|].
      unfold lookup. rewrite V, (comp_eq _ _ _ _ SK).
      destruct (zlen c >=? NAMEMAX) eqn:L; [left; split; [reflexivity|lia]|]. right.
      destruct (get W (v_fs top) d c) as [[i t]|] eqn:G.
      + pose proof (mp_at_spec (v_fs top) i) as M. destruct (mp_at W (v_fs top) i) as [tf|].
        * eexists (root_entry W tf top), _, (Some ((tf, root W tf), VDir)).
          split; [eapply entry_some; [exact ND|exact G|constructor; exact M]|].
          split; [split; reflexivity|]. split; [reflexivity|].
          split; [split|reflexivity].
          -- destruct M as (m & M1 & M2 & M3). injection M3 as M3 _. right. exists m. split; [exact M1|]. now rewrite <- M3.
          -- cbn. intros ? ? E _. now injection E.
        * eexists (mkV (v_fs top) (Some (i, t)) d (Some (d, c)) (v_lc top)), _, (Some ((v_fs top, i), t)).
          split; [eapply entry_some; [exact ND|exact G|constructor; exact M]|].
          split; [split; reflexivity|]. split; [reflexivity|].
          split; [split; [exact T|]|reflexivity]. cbn [v_obj v_fs]. intros i' t' E ->. injection E as -> ->.
          eapply g_rdir; eauto.
      + eexists (mkV (v_fs top) None d None (v_lc top)), _, None. split; [now constructor|]. split; [repeat split|]. split; [reflexivity|].
        split; [split; [exact T|discriminate]|reflexivity].
  Qed.

  (** ** Links *)
  Definition good_res (k : nat) (p : place) (path : list Z) (fo : bool) (r : res) : Prop :=
    match r with
    | Done rc v _ => okv v /\ exists o, walk W k p (names path) (trailing path) fo o /\
        (agrees rc v o \/ (~ tidy path /\ rc = ENOENT /\ exists q n, o = Missing q n))
    | Crash NotDir => walk W k p (names path) (trailing path) fo (Fail ENOTDIR)
    | Crash TooLong => long_name NAMEMAX W path
    | Crash _ => False
    end.

  Definition rec_ok (k : nat) (rec : option (list Z -> vpath -> list event -> res)) : Prop :=
    match k with
    | O => rec = None
    | S k' => exists r, rec = Some r /\ (forall top log, r [] top log = Done ENOENT top log) /\
        forall p path top log, path <> [] -> at_dir top p -> okv top -> v_lc top = O ->
          good_res k' p path true (r path top log)
    end.

  Lemma okv_lc : forall v n, okv v -> okv (with_lc v n).
  Proof. intros v n H. exact H. Qed.
  Lemma agrees_lc : forall rc v n o, agrees rc v o -> agrees rc (with_lc v n) o.
  Proof. intros rc v n [[f i] t|[f i] m|e] H; exact H. Qed.
  Lemma okv_root : forall v, okv (root_entry W (rootfs W) v).
  Proof. intro v. split; [left; reflexivity|]. cbn. intros i t E _. now injection E. Qed.

  Definition good_ent (k : nat) (p : place) (c : list Z) (b : bool) (lc : nat) (g : gres) : Prop :=
    match g with
    | GRet rc np _ => okv np /\ v_lc np = lc /\ exists o, name W k p c b o /\ agrees rc np o
    | GCrash NotDir => name W k p c b (Fail ENOTDIR)
    | GCrash TooLong => NAMEMAX <= zlen c \/ exists f i n, In n (names (link W f i)) /\ NAMEMAX <= zlen n
    | GCrash _ => False
    end.

  Lemma after_ok : forall k rec top np d c e b log, rec_ok k rec ->
    v_obj top = Some (d, VDir) -> okv top -> entry W (v_fs top, d) c e -> shows np top d e ->
    v_lc np = v_lc top -> okv np ->
    good_ent k (v_fs top, d) c b (v_lc top) (after rec top np b log).
  Proof.
    intros k rec top np d c e b log RO V OT EN SH LC ON. unfold after.
    destruct e as [[[f i] t]|].
    2:{ destruct SH as (S1 & S2 & S3). rewrite S2. split; [exact ON|]. split; [exact LC|].
        exists (Missing (v_fs top, d) c). split; [now constructor|]. now repeat split. }
    destruct SH as [S1 S2]. rewrite S2.
    assert (N: t <> VLink \/ b = false -> good_ent k (v_fs top, d) c b (v_lc top) (GRet 0 np log)).
    { intro N. split; [exact ON|]. split; [exact LC|]. exists (Obj (f, i) t).
      split; [now constructor|]. now repeat split. }
    destruct t; try (apply N; left; discriminate). destruct b; [|apply N; now right]. clear N.
    unfold symlink. rewrite S2, S1. set (l := link W f i).
    destruct (g_link W GW f i) as [L256 TID]. fold l in L256, TID.
    destruct (zlen l >=? 256) eqn:LL; [lia|]. clear LL.
    set (ab := match l with c :: _ => c =? SLASH | [] => false end).
    destruct k as [|k]; cbn [rec_ok] in RO.
    - subst rec. split; [exact ON|]. split; [exact LC|]. exists (Fail ELOOP).
      split; [econstructor; exact EN|]. unfold agrees, ELOOP. lia.
    - destruct RO as (r & -> & RE & RO).
      set (rp := if ab then root_entry W (rootfs W) top else top).
      assert (OR: okv rp) by (subst rp; destruct ab; [apply okv_root|exact OT]).
      assert (LE: l = [] \/ l <> []) by (destruct l; [now left|right; discriminate]).
      destruct LE as [LE|LN].
      + rewrite LE, RE. split; [apply okv_lc, okv_lc; exact OR|]. split; [exact LC|].
        exists (Fail ENOENT). split; [eapply name_empty; [exact EN|exact LE]|]. unfold agrees, ENOENT. lia.
      + assert (ST: exists s, start W (v_fs top, d) l s /\ at_dir (with_lc rp 0) s).
        { subst rp ab. destruct l as [|x l'] eqn:EL; [tauto|]. destruct (x =? SLASH) eqn:X.
          - eexists. split; [left; split; [exists l'; f_equal; lia|reflexivity]|]. split; reflexivity.
          - exists (v_fs top, d). split; [right; split; [|reflexivity]|split; [reflexivity|exact V]].
            intros [s' E]. injection E as -> _. discriminate X. }
        destruct ST as (s & ST & AT).
        match goal with |- context[r l (with_lc rp 0) ?L] =>
          pose proof (RO s l (with_lc rp 0) L LN AT (okv_lc _ _ OR) eq_refl) as G;
          destruct (r l (with_lc rp 0) L) as [rc v log2|w] end; cbn [good_res] in G.
        * destruct G as (OV & o & WK & A). split; [apply okv_lc, OV|]. split; [exact LC|].
          exists o. split; [eapply name_link; [exact EN|reflexivity|exact LN|exact ST|exact WK]|].
          apply agrees_lc. destruct A as [A|(NT & _)]; [exact A|]. tauto.
        * destruct w; cbn [good_ent]; try exact G.
          -- eapply name_link; [exact EN|reflexivity|exact LN|exact ST|exact G].
          -- right. destruct G as (n & [G|(f' & i' & G)] & B); [exists f, i, n|exists f', i', n]; auto.
  Qed.

  (** ** The loop *)
  Lemma walk_fail' : forall k p c ns tr fo rc, name W k p c true (Fail rc) -> (ns = [] -> tr = true) ->
    walk W k p (c :: ns) tr fo (Fail rc).
  Proof.
    intros k p c [|n ns] tr fo rc H T.
    - rewrite T by reflexivity. constructor; [exact H|discriminate].
    - now constructor.
  Qed.
  Lemma trailing_slash : forall c s, names s = [] -> trailing (c ++ SLASH :: s) = true.
  Proof.
    intros c s H. rewrite trailing_app by discriminate. destruct s as [|x s]; [reflexivity|].
    change (SLASH :: x :: s) with ([SLASH] ++ x :: s). rewrite trailing_app by discriminate.
    apply no_names; [discriminate|exact H].
  Qed.
  Lemma trailing_step : forall c s, s <> [] -> trailing (c ++ SLASH :: s) = trailing s.
  Proof.
    intros c s H. change (SLASH :: s) with ([SLASH] ++ s). rewrite app_assoc. now apply trailing_app.
  Qed.
  Lemma untidy : forall c s, s <> [] -> names s = [] -> ~ tidy (c ++ SLASH :: s).
  Proof.
    intros c s NE H T.
    assert (Q: exists s', SLASH :: s = s' ++ [SLASH; SLASH]).
    { clear T c. remember (length s) as n. revert s Heqn NE H. induction n; intros s L NE H; [destruct s; [tauto|discriminate]|].
      destruct s as [|x s]; [tauto|]. assert (X: x = SLASH).
      { pose proof (no_names [x]) as Q. destruct (Z.eq_dec x SLASH); [assumption|]. exfalso.
        assert (PX: exists c t, x :: s = c ++ t /\ c <> [] /\ plain c /\ (t = [] \/ exists t', t = SLASH :: t')).
        { clear -n0. revert x n0. induction s as [|y s IH]; intros x X.
          - exists [x], []. repeat split; [discriminate|repeat constructor; exact X|now left].
          - destruct (Z.eq_dec y SLASH) as [->|Y].
            + exists [x], (SLASH :: s). repeat split; [discriminate|repeat constructor; exact X|right; eauto].
            + destruct (IH y Y) as (c & t & E & NE & P & T). exists (x :: c), t. rewrite E.
              repeat split; [discriminate|constructor; assumption|exact T]. }
        destruct PX as (c & t & E & NC & P & T). rewrite E in H. destruct T as [->|(t' & ->)].
        - rewrite app_nil_r, names_plain in H by exact P. destruct c; [tauto|discriminate].
        - rewrite names_slash in H by exact P. destruct c; [tauto|discriminate]. }
      subst x. destruct s as [|y s]; [exists []; reflexivity|].
      destruct (IHn (y :: s)) as (s' & E); [now injection L|discriminate| |].
      - change (SLASH :: y :: s) with ([] ++ SLASH :: y :: s) in H. now rewrite names_slash in H by constructor.
      - exists (SLASH :: s'). now rewrite E. }
    destruct Q as (s' & Q). apply (T (c ++ s')). now rewrite Q, app_assoc.
  Qed.
  Lemma untidy_app : forall a b, ~ tidy b -> ~ tidy (a ++ b).
  Proof. intros a b H T. apply H. intros s E. apply (T (a ++ s)). now rewrite E, app_assoc. Qed.

  Lemma get_entry_notdir : forall rec path c s top d t b log,
    plain c -> c <> [] -> (s = [] \/ exists s', s = SLASH :: s') ->
    skipn (v_lc top) path = c ++ s -> v_obj top = Some (d, t) -> okv top -> t <> VDir ->
    get_entry dbg NAMEMAX W rec path (v_lc top + length c) top b log = GCrash NotDir.
  Proof.
    intros rec path c s top d t b log P NE S SK V [T R] ND. unfold get_entry.
    assert (D: d <> root W (v_fs top)) by (intro E; apply ND; eapply R; eauto).
    assert (C: cross_dotdot dbg W path top log = None).
    { unfold cross_dotdot. rewrite V. destruct (is_dotdot _); [|reflexivity]. cbn [negb].
      destruct (d =? _) eqn:E; [lia|reflexivity]. }
    rewrite C. destruct (Nat.eqb_spec (v_lc top) (v_lc top + length c)) as [E|_]; [destruct c; cbn in E; [tauto|lia]|].
    unfold lookup. rewrite V. now destruct t.
  Qed.

  Lemma get_entry_nil : forall rec path s top d t b log,
    skipn (v_lc top) path = SLASH :: s -> v_obj top = Some (d, t) ->
    get_entry dbg NAMEMAX W rec path (v_lc top) top b log = GRet 0 top log.
  Proof.
    intros. unfold get_entry, cross_dotdot. rewrite H.
    replace (is_dotdot (SLASH :: s)) with false by (destruct s as [|? [|? ?]]; reflexivity).
    cbn [negb]. now rewrite Nat.eqb_refl.
  Qed.

  Lemma agrees_fail : forall rc v o, agrees rc v o -> rc <> 0 -> o = Fail rc.
  Proof. intros rc v [[f i] t|[f i] m|e] H N; cbn in H; [lia|lia|]. f_equal; lia. Qed.

  Lemma loop_ok : forall k rec, rec_ok k rec -> forall s c path top d t fo log,
    plain c -> skipn (v_lc top) path = c ++ s -> c ++ s <> [] -> v_obj top = Some (d, t) -> okv top ->
    let r := loop dbg NAMEMAX W rec path s (v_lc top + length c) top fo log in
    (t = VDir -> good_res k (v_fs top, d) (c ++ s) fo r) /\
    (t <> VDir -> match r with
       | Done rc v _ => okv v /\ names (c ++ s) = [] /\ rc = ENOTDIR
       | Crash w => w = NotDir /\ names (c ++ s) <> [] end).
  Proof.
    intros k rec RO. induction s as [|x s IH]; intros c path top d t fo log P SK NE V OV; cbn [loop].
    - assert (NC: c <> []) by (intros ->; now apply NE). rewrite app_nil_r in *.
      assert (SK': skipn (v_lc top) path = c ++ []) by now rewrite app_nil_r.
      split; intro T.
      + subst t. destruct (get_entry_ok rec path c [] top d fo log) as [[E L]|(np & log1 & e & EN & SH & LC & ON & E)]; auto.
        * rewrite E. cbn [good_res]. exists c. split; [left|exact L]. rewrite names_plain by exact P. destruct c; [tauto|now left].
        * rewrite E. pose proof (after_ok k rec top np d c e fo log1 RO V OV EN SH LC ON) as G.
          destruct (after rec top np fo log1) as [rc np' log2|w]; cbn [good_ent replace_top] in *.
          -- destruct G as (O1 & O2 & o & O3 & O4). split; [exact O1|]. exists o.
             split; [rewrite names_plain, trailing_plain by exact P|left; apply agrees_lc, O4].
             replace (opt c) with [c] by (destruct c; [tauto|reflexivity]).
             constructor; [exact O3|discriminate].
          -- destruct w; cbn [good_res]; try exact G.
             ++ rewrite names_plain, trailing_plain by exact P.
                replace (opt c) with [c] by (destruct c; [tauto|reflexivity]). constructor; [exact G|discriminate].
             ++ destruct G as [G|(f & i & n & G1 & G2)]; [exists c|exists n]; split; eauto.
                left. rewrite names_plain by exact P. destruct c; [tauto|now left].
      + rewrite (get_entry_notdir rec path c [] top d t fo log) by auto. split; [reflexivity|].
        rewrite names_plain by exact P. destruct c; [tauto|discriminate].
    - destruct (x =? SLASH) eqn:X; cbn [negb].
      2:{ replace (S (v_lc top + length c)) with (v_lc top + length (c ++ [x]))%nat by (rewrite app_length; cbn; lia).
          replace (c ++ x :: s) with ((c ++ [x]) ++ s) in * by (rewrite <- app_assoc; reflexivity).
          apply IH; auto. apply plain_app. split; [exact P|]. constructor; [lia|constructor]. }
      apply Z.eqb_eq in X. subst x. rewrite names_slash by exact P.
      assert (SK2: skipn (S (v_lc top + length c)) path = s).
      { replace (S (v_lc top + length c)) with (S (length c) + v_lc top)%nat by lia. rewrite <- skipn_skipn, SK.
        replace (S (length c)) with (length (c ++ [SLASH])) by (rewrite app_length; cbn; lia).
        replace (c ++ SLASH :: s) with ((c ++ [SLASH]) ++ s) by (rewrite <- app_assoc; reflexivity).
        rewrite skipn_app, Nat.sub_diag, skipn_all. reflexivity. }
      assert (CC: c = [] \/ c <> []) by (destruct c; [now left|right; discriminate]).
      destruct CC as [->|NC].
      + cbn [length app opt] in *. rewrite Nat.add_0_r in *.
        rewrite (get_entry_nil rec path s top d t true log) by assumption. rewrite V. cbn [Z.eqb negb].
        destruct s as [|y s'] eqn:ES.
        * cbn [replace_top]. split; intro T.
          -- subst t. cbn [vtype_eqb good_res]. split; [exact OV|]. exists (Obj (v_fs top, d) VDir).
             split; [constructor|]. left. apply agrees_lc. now repeat split.
          -- split; [exact OV|]. split; [reflexivity|]. now destruct t.
        * rewrite <- ES in *. assert (NS: s <> []) by (rewrite ES; discriminate). clear ES.
          cbn [replace_top].
          specialize (IH [] path (with_lc top (S (v_lc top))) d t fo (ret_at top ++ rel_at top ++ log)).
          cbn [app length v_lc with_lc] in IH. rewrite Nat.add_0_r in IH.
          destruct IH as [I1 I2]; [constructor|exact SK2|exact NS|exact V|exact OV|].
          split; intro T; [specialize (I1 T)|exact (I2 T)].
          change (v_fs (with_lc top (S (v_lc top)))) with (v_fs top) in I1.
          change (v_fs _, d) with (v_fs top, d) in I1. 
          destruct (loop _ _ _ _ _ _ _ _ _ _) as [rc v lg|w]; cbn [good_res] in *.
          -- destruct I1 as (I1 & o & I3 & I4). split; [exact I1|]. exists o.
             change (SLASH :: s) with ([] ++ SLASH :: s). rewrite names_slash by constructor.
             rewrite trailing_step by exact NS. split; [exact I3|].
             destruct I4 as [I4|(I4 & I5)]; [now left|]. right. split; [|exact I5]. now apply (untidy_app [SLASH]).
          -- change (SLASH :: s) with ([] ++ SLASH :: s).
             rewrite ?names_slash by constructor. rewrite ?trailing_step by exact NS.
             destruct w; try exact I1.
      + replace (opt c) with [c] by (destruct c; [tauto|reflexivity]). cbn [app].
        assert (NM: names (c ++ SLASH :: s) = c :: names s)
          by (rewrite names_slash by exact P; destruct c; [tauto|reflexivity]).
        split; intro T.
        2:{ rewrite (get_entry_notdir rec path c (SLASH :: s) top d t true log) by eauto. split; [reflexivity|discriminate]. }
        subst t.
        assert (WF: forall rc, name W k (v_fs top, d) c true (Fail rc) ->
                    walk W k (v_fs top, d) (names (c ++ SLASH :: s)) (trailing (c ++ SLASH :: s)) fo (Fail rc)).
        { intros rc H. rewrite NM. apply walk_fail'; [exact H|]. apply trailing_slash. }
        destruct (get_entry_ok rec path c (SLASH :: s) top d true log) as [[E L]|(np & log1 & e & EN & SH & LC & ON & E)]; eauto.
        { rewrite E. exists c. split; [left; rewrite NM; now left|exact L]. }
        rewrite E. pose proof (after_ok k rec top np d c e true log1 RO V OV EN SH LC ON) as G.
        destruct (after rec top np true log1) as [rc np' log2|w]; cbn [good_ent] in G.
        2:{ destruct w; cbn [good_res]; try exact G; [now apply WF|].
            destruct G as [G|(f & i & n & G1 & G2)]; [exists c|exists n]; split; eauto. left. rewrite NM. now left. }
        destruct G as (O1 & O2 & o & O3 & O4).
        destruct (rc =? 0) eqn:RC; cbn [negb].
        2:{ split; [exact OV|]. pose proof (agrees_fail _ _ _ O4 ltac:(lia)) as ->. exists (Fail rc).
            split; [now apply WF|]. left. exact O4. }
        destruct o as [[f i] u|[f i] n|er]; cbn [agrees] in O4; [| |lia].
        * destruct O4 as (-> & A2 & A3). rewrite A3.
          destruct s as [|y s'] eqn:ES.
          -- cbn [replace_top good_res]. split; [exact O1|].
             destruct (vtype_eqb u VDir) eqn:U.
             ++ assert (u = VDir) as -> by now destruct u. exists (Obj (f, i) VDir).
                rewrite NM, trailing_slash by reflexivity. split; [|left; apply agrees_lc; now repeat split].
                constructor; [exact O3|]. intros _ q t Q. now injection Q.
             ++ exists (Fail ENOTDIR). rewrite NM, trailing_slash by reflexivity.
                split; [eapply walk_last_notdir; [exact O3|now intros ->]|]. left. unfold agrees, ENOTDIR. lia.
          -- rewrite <- ES in *. assert (NS: s <> []) by (rewrite ES; discriminate). clear ES. cbn [replace_top].
             specialize (IH [] path (with_lc np' (S (v_lc top + length c))) i u fo (ret_at np' ++ rel_at top ++ log2)).
             cbn [app length v_lc with_lc] in IH. rewrite Nat.add_0_r in IH.
             destruct IH as [I1 I2]; [constructor|exact SK2|exact NS|exact A3|exact O1|].
             change (v_fs (with_lc _ _)) with (v_fs np') in I1. cbn [v_fs] in I1. rewrite A2 in I1.
             assert (U: u = VDir \/ u <> VDir) by (destruct u; [right|left|right|right]; (reflexivity || discriminate)).
             destruct U as [U|U].
             ++ specialize (I1 U). subst u.
                assert (WS: forall o, walk W k (f, i) (names s) (trailing s) fo o ->
                         walk W k (v_fs top, d) (names (c ++ SLASH :: s)) (trailing (c ++ SLASH :: s)) fo o).
                { intros o H. rewrite NM. destruct (names s) as [|n ns] eqn:EN2.
                  - inversion H; subst. rewrite trailing_slash by exact EN2. constructor; [exact O3|].
                    intros _ q t Q. now injection Q.
                  - rewrite trailing_step by exact NS. econstructor; [exact O3|exact H]. }
                destruct (loop _ _ _ _ _ _ _ _ _ _) as [rc v lg|w]; cbn [good_res] in *.
                ** destruct I1 as (I1 & o & I3 & I4). split; [exact I1|]. exists o. split; [now apply WS|].
                   destruct I4 as [I4|(I4 & I5)]; [now left|]. right. split; [|exact I5].
                   replace (c ++ SLASH :: s) with ((c ++ [SLASH]) ++ s) by (rewrite <- app_assoc; reflexivity).
                   now apply untidy_app.
                ** destruct w; try exact I1; [now apply WS|].
                   destruct I1 as (n & B & L). exists n. rewrite NM. split; [|exact L]. destruct B; [left; now right|now right].
             ++ specialize (I2 U). destruct (loop _ _ _ _ _ _ _ _ _ _) as [rc v lg|w]; cbn [good_res].
                ** destruct I2 as (I1' & I3 & ->). split; [exact I1'|]. exists (Fail ENOTDIR). rewrite NM, I3, trailing_slash by exact I3.
                   split; [eapply walk_last_notdir; eauto|]. left. unfold agrees, ENOTDIR. lia.
                ** destruct I2 as [-> I3]. rewrite NM. destruct (names s) as [|n ns]; [tauto|]. eapply walk_notdir; eauto.
        * destruct O4 as (-> & A2 & A3 & A4). rewrite A3. cbn [replace_top good_res]. split; [exact O1|].
          destruct s as [|y s'] eqn:ES.
          -- exists (Missing (f, i) n). rewrite NM, trailing_slash by reflexivity.
             split; [constructor; [exact O3|discriminate]|]. left. now repeat split.
          -- rewrite <- ES in *. assert (NS: s <> []) by (rewrite ES; discriminate). clear ES.
             rewrite NM. destruct (names s) as [|n' ns] eqn:EN2.
             ++ exists (Missing (f, i) n). rewrite trailing_slash by exact EN2.
                split; [constructor; [exact O3|discriminate]|]. right. split; [now apply untidy|]. eauto.
             ++ exists (Fail ENOENT). split; [eapply walk_noent; exact O3|]. left. unfold agrees, ENOENT. lia.
  Qed.
End Walk.
