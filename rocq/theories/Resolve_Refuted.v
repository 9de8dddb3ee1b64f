(** Cases in which vfs_resolve does not do what the walk of Resolve_Spec.v says,
    or does not keep locks and reference counts. *)
From Verif Require Import Lib Resolve_Model Resolve_Spec.

(** Worlds from lists: entries (fs, directory, name, inode, type), links (fs,
    inode, target); the root of file system [f] is inode [100 * f + 1]. *)
Fixpoint str_eqb (a b : list Z) : bool :=
  match a, b with
  | [], [] => true
  | x :: a', y :: b' => (x =? y) && str_eqb a' b'
  | _, _ => false
  end.
Definition ent5 := (Z * Z * list Z * (Z * vtype))%type.
Definition wget (es : list ent5) (f d : Z) (n : list Z) : option (Z * vtype) :=
  match find (fun e => let '(f', d', n', _) := e in (f' =? f) && (d' =? d) && str_eqb n' n) es with
  | Some (_, _, _, r) => Some r | None => None end.
Definition wlink (ls : list (Z * Z * list Z)) (f i : Z) : list Z :=
  match find (fun e => let '(f', i', _) := e in (f' =? f) && (i' =? i)) ls with
  | Some (_, _, l) => l | None => [] end.
Definition wroot (f : Z) : Z := 100 * f + 1.
Definition mkworld es ls ms : world := mkW (wget es) (wlink ls) wroot ms 0.

(** [good], computed *)
Definition tidyb (l : list Z) : bool :=
  match rev l with a :: b :: _ => negb ((a =? SLASH) && (b =? SLASH)) | _ => true end.
Definition uncoveredb (ms : list mnt) (f i : Z) : bool :=
  forallb (fun m => negb ((m_host m =? f) && (m_hino m =? i))) ms.
Fixpoint nodupb {A} (eqb : A -> A -> bool) (l : list A) : bool :=
  match l with [] => true | x :: l' => negb (existsb (eqb x) l') && nodupb eqb l' end.
Definition goodb (es : list ent5) (ls : list (Z * Z * list Z)) (ms : list mnt) : bool :=
  nodupb (fun a b => (m_host a =? m_host b) && (m_hino a =? m_hino b)) ms &&
  nodupb (fun a b => m_target a =? m_target b) ms &&
  forallb (fun m => ((m_host m =? 0) || existsb (fun x => m_target x =? m_host m) ms) && negb (m_host m =? m_target m)) ms &&
  forallb (fun m => match wget es (m_host m) (m_hino m) DOTDOT with
                    | Some (j, VDir) => uncoveredb ms (m_host m) j | _ => false end) ms &&
  forallb (fun m => negb (m_hino m =? wroot (m_host m))) ms &&
  forallb (fun e => let '(f, _, _, (i, t)) := e in negb (i =? wroot f) || vtype_eqb t VDir) es &&
  forallb (fun e => let '(_, _, l) := e in (zlen l <? 256) && tidyb l) ls.

Lemma tidyb_ok : forall l, tidyb l = true -> tidy l.
Proof.
  intros l H s ->. unfold tidyb in H. rewrite rev_app_distr in H. cbn in H. discriminate.
Qed.
Lemma nodupb_ok : forall A B (g : A -> B) eqb l, (forall a b, g a = g b -> eqb a b = true) ->
  nodupb eqb l = true -> NoDup (map g l).
Proof.
  intros A B g eqb l E. induction l; cbn; intro H; [constructor|]. apply andb_true_iff in H. destruct H as [H1 H2].
  constructor; [|auto]. intro I1. apply in_map_iff in I1. destruct I1 as (x & I1 & I2).
  assert (existsb (eqb a) l = true) by (apply existsb_exists; exists x; split; [exact I2|apply E; congruence]).
  rewrite H in H1. discriminate.
Qed.
Lemma uncoveredb_ok : forall es ls ms f i, uncoveredb ms f i = true -> uncovered (mkworld es ls ms) (f, i).
Proof.
  intros es ls ms f i H m I1 E. cbn [mnts mkworld] in I1. unfold uncoveredb in H. rewrite forallb_forall in H.
  specialize (H m I1). injection E as <- <-. rewrite !Z.eqb_refl in H. discriminate.
Qed.
Lemma goodb_ok : forall es ls ms, goodb es ls ms = true -> good (mkworld es ls ms).
Proof.
  intros es ls ms H. unfold goodb in H. rewrite !andb_true_iff in H.
  destruct H as ((((((H1 & H2) & H3) & H4) & H5) & H6) & H7). rewrite forallb_forall in H3, H4, H5, H6, H7.
  constructor; cbn [mnts mkworld get link root rootfs].
  - eapply nodupb_ok; [|exact H1]. intros a b E. cbn beta in *. injection E as E1 E2. rewrite E1, E2. now rewrite !Z.eqb_refl.
  - eapply nodupb_ok; [|exact H2]. intros a b E. cbn beta. rewrite E. apply Z.eqb_refl.
  - intros m I1. specialize (H3 m I1). apply andb_true_iff in H3. destruct H3 as [H3 H8]. split; [|lia].
    apply orb_true_iff in H3. destruct H3 as [H3|H3]; [left; cbn; lia|]. right. apply existsb_exists in H3.
    destruct H3 as (x & X1 & X2). exists x. split; [exact X1|lia].
  - intros m I1. specialize (H4 m I1). destruct (wget es _ _ _) as [[j []]|] eqn:G; try discriminate.
    exists j. split; [reflexivity|]. now apply uncoveredb_ok.
  - intros f m I1 E. cbn [mnts mkworld root] in I1, E. specialize (H5 m I1). injection E as E1 E2. rewrite <- E1 in E2. lia.
  - intros f d n t G. unfold wget in G. destruct (find _ _) as [[[[f' d'] n'] [i t']]|] eqn:F; [|discriminate].
    apply find_some in F. destruct F as [F1 F2]. injection G as -> ->. specialize (H6 _ F1). cbn in H6, F2.
    assert (f' = f) as -> by lia. rewrite Z.eqb_refl in H6. now destruct t.
  - intros f i. unfold wlink. destruct (find _ _) as [[[f' i'] l]|] eqn:F.
    + apply find_some in F. destruct F as [F1 F2]. specialize (H7 _ F1). cbn in H7. apply andb_true_iff in H7.
      split; [lia|apply tidyb_ok; tauto].
    + split; [reflexivity|]. intros s E. now destruct s.
Qed.

(** Names *)
Definition a_ : list Z := [97].   Definition b_ : list Z := [98].   Definition d_ : list Z := [100].
Definition f_ : list Z := [102].  Definition l_ : list Z := [108].  Definition m_ : list Z := [109].
Definition x_ : list Z := [120].  Definition y_ : list Z := [121].
Definition sl : list Z := [SLASH].

Definition dir (f d up : Z) : list ent5 := [(f, d, DOT, (d, VDir)); (f, d, DOTDOT, (up, VDir))].

(** File system 0: /m (inode 2, file system 5 is mounted there), /d (4) with the
    file /d/f (7), the file /f (5), /abc (6), links /l -> "m" (3), /n -> "m/q/r"
    (8), /k -> "d/x" (9), /o -> "o" (10).  File system 5: /y (502), link /l ->
    "/m/l" (503). *)
Definition ents : list ent5 :=
  dir 0 1 1 ++ dir 0 2 1 ++ dir 0 4 1 ++ dir 0 6 1 ++ dir 5 501 501 ++ dir 5 502 501 ++
  [ (0, 1, m_, (2, VDir)); (0, 1, d_, (4, VDir)); (0, 4, f_, (7, VFile)); (0, 1, f_, (5, VFile));
    (0, 1, [97;98;99], (6, VDir)); (0, 1, l_, (3, VLink)); (0, 1, [110], (8, VLink));
    (0, 1, [107], (9, VLink)); (0, 1, [111], (10, VLink));
    (5, 501, y_, (502, VDir)); (5, 501, l_, (503, VLink)) ].
Definition lnks : list (Z * Z * list Z) :=
  [ (0, 3, m_); (0, 8, m_ ++ sl ++ [113] ++ sl ++ [114]); (0, 9, d_ ++ sl ++ x_); (0, 10, [111]);
    (5, 503, sl ++ m_ ++ sl ++ l_) ].
Definition W1 : world := mkworld ents lnks [mkM 0 2 5].
Definition cwd1 : vpath := mkV 0 (Some (1, VDir)) 1 None 0.

Lemma W1_good : good W1.
Proof. apply goodb_ok. vm_compute. reflexivity. Qed.
Lemma cwd1_good : good_cwd W1 cwd1.
Proof. split; [now left|]. exists 1. reflexivity. Qed.

(** A link that leads across a mount: lines 164-165 of vfs_resolve.c.h unlock the
    file system of the result, which vfs_resolve promises to return locked. *)
Lemma link_mount_unlocked : exists W cwd path v log, good W /\ good_cwd W cwd /\ tidy path /\
  vfs_resolve true 231 W path cwd true = Done 0 v log /\ locks (v_fs v) log = 0.
Proof.
  exists W1, cwd1, (sl ++ l_). eexists _, _. split; [exact W1_good|]. split; [exact cwd1_good|].
  split; [apply tidyb_ok; reflexivity|]. split; vm_compute; reflexivity.
Qed.

(** The error path then unlocks it once more *)
Lemma link_mount_double_unlock : exists W cwd path v log, good W /\ good_cwd W cwd /\ tidy path /\
  vfs_resolve true 231 W path cwd true = Done ENOENT v log /\ locks 5 log = -1 /\ ~ disciplined log.
Proof.
  exists W1, cwd1, (sl ++ l_ ++ sl ++ x_ ++ sl ++ y_). eexists _, _. split; [exact W1_good|]. split; [exact cwd1_good|].
  split; [apply tidyb_ok; reflexivity|]. split; [vm_compute; reflexivity|]. split; [vm_compute; reflexivity|].
  intro D. cbn [disciplined] in D. destruct D as ((D & L) & _). vm_compute in L. discriminate.
Qed.

(** A failure inside a link, after it crossed a mount: the file system of the
    directory of the link is unlocked and released a second time, the one where the
    walk ended stays locked and retained for ever. *)
Lemma link_mount_failure_leak : exists W cwd path v log, good W /\ good_cwd W cwd /\ tidy path /\
  vfs_resolve true 231 W path cwd true = Done ENOENT v log /\
  locks 5 log = 0 /\ fsrefs 5 log = 1 /\ locks 0 log = -1 /\ fsrefs 0 log = -1.
Proof.
  exists W1, cwd1, (sl ++ [110] ++ sl ++ x_). eexists _, _. split; [exact W1_good|]. split; [exact cwd1_good|].
  split; [apply tidyb_ok; reflexivity|]. repeat split; vm_compute; reflexivity.
Qed.

(** ELOOP through an absolute link of a mounted file system *)
Lemma eloop_unbalanced : exists W cwd path v log, good W /\ good_cwd W cwd /\ tidy path /\
  vfs_resolve true 231 W path cwd true = Done ELOOP v log /\
  exists f, fsrefs f log <> 0 /\ exists g, locks g log <> 0.
Proof.
  exists W1, cwd1, (sl ++ m_ ++ sl ++ l_). eexists _, _. split; [exact W1_good|]. split; [exact cwd1_good|].
  split; [apply tidyb_ok; reflexivity|]. split; [vm_compute; reflexivity|]. exists 0. split; [vm_compute; discriminate|].
  exists 0. vm_compute. discriminate.
Qed.

(** "/abc//": the name handed to the file system starts in the middle of "abc" *)
Lemma last_comp_two_slashes : exists W cwd path v log, good W /\ good_cwd W cwd /\
  vfs_resolve true 231 W path cwd true = Done 0 v log /\
  names path = [[97; 98; 99]] /\ skipn (v_lc v) path = [99; SLASH; SLASH].
Proof.
  exists W1, cwd1, (sl ++ [97; 98; 99] ++ sl ++ sl). eexists _, _. split; [exact W1_good|]. split; [exact cwd1_good|].
  repeat split; vm_compute; reflexivity.
Qed.

(** "/x/" can be created (mkdir), "/x//" is ENOENT *)
Lemma missing_two_slashes : exists W cwd v log v' log', good W /\ good_cwd W cwd /\
  vfs_resolve true 231 W (sl ++ x_ ++ sl) cwd false = Done 0 v log /\ v_obj v = None /\
  vfs_resolve true 231 W (sl ++ x_ ++ sl ++ sl) cwd false = Done ENOENT v' log' /\
  names (sl ++ x_ ++ sl) = names (sl ++ x_ ++ sl ++ sl).
Proof.
  exists W1, cwd1. eexists _, _, _, _. split; [exact W1_good|]. split; [exact cwd1_good|].
  repeat split; vm_compute; reflexivity.
Qed.

(** A name looked up in a file *)
Lemma name_in_file : exists W cwd path, good W /\ good_cwd W cwd /\ tidy path /\
  vfs_resolve true 231 W path cwd true = Crash NotDir.
Proof.
  exists W1, cwd1, (sl ++ f_ ++ sl ++ x_). split; [exact W1_good|]. split; [exact cwd1_good|].
  split; [apply tidyb_ok; reflexivity|]. vm_compute. reflexivity.
Qed.

(** A name of 231 characters (MAX_PATH is 256) *)
Lemma name_overflow : exists W cwd path, good W /\ good_cwd W cwd /\ tidy path /\ zlen path < 256 /\
  vfs_resolve true 231 W path cwd true = Crash TooLong.
Proof.
  exists W1, cwd1, (sl ++ repeat 97 231). split; [exact W1_good|]. split; [exact cwd1_good|].
  split; [apply tidyb_ok; vm_compute; reflexivity|]. split; vm_compute; reflexivity.
Qed.

(** A dangling link that is followed: the directory is the one of the missing
    object ("/d", 4), the name is the one of the link ("k" instead of "x").
    open("/k", O_CREAT) creates "/d/k". *)
Lemma dangling_link_name : exists W cwd path v log p n, good W /\ good_cwd W cwd /\ tidy path /\
  vfs_resolve true 231 W path cwd true = Done 0 v log /\ v_obj v = None /\
  resolves W (0, 1) path true (Missing p n) /\ v_dir v = snd p /\ skipn (v_lc v) path <> n.
Proof.
  exists W1, cwd1, (sl ++ [107]). eexists _, _, (0, 4), x_. split; [exact W1_good|]. split; [exact cwd1_good|].
  split; [apply tidyb_ok; reflexivity|]. split; [vm_compute; reflexivity|]. split; [vm_compute; reflexivity|].
  split; [|split; [reflexivity|vm_compute; discriminate]].
  assert (U: forall i, i <> 2 -> uncovered W1 (0, i)).
  { intros i N m [<-|[]]. cbn. congruence. }
  assert (ND: forall n, n <> DOTDOT -> forall f d, ~ (n = DOTDOT /\ d = root W1 f)) by (intros n N f d [E _]; congruence).
  apply resolves_walk with (s := (0, 1)); [discriminate|left; split; [exists [107]; reflexivity|reflexivity]|].
  change (names (sl ++ [107])) with [[107]]. change (trailing (sl ++ [107])) with false.
  apply walk_last; [|discriminate]. cbn [orb].
  eapply name_link with (k := 2%nat) (s := (0, 1)) (f := 0) (i := 9).
  - eapply entry_some; [apply ND; discriminate|vm_compute; reflexivity|]. apply cover_none, U. discriminate.
  - reflexivity.
  - discriminate.
  - right. split; [intros [s E]; discriminate E|reflexivity].
  - change (names (link W1 0 9)) with [d_; x_]. change (trailing (link W1 0 9)) with false.
    eapply walk_dir with (q := (0, 4)).
    + apply name_obj; [|left; discriminate].
      eapply entry_some; [apply ND; discriminate|vm_compute; reflexivity|]. apply cover_none, U. discriminate.
    + apply walk_last; [|discriminate]. cbn [orb]. apply name_none. apply entry_none; [apply ND; discriminate|vm_compute; reflexivity].
Qed.

(** A file system mounted on the root of a mounted one (mp_add accepts that: the
    place is different): "/m" is the lower one, "/m/." the upper one. *)
Definition W2 : world := mkworld (ents ++ dir 6 601 601) lnks [mkM 0 2 5; mkM 5 501 6].
Lemma mount_on_root : exists W cwd v log v' log',
  vfs_resolve true 231 W (sl ++ m_) cwd true = Done 0 v log /\ v_fs v = 5 /\
  vfs_resolve true 231 W (sl ++ m_ ++ sl ++ DOT) cwd true = Done 0 v' log' /\ v_fs v' = 6.
Proof. exists W2, cwd1. eexists _, _, _, _. repeat split; vm_compute; reflexivity. Qed.

Lemma mount_on_root_accepted : exists W W' cwd log, good W /\ good_cwd W cwd /\
  mp_add true 231 W 16 (sl ++ m_) cwd 6 = MRet 0 W' log /\ mnts W' = [mkM 0 2 5; mkM 5 501 6] /\ ~ good W'.
Proof.
  exists W1. eexists _, cwd1, _. split; [exact W1_good|]. split; [exact cwd1_good|].
  split; [vm_compute; reflexivity|]. split; [reflexivity|].
  intro G. apply (g_root _ G 5 (mkM 5 501 6)); [right; left; reflexivity|reflexivity].
Qed.

(** ".." out of a file system that was mounted below a directory which was itself
    covered later: the covered directory instead of what is mounted there. *)
Definition W3 : world :=
  mkworld (dir 0 1 1 ++ dir 0 2 1 ++ dir 0 4 2 ++ dir 5 501 501 ++ dir 6 601 601 ++
           [(0, 1, m_, (2, VDir)); (0, 2, d_, (4, VDir))]) [] [mkM 0 4 5; mkM 0 2 6].
Lemma dotdot_covered : exists W cwd v log v' log', good_cwd W cwd /\
  vfs_resolve true 231 W DOTDOT cwd true = Done 0 v log /\ (v_fs v, v_obj v) = (0, Some (2, VDir)) /\
  vfs_resolve true 231 W (sl ++ m_) cwd true = Done 0 v' log' /\ v_fs v' = 6 /\ mounted W (0, 2) (6, root W 6).
Proof.
  exists W3, (mkV 5 (Some (501, VDir)) 501 None 0). eexists _, _, _, _.
  split; [split; [right; exists (mkM 0 4 5); split; [now left|reflexivity]|exists 501; reflexivity]|].
  split; [vm_compute; reflexivity|]. split; [reflexivity|]. split; [vm_compute; reflexivity|]. split; [reflexivity|].
  exists (mkM 0 2 6). split; [right; now left|]. split; reflexivity.
Qed.

(** ".." in the root directory gives the process's cwd unchanged, with the
    directory and entry it had when chdir was called: after mkdir("/a"),
    chdir("/a/.."), rmdir("/a") that is the removed directory (77). *)
Lemma dotdot_stale : exists W cwd v log, good W /\ good_cwd W cwd /\
  vfs_resolve true 231 W DOTDOT cwd true = Done 0 v log /\
  v_dir v = 77 /\ v_ent v = Some (77, DOTDOT) /\ (forall n, get W 0 77 n = None).
Proof.
  exists W1, (mkV 0 (Some (1, VDir)) 77 (Some (77, DOTDOT)) 4). eexists _, _. split; [exact W1_good|].
  split; [split; [now left|exists 1; reflexivity]|]. repeat split.
Qed.

(** mp_add on a place that is taken, or of a file system that is mounted: the
    reference on the file system of the path is not dropped. *)
Lemma mp_add_leak : exists W cwd rc W' log, good W /\ good_cwd W cwd /\
  mp_add true 231 W 16 (sl ++ d_) cwd 5 = MRet rc W' log /\ rc = EPERM /\ fsrefs 0 log = 1.
Proof.
  exists W1, cwd1. eexists _, _, _. split; [exact W1_good|]. split; [exact cwd1_good|].
  split; [vm_compute; reflexivity|]. split; reflexivity.
Qed.

(** A file system mounted on itself is accepted; ".." of its root then fails an
    ASSERT. *)
Lemma mount_on_itself : exists W W' cwd log, good W /\ good_cwd W cwd /\
  mp_add true 231 W 16 (sl ++ m_ ++ sl ++ y_) cwd 7 = MRet 0 W' log /\ good W' /\
  exists W'' log2, mp_add true 231 W 16 (sl ++ d_) cwd 0 = MRet 0 W'' log2 /\ ~ good W''.
Proof.
  exists W1. eexists _, cwd1, _. split; [exact W1_good|]. split; [exact cwd1_good|].
  split; [vm_compute; reflexivity|]. split; [apply (goodb_ok ents lnks [mkM 0 2 5; mkM 5 502 7]); vm_compute; reflexivity|].
  eexists _, _. split; [vm_compute; reflexivity|]. intro G.
  destruct (g_tree _ G (mkM 0 4 0)) as [_ N]; [right; left; reflexivity|]. now apply N.
Qed.
