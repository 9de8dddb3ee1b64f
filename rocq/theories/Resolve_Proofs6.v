From Verif Require Import Lib Resolve_Model Resolve_Spec Resolve_Proofs Resolve_Proofs2 Resolve_Proofs3.

Section Summary.
  Variables (dbg : bool) (NAMEMAX : Z) (W : world).

  Lemma follows_walk : good W -> forall path cwd d fo rc v log, in_tree W (v_fs cwd) -> v_obj cwd = Some (d, VDir) ->
    tidy path -> vfs_resolve dbg NAMEMAX W path cwd fo = Done rc v log ->
    exists o, resolves W (v_fs cwd, d) path fo o /\ agrees rc v o.
  Proof.
    intros GW path cwd d fo rc v log T V TD H. pose proof (resolve_spec dbg NAMEMAX W GW path cwd d fo T V) as S.
    rewrite H in S. destruct S as (o & S1 & [S2|[S2 _]]); [eauto|tauto].
  Qed.

  Lemma untidy_paths : good W -> forall path cwd d fo rc v log, in_tree W (v_fs cwd) -> v_obj cwd = Some (d, VDir) ->
    vfs_resolve dbg NAMEMAX W path cwd fo = Done rc v log ->
    exists o, resolves W (v_fs cwd, d) path fo o /\
      (agrees rc v o \/ (~ tidy path /\ rc = ENOENT /\ exists q n, o = Missing q n)).
  Proof.
    intros GW path cwd d fo rc v log T V H. pose proof (resolve_spec dbg NAMEMAX W GW path cwd d fo T V) as S.
    now rewrite H in S.
  Qed.

  Lemma crash_only : good W -> forall path cwd d fo w, in_tree W (v_fs cwd) -> v_obj cwd = Some (d, VDir) ->
    vfs_resolve dbg NAMEMAX W path cwd fo = Crash w ->
    (w = NotDir /\ resolves W (v_fs cwd, d) path fo (Fail ENOTDIR)) \/ (w = TooLong /\ long_name NAMEMAX W path).
  Proof.
    intros GW path cwd d fo w T V H. pose proof (resolve_spec dbg NAMEMAX W GW path cwd d fo T V) as S.
    rewrite H in S. destruct w; tauto.
  Qed.

  Lemma walk_result : good W -> forall path cwd d fo o, in_tree W (v_fs cwd) -> v_obj cwd = Some (d, VDir) ->
    tidy path -> ~ long_name NAMEMAX W path -> resolves W (v_fs cwd, d) path fo o -> o <> Fail ENOTDIR ->
    exists rc v log, vfs_resolve dbg NAMEMAX W path cwd fo = Done rc v log /\ agrees rc v o.
  Proof.
    intros GW path cwd d fo o T V TD SH R NE. pose proof (resolve_spec dbg NAMEMAX W GW path cwd d fo T V) as S.
    destruct (vfs_resolve dbg NAMEMAX W path cwd fo) as [rc v log|w].
    - destruct S as (o' & S1 & [S2|[S2 _]]); [|tauto]. rewrite (resolves_det W GW _ _ _ _ _ R S1). eauto.
    - destruct w; try tauto. exfalso. apply NE. exact (resolves_det W GW _ _ _ _ _ R S).
  Qed.
End Summary.
