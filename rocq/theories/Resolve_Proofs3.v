From Verif Require Import Lib Resolve_Model Resolve_Spec Resolve_Proofs Resolve_Proofs2.

(** ** The offset of the last name *)
Section LC.
  Variables (dbg : bool) (NAMEMAX : Z) (W : world).

  Lemma get_entry_lc : forall rec path off top b log rc np log',
    get_entry dbg NAMEMAX W rec path off top b log = GRet rc np log' -> v_lc np = v_lc top.
  Proof.
    intros rec path off top b log rc np log' H. unfold get_entry in H.
    destruct (cross_dotdot dbg W path top log) as [g|] eqn:C.
    - subst g. unfold cross_dotdot in C. destruct (negb _); [discriminate|].
      destruct (v_obj top) as [[i t]|]; [|discriminate]. destruct (negb _); [discriminate|].
      destruct (_ =? rootfs W); [injection C as <- <- <-; reflexivity|].
      destruct (mp_of W _) as [m|]; [|discriminate]. destruct (dbg && _); [discriminate|].
      destruct (dbg && _); [discriminate|]. injection C as <- <- <-. reflexivity.
    - destruct (Nat.eqb _ _); [injection H as <- <- <-; reflexivity|].
      destruct (lookup NAMEMAX W path off top log) as [rc1 np1 log1|] eqn:L; [|discriminate].
      assert (LC: v_lc np1 = v_lc top).
      { unfold lookup in L. destruct (v_obj top) as [[d []]|]; try discriminate.
        destruct (_ >=? _); [discriminate|].
        destruct (match get W _ _ _ with Some _ => _ | None => _ end); injection L as <- <- <-; reflexivity. }
      assert (E: GRet 0 np1 log1 = GRet rc np log' -> v_lc np = v_lc top) by (intro E; injection E as _ <- _; exact LC).
      destruct (v_obj np1) as [[i []]|] eqn:V; try (now apply E). destruct b; [|now apply E].
      unfold symlink in H. rewrite V in H. destruct (_ >=? 256); [discriminate|].
      destruct rec as [r|]; [|injection H as _ <- _; exact LC].
      destruct (r _ _ _); [|discriminate]. injection H as _ <- _. exact LC.
  Qed.

  Definition ends (path rest : list Z) : Prop := exists pre, path = pre ++ rest /\ (pre = [] \/ exists q, pre = q ++ [SLASH]).

  Lemma loop_lc : forall rec s c path top fo log v log',
    plain c -> skipn (v_lc top) path = c ++ s -> c ++ s <> [] -> ends path (c ++ s) ->
    loop dbg NAMEMAX W rec path s (v_lc top + length c) top fo log = Done 0 v log' ->
    exists c', plain c' /\ exists e, (e = [] /\ c' <> [] \/ e = [SLASH]) /\ skipn (v_lc v) path = c' ++ e /\ ends path (c' ++ e).
  Proof.
    intro rec. induction s as [|x s IH]; intros c path top fo log v log' P SK NE EN H; cbn [loop] in H.
    - destruct (get_entry _ _ _ _ _ _ _ _ _) as [rc np lg|] eqn:G; [|discriminate].
      cbn [replace_top] in H. injection H as -> <- <-. cbn [v_lc with_lc]. rewrite (get_entry_lc _ _ _ _ _ _ _ _ _ G).
      exists c. split; [exact P|]. exists []. split; [left; split; [reflexivity|intros ->; now apply NE]|]. now split.
    - destruct (x =? SLASH) eqn:X; cbn [negb] in H.
      2:{ replace (S (v_lc top + length c)) with (v_lc top + length (c ++ [x]))%nat in H by (rewrite app_length; cbn; lia).
          replace (c ++ x :: s) with ((c ++ [x]) ++ s) in * by (rewrite <- app_assoc; reflexivity).
          eapply IH; [|exact SK|exact NE|exact EN|exact H]. apply plain_app. split; [exact P|]. constructor; [lia|constructor]. }
      apply Z.eqb_eq in X. subst x.
      assert (SK2: skipn (S (v_lc top + length c)) path = s).
      { replace (S (v_lc top + length c)) with (S (length c) + v_lc top)%nat by lia. rewrite <- skipn_skipn, SK.
        replace (S (length c)) with (length (c ++ [SLASH])) by (rewrite app_length; cbn; lia).
        replace (c ++ SLASH :: s) with ((c ++ [SLASH]) ++ s) by (rewrite <- app_assoc; reflexivity).
        rewrite skipn_app, Nat.sub_diag, skipn_all. reflexivity. }
      destruct (get_entry _ _ _ _ _ _ _ _ _) as [rc np lg|] eqn:G; [|discriminate].
      pose proof (get_entry_lc _ _ _ _ _ _ _ _ _ G) as LC.
      destruct (rc =? 0) eqn:RC; cbn [negb] in H; [|injection H as -> _ _; discriminate RC].
      destruct s as [|y s'] eqn:ES.
      + assert (H': v_lc v = v_lc top).
        { rewrite <- LC. destruct (v_obj np) as [[i t]|]; cbn [replace_top] in H; injection H; intros; subst; reflexivity. }
        rewrite H'. exists c. split; [exact P|]. exists [SLASH]. split; [now right|]. now split.
      + rewrite <- ES in *. assert (NS: s <> []) by (rewrite ES; discriminate). clear ES.
        destruct (v_obj np) as [[i t]|]; cbn [replace_top] in H; [|discriminate].
        specialize (IH [] path (with_lc np (S (v_lc top + length c))) fo (ret_at np ++ rel_at top ++ lg) v log').
        cbn [length app v_lc with_lc] in IH. rewrite Nat.add_0_r in IH.
        apply IH; [constructor|exact SK2|exact NS| |exact H].
        destruct EN as (pre & E1 & E2). exists (pre ++ c ++ [SLASH]). split.
        * rewrite E1, <- !app_assoc. reflexivity.
        * right. exists (pre ++ c). now rewrite app_assoc.
  Qed.

  Lemma names_app : forall pre rest, (pre = [] \/ exists q, pre = q ++ [SLASH]) -> names (pre ++ rest) = names pre ++ names rest.
  Proof.
    intros pre rest [->|(q & ->)]; [reflexivity|].
    assert (H: forall q acc rest, pieces (q ++ SLASH :: rest) acc = pieces q acc ++ pieces rest []).
    { clear. induction q as [|x q IH]; intros acc rest; cbn; [reflexivity|]. destruct (x =? SLASH); [cbn; f_equal|]; apply IH. }
    unfold names. rewrite <- app_assoc. cbn [app]. rewrite !H, !filter_app. cbn. now rewrite app_nil_r.
  Qed.

  Lemma nth_error_skipn : forall (l : list Z) n, nth_error l n = match skipn n l with [] => None | x :: _ => Some x end.
  Proof. induction l; destruct n; cbn; auto. Qed.

  Lemma last_comp_ok : forall path cwd fo v log ns c, tidy path ->
    vfs_resolve dbg NAMEMAX W path cwd fo = Done 0 v log -> names path = ns ++ [c] ->
    skipn (v_lc v) path = c ++ (if trailing path then [SLASH] else []).
  Proof.
    intros path cwd fo v log ns c TD H N. unfold vfs_resolve in H.
    set (st := match path with [] => _ | _ => _ end) in H.
    destruct (resolve _ _ _ _ _ _ _ _) as [rc top lg|] eqn:R; [|discriminate].
    destruct (rc =? 0) eqn:RC; [|injection H as -> _ _; discriminate RC]. apply Z.eqb_eq in RC. subst rc.
    assert (Q: exists c', plain c' /\ exists e, (e = [] /\ c' <> [] \/ e = [SLASH]) /\ skipn (v_lc top) path = c' ++ e /\ ends path (c' ++ e)).
    { clearbody st. destruct path as [|x path]; [cbn in N; destruct ns; discriminate|].
      cbn [resolve] in R.
      eapply (loop_lc _ _ [] _ (with_lc st 0)); [constructor|reflexivity|discriminate|exists []; split; [reflexivity|now left]|exact R]. }
    destruct Q as (c' & P & e & E & SK & pre & PA & PE).
    assert (NN: names path = names pre ++ opt c').
    { rewrite PA at 1. rewrite names_app by exact PE. f_equal. destruct E as [[-> _]| ->].
      - rewrite app_nil_r. now apply names_plain.
      - rewrite names_slash by exact P. apply app_nil_r. }
    assert (CC: c' <> []).
    { intros ->. destruct E as [[-> Q]| ->]; [tauto|]. cbn [app] in PA. destruct PE as [->|(q & ->)].
      - subst path. cbn in N. destruct ns; discriminate.
      - apply (TD q). now rewrite PA, <- app_assoc. }
    assert (c' = c) as ->.
    { rewrite N in NN. destruct c'; [tauto|]. cbn [opt] in NN. apply app_inj_tail in NN. now destruct NN as [_ <-]. }
    assert (TR: e = if trailing path then [SLASH] else []).
    { rewrite PA. rewrite trailing_app by (destruct c; [tauto|discriminate]).
      destruct E as [[-> _]| ->]; [rewrite app_nil_r, trailing_plain by exact P; reflexivity|].
      rewrite trailing_slash by reflexivity. reflexivity. }
    rewrite <- TR. rewrite <- SK. rewrite nth_error_skipn, SK in H.
    destruct c as [|y c]; [tauto|]. cbn [app] in H.
    replace (y =? SLASH) with false in H; [injection H as <- _; reflexivity|].
    inversion P; subst. lia.
  Qed.
End LC.

(** ** The directory of the last name *)
Section Parent.
  Variables (dbg : bool) (NAMEMAX : Z) (W : world).
  Hypothesis GW : good W.

  Lemma located_lc : forall f d c b v n, located W f d c b v -> located W f d c b (with_lc v n).
  Proof. intros f d c b v n H. exact H. Qed.

  Lemma get_entry_loc : forall rec path c s top d b log rc np log',
    plain c -> c <> [] -> (s = [] \/ exists s', s = SLASH :: s') ->
    skipn (v_lc top) path = c ++ s -> v_obj top = Some (d, VDir) ->
    get_entry dbg NAMEMAX W rec path (v_lc top + length c) top b log = GRet rc np log' ->
    located W (v_fs top) d c b np.
  Proof.
    intros rec path c s top d b log rc np log' P NE S SK V H. unfold get_entry in H.
    destruct (cross_dotdot dbg W path top log) as [g|] eqn:C.
    - unfold cross_dotdot in C. rewrite SK, V in C.
      destruct (is_dotdot (c ++ s)) eqn:D; cbn [negb] in C; [|discriminate].
      apply is_dotdot_spec in D; [|assumption..]. subst c.
      destruct (d =? root W (v_fs top)) eqn:DR; cbn [negb] in C; [|discriminate]. apply Z.eqb_eq in DR. left. tauto.
    - destruct (Nat.eqb_spec (v_lc top) (v_lc top + length c)) as [E|_]; [destruct c; cbn in E; [tauto|lia]|].
      unfold lookup in H. rewrite V, (comp_eq _ _ _ _ SK) in H.
      destruct (zlen c >=? NAMEMAX); [discriminate|].
      right. destruct (get W (v_fs top) d c) as [[i t]|] eqn:G.
      + pose proof (mp_at_spec W (v_fs top) i) as M. destruct (mp_at W (v_fs top) i) as [tf|].
        * left. exists i, t. eauto.
        * right. cbn [v_obj] in H. destruct t; try (right; injection H as <- <- <-; cbn; tauto).
          destruct b; [left; eauto|]. right; injection H as <- <- <-; cbn; tauto.
      + right; right. cbn [v_obj] in H. injection H as <- <- <-. cbn. tauto.
  Qed.

  Definition same (v w : vpath) : Prop := exists n, v = with_lc w n.

  Lemma loop_parent : forall k rec, rec_ok NAMEMAX W k rec -> forall s c path top d t fo log v log',
    plain c -> skipn (v_lc top) path = c ++ s -> c ++ s <> [] -> v_obj top = Some (d, t) -> okv W top ->
    loop dbg NAMEMAX W rec path s (v_lc top + length c) top fo log = Done 0 v log' ->
    match rev (names (c ++ s)) with
    | [] => same v top
    | l :: ns => exists f d', walk W k (v_fs top, d) (rev ns) true true (Obj (f, d') VDir) /\
                   located W f d' l (fo || trailing (c ++ s)) v
    end.
  Proof.
    intros k rec RO. induction s as [|x s IH]; intros c path top d t fo log v log' P SK NE V OV H; cbn [loop] in H.
    - assert (NC: c <> []) by (intros ->; now apply NE). rewrite app_nil_r in *.
      assert (SK': skipn (v_lc top) path = c ++ []) by now rewrite app_nil_r.
      rewrite names_plain, trailing_plain by exact P.
      assert (t = VDir) as ->.
      { assert (D: t = VDir \/ t <> VDir) by (destruct t; [right|left|right|right]; (reflexivity || discriminate)).
        destruct D as [D|D]; [exact D|]. rewrite (get_entry_notdir dbg NAMEMAX W rec path c [] top d t fo log) in H; auto. discriminate. }
      destruct (get_entry _ _ _ _ _ _ _ _ _) as [rc np lg|] eqn:G; [|discriminate].
      apply (get_entry_loc _ _ c []) with (d:=d) in G; auto.
      cbn [replace_top] in H. injection H as _ <- _. apply (located_lc _ _ _ _ _ (v_lc np)) in G.
      destruct c; [tauto|]. cbn [opt rev app]. exists (v_fs top), d. split; [constructor|]. now rewrite orb_false_r.
    - destruct (x =? SLASH) eqn:X; cbn [negb] in H.
      2:{ replace (S (v_lc top + length c)) with (v_lc top + length (c ++ [x]))%nat in H by (rewrite app_length; cbn; lia).
          replace (c ++ x :: s) with ((c ++ [x]) ++ s) in * by (rewrite <- app_assoc; reflexivity).
          eapply IH; [|exact SK|exact NE|exact V|exact OV|exact H]. apply plain_app. split; [exact P|]. constructor; [lia|constructor]. }
      apply Z.eqb_eq in X. subst x. rewrite names_slash by exact P.
      assert (SK2: skipn (S (v_lc top + length c)) path = s).
      { replace (S (v_lc top + length c)) with (S (length c) + v_lc top)%nat by lia. rewrite <- skipn_skipn, SK.
        replace (S (length c)) with (length (c ++ [SLASH])) by (rewrite app_length; cbn; lia).
        replace (c ++ SLASH :: s) with ((c ++ [SLASH]) ++ s) by (rewrite <- app_assoc; reflexivity).
        rewrite skipn_app, Nat.sub_diag, skipn_all. reflexivity. }
      assert (CC: c = [] \/ c <> []) by (destruct c; [now left|right; discriminate]).
      destruct CC as [->|NC].
      + cbn [length app opt] in *. rewrite Nat.add_0_r in *.
        rewrite (get_entry_nil dbg NAMEMAX W rec path s top d t true log) in H by assumption. rewrite V in H. cbn [Z.eqb negb] in H.
        destruct s as [|y s'] eqn:ES.
        * cbn [replace_top] in H. injection H as _ <- _. exists (v_lc top). reflexivity.
        * rewrite <- ES in *. assert (NS: s <> []) by (rewrite ES; discriminate). clear ES.
          cbn [replace_top] in H.
          specialize (IH [] path (with_lc top (S (v_lc top))) d t fo (ret_at top ++ rel_at top ++ log) v log').
          cbn [app length v_lc with_lc] in IH. rewrite Nat.add_0_r in IH.
          specialize (IH (Forall_nil _) SK2 NS V OV H).
          change (SLASH :: s) with ([] ++ SLASH :: s). rewrite trailing_step by exact NS.
          destruct (rev (names s)) as [|l ns]; [|exact IH].
          destruct IH as (n & ->). exists n. reflexivity.
      + assert (O: opt c = [c]) by (destruct c; [tauto|reflexivity]). rewrite O. cbn [app].
        assert (t = VDir) as ->.
        { assert (D: t = VDir \/ t <> VDir) by (destruct t; [right|left|right|right]; (reflexivity || discriminate)).
          destruct D as [D|D]; [exact D|]. rewrite (get_entry_notdir dbg NAMEMAX W rec path c (SLASH :: s) top d t true log) in H; eauto. discriminate. }
        destruct (get_entry_ok dbg NAMEMAX W GW rec path c (SLASH :: s) top d true log) as [[E L]|(np & log1 & e & EN & SH & LC & ON & E)]; eauto.
        { rewrite E in H. discriminate. }
        pose proof (after_ok NAMEMAX W GW k rec top np d c e true log1 RO V OV EN SH LC ON) as G.
        rewrite E in H.
        destruct (after W rec top np true log1) as [rc np' log2|w] eqn:AF; cbn [good_ent] in G; [|discriminate].
        destruct G as (O1 & O2 & o & O3 & O4).
        pose proof (get_entry_loc rec path c (SLASH :: s) top d true log rc np' log2 P NC ltac:(eauto) SK V E) as LOC.
        destruct (rc =? 0) eqn:RC; cbn [negb] in H; [|injection H as -> _ _; discriminate RC].
        destruct (names s) as [|n0 ns0] eqn:EN2.
        * cbn [rev app]. exists (v_fs top), d. split; [constructor|].
          rewrite trailing_slash by exact EN2. rewrite orb_true_r.
          destruct s as [|y s'] eqn:ES.
          -- assert (same v np') as (n & ->).
             { destruct (v_obj np') as [[i t]|]; cbn [replace_top] in H; injection H; intros; subst; eexists; reflexivity. }
             now apply located_lc.
          -- rewrite <- ES in *. assert (NS: s <> []) by (rewrite ES; discriminate). clear ES.
             destruct (v_obj np') as [[i u]|] eqn:VN; cbn [replace_top] in H; [|discriminate].
             specialize (IH [] path (with_lc np' (S (v_lc top + length c))) i u fo (ret_at np' ++ rel_at top ++ log2) v log').
             cbn [app length v_lc with_lc] in IH. rewrite Nat.add_0_r in IH.
             specialize (IH (Forall_nil _) SK2 NS VN O1 H). rewrite EN2 in IH. cbn [rev] in IH.
             destruct IH as (n & ->). now apply located_lc, located_lc.
        * assert (NS: s <> []) by (intros ->; discriminate EN2).
          rewrite trailing_step by exact NS.
          assert (H': exists i u, v_obj np' = Some (i, u) /\
             loop dbg NAMEMAX W rec path s (S (v_lc top + length c)) (with_lc np' (S (v_lc top + length c))) fo (ret_at np' ++ rel_at top ++ log2) = Done 0 v log').
          { destruct s as [|y s']; [tauto|]. destruct (v_obj np') as [[i u]|] eqn:VN; cbn [replace_top] in H; [eauto|discriminate]. }
          clear H. destruct H' as (i & u & VN & H).
          specialize (IH [] path (with_lc np' (S (v_lc top + length c))) i u fo (ret_at np' ++ rel_at top ++ log2) v log').
          cbn [app length v_lc with_lc] in IH. rewrite Nat.add_0_r in IH.
          specialize (IH (Forall_nil _) SK2 NS VN O1 H). rewrite EN2 in IH.
          change (c :: n0 :: ns0) with ([c] ++ (n0 :: ns0)). rewrite rev_app_distr.
          destruct (rev (n0 :: ns0)) as [|l r] eqn:RV.
          { apply (f_equal (@length _)) in RV. rewrite rev_length in RV. discriminate. }
          cbn [app rev]. destruct IH as (f & d' & I1 & I2). exists f, d'. split; [|exact I2].
          rewrite rev_app_distr. cbn [rev app].
          assert (OB: o = Obj (v_fs np', i) u).
          { destruct o as [[a b] w|[a b] w|er]; cbn [agrees] in O4; [|exfalso|lia].
            - destruct O4 as (_ & <- & O4). rewrite VN in O4. now injection O4 as <- <-.
            - destruct O4 as (_ & _ & O4 & _). congruence. }
          subst o. change (v_fs (with_lc np' _)) with (v_fs np') in I1. cbn [v_fs] in I1.
          assert (U: u = VDir).
          { assert (D: u = VDir \/ u <> VDir) by (destruct u; [right|left|right|right]; (reflexivity || discriminate)).
            destruct D as [D|D]; [exact D|]. exfalso.
            pose proof (loop_ok dbg NAMEMAX W GW k rec RO s [] path (with_lc np' (S (v_lc top + length c))) i u fo (ret_at np' ++ rel_at top ++ log2)) as LO.
            cbn [app length v_lc with_lc] in LO. rewrite Nat.add_0_r in LO.
            destruct (LO (Forall_nil _) SK2 NS VN O1) as [_ LO2]. specialize (LO2 D). cbn zeta in LO2.
            match type of LO2 with match ?X with _ => _ end => assert (XX: X = Done 0 v log') by exact H; rewrite XX in LO2 end.
            destruct LO2 as (_ & LO2 & _). congruence. }
          subst u. destruct (rev r) as [|a l'] eqn:RR.
          -- inversion I1; subst. constructor; [exact O3|]. intros _ q tt Q. now injection Q.
          -- econstructor; [exact O3|exact I1].
  Qed.

  Lemma resolve_rec_ok : forall k, rec_ok NAMEMAX W k (match k with O => None | S k' => Some (fun p t l => resolve dbg NAMEMAX W k' p t true l) end).
  Proof.
    destruct k; [reflexivity|]. eexists; split; [reflexivity|]. split; [intros; now destruct k|].
    intros. now apply resolve_ok.
  Qed.

  Lemma parent_ok : forall path cwd d fo v log ns c, in_tree W (v_fs cwd) -> v_obj cwd = Some (d, VDir) ->
    vfs_resolve dbg NAMEMAX W path cwd fo = Done 0 v log -> names path = ns ++ [c] ->
    exists s f d', start W (v_fs cwd, d) path s /\ walk W 3 s ns true true (Obj (f, d') VDir) /\
      located W f d' c (fo || trailing path) v.
  Proof.
    intros path cwd d fo v log ns c T V H N. unfold vfs_resolve in H.
    destruct path as [|x path]; [cbn in N; destruct ns; discriminate|].
    set (st := if x =? SLASH then root_entry W (rootfs W) cwd else cwd) in H.
    assert (ST: exists s, start W (v_fs cwd, d) (x :: path) s /\ at_dir (with_lc st 0) s /\ okv W st).
    { subst st. destruct (x =? SLASH) eqn:X.
      - eexists. split; [left; split; [exists path; f_equal; lia|reflexivity]|]. split; [split; reflexivity|]. apply okv_root.
      - exists (v_fs cwd, d). split; [right; split; [|reflexivity]|split; [split; [reflexivity|exact V]|]].
        + intros [s' E]. injection E as -> _. discriminate X.
        + split; [exact T|]. intros i t E _. congruence. }
    destruct ST as ([f0 d0] & ST & [AT1 AT2] & OS). clearbody st. cbn [fst snd] in *.
    destruct (resolve _ _ _ _ _ _ _ _) as [rc top lg|] eqn:R; [|discriminate].
    destruct (rc =? 0) eqn:RC; [|injection H as -> _ _; discriminate RC]. apply Z.eqb_eq in RC. subst rc.
    change (resolve dbg NAMEMAX W 3 (x :: path) (with_lc st 0) fo (ret_at st ++ [Lock (v_fs st); RetFs (v_fs st)]))
      with (loop dbg NAMEMAX W (Some (fun p t l => resolve dbg NAMEMAX W 2 p t true l)) (x :: path) (x :: path)
              (v_lc (with_lc st 0) + length (@nil Z)) (with_lc st 0) fo (ret_at st ++ [Lock (v_fs st); RetFs (v_fs st)])) in R.
    pose proof (loop_parent 3 _ (resolve_rec_ok 3) (x :: path) [] (x :: path) (with_lc st 0) d0 VDir fo _ top lg
      (Forall_nil _) eq_refl ltac:(discriminate) AT2 OS R) as Q.
    cbn [app] in Q. rewrite N, rev_app_distr in Q. cbn [rev app] in Q. rewrite rev_involutive in Q.
    destruct Q as (f & d' & Q1 & Q2). exists (f0, d0), f, d'. split; [exact ST|].
    split; [cbn [with_lc v_fs] in AT1, Q1; rewrite AT1 in Q1; exact Q1|].
    injection H as <- _. destruct (nth_error _ _) as [z|]; [destruct (z =? SLASH)|]; try exact Q2.
  Qed.
End Parent.
