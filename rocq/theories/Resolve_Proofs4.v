From Verif Require Import Lib Resolve_Model Resolve_Spec Resolve_Proofs.

(** ** Counting *)
Lemma net_app : forall p m a b, net p m (a ++ b) = net p m a + net p m b.
Proof. intros. unfold net. induction a; cbn; [lia|]. rewrite IHa. lia. Qed.
Lemma net_cons : forall p m e l, net p m (e :: l) = delta e p m + net p m l.
Proof. reflexivity. Qed.

Definition own (v : vpath) (f i : Z) : Z :=
  match v_obj v with Some (j, _) => if (v_fs v =? f) && (j =? i) then 1 else 0 | None => 0 end.

Lemma own_lc : forall v n f i, own (with_lc v n) f i = own v f i.
Proof. reflexivity. Qed.
Lemma own_nonneg : forall v f i, 0 <= own v f i.
Proof. intros. unfold own. destruct (v_obj v) as [[? ?]|]; [destruct (_ && _)|]; lia. Qed.
Lemma irefs_ret : forall v f i, irefs f i (ret_at v) = own v f i.
Proof. intros. unfold irefs, ret_at, own. destruct (v_obj v) as [[j t]|]; [|reflexivity]. cbn. unfold delta. destruct (_ && _); reflexivity. Qed.
Lemma irefs_rel : forall v f i, irefs f i (rel_at v) = - own v f i.
Proof. intros. unfold irefs, rel_at, own. destruct (v_obj v) as [[j t]|]; [|reflexivity]. cbn. unfold delta. destruct (_ && _); reflexivity. Qed.
Lemma fsrefs_ret : forall v f, fsrefs f (ret_at v) = 0.
Proof. intros. unfold fsrefs, ret_at. destruct (v_obj v) as [[j t]|]; reflexivity. Qed.
Lemma fsrefs_rel : forall v f, fsrefs f (rel_at v) = 0.
Proof. intros. unfold fsrefs, rel_at. destruct (v_obj v) as [[j t]|]; reflexivity. Qed.
Lemma locks_ret : forall v f, locks f (ret_at v) = 0.
Proof. intros. unfold locks, ret_at. destruct (v_obj v) as [[j t]|]; reflexivity. Qed.
Lemma locks_rel : forall v f, locks f (rel_at v) = 0.
Proof. intros. unfold locks, rel_at. destruct (v_obj v) as [[j t]|]; reflexivity. Qed.

Lemma irefs_app : forall f i a b, irefs f i (a ++ b) = irefs f i a + irefs f i b.
Proof. intros. apply net_app. Qed.
Lemma fsrefs_app : forall f a b, fsrefs f (a ++ b) = fsrefs f a + fsrefs f b.
Proof. intros. apply net_app. Qed.
Lemma locks_app : forall f a b, locks f (a ++ b) = locks f a + locks f b.
Proof. intros. apply net_app. Qed.

Lemma irefs_cons : forall f i e l, irefs f i (e :: l) = match e with
  | RetI g j => one ((g =? f) && (j =? i)) | RelI g j => - one ((g =? f) && (j =? i)) | _ => 0 end + irefs f i l.
Proof. intros. unfold irefs at 1. rewrite net_cons. fold (irefs f i l). f_equal. destruct e; unfold delta, one; try reflexivity; destruct (_ && _); reflexivity. Qed.
Lemma fsrefs_cons : forall f e l, fsrefs f (e :: l) = match e with
  | RetFs g => one (g =? f) | RelFs g => - one (g =? f) | _ => 0 end + fsrefs f l.
Proof. intros. unfold fsrefs at 1. rewrite net_cons. fold (fsrefs f l). f_equal. destruct e; unfold delta, one; try reflexivity; destruct (_ =? _); reflexivity. Qed.
Lemma locks_cons : forall f e l, locks f (e :: l) = match e with
  | Lock g => one (g =? f) | Unlock g => - one (g =? f) | _ => 0 end + locks f l.
Proof. intros. unfold locks at 1. rewrite net_cons. fold (locks f l). f_equal. destruct e; unfold delta, one; try reflexivity; destruct (_ =? _); reflexivity. Qed.
Opaque irefs fsrefs locks.

Section Log.
  Variables (dbg : bool) (NAMEMAX : Z) (W : world).

  (** The shape of vfs_resolve_get_entry: without links *)
  Inductive ent (top : vpath) (log : list event) : vpath -> list event -> Prop :=
  | ent_same np : v_fs np = v_fs top -> ent top log np log
  | ent_up np h : v_fs np = h -> (exists m, In m (mnts W) /\ h = m_host m /\ v_fs top = m_target m) ->
      (forall i, v_obj np <> Some (i, VLink) \/ exists f d n, get W f d n = Some (i, VLink)) ->
      ent top log np (RelFs (v_fs top) :: Lock h :: Unlock (v_fs top) :: RetFs h :: log)
  | ent_down np t : v_fs np = t -> mnts W <> [] ->
      ent top log np (Lock t :: RelFs (v_fs top) :: Unlock (v_fs top) :: RetFs t :: log).

  Lemma get_entry_shape : forall rec path off top b log rc np log',
    get_entry dbg NAMEMAX W rec path off top b log = GRet rc np log' ->
    exists np1 log1, ent top log np1 log1 /\
      ((rc = 0 /\ np = np1 /\ log' = log1) \/
       (v_fs np1 = v_fs top /\ log1 = log /\ (exists f d n i, get W f d n = Some (i, VLink)) /\
        symlink W rec top np1 log1 = GRet rc np log')).
  Proof.
    intros rec path off top b log rc np log' H. unfold get_entry in H.
    destruct (cross_dotdot dbg W path top log) as [g|] eqn:C.
    - subst g. unfold cross_dotdot in C. destruct (negb _); [discriminate|].
      destruct (v_obj top) as [[i t]|]; [|discriminate]. destruct (negb _); [discriminate|].
      destruct (_ =? rootfs W); [injection C as <- <- <-; exists top, log; split; [now constructor|now left]|].
      pose proof (mp_of_spec W (v_fs top)) as M.
      destruct (mp_of W _) as [m|]; [|discriminate]. destruct (dbg && _); [discriminate|].
      destruct (dbg && _); [discriminate|]. injection C as <- <- <-. eexists _, _. split; [|left; now repeat split].
      apply ent_up; [reflexivity|exists m; intuition congruence|].
      cbn [v_obj]. intro j. destruct (get W _ _ _) as [[j' t']|] eqn:G; [|now left].
      destruct (Z.eq_dec j j') as [->|N]; [|left; congruence]. destruct t'; try (left; congruence). right. eauto.
    - destruct (Nat.eqb _ _); [injection H as <- <- <-; exists top, log; split; [now constructor|now left]|].
      unfold lookup in H. destruct (v_obj top) as [[d []]|]; try discriminate.
      destruct (_ >=? _); [discriminate|].
      destruct (get W (v_fs top) d _) as [[i t]|] eqn:G.
      + destruct (mp_at W (v_fs top) i) as [tf|] eqn:M.
        * cbn in H. injection H as <- <- <-. eexists _, _. split; [|left; now repeat split].
          apply ent_down; [reflexivity|]. intro E. unfold mp_at in M. rewrite E in M. discriminate.
        * cbn [v_obj] in H.
          assert (Q: GRet 0 (mkV (v_fs top) (Some (i, t)) d (Some (d, comp path (v_lc top) off)) (v_lc top)) log = GRet rc np log' ->
            exists np1 log1, ent top log np1 log1 /\ ((rc = 0 /\ np = np1 /\ log' = log1) \/
               (v_fs np1 = v_fs top /\ log1 = log /\ (exists f d n i, get W f d n = Some (i, VLink)) /\ symlink W rec top np1 log1 = GRet rc np log'))).
          { intro E. injection E as <- <- <-. eexists _, _. split; [|left; now repeat split]. now constructor. }
          destruct t; try (now apply Q). destruct b; [|now apply Q].
          eexists _, _. split; [apply ent_same with (np := mkV (v_fs top) (Some (i, VLink)) d (Some (d, comp path (v_lc top) off)) (v_lc top)); reflexivity|].
          right. split; [reflexivity|]. split; [reflexivity|]. split; [eauto|exact H].
      + cbn in H. injection H as <- <- <-. eexists _, _. split; [|left; now repeat split]. now constructor.
  Qed.

  (** ** Inodes *)
  Definition ikeep (r : list Z -> vpath -> list event -> res) : Prop :=
    forall path top log rc v log', r path top log = Done rc v log' ->
      forall f i, irefs f i log' = irefs f i log - own top f i + own v f i.

  Lemma ent_irefs : forall top log np log', ent top log np log' -> forall f i, irefs f i log' = irefs f i log.
  Proof. intros top log np log' []; intros; rewrite ?irefs_cons; lia. Qed.

  Lemma get_entry_irefs : forall rec path off top b log rc np log',
    match rec with Some r => ikeep r | None => True end ->
    get_entry dbg NAMEMAX W rec path off top b log = GRet rc np log' -> forall f i, irefs f i log' = irefs f i log.
  Proof.
    intros rec path off top b log rc np log' K H f i.
    destruct (get_entry_shape _ _ _ _ _ _ _ _ _ H) as (np1 & log1 & E & [(_ & _ & ->)|(F & L & _ & S)]).
    - eapply ent_irefs; eauto.
    - subst log1. unfold symlink in S. destruct (v_obj np1) as [[j []]|]; try discriminate.
      destruct (_ >=? 256); [discriminate|].
      match type of S with context[ret_at ?rp ++ ?lg] =>
        assert (L1: irefs f i lg = irefs f i log) by (destruct (match link _ _ _ with [] => _ | _ => _ end); rewrite ?irefs_cons; lia) end.
      destruct rec as [r|]; [|injection S as _ _ <-; exact L1].
      destruct (r _ _ _) as [rc2 top2 log2|] eqn:R; [|discriminate]. injection S as _ _ <-.
      specialize (K _ _ _ _ _ _ R f i). rewrite own_lc, irefs_app, irefs_ret in K.
      rewrite !irefs_app, irefs_rel.
      match goal with |- context[irefs f i (if ?b then [] else [Unlock ?x])] =>
        assert (U: irefs f i (if b then [] else [Unlock x]) = 0) by (destruct b; rewrite ?irefs_cons; reflexivity) end.
      rewrite U. lia.
  Qed.

  Lemma loop_irefs : forall rec, match rec with Some r => ikeep r | None => True end ->
    forall s path off top fo log rc v log', loop dbg NAMEMAX W rec path s off top fo log = Done rc v log' ->
    forall f i, irefs f i log' = irefs f i log - own top f i + own v f i.
  Proof.
    intros rec K. induction s as [|x s IH]; intros path off top fo log rc v log' H f i; cbn [loop] in H.
    - destruct (get_entry _ _ _ _ _ _ _ _ _) as [rc1 np lg|] eqn:G; [|discriminate].
      cbn [replace_top] in H. injection H as _ <- <-. rewrite own_lc, !irefs_app, irefs_ret, irefs_rel.
      rewrite (get_entry_irefs _ _ _ _ _ _ _ _ _ K G f i). lia.
    - destruct (negb (x =? SLASH)); [eauto|].
      destruct (get_entry _ _ _ _ _ _ _ _ _) as [rc1 np lg|] eqn:G; [|discriminate].
      pose proof (get_entry_irefs _ _ _ _ _ _ _ _ _ K G f i) as GI.
      destruct (negb (rc1 =? 0)); [injection H as _ <- <-; lia|].
      destruct (match v_obj np with Some _ => _ | None => _ end) as [z|]; cbn [replace_top] in H.
      + injection H as _ <- <-. rewrite own_lc, !irefs_app, irefs_ret, irefs_rel. lia.
      + apply (IH _ _ _ _ _ _ _ _) with (f:=f) (i:=i) in H. rewrite own_lc, !irefs_app, irefs_ret, irefs_rel in H. lia.
  Qed.

  Lemma resolve_irefs : forall k path top fo log rc v log',
    resolve dbg NAMEMAX W k path top fo log = Done rc v log' ->
    forall f i, irefs f i log' = irefs f i log - own top f i + own v f i.
  Proof.
    induction k; intros path top fo log rc v log' H f i; (destruct path as [|x path]; [injection H as _ <- <-; lia|]); cbn [resolve] in H.
    - eapply loop_irefs; [|exact H]. exact Logic.I.
    - eapply loop_irefs; [|exact H]. intros p t l rc1 v1 l1 H1 f1 i1. eapply IHk; eauto.
  Qed.

  Lemma inode_refs : forall path cwd fo rc v log, vfs_resolve dbg NAMEMAX W path cwd fo = Done rc v log ->
    forall f i, irefs f i log = 0.
  Proof.
    intros path cwd fo rc v log H f i. unfold vfs_resolve in H.
    set (st := match path with [] => _ | _ => _ end) in H. clearbody st.
    destruct (resolve _ _ _ _ _ _ _ _) as [rc1 top lg|] eqn:R; [|discriminate].
    pose proof (resolve_irefs _ _ _ _ _ _ _ _ R f i) as Q. rewrite own_lc, irefs_app, irefs_ret, !irefs_cons in Q.
    change (irefs f i []) with 0 in Q.
    destruct (rc1 =? 0); injection H as _ _ <-; rewrite ?irefs_cons, irefs_app, irefs_rel; lia.
  Qed.

  (** ** File systems, on success *)
  Definition fown (v : vpath) (f : Z) : Z := one (v_fs v =? f).
  Definition fkeep (r : list Z -> vpath -> list event -> res) : Prop :=
    forall path top log v log', r path top log = Done 0 v log' ->
      forall f, fsrefs f log' = fsrefs f log - fown top f + fown v f.

  Lemma ent_fsrefs : forall top log np log', ent top log np log' -> forall f,
    fsrefs f log' = fsrefs f log - fown top f + fown np f.
  Proof. intros top log np log' []; intros; unfold fown; rewrite ?fsrefs_cons; subst; try rewrite H; lia. Qed.

  Lemma get_entry_fsrefs : forall rec path off top b log np log',
    match rec with Some r => fkeep r | None => True end ->
    get_entry dbg NAMEMAX W rec path off top b log = GRet 0 np log' ->
    forall f, fsrefs f log' = fsrefs f log - fown top f + fown np f.
  Proof.
    intros rec path off top b log np log' K H f.
    destruct (get_entry_shape _ _ _ _ _ _ _ _ _ H) as (np1 & log1 & E & [(_ & -> & ->)|(F & L & _ & S)]).
    - eapply ent_fsrefs; eauto.
    - subst log1. unfold symlink in S. destruct (v_obj np1) as [[j []]|]; try discriminate.
      destruct (_ >=? 256); [discriminate|].
      destruct rec as [r|]; [|discriminate S].
      match type of S with context[ret_at ?rp ++ ?lg] =>
        assert (L1: fsrefs f lg = fsrefs f log - fown top f + fown rp f)
          by (destruct (match link _ _ _ with [] => _ | _ => _ end); unfold fown; rewrite ?fsrefs_cons; cbn [v_fs root_entry]; lia) end.
      destruct (r _ _ _) as [rc2 top2 log2|] eqn:R; [|discriminate]. injection S as -> <- <-.
      specialize (K _ _ _ _ _ R f). rewrite fsrefs_app, fsrefs_ret in K.
      rewrite !fsrefs_app, fsrefs_rel.
      match goal with |- context[fsrefs f (if ?b then [] else [Unlock ?x])] =>
        assert (U: fsrefs f (if b then [] else [Unlock x]) = 0) by (destruct b; rewrite ?fsrefs_cons; reflexivity) end.
      rewrite U. unfold fown in *. cbn [with_lc v_fs] in *. lia.
  Qed.

  Lemma loop_fsrefs : forall rec, match rec with Some r => fkeep r | None => True end ->
    forall s path off top fo log v log', loop dbg NAMEMAX W rec path s off top fo log = Done 0 v log' ->
    forall f, fsrefs f log' = fsrefs f log - fown top f + fown v f.
  Proof.
    intros rec K. induction s as [|x s IH]; intros path off top fo log v log' H f; cbn [loop] in H.
    - destruct (get_entry _ _ _ _ _ _ _ _ _) as [rc1 np lg|] eqn:G; [|discriminate].
      cbn [replace_top] in H. injection H as -> <- <-. rewrite !fsrefs_app, fsrefs_ret, fsrefs_rel.
      rewrite (get_entry_fsrefs _ _ _ _ _ _ _ _ K G f). reflexivity.
    - destruct (negb (x =? SLASH)); [eauto|].
      destruct (get_entry _ _ _ _ _ _ _ _ _) as [rc1 np lg|] eqn:G; [|discriminate].
      destruct (rc1 =? 0) eqn:RC; cbn [negb] in H; [apply Z.eqb_eq in RC; subst rc1|injection H as -> _ _; discriminate RC].
      pose proof (get_entry_fsrefs _ _ _ _ _ _ _ _ K G f) as GI.
      destruct (match v_obj np with Some _ => _ | None => _ end) as [z|]; cbn [replace_top] in H.
      + injection H as _ <- <-. rewrite !fsrefs_app, fsrefs_ret, fsrefs_rel. exact GI.
      + apply (IH _ _ _ _ _ _ _) with (f:=f) in H. rewrite !fsrefs_app, fsrefs_ret, fsrefs_rel in H.
        change (fown (with_lc np (S off)) f) with (fown np f) in H. lia.
  Qed.

  Lemma resolve_fsrefs : forall k path top fo log v log',
    resolve dbg NAMEMAX W k path top fo log = Done 0 v log' ->
    forall f, fsrefs f log' = fsrefs f log - fown top f + fown v f.
  Proof.
    induction k; intros path top fo log v log' H f; (destruct path as [|x path]; [discriminate|]); cbn [resolve] in H.
    - eapply loop_fsrefs; [|exact H]. exact Logic.I.
    - eapply loop_fsrefs; [|exact H]. intros p t l v1 l1 H1 f1. eapply IHk; eauto.
  Qed.

  Lemma fs_refs : forall path cwd fo v log, vfs_resolve dbg NAMEMAX W path cwd fo = Done 0 v log ->
    forall f, fsrefs f log = one (v_fs v =? f).
  Proof.
    intros path cwd fo v log H f. unfold vfs_resolve in H.
    set (st := match path with [] => _ | _ => _ end) in H. clearbody st.
    destruct (resolve _ _ _ _ _ _ _ _) as [rc1 top lg|] eqn:R; [|discriminate].
    destruct (rc1 =? 0) eqn:RC; [apply Z.eqb_eq in RC; subst rc1|injection H as -> _ _; discriminate RC].
    pose proof (resolve_fsrefs _ _ _ _ _ _ _ R f) as Q. rewrite fsrefs_app, fsrefs_ret, !fsrefs_cons in Q.
    change (fsrefs f []) with 0 in Q. injection H as <- <-. rewrite fsrefs_app, fsrefs_rel.
    unfold fown in Q. cbn [with_lc v_fs] in Q.
    destruct (nth_error _ _) as [z|]; [destruct (z =? SLASH)|]; cbn [with_lc v_fs]; lia.
  Qed.

  (** ** Locks *)
  Definition held (log : list event) (f : Z) : Prop :=
    disciplined log /\ (forall g, locks g log = one (f =? g)) /\ (forall g, fsrefs g log = one (f =? g)).
  Definition covers (log : list event) (v : vpath) : Prop := forall f i, own v f i <= irefs f i log.
  Definition quiet (v : vpath) : Prop :=
    (forall f d n i, get W f d n <> Some (i, VLink)) \/ (mnts W = [] /\ v_fs v = rootfs W).

  Lemma one_refl : forall f, one (f =? f) = 1.
  Proof. intro. now rewrite Z.eqb_refl. Qed.

  Lemma held_move : forall log f h, held log f ->
    held (RelFs f :: Lock h :: Unlock f :: RetFs h :: log) h /\ held (Lock h :: RelFs f :: Unlock f :: RetFs h :: log) h.
  Proof.
    intros log f h (D & L & F).
    assert (O1: forall a, one a = 0 \/ one a = 1) by (intros []; auto).
    split; (split; [cbn [disciplined]|split; intro g; rewrite ?locks_cons, ?fsrefs_cons, ?L, ?F; lia]);
      repeat split; auto; intros; rewrite ?locks_cons, ?fsrefs_cons, ?L, ?F, ?one_refl; try lia.
    all: pose proof (O1 (f =? h)); pose proof (O1 (h =? f)); try lia.
    all: destruct (Z.eqb_spec h f), (Z.eqb_spec f h); cbn [one] in *; lia.
  Qed.

  Lemma held_ret : forall log f v, held log f -> held (ret_at v ++ log) f.
  Proof.
    intros log f v (D & L & F). unfold ret_at. destruct (v_obj v) as [[i t]|]; [|now split].
    split; [now split|]. split; intro g; cbn [app]; rewrite ?locks_cons, ?fsrefs_cons, ?L, ?F; lia.
  Qed.
  Lemma held_rel : forall log f v, held log f -> covers log v -> held (rel_at v ++ log) f.
  Proof.
    intros log f v (D & L & F) C. unfold rel_at. destruct (v_obj v) as [[i t]|] eqn:V; [|now split].
    split; [split; [exact D|]|].
    - specialize (C (v_fs v) i). unfold own in C. rewrite V, !Z.eqb_refl in C. cbn in C. cbn [app]. lia.
    - split; intro g; cbn [app]; rewrite ?locks_cons, ?fsrefs_cons, ?L, ?F; lia.
  Qed.

  Definition lkeep (r : list Z -> vpath -> list event -> res) : Prop :=
    forall path top log rc v log', quiet top -> held log (v_fs top) -> covers log top ->
      r path top log = Done rc v log' -> held log' (v_fs v) /\ quiet v.

  Lemma get_entry_held : forall rec path off top b log rc np log',
    match rec with Some r => lkeep r /\ ikeep r | None => True end ->
    quiet top -> held log (v_fs top) -> covers log top ->
    get_entry dbg NAMEMAX W rec path off top b log = GRet rc np log' ->
    held log' (v_fs np) /\ quiet np /\ (rc = 0 \/ held log' (v_fs top)).
  Proof.
    intros rec path off top b log rc np log' K Q HL C H.
    destruct (get_entry_shape _ _ _ _ _ _ _ _ _ H) as (np1 & log1 & E & [(-> & -> & ->)|(F & L & (gf & gd & gn & gi & LK) & S)]).
    - assert (X: held log1 (v_fs np1) /\ quiet np1); [|tauto].
      destruct E as [np E|np h E (m & M & MH & MT) _|np t E M].
      + rewrite E. split; [exact HL|]. destruct Q as [Q|[Q1 Q2]]; [now left|right; now rewrite E].
      + rewrite E. split; [now apply held_move|]. destruct Q as [Q|[Q1 Q2]]; [now left|]. rewrite Q1 in M. destruct M.
      + rewrite E. split; [now apply held_move|]. destruct Q as [Q|[Q1 Q2]]; [now left|tauto].
    - subst log1. destruct Q as [Q|[Q1 Q2]]; [exfalso; eapply Q; eauto|].
      unfold symlink in S. destruct (v_obj np1) as [[j []]|]; try discriminate.
      destruct (_ >=? 256); [discriminate|].
      assert (L1: exists rp lg, held lg (rootfs W) /\ v_fs rp = rootfs W /\ (forall f i, irefs f i lg = irefs f i log) /\
        match rec with
        | Some r => match r (link W (v_fs np1) j) (with_lc rp 0) (ret_at rp ++ lg) with
          | Done rc0 top2 log2 => GRet rc0 (with_lc top2 (v_lc np1))
              ((if v_fs top2 =? v_fs rp then [] else [Unlock (v_fs top2)]) ++ rel_at top2 ++ log2)
          | Crash w => GCrash w end
        | None => GRet ELOOP np1 lg end = GRet rc np log').
      { eexists _, _. split; [|split; [|split; [|exact S]]]; destruct (match link _ _ _ with [] => _ | _ => _ end).
        - rewrite Q2 in HL |- *.
          destruct HL as (D & L & FR). cbn [disciplined]. split; [|split; intro g; rewrite ?locks_cons, ?fsrefs_cons, ?L, ?FR; lia].
          repeat split; auto; intros; rewrite ?locks_cons, ?fsrefs_cons, ?L, ?FR, ?one_refl; lia.
        - now rewrite Q2 in HL.
        - reflexivity.
        - exact Q2.
        - intros; rewrite !irefs_cons; lia.
        - reflexivity. }
      clear S. destruct L1 as (rp & lg & L1 & L2 & L3 & S).
      destruct rec as [r|].
      2:{ injection S as <- <- <-. rewrite F, Q2. split; [exact L1|]. split; [right; split; congruence|now right]. }
      destruct K as [K KI].
      destruct (r _ _ _) as [rc2 top2 log2|] eqn:R; [|discriminate].
      pose proof (KI _ _ _ _ _ _ R) as I2.
      destruct (K (link W (v_fs np1) j) (with_lc rp 0) (ret_at rp ++ lg) rc2 top2 log2) as [H2 Q3]; [right; split; assumption| | |exact R|].
      { cbn [with_lc v_fs]. rewrite L2. now apply held_ret. }
      { intros f i. rewrite own_lc, irefs_app, irefs_ret, L3. specialize (C f i). pose proof (own_nonneg top f i). lia. }
      assert (F2: v_fs top2 = rootfs W) by (destruct Q3 as [Q3|Q3]; [exfalso; eapply Q3; eauto|tauto]).
      assert (RES: held (rel_at top2 ++ log2) (v_fs top2)).
      { apply held_rel; [exact H2|]. intros f i. rewrite I2, own_lc, irefs_app, irefs_ret, L3.
        specialize (C f i). pose proof (own_nonneg top f i). lia. }
      rewrite F2 in S. rewrite L2, Z.eqb_refl in S. cbn [app] in S. injection S as <- <- <-. cbn [with_lc v_fs].
      split; [exact RES|]. split; [exact Q3|]. right. now rewrite Q2, <- F2.
  Qed.

  Lemma loop_held : forall rec, match rec with Some r => lkeep r /\ ikeep r | None => True end ->
    forall s path off top fo log rc v log', quiet top -> held log (v_fs top) -> covers log top ->
    loop dbg NAMEMAX W rec path s off top fo log = Done rc v log' -> held log' (v_fs v) /\ quiet v.
  Proof.
    intros rec K.
    assert (KI: match rec with Some r => ikeep r | None => True end) by (destruct rec; tauto).
    induction s as [|x s IH]; intros path off top fo log rc v log' Q HL C H; cbn [loop] in H.
    - destruct (get_entry _ _ _ _ _ _ _ _ _) as [rc1 np lg|] eqn:G; [|discriminate].
      pose proof (get_entry_irefs _ _ _ _ _ _ _ _ _ KI G) as GI.
      destruct (get_entry_held _ _ _ _ _ _ _ _ _ K Q HL C G) as (H1 & Q1 & _).
      cbn [replace_top] in H. injection H as _ <- <-. cbn [with_lc v_fs]. split; [|exact Q1].
      apply held_ret, held_rel; [exact H1|]. intros f i. rewrite GI. apply C.
    - destruct (negb (x =? SLASH)); [eauto|].
      destruct (get_entry _ _ _ _ _ _ _ _ _) as [rc1 np lg|] eqn:G; [|discriminate].
      pose proof (get_entry_irefs _ _ _ _ _ _ _ _ _ KI G) as GI.
      destruct (get_entry_held _ _ _ _ _ _ _ _ _ K Q HL C G) as (H1 & Q1 & H3).
      destruct (rc1 =? 0) eqn:RC; cbn [negb] in H.
      2:{ injection H as _ <- <-. destruct H3 as [H3|H3]; [lia|]. now split. }
      assert (HR: held (ret_at np ++ rel_at top ++ lg) (v_fs np)).
      { apply held_ret, held_rel; [exact H1|]. intros f i. rewrite GI. apply C. }
      destruct (match v_obj np with Some _ => _ | None => _ end) as [z|]; cbn [replace_top] in H.
      + injection H as _ <- <-. cbn [with_lc v_fs]. now split.
      + eapply (IH path (S off) (with_lc np (S off))); [exact Q1|exact HR| |exact H]. intros f i. rewrite own_lc, !irefs_app, irefs_ret, irefs_rel, GI.
        specialize (C f i). pose proof (own_nonneg top f i). lia.
  Qed.

  Lemma resolve_held : forall k path top fo log rc v log', quiet top -> held log (v_fs top) -> covers log top ->
    resolve dbg NAMEMAX W k path top fo log = Done rc v log' -> held log' (v_fs v) /\ quiet v.
  Proof.
    induction k; intros path top fo log rc v log' Q HL C H; (destruct path as [|x path]; [injection H as _ <- <-; now split|]); cbn [resolve] in H.
    - eapply loop_held; [|exact Q|exact HL|exact C|exact H]. exact Logic.I.
    - eapply loop_held; [|exact Q|exact HL|exact C|exact H]. split.
      + intros p t l rc1 v1 l1 Q1 HL1 C1 H1. eapply IHk; eauto.
      + intros p t l rc1 v1 l1 H1. eapply resolve_irefs; eauto.
  Qed.

  Lemma lock_balance : forall path cwd fo rc v log, calm W cwd -> 
    vfs_resolve dbg NAMEMAX W path cwd fo = Done rc v log ->
    disciplined log /\ 
    (if rc =? 0 then forall f, locks f log = one (v_fs v =? f) /\ fsrefs f log = one (v_fs v =? f)
     else forall f, locks f log = 0 /\ fsrefs f log = 0).
  Proof.
    intros path cwd fo rc v log CA H. unfold vfs_resolve in H.
    set (st := match path with [] => _ | _ => _ end) in H.
    assert (QS: quiet (with_lc st 0)).
    { destruct CA as [CA|[C1 C2]]; [now left|right; split; [exact C1|]]. subst st.
      destruct path as [|x path]; [exact C2|]. destruct (x =? SLASH); [reflexivity|exact C2]. }
    clearbody st.
    assert (HS: held (ret_at st ++ [Lock (v_fs st); RetFs (v_fs st)]) (v_fs (with_lc st 0))).
    { apply held_ret. cbn [with_lc v_fs]. split; [|split; intro g; rewrite ?locks_cons, ?fsrefs_cons; [change (locks g []) with 0|change (fsrefs g []) with 0]; lia].
      cbn [disciplined]. split; [tauto|]. split; [intro g; rewrite locks_cons; reflexivity|].
      rewrite fsrefs_cons, one_refl. change (fsrefs (v_fs st) []) with 0. lia. }
    assert (CS: covers (ret_at st ++ [Lock (v_fs st); RetFs (v_fs st)]) (with_lc st 0)).
    { intros f i. rewrite own_lc, irefs_app, irefs_ret, !irefs_cons. change (irefs f i []) with 0. lia. }
    destruct (resolve _ _ _ _ _ _ _ _) as [rc1 top lg|] eqn:R; [|discriminate].
    destruct (resolve_held _ _ _ _ _ _ _ _ QS HS CS R) as [H1 Q1].
    pose proof (resolve_irefs _ _ _ _ _ _ _ _ R) as I1.
    assert (HR: held (rel_at top ++ lg) (v_fs top)).
    { apply held_rel; [exact H1|]. intros f i. rewrite I1. specialize (CS f i). lia. }
    destruct HR as (D & L & F).
    destruct (rc1 =? 0) eqn:RC.
    - injection H as <- <- <-. split; [exact D|]. cbn [Z.eqb]. intro f.
      assert (E: v_fs (match nth_error path (v_lc top) with Some c => if c =? SLASH then with_lc top (back path (v_lc top)) else top | None => top end) = v_fs top)
        by (destruct (nth_error _ _) as [z|]; [destruct (z =? SLASH)|]; reflexivity).
      rewrite E. auto.
    - injection H as <- <- <-. rewrite RC. split; [|intro f; rewrite ?locks_cons, ?fsrefs_cons, L, F; lia].
      cbn [disciplined]. repeat split; auto.
      + now rewrite L, one_refl.
      + rewrite fsrefs_cons, F, one_refl. lia.
      + left. rewrite locks_cons, L, one_refl. lia.
  Qed.
End Log.
