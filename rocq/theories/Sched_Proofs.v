From Verif Require Import Lib Avl_Model Avl_Spec Avl_Proofs TreeSet Sched_Model Sched_Spec.
From Coq Require Import Permutation.

(** The comparator returns the difference of the tids: only its sign matters *)
Lemma cmp_sgn a b : Z.sgn (runnable_cmp a b) = Z.sgn (lex a b).
Proof.
  unfold runnable_cmp, lex. destruct (fst a =? fst b); cbn; [|reflexivity].
  destruct (snd a =? snd b) eqn:E; cbn; [lia|]. destruct (snd a <? snd b) eqn:E2; lia.
Qed.
Section Sgn.
  Context {A K : Type}.
  Variables (ky : A -> K) (c1 c2 : K -> K -> Z).
  Hypothesis H : forall a b, Z.sgn (c1 a b) = Z.sgn (c2 a b).
  Lemma descend_sgn t k fs : descend ky c1 t k fs = descend ky c2 t k fs.
  Proof.
    revert fs. induction t as [|h l IHl x r IHr]; intros fs; [reflexivity|]. cbn [descend]. pose proof (H (ky x) k).
    assert (E1 : (c1 (ky x) k =? 0) = (c2 (ky x) k =? 0)) by lia.
    assert (E2 : (c1 (ky x) k <? 0) = (c2 (ky x) k <? 0)) by lia.
    rewrite E1, E2, IHl, IHr. reflexivity.
  Qed.
  Lemma insert_sgn t x : insert ky c1 t x = insert ky c2 t x.
  Proof. unfold insert, build_path. destruct t; [reflexivity|]. rewrite descend_sgn. reflexivity. Qed.
  Lemma remove_sgn t k : remove ky c1 t k = remove ky c2 t k.
  Proof. unfold remove, build_path. rewrite descend_sgn. reflexivity. Qed.
End Sgn.

Lemma st_eqb_eq a b : st_eqb a b = true <-> a = b.
Proof. destruct a, b; cbn; split; intros; congruence. Qed.
Lemma st_eqb_neq a b : st_eqb a b = false <-> a <> b.
Proof. destruct a, b; cbn; split; intros; congruence. Qed.

Lemma zsum_perm f l l' : Permutation l l' -> zsum f l = zsum f l'.
Proof. unfold zsum. induction 1; cbn; lia. Qed.
Lemma zsum_ext f g l : (forall t, In t l -> f t = g t) -> zsum f l = zsum g l.
Proof.
  unfold zsum. induction l as [|x l IH]; intros H; [reflexivity|]. cbn. rewrite (H x) by (left; reflexivity).
  rewrite IH; [reflexivity|]. intros t Ht. apply H. right. exact Ht.
Qed.
Lemma mod_add_l a b m : 0 < m -> (a mod m + b) mod m = (b + a) mod m.
Proof. intros. rewrite Z.add_mod_idemp_l by lia. f_equal. lia. Qed.
Lemma mod_sub_l a b m : 0 < m -> ((b + a) mod m - b) mod m = a mod m.
Proof. intros. rewrite Zminus_mod_idemp_l. f_equal. lia. Qed.

Section P.
  Variables (idle kproc : Z) (workers : list Z) (prio : Z -> Z) (latency gran : Z).
  Variable pool : list Z.
  Hypothesis C : config idle kproc workers pool.

  Notation queueable := (queueable idle workers).
  Notation change := (change idle workers).

  Lemma worker_iff t : worker workers t = true <-> In t workers.
  Proof.
    unfold worker. rewrite existsb_exists. split.
    - intros (x & Hx & E). apply Z.eqb_eq in E. subst. exact Hx.
    - intros H. exists t. split; [exact H|apply Z.eqb_refl].
  Qed.
  Lemma queueable_iff t : queueable t = true <-> t <> idle /\ ~ In t workers.
  Proof.
    unfold Sched_Model.queueable. rewrite andb_true_iff, !negb_true_iff, Z.eqb_neq, <- worker_iff.
    destruct (worker workers t); split; intros [A B]; split; auto; congruence.
  Qed.

  Record qinv (r : rq) : Prop := {
    qi_tree : tset (vr r) (root r);
    qi_in : forall t, In t (inorder (root r)) <-> ts r t = Runnable /\ queueable t = true;
    qi_cnt : cnt r = zlen (inorder (root r));
    qi_sum : sum r = (zsum (vr r) (inorder (root r))) mod 2 ^ 64;
    qi_pool : forall t, ts r t <> Dead -> In t pool
  }.

  Lemma qsize r : qinv r -> zlen (inorder (root r)) <= 5702885.
  Proof.
    intros Q. destruct C as (N & L & _). pose proof (tset_nodup _ _ (qi_tree r Q)) as ND.
    assert (I : incl (inorder (root r)) pool).
    { intros t Ht. apply (qi_pool r Q). apply (qi_in r Q) in Ht. destruct Ht as [-> _]. discriminate. }
    pose proof (NoDup_incl_length ND I). unfold zlen in *. lia.
  Qed.

  (** [t]'s state changes while it is out of the tree *)
  Lemma add_ok r t new : tset (vr r) (root r) ->
    (forall x, In x (inorder (root r)) <-> x <> t /\ ts r x = Runnable /\ queueable x = true) ->
    cnt r = zlen (inorder (root r)) -> sum r = (zsum (vr r) (inorder (root r))) mod 2 ^ 64 ->
    (forall x, ts r x <> Dead -> In x pool) -> In t pool -> new <> Dead -> zlen (inorder (root r)) <= 5702885 ->
    exists r', add_to_list idle workers (set_ts r t new) t = Some r' /\ qinv r' /\ ts r' = fupd (ts r) t new /\ vr r' = vr r.
  Proof.
    intros T I Hc Hs Hp Pt Nd L. unfold add_to_list. destruct (queueable t) eqn:Eq; cbn [negb].
    - cbn [set_ts ts]. rewrite fupd_same. destruct new; try contradiction; try (eexists; split; [reflexivity|]; split; [|split; reflexivity]; constructor; cbn [set_ts ts vr root cnt sum];
        [exact T| |exact Hc|exact Hs|intros x; destruct (Z.eq_dec x t) as [->|Nx]; [intros _; exact Pt|rewrite fupd_other by auto; apply Hp]];
        intros x; rewrite I; destruct (Z.eq_dec x t) as [->|Nx]; [rewrite fupd_same; split; [intros (X & _); contradiction|intros (X & _); discriminate]|rewrite fupd_other by auto; tauto]).
      assert (Nt : ~ In t (inorder (root r))) by (rewrite I; tauto).
      destruct (tset_insert (vr r) (root r) t T Nt L) as (r' & E & T' & P).
      cbn [root vr cnt sum set_ts]. rewrite (insert_sgn _ _ lex cmp_sgn). change (key (vr r)) with (fkey (vr r)). rewrite E.
      eexists. split; [reflexivity|]. split; [|split; reflexivity]. pose proof (perm_in_iff _ _ _ P) as PI. constructor; cbn [ts vr root cnt sum].
      + exact T'.
      + intros x. rewrite PI, I. destruct (Z.eq_dec x t) as [->|Nx]; [rewrite fupd_same; tauto|rewrite fupd_other by auto; tauto].
      + rewrite (perm_zlen _ _ P), Hc. rewrite zlen_cons. lia.
      + rewrite (zsum_perm _ _ _ P), Hs. unfold u64, wrap. rewrite mod_add_l by lia. reflexivity.
      + intros x. destruct (Z.eq_dec x t) as [->|Nx]; [intros _; exact Pt|rewrite fupd_other by auto; apply Hp].
    - eexists. split; [reflexivity|]. split; [|split; reflexivity]. constructor; cbn [set_ts ts vr root cnt sum]; [exact T| |exact Hc|exact Hs|].
      + intros x. rewrite I. destruct (Z.eq_dec x t) as [->|Nx]; [rewrite Eq; split; [intros (X & _); contradiction|intros (_ & X); discriminate]|rewrite fupd_other by auto; tauto].
      + intros x. destruct (Z.eq_dec x t) as [->|Nx]; [intros _; exact Pt|rewrite fupd_other by auto; apply Hp].
  Qed.

  Lemma remove_ok' r t : qinv r -> ts r t <> Dead ->
    exists r', remove_from_list idle workers r t = Some r' /\ ts r' = ts r /\ vr r' = vr r /\
      tset (vr r) (root r') /\ (forall x, In x (inorder (root r')) <-> x <> t /\ ts r x = Runnable /\ queueable x = true) /\
      cnt r' = zlen (inorder (root r')) /\ sum r' = (zsum (vr r) (inorder (root r'))) mod 2 ^ 64 /\ zlen (inorder (root r')) <= 5702885.
  Proof.
    intros Q Nd. pose proof (qsize r Q) as L.
    assert (Out : ~ In t (inorder (root r)) -> forall x, In x (inorder (root r)) <-> x <> t /\ ts r x = Runnable /\ queueable x = true).
    { intros N x. rewrite (qi_in r Q x). destruct (Z.eq_dec x t) as [->|Nx]; [rewrite (qi_in r Q t) in N; tauto|tauto]. }
    unfold remove_from_list. destruct (queueable t) eqn:Eq; cbn [negb].
    - destruct (ts r t) eqn:Et; try contradiction;
        try (exists r; split; [reflexivity|]; split; [reflexivity|]; split; [reflexivity|]; split; [apply Q|]; split; [apply Out; rewrite (qi_in r Q t), Et; intros [X _]; discriminate|];
             split; [apply Q|]; split; [apply Q|exact L]).
      assert (It : In t (inorder (root r))) by (apply (qi_in r Q); auto).
      destruct (tset_remove (vr r) (root r) t (qi_tree r Q) It L) as (r' & E & T' & P).
      rewrite (remove_sgn _ _ lex cmp_sgn). change (key (vr r)) with (fkey (vr r)). rewrite E, Z.eqb_refl. cbn [negb].
      pose proof (perm_zlen _ _ P) as PL. rewrite zlen_cons in PL. pose proof (zlen_nonneg (inorder r')). pose proof (qi_cnt r Q).
      assert (Ec : (cnt r >=? 1) = true) by lia. rewrite Ec. cbn [negb].
      eexists. split; [reflexivity|]. cbn [ts vr root cnt sum]. split; [reflexivity|]. split; [reflexivity|]. split; [exact T'|]. split; [|split; [lia|split; [|lia]]].
      + pose proof (perm_in_iff _ _ _ P) as PI. pose proof (Permutation_NoDup P (tset_nodup _ _ (qi_tree r Q))) as N. apply NoDup_cons_iff in N.
        intros x. split.
        * intros Hx. split; [intros ->; apply N; exact Hx|]. apply (qi_in r Q), PI. right. exact Hx.
        * intros (Nx & Hx). apply (qi_in r Q), PI in Hx. destruct Hx; [contradiction|assumption].
      + rewrite (qi_sum r Q), (zsum_perm _ _ _ P). unfold u64, wrap. cbn [zsum fold_right]. apply mod_sub_l. lia.
    - exists r. split; [reflexivity|]. split; [reflexivity|]. split; [reflexivity|]. split; [apply Q|]. split; [apply Out; rewrite (qi_in r Q t), Eq; intros [_ X]; discriminate|].
      split; [apply Q|]. split; [apply Q|exact L].
  Qed.

  Lemma change_ok r t new : qinv r -> ts r t <> new -> ts r t <> Zombie -> ts r t <> Dead -> new <> Dead ->
    exists r', change r t new = Some r' /\ qinv r' /\ ts r' = fupd (ts r) t new /\ vr r' = vr r.
  Proof.
    intros Q N1 N2 N3 N4. unfold Sched_Model.change. rewrite (proj2 (st_eqb_neq _ _) N1), (proj2 (st_eqb_neq _ _) N2).
    destruct (remove_ok' r t Q N3) as (r1 & E & Et & Ev & T & I & Hc & Hs & L). rewrite E.
    rewrite <- Ev in T, Hs. rewrite <- Et in I.
    destruct (add_ok r1 t new T I Hc Hs) as (r2 & E2 & Q2 & Et2 & Ev2); [rewrite Et; apply Q|apply (qi_pool r Q); exact N3|exact N4|exact L|].
    exists r2. split; [exact E2|]. split; [exact Q2|]. rewrite Et2, Ev2, Et, Ev. split; reflexivity.
  Qed.

  Lemma change_idem_ok r t new : qinv r -> ts r t <> Zombie -> ts r t <> Dead -> new <> Dead ->
    exists r', change_idem idle workers r t new = Some r' /\ qinv r' /\ (forall x, ts r' x = fupd (ts r) t new x) /\ vr r' = vr r.
  Proof.
    intros Q N2 N3 N4. unfold change_idem. destruct (st_eqb (ts r t) new) eqn:E.
    - apply st_eqb_eq in E. exists r. split; [reflexivity|]. split; [exact Q|]. split; [|reflexivity].
      intros x. destruct (Z.eq_dec x t) as [->|Nx]; [rewrite fupd_same; exact E|rewrite fupd_other by auto; reflexivity].
    - apply st_eqb_neq in E. destruct (change_ok r t new Q E N2 N3 N4) as (r' & E1 & Q1 & Et & Ev). exists r'. rewrite Et. auto.
  Qed.

  (** The vruntime of a task that is not queued may change *)
  Lemma qinv_vr r t v : qinv r -> ts r t <> Runnable -> qinv (Rq (ts r) (fupd (vr r) t v) (root r) (cnt r) (sum r)).
  Proof.
    intros Q N. assert (A : forall x, In x (inorder (root r)) -> vr r x = fupd (vr r) t v x).
    { intros x Hx. apply (qi_in r Q) in Hx. rewrite fupd_other; [reflexivity|]. intros ->. apply N, Hx. }
    constructor; cbn [ts vr root cnt sum].
    - apply (tset_ext (vr r)); [exact A|apply Q].
    - apply Q.
    - apply Q.
    - rewrite (qi_sum r Q). f_equal. apply zsum_ext, A.
    - apply Q.
  Qed.

  (** ** The invariant *)
  Definition phinv (f : Z -> tstate) (c : Z) (p : phase) : Prop :=
    match p with
    | Run => True
    | Wake1 t nx | Wake2 t nx => ordinary idle kproc pool t /\ t <> c /\ live (f t) /\ (nx = Runnable \/ nx = Stopped)
    | Sched0 cs _ | Sched1 cs _ | Sched2 cs _ => (cs = Running <-> f c = Running) /\ (cs = Zombie <-> f c = Zombie)
    | Chosen cs x => (cs = Running <-> f c = Running) /\ (cs = Zombie <-> f c = Zombie) /\ x <> kproc /\
                     (x <> c -> f x = Runnable) /\ (x = c -> active (f c))
    | Switch1 x => x <> c /\ f x = Runnable /\ x <> kproc
    | Switch2 x => x <> c /\ f x = Running /\ x <> kproc
    | Switch3 x => c = kproc /\ f x = Running /\ x <> kproc
    end.
  Definition runner (c : Z) (p : phase) (t : Z) : Prop :=
    match p with Switch1 _ => False | Switch2 x | Switch3 x => t = x | _ => t = c end.

  Record inv (s : st) : Prop := {
    i_q : qinv (q s);
    i_vr : forall t, 0 <= vr (q s) t <= minv s;
    i_min : minv s < 2 ^ 64;
    i_idle : active (ts (q s) idle);
    i_kproc : ts (q s) kproc = Sleeping;
    i_curr : ts (q s) (curr s) <> Dead;
    i_run : forall t, ts (q s) t = Running -> runner (curr s) (ph s) t;
    i_ph : phinv (ts (q s)) (curr s) (ph s);
    i_stop : forall t, stopp s t = true -> ts (q s) t = Sleeping /\ t <> curr s /\ user idle kproc workers pool t;
    i_tr : tready s kproc = false;
    i_wst : match ph s with Wake1 t _ | Wake2 t _ => stopp s t = false | _ => True end
  }.

  Lemma init_inv : inv (st_init idle kproc).
  Proof.
    destruct C as (N & L & I1 & I2 & Ne & W1 & W2).
    assert (E : (kproc =? idle) = false) by lia.
    constructor; cbn [st_init q curr minv resched tready stopp ph ts vr root cnt sum]; rewrite ?E, ?Z.eqb_refl; try exact Logic.I; try reflexivity; try discriminate.
    - constructor; cbn; try reflexivity; try exact (tset_empty _).
      + intros t. split; [tauto|]. intros [A B]. destruct (t =? idle) eqn:Et; [|destruct (t =? kproc); discriminate].
        apply Z.eqb_eq in Et. subst t. apply queueable_iff in B. destruct B as [B _]. contradiction.
      + intros t. destruct (t =? idle) eqn:Et; [intros _; apply Z.eqb_eq in Et; subst; exact I1|]. destruct (t =? kproc) eqn:Et2; [intros _; apply Z.eqb_eq in Et2; subst; exact I2|congruence].
    - intros t. lia.
    - right. reflexivity.
    - intros t. destruct (t =? idle); [discriminate|]. destruct (t =? kproc); discriminate.
  Qed.

  (** Effect of interrupts on the states *)
  Definition irq_rel (f f' : Z -> tstate) : Prop :=
    forall t, f' t = f t \/ (f t = Sleeping /\ (f' t = Runnable \/ f' t = Stopped) /\ t <> kproc).

  Lemma irq_ph f f' c p : irq_rel f f' -> phinv f c p -> phinv f' c p.
  Proof.
    intros R. assert (Lv : forall t, live (f t) -> live (f' t)).
    { intros t. unfold live. destruct (R t) as [->|(_ & [-> | ->] & _)]; [tauto|intros _; split; discriminate..]. }
    assert (X : forall t y, y <> Sleeping -> y <> Runnable -> y <> Stopped -> f' t = y <-> f t = y).
    { intros t y A1 A2 A3. destruct (R t) as [->|(E & [-> | ->] & _)]; [tauto| |]; rewrite E; split; congruence. }
    assert (Y : forall t y, y <> Sleeping -> f t = y -> f' t = y).
    { intros t y A1 A2. destruct (R t) as [->|(E & _)]; [assumption|congruence]. }
    assert (Ac : forall t, active (f t) -> active (f' t)).
    { intros t [A|A]; [left|right]; apply Y; congruence. }
    destruct p; cbn [phinv]; try tauto.
    - intros (A & B & D & F). auto.
    - intros (A & B & D & F). auto.
    - rewrite !X by discriminate. tauto.
    - rewrite !X by discriminate. tauto.
    - rewrite !X by discriminate. tauto.
    - rewrite !X by discriminate. intros (A & B & D & F & G). split; [exact A|]. split; [exact B|]. split; [exact D|]. split; [|intros ->; apply Ac, G; reflexivity].
      intros H. apply Y; [discriminate|]. apply F, H.
    - intros (A & B & D). split; [exact A|]. split; [|exact D]. apply Y; [discriminate|exact B].
    - rewrite X by discriminate. tauto.
    - rewrite X by discriminate. tauto.
  Qed.

  Lemma irq_running f f' t : irq_rel f f' -> f' t = Running -> f t = Running.
  Proof. intros R E. destruct (R t) as [<-|(_ & [A|A] & _)]; congruence. Qed.

  (** An interrupt that preserves the rest *)
  Lemma irq_inv s s' : inv s -> qinv (q s') -> irq_rel (ts (q s)) (ts (q s')) ->
    (forall t, 0 <= vr (q s') t <= minv s') -> minv s' < 2 ^ 64 -> curr s' = curr s -> ph s' = ph s ->
    (forall t, stopp s' t = true -> stopp s t = true /\ ts (q s') t = ts (q s) t) -> tready s' kproc = false -> inv s'.
  Proof.
    intros I Q R V M Ec Ep St Tr. constructor; try assumption.
    - destruct (R idle) as [->|(E & _)]; [apply I|]. destruct (i_idle s I); congruence.
    - destruct (R kproc) as [->|(_ & _ & A)]; [apply I|contradiction].
    - rewrite Ec. destruct (R (curr s)) as [->|(_ & [-> | ->] & _)]; [apply I|discriminate..].
    - intros t Ht. rewrite Ec, Ep. apply (i_run s I). apply (irq_running _ _ _ R Ht).
    - rewrite Ec, Ep. apply (irq_ph _ _ _ _ R). apply I.
    - intros t Ht. destruct (St t Ht) as [A B]. rewrite B, Ec. apply (i_stop s I t A).
    - rewrite Ep. pose proof (i_wst s I) as W. destruct (ph s); try exact Logic.I; (destruct (stopp s' t) eqn:Es; [apply St in Es; destruct Es; congruence|reflexivity]).
  Qed.

  (** handoff, refresh, start_quantum leave everything but vruntimes and slices *)
  Lemma refresh_q s t : q (refresh latency gran s t) = q s. Proof. reflexivity. Qed.

  Lemma handoff_spec s t : inv s ->
    let s' := handoff latency gran s t in
    qinv (q s') /\ ts (q s') = ts (q s) /\ (forall x, 0 <= vr (q s') x <= minv s) /\ minv s' = minv s /\ curr s' = curr s /\ ph s' = ph s /\
    stopp s' = stopp s /\ tready s' = tready s /\ resched s' = resched s /\ vfs s' = vfs s /\
    (forall x, vr (q s) x <= vr (q s') x) /\ (forall x, x <> t -> vr (q s') x = vr (q s) x) /\
    (ts (q s) t = Sleeping -> minv s - bonus <= vr (q s') t) /\ vr (q s') t = (match ts (q s) t with Sleeping => Z.max (vr (q s) t) (Z.max 0 (minv s - bonus)) | _ => vr (q s) t end).
  Proof.
    intros I. pose proof (i_q s I) as Q. pose proof (i_vr s I t) as Vt.
    unfold handoff. destruct (ts (q s) t) eqn:Et; cbn zeta;
      try (split; [exact Q|]; split; [reflexivity|]; split; [apply I|]; split; [reflexivity|]; split; [reflexivity|]; split; [reflexivity|];
           split; [reflexivity|]; split; [reflexivity|]; split; [reflexivity|]; split; [reflexivity|]; split; [intros; lia|]; split; [reflexivity|]; split; [discriminate|reflexivity]).
    set (fl := if minv s >? bonus then minv s - bonus else 0).
    assert (Ef : fl = Z.max 0 (minv s - bonus)) by (unfold fl; destruct (minv s >? bonus) eqn:E; lia).
    destruct (vr (q s) t <? fl) eqn:E.
    - split; [apply (qinv_vr (q s) t fl Q); congruence|]. split; [reflexivity|]. cbn [refresh set_vr set_q q vr minv curr ph stopp tready resched vfs].
      split; [|repeat (split; [reflexivity|])].
      + intros x. destruct (Z.eq_dec x t) as [->|Nx]; [rewrite fupd_same; unfold bonus in *; lia|rewrite fupd_other by auto; apply I].
      + split; [intros x; destruct (Z.eq_dec x t) as [->|Nx]; [rewrite fupd_same; lia|rewrite fupd_other by auto; lia]|].
        split; [intros x Nx; apply fupd_other; auto|]. rewrite fupd_same. split; [intros _; lia|lia].
    - split; [exact Q|]. split; [reflexivity|]. split; [apply I|]. do 7 (split; [reflexivity|]). split; [intros; cbn [refresh q vr]; lia|]. split; [reflexivity|].
      cbn [refresh q vr]. split; [intros _; lia|lia].
  Qed.

  Lemma tick_spec s : let s' := account_ticks idle workers s in let c := curr s in
    ts (q s') = ts (q s) /\ root (q s') = root (q s) /\ cnt (q s') = cnt (q s) /\ sum (q s') = sum (q s) /\
    curr s' = c /\ ph s' = ph s /\ stopp s' = stopp s /\ tready s' = tready s /\ vfs s' = vfs s /\ slice s' = slice s /\
    used s' = fupd (used s) c (u32 (used s c + scale)) /\
    (if st_eqb (ts (q s) c) Running && negb (c =? idle)
     then vr (q s') = fupd (vr (q s)) c (u64 (vr (q s) c + scale)) /\ minv s' = Z.max (minv s) (u64 (vr (q s) c + scale))
     else vr (q s') = vr (q s) /\ minv s' = minv s) /\
    resched s' = resched s || negb (st_eqb (ts (q s) c) Running) || negb (worker workers c) && (u32 (used s c + scale) >=? slice s c).
  Proof.
    cbn zeta. unfold account_ticks, set_vr, set_resched, set_q. cbn zeta.
    destruct s as [[f v ro cn su] c m rs tr sp vf sl us dl p]. cbn [q ts vr root cnt sum curr minv resched tready stopp vfs slice used dline ph set_vr set_q set_resched].
    rewrite fupd_same.
    destruct (st_eqb (f c) Running), (c =? idle); cbn [negb andb orb]; [|destruct (u64 (v c + scale) >? m) eqn:E3| |];
      cbn [q ts vr root cnt sum curr minv resched tready stopp vfs slice used dline ph]; rewrite ?fupd_same;
      try (destruct (negb (worker workers c) && (u32 (us c + scale) >=? sl c)) eqn:E4);
      cbn [q ts vr root cnt sum curr minv resched tready stopp vfs slice used dline ph];
      (do 11 (split; [reflexivity|])); (split; [split; [reflexivity|lia]|]) ; rewrite ?orb_true_r, ?orb_false_r; reflexivity.
  Qed.

  Lemma tick_inv s : inv s -> vr (q s) (curr s) + scale < 2 ^ 64 -> inv (account_ticks idle workers s).
  Proof.
    intros I Hb. destruct (tick_spec s) as (T & R & N & S & Cu & Ph & Sp & Tr & _ & _ & _ & V & _). cbn zeta in *.
    set (s' := account_ticks idle workers s) in *. pose proof (i_q s I) as Q. pose proof (i_vr s I (curr s)) as Vc. pose proof (i_min s I) as M.
    destruct (st_eqb (ts (q s) (curr s)) Running && negb (curr s =? idle)) eqn:E.
    - destruct V as [V1 V2]. apply andb_true_iff in E. destruct E as [E _]. apply st_eqb_eq in E.
      set (v := u64 (vr (q s) (curr s) + scale)) in *. assert (Ev : v = vr (q s) (curr s) + scale) by (apply u64_small; unfold scale in *; lia).
      assert (Eq' : q s' = Rq (ts (q s)) (fupd (vr (q s)) (curr s) v) (root (q s)) (cnt (q s)) (sum (q s))).
      { destruct (q s') as [a1 a2 a3 a4 a5]. cbn [ts vr root cnt sum] in *. congruence. }
      apply (irq_inv s); rewrite ?T, ?Sp, ?Tr, ?V1, ?V2; try assumption; try apply I.
      + rewrite Eq'. apply qinv_vr; [exact Q|congruence].
      + intros x; left; reflexivity.
      + intros x. pose proof (i_vr s I x). destruct (Z.eq_dec x (curr s)) as [->|Nx]; [rewrite fupd_same; unfold scale in *; lia|rewrite fupd_other by auto; lia].
      + lia.
      + auto.
    - destruct V as [V1 V2].
      assert (Eq' : q s' = q s).
      { destruct (q s') as [a1 a2 a3 a4 a5], (q s) as [b1 b2 b3 b4 b5]. cbn [ts vr root cnt sum] in *. congruence. }
      apply (irq_inv s); rewrite ?Eq', ?Sp, ?Tr, ?V2; try assumption; try apply I; auto. intros x; left; reflexivity.
  Qed.

  Lemma timer_inv s t : inv s -> ordinary idle kproc pool t -> live (ts (q s) t) ->
    exists s', timer_fire idle workers latency gran s t = Some s' /\ inv s'.
  Proof.
    intros I (Pt & Ni & Nk) Lt. unfold timer_fire. cbn [set_tready q ts stopp].
    set (s0 := set_tready s t true).
    assert (I0 : inv s0).
    { apply (irq_inv s); cbn [set_tready s0 q ts vr curr ph stopp minv tready]; try reflexivity; try apply I; [intros x; left; reflexivity|intros x Hx; split; [exact Hx|reflexivity]|].
      rewrite fupd_other by auto. apply I. }
    destruct (ts (q s) t) eqn:Et; try (eexists; split; [reflexivity|exact I0]).
    destruct (stopp s t) eqn:Es; cbn [st_eqb].
    - destruct (change_ok (q s) t Stopped (i_q s I)) as (r & E & Qr & Ets & Evr); try congruence.
      cbn [set_stopp q]. unfold s0. cbn [set_tready q]. rewrite E. eexists. split; [reflexivity|].
      apply (irq_inv s); cbn [set_resched set_q set_stopp set_tready q curr ph minv stopp tready]; try reflexivity; try apply I.
      + exact Qr.
      + intros x. rewrite Ets. destruct (Z.eq_dec x t) as [->|Nx]; [rewrite fupd_same; right; auto|rewrite fupd_other by auto; left; reflexivity].
      + intros x. rewrite Evr. apply I.
      + intros x Hx. destruct (Z.eq_dec x t) as [->|Nx]; [rewrite fupd_same in Hx; discriminate|]. rewrite fupd_other in Hx by auto.
        split; [exact Hx|]. rewrite Ets, fupd_other by auto. reflexivity.
      + rewrite fupd_other by auto. apply I.
    - destruct (handoff_spec s0 t I0) as (Qh & Th & Vh & Mh & Ch & Ph & Sh & Rh & _). fold s0.
      set (h := handoff latency gran s0 t) in *.
      destruct (change_ok (q h) t Runnable Qh) as (r & E & Qr & Ets & Evr); try (rewrite Th; unfold s0; cbn [set_tready q]; congruence); try congruence.
      rewrite E. eexists. split; [reflexivity|].
      apply (irq_inv s); cbn [set_resched set_q q curr ph minv stopp tready]; rewrite ?Ch, ?Ph, ?Mh, ?Rh, ?Sh; try reflexivity; try (apply I).
      + exact Qr.
      + intros x. rewrite Ets, Th. unfold s0. cbn [set_tready q]. destruct (Z.eq_dec x t) as [->|Nx]; [rewrite fupd_same; right; auto|rewrite fupd_other by auto; left; reflexivity].
      + intros x. rewrite Evr. apply Vh.
      + intros x Hx. unfold s0 in Hx. cbn [set_tready stopp] in Hx. split; [exact Hx|]. rewrite Ets, Th. apply fupd_other. intros ->. congruence.
      + apply I0.
  Qed.

  Lemma wth_inv s t : inv s -> ordinary idle kproc pool t -> In t workers -> inv (wth_wakeup workers prio s t).
  Proof.
    intros I (Pt & Ni & Nk) W. unfold wth_wakeup.
    assert (A : inv (match ts (q s) t with Sleeping => set_q s (set_ts (q s) t Runnable) | _ => s end)).
    { destruct (ts (q s) t) eqn:Et; try exact I. pose proof (i_q s I) as Q.
      assert (R : irq_rel (ts (q s)) (fupd (ts (q s)) t Runnable)).
      { intros x. destruct (Z.eq_dec x t) as [->|Nx]; [rewrite fupd_same; right; auto|rewrite fupd_other by auto; left; reflexivity]. }
      apply (irq_inv s); cbn [set_q set_ts q ts vr curr ph stopp minv tready]; try reflexivity; try apply I; [|exact R|].
      - constructor; cbn [set_ts ts vr root cnt sum]; try apply Q.
        + intros x. rewrite (qi_in (q s) Q x). destruct (Z.eq_dec x t) as [->|Nx]; [|rewrite fupd_other by auto; tauto].
          rewrite queueable_iff. tauto.
        + intros x. destruct (Z.eq_dec x t) as [->|Nx]; [intros _; exact Pt|rewrite fupd_other by auto; apply Q].
      - intros x Hx. split; [exact Hx|]. apply fupd_other. intros ->. apply (i_stop s I) in Hx. destruct Hx as (_ & _ & _ & Hx). contradiction. }
    destruct (negb _ || _); [|exact A]. revert A. generalize (match ts (q s) t with Sleeping => set_q s (set_ts (q s) t Runnable) | _ => s end). intros s1 A.
    apply (irq_inv s1); cbn [set_resched q ts vr curr ph stopp minv tready]; try reflexivity; try apply A; [intros x; left; reflexivity|intros x Hx; split; [exact Hx|reflexivity]].
  Qed.

  (** Changes of a task's state by the current task's code, phase Run *)
  Lemma run_inv s s' t new : inv s -> ph s = Run -> ph s' = Run -> curr s' = curr s -> minv s' = minv s ->
    qinv (q s') -> (forall x, ts (q s') x = fupd (ts (q s)) t new x) -> (forall x, 0 <= vr (q s') x <= minv s) -> t <> idle -> t <> kproc ->
    (new = Running -> t = curr s) -> (new = Dead -> t <> curr s) -> tready s' kproc = false ->
    (forall x, stopp s' x = true -> stopp s x = true /\ (x = t -> new = Sleeping) \/ (x = t /\ new = Sleeping /\ t <> curr s /\ user idle kproc workers pool t)) -> inv s'.
  Proof.
    intros I P P' Ec Em Q T V Ni Nk HR HD Tr St. constructor; try assumption.
    - rewrite Em. exact V.
    - rewrite Em. apply I.
    - rewrite T, fupd_other by auto. apply I.
    - rewrite T, fupd_other by auto. apply I.
    - rewrite Ec, T. destruct (Z.eq_dec (curr s) t) as [<-|N]; [rewrite fupd_same; intros E; apply HD in E; contradiction|rewrite fupd_other by auto; apply I].
    - intros x. rewrite T, P', Ec. cbn [runner]. destruct (Z.eq_dec x t) as [->|N]; [rewrite fupd_same; exact HR|rewrite fupd_other by auto].
      intros E. pose proof (i_run s I x E) as R. rewrite P in R. exact R.
    - rewrite P'. exact Logic.I.
    - intros x Hx. rewrite Ec, T. apply St in Hx. destruct Hx as [[Hx Hn]|(-> & -> & A & B)].
      + destruct (i_stop s I x Hx) as (A & B & D). split; [|split; assumption]. destruct (Z.eq_dec x t) as [->|N]; [rewrite fupd_same; apply Hn; reflexivity|rewrite fupd_other by auto; exact A].
      + rewrite fupd_same. auto.
    - rewrite P'. exact Logic.I.
  Qed.

  Lemma fupd_id {A} (f : Z -> A) t x : fupd f t (f t) x = f x.
  Proof. destruct (Z.eq_dec x t) as [->|N]; [apply fupd_same|apply fupd_other; auto]. Qed.

  (** Same with the states unchanged *)
  Lemma flag_inv s s' : inv s -> ph s = Run -> ph s' = Run -> curr s' = curr s -> minv s' = minv s -> q s' = q s -> tready s' kproc = false ->
    (forall x, stopp s' x = true -> stopp s x = true \/ ts (q s) x = Sleeping /\ x <> curr s /\ user idle kproc workers pool x) -> inv s'.
  Proof.
    intros I P P' Ec Em Q Tr St. pose proof (i_run s I) as RN. rewrite P in RN.
    constructor; rewrite ?P', ?Ec, ?Em, ?Q; try apply I; try assumption; try exact Logic.I.
    intros x Hx. apply St in Hx. destruct Hx as [Hx|Hx]; [apply (i_stop s I), Hx|exact Hx].
  Qed.

  Lemma wake_inv s t : inv s -> ph s = Run -> ordinary idle kproc pool t -> live (ts (q s) t) ->
    exists s', wake_up s t = Some s' /\ inv s'.
  Proof.
    intros I P O L. unfold wake_up. destruct (t =? curr s) eqn:E; [eexists; split; [reflexivity|exact I]|]. apply Z.eqb_neq in E.
    assert (R : forall x nx, ts (q s) x = Running -> runner (curr s) (Wake1 t nx) x).
    { intros x nx Hx. pose proof (i_run s I x Hx) as R. rewrite P in R. exact R. }
    destruct (stopp s t) eqn:Es; (eexists; split; [reflexivity|]); constructor; cbn [set_ph set_stopp q curr minv ph stopp tready]; try apply I; try (intros x; apply R).
    - cbn [phinv]. auto.
    - intros x Hx. destruct (Z.eq_dec x t) as [->|N]; [rewrite fupd_same in Hx; discriminate|rewrite fupd_other in Hx by auto]. apply (i_stop s I), Hx.
    - apply fupd_same.
    - cbn [phinv]. auto.
    - exact Es.
  Qed.

  Lemma runnable_worker_spec f l sel :
    match runnable_worker prio f l sel with
    | None => sel = None /\ forall t, In t l -> f t <> Runnable
    | Some x => (sel = Some x \/ In x l /\ f x = Runnable) /\ (forall t, In t l -> f t = Runnable -> prio x <= prio t) /\
                (forall y, sel = Some y -> prio x <= prio y)
    end.
  Proof.
    revert sel. induction l as [|t l IH]; intros sel; cbn [runnable_worker].
    - destruct sel; [|split; [reflexivity|intros ? []]]. split; [auto|]. split; [intros ? []|]. intros y E. inversion E. lia.
    - destruct (st_eqb (f t) Runnable) eqn:E.
      + apply st_eqb_eq in E. specialize (IH (match sel with None => Some t | Some x => if prio t <? prio x then Some t else sel end)).
        destruct (runnable_worker prio f l _) as [x|].
        * destruct IH as (A & B & D). destruct sel as [y|]; [destruct (prio t <? prio y) eqn:Ep|].
          -- pose proof (D t eq_refl). split; [destruct A as [A|A]; [inversion A; subst; right; split; [left; reflexivity|exact E]|right; split; [right; apply A|apply A]]|].
             split; [intros z [<-|Hz] Hr; [lia|apply B; assumption]|intros z Ez; inversion Ez; subst; lia].
          -- pose proof (D y eq_refl). split; [destruct A as [A|A]; [left; exact A|right; split; [right; apply A|apply A]]|].
             split; [intros z [<-|Hz] Hr; [lia|apply B; assumption]|intros z Ez; inversion Ez; subst; lia].
          -- pose proof (D t eq_refl). split; [destruct A as [A|A]; [inversion A; subst; right; split; [left; reflexivity|exact E]|right; split; [right; apply A|apply A]]|].
             split; [intros z [<-|Hz] Hr; [lia|apply B; assumption]|discriminate].
        * destruct IH as (A & _). destruct sel as [y|]; [destruct (prio t <? prio y)|]; discriminate.
      + apply st_eqb_neq in E. specialize (IH sel). destruct (runnable_worker prio f l sel) as [x|].
        * destruct IH as (A & B & D). split; [destruct A as [A|A]; [left; exact A|right; split; [right; apply A|apply A]]|]. split; [|exact D].
          intros z [<-|Hz] Hr; [contradiction|apply B; assumption].
        * destruct IH as (A & B). split; [exact A|]. intros z [<-|Hz]; [exact E|apply B, Hz].
  Qed.

  Lemma first_spec s : inv s ->
    match get_first (root (q s)) with
    | None => forall t, ts (q s) t = Runnable -> queueable t = false
    | Some m => ts (q s) m = Runnable /\ queueable m = true /\ forall t, ts (q s) t = Runnable -> queueable t = true -> before s m t
    end.
  Proof.
    intros I. pose proof (i_q s I) as Q. pose proof (tset_first _ _ (qi_tree _ Q)) as F. destruct (get_first (root (q s))) as [m|].
    - destruct F as [A B]. apply (qi_in _ Q) in A. split; [apply A|]. split; [apply A|]. intros t Ht Hq. apply B, (qi_in _ Q). auto.
    - intros t Ht. destruct (queueable t) eqn:E; [|reflexivity]. assert (X : In t (inorder (root (q s)))) by (apply (qi_in _ Q); auto). rewrite F in X. destruct X.
  Qed.

  Lemma next_inv s : inv s -> ph s <> Run -> exists s', next idle kproc workers prio latency gran s = Some s' /\ inv s'.
  Proof.
    intros I Np. unfold next. pose proof (i_ph s I) as PH. pose proof (i_run s I) as RN. pose proof (i_q s I) as Q. pose proof (i_wst s I) as WS.
    pose proof (i_stop s I) as ST. destruct C as (_ & _ & Pi & Pk & Nik & Wi & Wk).
    assert (Ak : active (ts (q s) kproc) -> False) by (rewrite (i_kproc s I); intros [X|X]; discriminate).
    destruct (ph s) eqn:EP; cbn [phinv runner] in PH, RN; [contradiction|..].
    - (* Wake1 *) eexists. split; [reflexivity|]. destruct (st_eqb next Runnable).
      + destruct (handoff_spec s t I) as (Qh & Th & Vh & Mh & Ch & Ph & Sh & Rh & _). set (h := handoff latency gran s t) in *.
        destruct (negb (curr h =? idle) && negb (worker workers (curr h)));
          (constructor; cbn [set_ph set_resched q curr minv ph stopp tready]; rewrite ?Th, ?Ch, ?Mh, ?Sh, ?Rh; try apply I; try assumption).
      + constructor; cbn [set_ph q curr minv ph stopp tready]; try apply I; assumption.
    - (* Wake2 *) destruct PH as ((O1 & O2 & O3) & N & (L1 & L2) & NX).
      destruct (change_idem_ok (q s) t next Q L2 L1) as (r & E & Qr & Tr & Vr); [destruct NX; congruence|].
      rewrite E. eexists. split; [reflexivity|].
      constructor; cbn [with_q set_q set_ph q curr minv ph stopp tready]; try apply I; try exact Qr; try exact Logic.I.
      + rewrite Vr. apply I.
      + rewrite Tr, fupd_other by auto. apply I.
      + rewrite Tr, fupd_other by auto. apply I.
      + rewrite Tr, fupd_other by auto. apply I.
      + intros x. rewrite Tr. cbn [runner]. destruct (Z.eq_dec x t) as [->|Nx]; [rewrite fupd_same; destruct NX; congruence|rewrite fupd_other by auto; apply RN].
      + intros x Hx. rewrite Tr. destruct (Z.eq_dec x t) as [->|Nx]; [congruence|rewrite fupd_other by auto; apply ST, Hx].
    - (* Sched0 *) destruct (st_eqb cs Zombie) eqn:Ez.
      + eexists. split; [reflexivity|]. constructor; cbn [set_ph q curr minv ph stopp tready]; try apply I; assumption.
      + apply st_eqb_neq in Ez. destruct (tready s (curr s)) eqn:Et.
        * assert (Nk : curr s <> kproc) by (intros Ec; rewrite Ec, (i_tr s I) in Et; discriminate).
          assert (X : exists r, (if negb (st_eqb cs Running) then change (q s) (curr s) Running else Some (q s)) = Some r /\ qinv r /\
                     (forall x, ts r x = fupd (ts (q s)) (curr s) Running x) /\ vr r = vr (q s)).
          { destruct (st_eqb cs Running) eqn:Er; cbn [negb].
            - apply st_eqb_eq in Er. exists (q s). split; [reflexivity|]. split; [exact Q|]. split; [|reflexivity]. intros x.
              rewrite <- (proj1 (proj1 PH) Er). symmetry. apply fupd_id.
            - apply st_eqb_neq in Er. destruct (change_ok (q s) (curr s) Running Q) as (r & E1 & E2 & E3 & E4); try tauto; try discriminate; [apply I|]. exists r. rewrite E3. auto. }
          destruct X as (r & E & Qr & Tr & Vr). rewrite E. eexists. split; [reflexivity|].
          constructor; cbn [with_q set_q set_ph set_tready q curr minv ph stopp tready]; try apply I; try exact Qr; try exact Logic.I.
          -- rewrite Vr. apply I.
          -- rewrite Tr. destruct (Z.eq_dec idle (curr s)) as [->|]; [rewrite fupd_same; left; reflexivity|rewrite fupd_other by auto; apply I].
          -- rewrite Tr, fupd_other by auto. apply I.
          -- rewrite Tr, fupd_same. discriminate.
          -- intros x. rewrite Tr. cbn [runner]. destruct (Z.eq_dec x (curr s)) as [->|Nx]; [reflexivity|rewrite fupd_other by auto; apply RN].
          -- intros x Hx. rewrite Tr. destruct (ST x Hx) as (A & B & D). rewrite fupd_other by auto. auto.
          -- rewrite fupd_other by auto. apply I.
        * eexists. split; [reflexivity|]. constructor; cbn [set_ph q curr minv ph stopp tready]; try apply I; assumption.
    - (* Sched1 *) pose proof (runnable_worker_spec (ts (q s)) workers None) as W. destruct (runnable_worker prio (ts (q s)) workers None) as [w|].
      + destruct W as ([W|[W1 W2]] & _); [discriminate|]. eexists. split; [reflexivity|].
        constructor; cbn [set_ph q curr minv ph stopp tready]; try apply I; try assumption.
        cbn [phinv]. split; [apply PH|]. split; [apply PH|]. split; [intros ->; contradiction|]. split; [auto|]. intros <-. right. exact W2.
      + eexists. split; [reflexivity|]. constructor; cbn [set_ph q curr minv ph stopp tready]; try apply I; assumption.
    - (* Sched2 *) pose proof (first_spec s I) as FS. unfold select.
      assert (X : forall x, x <> kproc -> (x <> curr s -> ts (q s) x = Runnable) -> (x = curr s -> active (ts (q s) (curr s))) -> inv (set_ph s (Chosen cs x))).
      { intros x A B D. constructor; cbn [set_ph q curr minv ph stopp tready]; try apply I; try assumption. cbn [phinv]. tauto. }
      assert (Kc : cs = Running -> curr s <> kproc) by (intros E Ec; apply Ak; rewrite <- Ec; left; apply PH, E).
      destruct (get_first (root (q s))) as [m|].
      + destruct FS as (F1 & F2 & F3). rewrite F1. cbn [st_eqb negb].
        match goal with |- context [if ?b then _ else _] => destruct b eqn:E end.
        * eexists. split; [reflexivity|]. apply X; [|congruence|].
          -- apply Kc. apply st_eqb_eq. destruct (st_eqb cs Running); [reflexivity|]. rewrite andb_false_r in E. discriminate.
          -- intros _. left. apply PH, st_eqb_eq. destruct (st_eqb cs Running); [reflexivity|]. rewrite andb_false_r in E. discriminate.
        * eexists. split; [reflexivity|]. apply X; [|auto|intros <-; right; exact F1]. intros ->. rewrite (i_kproc s I) in F1. discriminate.
      + destruct (st_eqb cs Running) eqn:Er.
        * apply st_eqb_eq in Er. match goal with |- context [if ?b then _ else _] => destruct b eqn:E end; (eexists; split; [reflexivity|]; apply X; [apply Kc, Er|congruence|intros _; left; apply PH, Er]).
        * eexists. split; [reflexivity|]. apply X; [auto| |].
          -- intros N. destruct (i_idle s I) as [A|A]; [|exact A]. exfalso. apply N, RN, A.
          -- intros <-. apply I.
    - (* Chosen *) destruct PH as (P1 & P2 & P3 & P4 & P5). destruct (sel =? curr s) eqn:Es; cbn [negb].
      + apply Z.eqb_eq in Es. specialize (P5 Es).
        assert (Nz : ts (q s) (curr s) <> Zombie) by (destruct P5 as [->| ->]; discriminate).
        destruct (change_idem_ok (q s) (curr s) Running Q Nz (i_curr s I)) as (r & E & Qr & Tr & Vr); [discriminate|]. rewrite E.
        destruct (st_eqb cs Zombie) eqn:Ez; [apply st_eqb_eq, P2 in Ez; contradiction|]. eexists. split; [reflexivity|].
        assert (Nk : curr s <> kproc) by congruence.
        constructor; cbn [start_quantum refresh set_q set_ph set_tready q curr minv ph stopp tready]; try apply I; try exact Qr; try exact Logic.I.
        -- rewrite Vr. apply I.
        -- rewrite Tr. destruct (Z.eq_dec idle (curr s)) as [->|]; [rewrite fupd_same; left; reflexivity|rewrite fupd_other by auto; apply I].
        -- rewrite Tr, fupd_other by auto. apply I.
        -- rewrite Tr, fupd_same. discriminate.
        -- intros x. rewrite Tr. cbn [runner]. destruct (Z.eq_dec x (curr s)) as [->|Nx]; [reflexivity|rewrite fupd_other by auto; apply RN].
        -- intros x Hx. rewrite Tr. destruct (ST x Hx) as (A & B & D). rewrite fupd_other by auto. auto.
        -- rewrite fupd_other by auto. apply I.
      + apply Z.eqb_neq in Es. specialize (P4 Es). destruct (st_eqb cs Running) eqn:Er.
        * apply st_eqb_eq, P1 in Er. destruct (change_ok (q s) (curr s) Runnable Q) as (r & E & Qr & Tr & Vr); try congruence. rewrite E. eexists. split; [reflexivity|].
          assert (Nk : curr s <> kproc) by (intros Ec; apply Ak; rewrite <- Ec; left; exact Er).
          constructor; cbn [with_q refresh set_q set_ph set_tready q curr minv ph stopp tready]; try apply I; try exact Qr; try exact Logic.I.
          -- rewrite Vr. apply I.
          -- rewrite Tr. destruct (Z.eq_dec idle (curr s)) as [->|]; [rewrite fupd_same; right; reflexivity|rewrite fupd_other by auto; apply I].
          -- rewrite Tr, fupd_other by auto. apply I.
          -- rewrite Tr, fupd_same. discriminate.
          -- intros x. rewrite Tr. cbn [runner]. destruct (Z.eq_dec x (curr s)) as [->|Nx]; [rewrite fupd_same; discriminate|rewrite fupd_other by auto; intros Hx; apply RN in Hx; contradiction].
          -- cbn [phinv]. rewrite Tr, fupd_other by auto. auto.
          -- intros x Hx. rewrite Tr. destruct (ST x Hx) as (A & B & D). rewrite fupd_other by auto. auto.
        * apply st_eqb_neq in Er. eexists. split; [reflexivity|]. constructor; cbn [set_ph q curr minv ph stopp tready]; try apply I; try assumption; try exact Logic.I; [|cbn [phinv]; auto].
          intros x Hx. cbn [runner]. apply Er, P1. rewrite <- (RN x Hx). exact Hx.
    - (* Switch1 *) destruct PH as (P1 & P2 & P3). assert (Es : (sel =? curr s) = false) by lia. rewrite Es. cbn [negb andb].
      assert (Ec : st_eqb (ts (q s) (curr s)) Running = false) by (apply st_eqb_neq; intros X; apply (RN _ X)).
      rewrite Ec, P2. cbn [st_eqb negb orb].
      destruct (change_idem_ok (q s) sel Running Q) as (r & E & Qr & Tr & Vr); try congruence. rewrite E. eexists. split; [reflexivity|].
      constructor; cbn [start_quantum refresh set_q set_ph set_tready q curr minv ph stopp tready]; try apply I; try exact Qr; try exact Logic.I.
      + rewrite Vr. apply I.
      + rewrite Tr. destruct (Z.eq_dec idle sel) as [->|]; [rewrite fupd_same; left; reflexivity|rewrite fupd_other by auto; apply I].
      + rewrite Tr, fupd_other by auto. apply I.
      + rewrite Tr, fupd_other by auto. apply I.
      + intros x. rewrite Tr. cbn [runner]. destruct (Z.eq_dec x sel) as [->|Nx]; [reflexivity|rewrite fupd_other by auto; intros Hx; destruct (RN x Hx)].
      + cbn [phinv]. rewrite Tr, fupd_same. auto.
      + intros x Hx. rewrite Tr. destruct (ST x Hx) as (A & B & D). rewrite fupd_other by (intros ->; congruence). auto.
    - (* Switch2 *) destruct PH as (P1 & P2 & P3). destruct (st_eqb (ts (q s) (curr s)) Zombie) eqn:Ez; (eexists; split; [reflexivity|]).
      + constructor; cbn [set_curr set_ph q curr minv ph stopp tready]; try apply I; try assumption; try exact Logic.I.
        * rewrite (i_kproc s I). discriminate.
        * cbn [phinv]. auto.
        * intros x Hx. destruct (ST x Hx) as (A & B & D). split; [exact A|]. split; [apply D|exact D].
      + constructor; cbn [set_curr set_ph set_tready q curr minv ph stopp tready]; try apply I; try assumption; try exact Logic.I.
        * rewrite P2. discriminate.
        * intros x Hx. destruct (ST x Hx) as (A & B & D). split; [exact A|]. split; [intros ->; congruence|exact D].
        * rewrite fupd_other by auto. apply I.
    - (* Switch3 *) destruct PH as (P1 & P2 & P3). eexists; split; [reflexivity|].
      constructor; cbn [set_curr set_ph set_tready q curr minv ph stopp tready]; try apply I; try assumption; try exact Logic.I.
      * rewrite P2. discriminate.
      * intros x Hx. destruct (ST x Hx) as (A & B & D). split; [exact A|]. split; [intros ->; congruence|exact D].
      * rewrite fupd_other by auto. apply I.
  Qed.

  Lemma step_inv s a : inv s -> allowed idle kproc workers pool s a -> exists s', step idle kproc workers prio latency gran s a = Some s' /\ inv s'.
  Proof.
    intros I A. pose proof (i_q s I) as Q. pose proof (i_stop s I) as ST. pose proof C as (_ & _ & Pi & Pk & Nik & Wi & Wk).
    assert (NS : forall t x, stopp s x = true -> ts (q s) t <> Sleeping -> x <> t) by (intros t x H1 H2 ->; apply H2, ST, H1).
    destruct a; cbn [allowed] in A; cbn [step].
    - eexists. split; [reflexivity|]. apply tick_inv; assumption.
    - apply timer_inv; tauto.
    - eexists. split; [reflexivity|]. apply wth_inv; tauto.
    - (* Sleep *) destruct A as (P & (O1 & O2 & O3) & Ac).
      destruct (change_ok (q s) (curr s) Sleeping Q) as (r & E & Qr & Tr & Vr); try (destruct Ac; congruence). rewrite E. eexists. split; [reflexivity|].
      apply (run_inv s _ (curr s) Sleeping I P); cbn [with_q set_q q curr minv ph stopp tready]; auto; try discriminate.
      + intros x. rewrite Tr. reflexivity.
      + rewrite Vr. apply I.
      + apply I.
    - apply wake_inv; tauto.
    - (* Stop *) destruct A as (P & ((O1 & O2 & O3) & U) & L & N). destruct (ts (q s) t) eqn:Et; try (exfalso; destruct L; congruence); try (eexists; split; [reflexivity|exact I]).
      + destruct (change_ok (q s) t Stopped Q) as (r & E & Qr & Tr & Vr); try congruence. rewrite E. eexists. split; [reflexivity|].
        apply (run_inv s _ t Stopped I P); cbn [with_q set_q q curr minv ph stopp tready]; auto; try discriminate; [intros x; rewrite Tr; reflexivity|rewrite Vr; apply I|apply I|].
        intros x Hx. left. split; [exact Hx|]. intros ->. apply ST in Hx. destruct Hx; congruence.
      + destruct (change_ok (q s) t Stopped Q) as (r & E & Qr & Tr & Vr); try congruence. rewrite E. eexists. split; [reflexivity|].
        apply (run_inv s _ t Stopped I P); cbn [with_q set_q q curr minv ph stopp tready]; auto; try discriminate; [intros x; rewrite Tr; reflexivity|rewrite Vr; apply I|apply I|].
        intros x Hx. left. split; [exact Hx|]. intros ->. apply ST in Hx. destruct Hx; congruence.
      + eexists. split; [reflexivity|]. apply (flag_inv s); cbn [set_stopp q curr minv ph stopp tready]; auto; [apply I|].
        intros x. destruct (Z.eq_dec x t) as [->|Nx]; [intros _; right; split; [exact Et|]; split; [intros Ec; apply N; auto|split; [split|]; auto]|rewrite fupd_other by auto; auto].
    - (* Cont *) destruct A as (P & ((O1 & O2 & O3) & U) & L). destruct (vfs s t); [eexists; split; [reflexivity|exact I]|].
      destruct (ts (q s) t) eqn:Et; try (exfalso; destruct L; congruence); try (eexists; split; [reflexivity|exact I]).
      + destruct (stopp s t); [|eexists; split; [reflexivity|exact I]]. eexists. split; [reflexivity|].
        apply (flag_inv s); cbn [set_stopp q curr minv ph stopp tready]; auto; [apply I|].
        intros x. destruct (Z.eq_dec x t) as [->|Nx]; [rewrite fupd_same; discriminate|rewrite fupd_other by auto; auto].
      + destruct (change_ok (q s) t Runnable Q) as (r & E & Qr & Tr & Vr); try congruence. rewrite E. eexists. split; [reflexivity|].
        apply (run_inv s _ t Runnable I P); cbn [with_q set_q q curr minv ph stopp tready]; auto; try discriminate; [intros x; rewrite Tr; reflexivity|rewrite Vr; apply I|apply I|].
        intros x Hx. left. split; [exact Hx|]. intros ->. apply ST in Hx. destruct Hx; congruence.
    - (* Kill *) destruct A as (P & ((O1 & O2 & O3) & U) & L). destruct (vfs s t); [eexists; split; [reflexivity|exact I]|].
      assert (I' : inv (set_stopp s t false)).
      { apply (flag_inv s); cbn [set_stopp q curr minv ph stopp tready]; auto; [apply I|].
        intros x. destruct (Z.eq_dec x t) as [->|Nx]; [rewrite fupd_same; discriminate|rewrite fupd_other by auto; auto]. }
      cbn zeta. change (ts (q (set_stopp s t false)) t) with (ts (q s) t).
      destruct (ts (q s) t) eqn:Et; try (exfalso; destruct L; congruence); try (eexists; split; [reflexivity|exact I']).
      + apply wake_inv; [exact I'|exact P|split; auto|]. cbn [set_stopp q]. rewrite Et. exact L.
      + destruct (change_ok (q s) t Runnable Q) as (r & E & Qr & Tr & Vr); try congruence. cbn [set_stopp q]. rewrite E. eexists. split; [reflexivity|].
        apply (run_inv (set_stopp s t false) _ t Runnable I' P); cbn [with_q set_q set_stopp q curr minv ph stopp tready]; auto; try discriminate; [intros x; rewrite Tr; reflexivity|rewrite Vr; apply I|apply I|].
        intros x Hx. left. split; [exact Hx|]. intros ->. rewrite fupd_same in Hx. discriminate.
    - (* Fork *) destruct A as (P & (O1 & O2 & O3) & D). cbn zeta.
      assert (Qv : qinv (Rq (ts (q s)) (fupd (vr (q s)) t (minv s)) (root (q s)) (cnt (q s)) (sum (q s)))) by (apply qinv_vr; [exact Q|congruence]).
      destruct (add_ok (Rq (ts (q s)) (fupd (vr (q s)) t (minv s)) (root (q s)) (cnt (q s)) (sum (q s))) t Runnable) as (r & E & Qr & Tr & Vr).
      + apply Qv.
      + intros x. rewrite (qi_in _ Qv x). cbn [ts]. split; [|tauto]. intros [X Y]. split; [intros ->; congruence|auto].
      + apply Qv.
      + apply Qv.
      + apply Qv.
      + exact O1.
      + discriminate.
      + apply (qsize _ Qv).
      + cbn [refresh set_vr set_q q]. rewrite E. eexists. split; [reflexivity|]. cbn [with_q set_q curr minv resched tready stopp vfs slice used dline ph].
        apply (run_inv s _ t Runnable I P); cbn [with_q set_q refresh set_vr q curr minv ph stopp tready]; auto; try discriminate.
        * intros x. rewrite Tr. reflexivity.
        * intros x. rewrite Vr. cbn [vr]. pose proof (i_vr s I x). destruct (Z.eq_dec x t) as [->|Nx]; [rewrite fupd_same; lia|rewrite fupd_other by auto; lia].
        * rewrite fupd_other by auto. apply I.
        * intros x Hx. left. destruct (Z.eq_dec x t) as [->|Nx]; [rewrite fupd_same in Hx; discriminate|rewrite fupd_other in Hx by auto]. split; [exact Hx|congruence].
    - (* Vfork *) destruct A as (P & ((O1 & O2 & O3) & U) & Ac).
      destruct (change_ok (q s) (curr s) Stopped Q) as (r & E & Qr & Tr & Vr); try (destruct Ac; congruence). rewrite E. eexists. split; [reflexivity|].
      apply (run_inv s _ (curr s) Stopped I P); cbn [with_q set_q set_vfs q curr minv ph stopp tready]; auto; try discriminate.
      + intros x. rewrite Tr. reflexivity.
      + rewrite Vr. apply I.
      + apply I.
      + intros x Hx. left. split; [exact Hx|]. intros ->. apply ST in Hx. tauto.
    - (* VforkDone *) destruct A as (P & ((O1 & O2 & O3) & U) & Et & Ev). rewrite Et, Ev. cbn [st_eqb negb orb].
      destruct (change_ok (q s) t Runnable Q) as (r & E & Qr & Tr & Vr); try congruence. rewrite E. eexists. split; [reflexivity|].
      apply (run_inv s _ t Runnable I P); cbn [with_q set_q set_vfs q curr minv ph stopp tready]; auto; try discriminate; [intros x; rewrite Tr; reflexivity|rewrite Vr; apply I|apply I|].
      intros x Hx. left. split; [exact Hx|]. intros ->. apply ST in Hx. destruct Hx; congruence.
    - (* Exit *) destruct A as (P & (O1 & O2 & O3) & Ac).
      destruct (change_ok (q s) (curr s) Zombie Q) as (r & E & Qr & Tr & Vr); try (destruct Ac; congruence). rewrite E. eexists. split; [reflexivity|].
      apply (run_inv s _ (curr s) Zombie I P); cbn [with_q set_q q curr minv ph stopp tready]; auto; try discriminate.
      + intros x. rewrite Tr. reflexivity.
      + rewrite Vr. apply I.
      + apply I.
      + intros x Hx. left. split; [exact Hx|]. intros ->. apply ST in Hx. tauto.
    - (* Reap *) destruct A as (P & (O1 & O2 & O3) & Et & N). rewrite Et. cbn [st_eqb negb].
      destruct (remove_ok' (q s) t Q) as (r & E & Tr & Vr & T & Mm & Hc & Hs & L); [congruence|]. rewrite E. eexists. split; [reflexivity|].
      apply (run_inv s _ t Dead I P); cbn [set_q set_ts q ts vr curr minv ph stopp tready]; auto; try discriminate.
      + constructor; cbn [set_ts ts vr root cnt sum]; rewrite ?Vr; try assumption.
        * intros x. rewrite Mm, Tr. destruct (Z.eq_dec x t) as [->|Nx]; [rewrite fupd_same; split; [tauto|intros [X _]; discriminate]|rewrite fupd_other by auto; tauto].
        * intros x. rewrite Tr. destruct (Z.eq_dec x t) as [->|Nx]; [intros _; exact O1|rewrite fupd_other by auto; apply Q].
      + intros x. rewrite Tr. reflexivity.
      + rewrite Vr. apply I.
      + apply I.
      + intros x Hx. left. split; [exact Hx|]. intros ->. apply ST in Hx. destruct Hx; congruence.
    - (* CancelTimer *) destruct A as (P & _). eexists. split; [reflexivity|]. apply (flag_inv s); cbn [set_tready q curr minv ph stopp tready]; auto.
      destruct (Z.eq_dec kproc t) as [->|N]; [apply fupd_same|rewrite fupd_other by auto; apply I].
    - (* WthNormalize *) destruct A as (P & (O1 & O2 & O3) & W). destruct (ts (q s) (curr s)) eqn:Et; try (eexists; split; [reflexivity|exact I]).
      destruct (change_ok (q s) (curr s) Running Q) as (r & E & Qr & Tr & Vr); try congruence. rewrite E. eexists. split; [reflexivity|].
      apply (run_inv s _ (curr s) Running I P); cbn [with_q set_q q curr minv ph stopp tready]; auto; try discriminate.
      + intros x. rewrite Tr. reflexivity.
      + rewrite Vr. apply I.
      + apply I.
      + intros x Hx. left. split; [exact Hx|]. intros ->. apply ST in Hx. tauto.
    - (* Schedule *) destruct A as (P & _). eexists. split; [reflexivity|]. pose proof (i_run s I) as RN. rewrite P in RN.
      constructor; cbn [set_ph set_resched q curr minv ph stopp tready]; try apply I; try assumption; try exact Logic.I. cbn [phinv]. tauto.
    - apply next_inv; assumption.
  Qed.

  Lemma reach_inv s : reach idle kproc workers prio latency gran pool s -> inv s.
  Proof.
    induction 1 as [|s a s' H IH A E]; [apply init_inv|]. destruct (step_inv s a IH A) as (s2 & E2 & I2). rewrite E in E2. inversion E2. subst. exact I2.
  Qed.

  (** ** C26 *)
  Notation reach := (reach idle kproc workers prio latency gran pool).
  Notation step := (step idle kproc workers prio latency gran).
  Notation allowed := (allowed idle kproc workers pool).
  Notation queued := (queued idle workers).

  Lemma never_fails s a : reach s -> allowed s a -> step s a <> None.
  Proof. intros R A. destruct (step_inv s a (reach_inv s R) A) as (s' & -> & _). discriminate. Qed.

  Lemma queue_is_exact s : reach s -> queue_exact idle workers s.
  Proof.
    intros R. pose proof (i_q s (reach_inv s R)) as Q. split; [apply (tset_nodup _ _ (qi_tree _ Q))|]. split; [|split; apply Q].
    intros t. rewrite (qi_in _ Q t), queueable_iff. tauto.
  Qed.

  (** What one step may do to the vruntimes and to min_vruntime *)
  Definition vr_rel (s s' : st) : Prop :=
    minv s <= minv s' /\ forall t, vr (q s) t = vr (q s') t \/
      (ts (q s) t <> Runnable /\ (ts (q s) t = Dead \/ vr (q s) t <= vr (q s') t)).

  Lemma vr_rel_refl s s' : minv s' = minv s -> vr (q s') = vr (q s) -> vr_rel s s'.
  Proof. intros E1 E2. split; [lia|]. intros t. left. rewrite E2. reflexivity. Qed.

  Lemma add_vr r t r' : add_to_list idle workers r t = Some r' -> vr r' = vr r /\ ts r' = ts r.
  Proof.
    unfold add_to_list. destruct (negb (queueable t)); [intros E; inversion E; auto|]. destruct (ts r t); try (intros E; inversion E; auto; fail).
    destruct (insert _ _ _ _) as [[x []]|]; intros E; inversion E; auto.
  Qed.
  Lemma remove_vr r t r' : remove_from_list idle workers r t = Some r' -> vr r' = vr r /\ ts r' = ts r.
  Proof.
    unfold remove_from_list. destruct (negb (queueable t)); [intros E; inversion E; auto|]. destruct (ts r t); try (intros E; inversion E; auto; fail).
    destruct (remove _ _ _ _) as [[x [y|]]|]; [|discriminate..]. destruct (negb (y =? t)); [discriminate|]. destruct (negb (cnt r >=? 1)); [discriminate|]. intros E; inversion E; auto.
  Qed.
  Lemma change_vr r t n r' : change r t n = Some r' -> vr r' = vr r /\ ts r' = fupd (ts r) t n.
  Proof.
    unfold Sched_Model.change. destruct (st_eqb (ts r t) n); [discriminate|]. destruct (st_eqb (ts r t) Zombie); [discriminate|].
    destruct (remove_from_list idle workers r t) as [r1|] eqn:E; [|discriminate]. apply remove_vr in E. destruct E as [E1 E2].
    intros H. apply add_vr in H. destruct H as [H1 H2]. cbn [set_ts vr ts] in *. split; congruence.
  Qed.
  Lemma change_idem_vr r t n r' : change_idem idle workers r t n = Some r' -> vr r' = vr r /\ forall x, ts r' x = fupd (ts r) t n x.
  Proof.
    unfold change_idem. destruct (st_eqb (ts r t) n) eqn:E.
    - intros H. inversion H. subst. split; [reflexivity|]. apply st_eqb_eq in E. rewrite <- E. intros x. symmetry. apply fupd_id.
    - intros H. apply change_vr in H. destruct H as [H1 H2]. rewrite H2. auto.
  Qed.

  Lemma with_q_some s o s' : with_q s o = Some s' -> exists r, o = Some r /\ s' = set_q s r.
  Proof. destruct o; [|discriminate]. intros E. inversion E. eauto. Qed.

  Ltac wq H := apply with_q_some in H; let r := fresh "r" in let Hr := fresh "Hr" in destruct H as (r & Hr & ->).

  Lemma step_vr s a s' : inv s -> allowed s a -> step s a = Some s' -> vr_rel s s'.
  Proof.
    intros I A. destruct a; cbn [Sched_Model.step]; intros H.
    - inversion H. subst. destruct (tick_spec s) as (T & _ & _ & _ & _ & _ & _ & _ & _ & _ & _ & V & _). cbn zeta in *. cbn [Sched_Spec.allowed] in A.
      pose proof (i_vr s I (curr s)). destruct (st_eqb (ts (q s) (curr s)) Running && negb (curr s =? idle)) eqn:E; [|apply vr_rel_refl; apply V].
      destruct V as [V1 V2]. split; [lia|]. intros t. rewrite V1. destruct (Z.eq_dec t (curr s)) as [->|N]; [|left; rewrite fupd_other by auto; reflexivity].
      right. apply andb_true_iff in E. destruct E as [E _]. apply st_eqb_eq in E. split; [congruence|]. right. rewrite fupd_same, u64_small; unfold scale in *; lia.
    - unfold timer_fire in H. cbn [set_tready q ts stopp] in H. destruct (ts (q s) t) eqn:Et; try (inversion H; subst; apply vr_rel_refl; reflexivity).
      destruct (stopp s t); cbn [st_eqb] in H.
      + destruct (change _ _ _) as [r|] eqn:E; [|discriminate]. inversion H. subst. apply change_vr in E. apply vr_rel_refl; [reflexivity|]. cbn [set_resched set_q q]. apply E.
      + set (s0 := set_tready s t true) in *.
        assert (I0 : inv s0).
        { apply (irq_inv s); cbn [set_tready s0 q ts vr curr ph stopp minv tready]; try reflexivity; try apply I; [intros x; left; reflexivity|intros x Hx; split; [exact Hx|reflexivity]|].
          destruct A as ((_ & _ & Nk) & _). rewrite fupd_other by auto. apply I. }
        destruct (handoff_spec s0 t I0) as (_ & _ & _ & Mh & _ & _ & _ & _ & _ & _ & Vm & Vo & _).
        destruct (change _ _ _) as [r|] eqn:E; [|discriminate]. inversion H. subst. apply change_vr in E. destruct E as [E _].
        split; cbn [set_resched set_q minv q]; [rewrite Mh; cbn; lia|]. intros x. rewrite E.
        destruct (Z.eq_dec x t) as [->|N]; [right; split; [congruence|right; apply Vm]|left; symmetry; apply Vo, N].
    - inversion H. subst. unfold wth_wakeup. apply vr_rel_refl; destruct (ts (q s) t); match goal with |- context [if ?b then _ else _] => destruct b end; reflexivity.
    - wq H. apply change_vr in Hr. apply vr_rel_refl; [reflexivity|apply Hr].
    - unfold wake_up in H. destruct (t =? curr s); [|destruct (stopp s t)]; inversion H; subst; apply vr_rel_refl; reflexivity.
    - destruct (ts (q s) t); try (wq H; apply change_vr in Hr; apply vr_rel_refl; [reflexivity|apply Hr]); inversion H; subst; apply vr_rel_refl; reflexivity.
    - destruct (vfs s t); [inversion H; subst; apply vr_rel_refl; reflexivity|].
      destruct (ts (q s) t); try (wq H; apply change_vr in Hr; apply vr_rel_refl; [reflexivity|apply Hr]); try destruct (stopp s t); inversion H; subst; apply vr_rel_refl; reflexivity.
    - destruct (vfs s t); [inversion H; subst; apply vr_rel_refl; reflexivity|]. cbn zeta in H.
      destruct (ts (q (set_stopp s t false)) t); try (wq H; apply change_vr in Hr; apply vr_rel_refl; [reflexivity|apply Hr]); try (inversion H; subst; apply vr_rel_refl; reflexivity).
      unfold wake_up in H. destruct (t =? curr (set_stopp s t false)); [|destruct (stopp (set_stopp s t false) t)]; inversion H; subst; apply vr_rel_refl; reflexivity.
    - cbn zeta in H. wq H. apply add_vr in Hr. destruct Hr as [Hr _]. split; cbn [set_q refresh set_vr set_q minv q]; [lia|]. intros x. rewrite Hr. cbn [refresh set_vr set_q q set_ts vr].
      destruct A as (_ & _ & D). destruct (Z.eq_dec x t) as [->|N]; [right; split; [congruence|left; exact D]|left; rewrite fupd_other by auto; reflexivity].
    - wq H. apply change_vr in Hr. apply vr_rel_refl; [reflexivity|apply Hr].
    - destruct (_ || _); [discriminate|]. wq H. apply change_vr in Hr. apply vr_rel_refl; [reflexivity|apply Hr].
    - wq H. apply change_vr in Hr. apply vr_rel_refl; [reflexivity|apply Hr].
    - destruct (negb _); [discriminate|]. destruct (remove_from_list _ _ _ _) eqn:E; [|discriminate]. apply remove_vr in E. inversion H. subst. apply vr_rel_refl; [reflexivity|apply E].
    - inversion H. apply vr_rel_refl; reflexivity.
    - destruct (ts (q s) (curr s)); try (inversion H; subst; apply vr_rel_refl; reflexivity). wq H. apply change_vr in Hr. apply vr_rel_refl; [reflexivity|apply Hr].
    - inversion H. apply vr_rel_refl; reflexivity.
    - unfold next in H. destruct (ph s).
      + discriminate.
      + inversion H. subst. clear H. destruct (st_eqb next Runnable); [|apply vr_rel_refl; reflexivity].
        destruct (handoff_spec s t I) as (_ & _ & _ & Mh & _ & _ & _ & _ & _ & _ & Vm & Vo & _ & Ve).
        match goal with |- context [if ?b then _ else _] => destruct b end; unfold vr_rel; cbn [set_ph set_resched minv q]; rewrite Mh;
          (split; [lia|]; intros x; destruct (Z.eq_dec x t) as [->|N]; [|left; symmetry; apply Vo, N]; cbn [set_ph set_resched q];
           destruct (ts (q s) t) eqn:Et; try (left; symmetry; exact Ve); right; split; [congruence|right; apply Vm]).
      + wq H. apply change_idem_vr in Hr. apply vr_rel_refl; [reflexivity|apply Hr].
      + destruct (st_eqb cs Zombie); [inversion H; apply vr_rel_refl; reflexivity|]. destruct (tready s (curr s)); [|inversion H; apply vr_rel_refl; reflexivity].
        destruct (negb (st_eqb cs Running)).
        * destruct (change _ _ _) eqn:E; [|discriminate]. inversion H. apply change_vr in E. apply vr_rel_refl; [reflexivity|apply E].
        * inversion H. apply vr_rel_refl; reflexivity.
      + destruct (runnable_worker _ _ _ _); inversion H; apply vr_rel_refl; reflexivity.
      + destruct (select _ _ _ _); inversion H; apply vr_rel_refl; reflexivity.
      + destruct (negb _).
        * destruct (st_eqb cs Running); [wq H; apply change_vr in Hr; apply vr_rel_refl; [reflexivity|apply Hr]|inversion H; apply vr_rel_refl; reflexivity].
        * destruct (change_idem _ _ _ _ _) eqn:E; [|discriminate]. destruct (st_eqb cs Zombie); [discriminate|]. inversion H. apply change_idem_vr in E. apply vr_rel_refl; [reflexivity|apply E].
      + destruct (_ && _); [discriminate|]. destruct (change_idem _ _ _ _ _) eqn:E; [|discriminate]. inversion H. apply change_idem_vr in E. apply vr_rel_refl; [reflexivity|apply E].
      + destruct (st_eqb _ _); inversion H; apply vr_rel_refl; reflexivity.
      + inversion H; apply vr_rel_refl; reflexivity.
  Qed.

  Lemma keys_stable s a s' t : reach s -> allowed s a -> step s a = Some s' -> ts (q s) t = Runnable -> vr (q s') t = vr (q s) t.
  Proof.
    intros R A E H. destruct (step_vr s a s' (reach_inv s R) A E) as [_ V]. destruct (V t) as [->|(N & _)]; [reflexivity|contradiction].
  Qed.
  Lemma min_grows s a s' : reach s -> allowed s a -> step s a = Some s' -> minv s <= minv s'.
  Proof. intros R A E. apply (step_vr s a s' (reach_inv s R) A E). Qed.
  Lemma vr_grows s a s' t : reach s -> allowed s a -> step s a = Some s' -> ts (q s) t <> Dead -> vr (q s) t <= vr (q s') t.
  Proof. intros R A E H. destruct (step_vr s a s' (reach_inv s R) A E) as [_ V]. destruct (V t) as [->|(_ & [N|N])]; [lia|contradiction|exact N]. Qed.
  Lemma vr_below s t : reach s -> 0 <= vr (q s) t <= minv s.
  Proof. intros R. apply (i_vr s (reach_inv s R)). Qed.

  (** ** C27 *)
  Lemma one_running s t u : reach s -> ts (q s) t = Running -> ts (q s) u = Running -> t = u.
  Proof.
    intros R A B. pose proof (reach_inv s R) as I. apply (i_run s I) in A. apply (i_run s I) in B.
    destruct (ph s); cbn [runner] in *; try contradiction; congruence.
  Qed.
  Lemma running_is_curr s t : reach s -> ts (q s) t = Running -> ph s = Run -> t = curr s.
  Proof. intros R A P. pose proof (i_run s (reach_inv s R) t A) as B. rewrite P in B. exact B. Qed.

  Lemma workers_first s cs rs s' : reach s -> ph s = Sched1 cs rs -> step s Next = Some s' ->
    q s' = q s /\
    ((exists w, ph s' = Chosen cs w /\ In w workers /\ ts (q s) w = Runnable /\
                forall u, In u workers -> ts (q s) u = Runnable -> prio w <= prio u) \/
     ph s' = Sched2 cs rs /\ forall u, In u workers -> ts (q s) u <> Runnable).
  Proof.
    intros R P E. cbn [Sched_Model.step] in E. unfold next in E. rewrite P in E. pose proof (runnable_worker_spec (ts (q s)) workers None) as W.
    destruct (runnable_worker prio (ts (q s)) workers None) as [w|]; inversion E; subst; (split; [reflexivity|]).
    - left. exists w. destruct W as ([W|[W1 W2]] & W3 & _); [discriminate|]. split; [reflexivity|]. auto.
    - right. split; [reflexivity|apply W].
  Qed.

  Lemma fair_choice s cs rs s' : reach s -> ph s = Sched2 cs rs -> step s Next = Some s' ->
    q s' = q s /\ exists x, ph s' = Chosen cs x /\
      ((queued s x /\ (forall u, queued s u -> before s x u) /\ (cs = Running -> curr s <> idle -> rs = true \/ vr (q s) x <= vr (q s) (curr s))) \/
       (x = curr s /\ cs = Running /\ forall u, queued s u -> rs = false /\ curr s <> idle /\ vr (q s) x < vr (q s) u) \/
       (x = idle /\ cs <> Running /\ forall u, ~ queued s u)).
  Proof.
    intros R P E. pose proof (reach_inv s R) as I. pose proof (first_spec s I) as F. cbn [Sched_Model.step] in E. unfold next in E. rewrite P in E.
    unfold select in E.
    assert (QQ : forall u, queued s u <-> ts (q s) u = Runnable /\ queueable u = true) by (intros u; unfold Sched_Spec.queued; rewrite queueable_iff; tauto).
    destruct (get_first (root (q s))) as [m|].
    - destruct F as (F1 & F2 & F3). rewrite F1 in E. cbn [st_eqb negb] in E.
      destruct (negb rs && negb (curr s =? idle) && st_eqb cs Running && (vr (q s) (curr s) <? vr (q s) m)) eqn:B; inversion E; subst; (split; [reflexivity|]); (eexists; split; [reflexivity|]).
      + right. left. rewrite !andb_true_iff, !negb_true_iff, st_eqb_eq in B. destruct B as (((B1 & B2) & B3) & B4). split; [reflexivity|]. split; [exact B3|].
        intros u Hu. split; [exact B1|]. split; [lia|]. apply QQ in Hu. destruct (F3 u (proj1 Hu) (proj2 Hu)) as [X|[X _]]; lia.
      + left. split; [apply QQ; auto|]. split; [intros u Hu; apply QQ in Hu; apply F3; apply Hu|]. intros -> N.
        destruct rs; [left; reflexivity|right]. cbn [negb andb st_eqb] in B. assert (X : (curr s =? idle) = false) by lia. rewrite X in B. cbn [negb andb] in B. lia.
    - cbn [negb] in E. destruct (st_eqb cs Running) eqn:Er.
      + assert (X : Some (set_ph s (Chosen cs (curr s))) = Some s').
        { match type of E with match (if ?b then _ else _) with _ => _ end = _ => destruct b end; exact E. }
        inversion X. subst. split; [reflexivity|]. eexists. split; [reflexivity|]. right. left. split; [reflexivity|]. apply st_eqb_eq in Er. split; [exact Er|].
        intros u Hu. apply QQ in Hu. rewrite (F u (proj1 Hu)) in Hu. destruct Hu; discriminate.
      + inversion E. subst. split; [reflexivity|]. eexists. split; [reflexivity|]. right. right. split; [reflexivity|]. apply st_eqb_neq in Er. split; [exact Er|].
        intros u Hu. apply QQ in Hu. rewrite (F u (proj1 Hu)) in Hu. destruct Hu; discriminate.
  Qed.

  (** The chosen task runs: the steps that follow the choice, whatever the interrupts in between *)
  Lemma chosen_runs s cs x s' : reach s -> ph s = Chosen cs x -> step s Next = Some s' ->
    (x = curr s /\ ph s' = Run /\ curr s' = x /\ ts (q s') x = Running /\ used s' x = 0 /\ slice s' x = compute_slice latency gran s') \/
    (x <> curr s /\ ph s' = Switch1 x /\ curr s' = curr s /\ ts (q s') x = Runnable).
  Proof.
    intros R P E. pose proof (reach_inv s R) as I. pose proof (i_ph s I) as PH. rewrite P in PH. cbn [phinv] in PH. destruct PH as (P1 & P2 & P3 & P4 & P5).
    cbn [Sched_Model.step] in E. unfold next in E. rewrite P in E. destruct (x =? curr s) eqn:Ex; cbn [negb] in E.
    - apply Z.eqb_eq in Ex. destruct (change_idem _ _ _ _ _) as [r|] eqn:Ec; [|discriminate]. destruct (st_eqb cs Zombie); [discriminate|]. inversion E. subst s'. clear E.
      left. apply change_idem_vr in Ec. destruct Ec as [_ Ec]. split; [exact Ex|]. cbn [set_ph start_quantum refresh set_tready set_q ph curr q used slice]. split; [reflexivity|]. split; [auto|].
      split; [rewrite Ec, Ex; apply fupd_same|]. rewrite !fupd_same. split; reflexivity.
    - apply Z.eqb_neq in Ex. right. split; [exact Ex|]. destruct (st_eqb cs Running) eqn:Er.
      + wq E. apply change_vr in Hr. destruct Hr as [_ Hr]. cbn [set_q set_ph refresh ph curr q]. split; [reflexivity|]. split; [reflexivity|]. rewrite Hr, fupd_other by auto. auto.
      + inversion E. subst. cbn [set_ph ph curr q]. auto.
  Qed.
  Lemma switch_runs s x s' : reach s -> ph s = Switch1 x -> step s Next = Some s' ->
    ph s' = Switch2 x /\ ts (q s') x = Running /\ used s' x = 0 /\ slice s' x = compute_slice latency gran s'.
  Proof.
    intros R P E. cbn [Sched_Model.step] in E. unfold next in E. rewrite P in E. destruct (_ && _); [discriminate|].
    destruct (change_idem _ _ _ _ _) as [r|] eqn:Ec; [|discriminate]. inversion E. subst s'. apply change_idem_vr in Ec. destruct Ec as [_ Ec].
    cbn [set_ph start_quantum refresh set_q ph q used slice]. rewrite Ec, !fupd_same. auto.
  Qed.
  Lemma switch_ends s x s' : reach s -> ph s = Switch2 x \/ ph s = Switch3 x -> step s Next = Some s' ->
    ts (q s') x = Running /\ (ph s' = Run /\ curr s' = x \/ ph s' = Switch3 x /\ ts (q s) (curr s) = Zombie).
  Proof.
    intros R P E. pose proof (i_ph s (reach_inv s R)) as PH. cbn [Sched_Model.step] in E. unfold next in E.
    destruct P as [P|P]; rewrite P in E, PH; cbn [phinv] in PH.
    - destruct (st_eqb (ts (q s) (curr s)) Zombie) eqn:Ez; inversion E; subst; cbn; (split; [apply PH|]); [right|left]; split; try reflexivity. apply st_eqb_eq, Ez.
    - inversion E; subst; cbn. split; [apply PH|left; auto].
  Qed.

  (** The slice *)
  Lemma slice_bounds s : reach s -> 0 < gran -> 0 <= latency -> latency * scale < 2 ^ 32 -> gran * scale < 2 ^ 32 ->
    compute_slice latency gran s = Z.max (latency * scale / (zlen (inorder (root (q s))) + 1)) (gran * scale) /\
    gran * scale <= compute_slice latency gran s <= Z.max latency gran * scale.
  Proof.
    intros R Hg Hl B1 B2. pose proof (i_q s (reach_inv s R)) as Q. pose proof (qsize _ Q) as L. pose proof (qi_cnt _ Q) as N. pose proof (zlen_nonneg (inorder (root (q s)))) as P.
    unfold compute_slice. rewrite N. set (n := zlen (inorder (root (q s)))) in *. rewrite !u32_small by (unfold scale in *; lia).
    split; [reflexivity|]. assert (0 <= latency * scale / (n + 1) <= latency * scale).
    { split; [apply Z.div_pos; unfold scale; lia|]. apply Z.div_le_upper_bound; [lia|]. unfold scale. nia. }
    unfold scale in *. lia.
  Qed.
  Lemma tick_resched s s' : step s Tick = Some s' ->
    used s' (curr s) = u32 (used s (curr s) + scale) /\
    (ts (q s) (curr s) <> Running \/ ~ In (curr s) workers /\ slice s (curr s) <= used s' (curr s) -> resched s' = true).
  Proof.
    intros E. inversion E. subst. destruct (tick_spec s) as (_ & _ & _ & _ & _ & _ & _ & _ & _ & _ & U & _ & Rs). cbn zeta in *. rewrite U, fupd_same, Rs.
    split; [reflexivity|]. intros [A|[A B]].
    - apply st_eqb_neq in A. rewrite A. cbn [negb]. rewrite orb_true_r. reflexivity.
    - assert (W : worker workers (curr s) = false) by (destruct (worker workers (curr s)) eqn:W; [apply worker_iff in W; contradiction|reflexivity]).
      rewrite W. cbn [negb andb]. assert (X : (u32 (used s (curr s) + scale) >=? slice s (curr s)) = true) by lia. rewrite X. apply orb_true_r.
  Qed.
  Lemma tick_charges s s' : reach s -> allowed s Tick -> step s Tick = Some s' -> ts (q s) (curr s) = Running -> curr s <> idle ->
    vr (q s') (curr s) = vr (q s) (curr s) + scale /\ forall t, t <> curr s -> vr (q s') t = vr (q s) t.
  Proof.
    intros R A E Er Ni. cbn [Sched_Spec.allowed] in A. inversion E. subst. destruct (tick_spec s) as (_ & _ & _ & _ & _ & _ & _ & _ & _ & _ & _ & V & _). cbn zeta in *.
    assert (X : (curr s =? idle) = false) by lia. rewrite Er, X in V. cbn [st_eqb negb andb] in V. destruct V as [V _]. rewrite V.
    pose proof (vr_below s (curr s) R). split; [rewrite fupd_same; apply u64_small; unfold scale in *; lia|]. intros t N. apply fupd_other; auto.
  Qed.

  (** Wake-ups *)
  Lemma wake_floor s t s' : reach s -> ph s = Wake1 t Runnable -> ts (q s) t = Sleeping -> step s Next = Some s' ->
    vr (q s') t = Z.max (vr (q s) t) (Z.max 0 (minv s - bonus)) /\ ph s' = Wake2 t Runnable /\
    (curr s <> idle -> ~ In (curr s) workers -> resched s' = true).
  Proof.
    intros R P Et E. pose proof (reach_inv s R) as I. cbn [Sched_Model.step] in E. unfold next in E. rewrite P in E. cbn [st_eqb] in E. inversion E. subst s'. clear E.
    destruct (handoff_spec s t I) as (_ & _ & _ & _ & Ch & _ & _ & _ & Rh & _ & _ & _ & _ & Ve). rewrite Et in Ve.
    cbn [set_ph ph q]. split; [|split; [reflexivity|]].
    - match goal with |- context [if ?b then _ else _] => destruct b end; exact Ve.
    - intros N W. rewrite Ch. assert (X : (curr s =? idle) = false) by lia. assert (Y : worker workers (curr s) = false) by (destruct (worker workers (curr s)) eqn:W'; [apply worker_iff in W'; contradiction|reflexivity]).
      rewrite X, Y. reflexivity.
  Qed.
  Lemma timer_floor s t s' : reach s -> allowed s (TimerFire t) -> ts (q s) t = Sleeping -> stopp s t = false -> step s (TimerFire t) = Some s' ->
    ts (q s') t = Runnable /\ vr (q s') t = Z.max (vr (q s) t) (Z.max 0 (minv s - bonus)) /\ resched s' = true /\ tready s' t = true.
  Proof.
    intros R A Et Es E. pose proof (reach_inv s R) as I. cbn [Sched_Model.step] in E. unfold timer_fire in E. cbn [set_tready q ts stopp] in E. rewrite Et, Es in E. cbn [st_eqb] in E.
    set (s0 := set_tready s t true) in *.
    assert (I0 : inv s0).
    { apply (irq_inv s); cbn [set_tready s0 q ts vr curr ph stopp minv tready]; try reflexivity; try apply I; [intros x; left; reflexivity|intros x Hx; split; [exact Hx|reflexivity]|].
      destruct A as ((_ & _ & Nk) & _). rewrite fupd_other by auto. apply I. }
    destruct (handoff_spec s0 t I0) as (_ & Th & _ & _ & _ & _ & _ & Rh & _ & _ & _ & _ & _ & Ve). change (ts (q s0) t) with (ts (q s) t) in Ve. rewrite Et in Ve.
    destruct (change _ _ _) as [r|] eqn:Ec; [|discriminate]. inversion E. subst. apply change_vr in Ec. destruct Ec as [Ev Ec].
    cbn [set_resched set_q q resched tready]. rewrite Ev, Ec, Rh, fupd_same. split; [reflexivity|]. split; [exact Ve|]. split; [reflexivity|]. apply fupd_same.
  Qed.
  Lemma wake_done s t s' : reach s -> ph s = Wake2 t Runnable -> step s Next = Some s' -> ts (q s') t = Runnable /\ ph s' = Run.
  Proof.
    intros R P E. cbn [Sched_Model.step] in E. unfold next in E. rewrite P in E. wq E. apply change_idem_vr in Hr. destruct Hr as [_ Hr].
    cbn [set_q set_ph q ph]. rewrite Hr, fupd_same. auto.
  Qed.

  Lemma fupd_ne {A} (f : Z -> A) t v x : fupd f t v x <> f x -> x = t.
  Proof. intros N. destruct (Z.eq_dec x t) as [E|E]; [exact E|]. rewrite fupd_other in N by auto. contradiction. Qed.

  Lemma step_moves s a s' t : reach s -> allowed s a -> step s a = Some s' -> ts (q s') t <> ts (q s) t -> moves s a t (ts (q s') t).
  Proof.
    intros R A E N. pose proof (reach_inv s R) as I.
    assert (CH : forall x n r, change (q s) x n = Some r -> ts r t <> ts (q s) t -> x = t /\ ts r t = n).
    { intros x n r Hr D. apply change_vr in Hr. destruct Hr as [_ Hr]. rewrite Hr in D |- *. pose proof (fupd_ne _ _ _ _ D). subst. split; [reflexivity|apply fupd_same]. }
    assert (CI : forall x n r, change_idem idle workers (q s) x n = Some r -> ts r t <> ts (q s) t -> x = t /\ ts r t = n).
    { intros x n r Hr D. apply change_idem_vr in Hr. destruct Hr as [_ Hr]. rewrite Hr in D |- *. pose proof (fupd_ne _ _ _ _ D). subst. split; [reflexivity|apply fupd_same]. }
    destruct a; cbn [Sched_Model.step] in E; cbn [moves].
    - inversion E. subst. destruct (tick_spec s) as (T & _). cbn zeta in T. rewrite T in N. contradiction.
    - unfold timer_fire in E. cbn [set_tready q ts stopp] in E. destruct (ts (q s) t0) eqn:Et; try (inversion E; subst; contradiction).
      destruct (stopp s t0) eqn:Es; cbn [st_eqb] in E.
      + destruct (change _ _ _) as [r|] eqn:Ec; [|discriminate]. inversion E. subst. cbn [set_resched set_q q] in *. destruct (CH _ _ _ Ec N) as [-> X]. rewrite Es. auto.
      + set (s0 := set_tready s t0 true) in *.
        assert (I0 : inv s0).
        { apply (irq_inv s); cbn [set_tready s0 q ts vr curr ph stopp minv tready]; try reflexivity; try apply I; [intros x; left; reflexivity|intros x Hx; split; [exact Hx|reflexivity]|].
          destruct A as ((_ & _ & Nk) & _). rewrite fupd_other by auto. apply I. }
        destruct (handoff_spec s0 t0 I0) as (_ & Th & _).
        destruct (change _ _ _) as [r|] eqn:Ec; [|discriminate]. inversion E. subst. cbn [set_resched set_q q] in *. apply change_vr in Ec. destruct Ec as [_ Ec]. rewrite Ec, Th in N |- *.
        change (ts (q s0)) with (ts (q s)) in *. pose proof (fupd_ne _ _ _ _ N). subst. rewrite Es. split; [reflexivity|]. split; [exact Et|apply fupd_same].
    - inversion E. subst. clear E. unfold wth_wakeup in *. destruct (ts (q s) t0) eqn:Et;
        match goal with |- context [if ?b then _ else _] => destruct b end; cbn [set_resched set_q set_ts q ts] in *; try contradiction;
        pose proof (fupd_ne _ _ _ _ N); subst; (split; [reflexivity|]; split; [exact Et|apply fupd_same]).
    - wq E. cbn [set_q q] in *. apply (CH _ _ _ Hr N).
    - unfold wake_up in E. destruct (t0 =? curr s); [|destruct (stopp s t0)]; inversion E; subst; contradiction.
    - destruct (ts (q s) t0) eqn:Et; try (inversion E; subst; contradiction); wq E; cbn [set_q q] in *; destruct (CH _ _ _ Hr N) as [-> X]; auto.
    - destruct (vfs s t0) eqn:Ev; [inversion E; subst; contradiction|]. destruct (ts (q s) t0) eqn:Et; try (inversion E; subst; contradiction);
        try (destruct (stopp s t0); inversion E; subst; contradiction). wq E. cbn [set_q q] in *. destruct (CH _ _ _ Hr N) as [-> X]. auto.
    - destruct (vfs s t0) eqn:Ev; [inversion E; subst; contradiction|]. cbn zeta in E. change (ts (q (set_stopp s t0 false))) with (ts (q s)) in E.
      destruct (ts (q s) t0) eqn:Et; try (inversion E; subst; contradiction).
      + unfold wake_up in E. destruct (t0 =? curr (set_stopp s t0 false)); [|destruct (stopp (set_stopp s t0 false) t0)]; inversion E; subst; contradiction.
      + wq E. cbn [set_q q] in *. destruct (CH _ _ _ Hr N) as [-> X]. auto.
    - cbn zeta in E. wq E. cbn [set_q q] in *. apply add_vr in Hr. destruct Hr as [_ Hr]. rewrite Hr in N |- *. cbn [refresh set_vr set_q q set_ts ts] in *.
      pose proof (fupd_ne _ _ _ _ N). subst. split; [reflexivity|apply fupd_same].
    - wq E. cbn [set_q q] in *. apply (CH _ _ _ Hr N).
    - destruct (negb (st_eqb (ts (q s) t0) Stopped)) eqn:E1; [discriminate|]. destruct (negb (vfs s t0)) eqn:E2; [discriminate|]. cbn [orb] in E. wq E. cbn [set_q q] in *.
      destruct (CH _ _ _ Hr N) as [-> X]. rewrite negb_false_iff in *. apply st_eqb_eq in E1. auto.
    - wq E. cbn [set_q q] in *. apply (CH _ _ _ Hr N).
    - destruct (negb (st_eqb (ts (q s) t0) Zombie)) eqn:E1; [discriminate|]. destruct (remove_from_list _ _ _ _) as [r|] eqn:Er; [|discriminate]. inversion E. subst.
      apply remove_vr in Er. destruct Er as [_ Er]. cbn [set_q q set_ts ts] in *. rewrite Er in *. pose proof (fupd_ne _ _ _ _ N). subst. rewrite negb_false_iff in E1. apply st_eqb_eq in E1.
      split; [reflexivity|]. split; [exact E1|apply fupd_same].
    - inversion E. subst. contradiction.
    - destruct (ts (q s) (curr s)) eqn:Et; try (inversion E; subst; contradiction). wq E. cbn [set_q q] in *. destruct (CH _ _ _ Hr N) as [X Y]. subst. auto.
    - inversion E. subst. contradiction.
    - unfold next in E. destruct (ph s) eqn:P.
      + discriminate.
      + inversion E. subst. clear E. destruct (st_eqb next Runnable); [|contradiction]. destruct (handoff_spec s t0 I) as (_ & Th & _).
        revert N. match goal with |- context [if ?b then _ else _] => destruct b end; cbn [set_ph set_resched q]; rewrite Th; intros N; contradiction.
      + wq E. cbn [set_q q] in *. apply (CI _ _ _ Hr N).
      + destruct (st_eqb cs Zombie); [inversion E; subst; contradiction|]. destruct (tready s (curr s)) eqn:Et; [|inversion E; subst; contradiction].
        destruct (negb (st_eqb cs Running)); [|inversion E; subst; contradiction]. destruct (change _ _ _) as [r|] eqn:Ec; [|discriminate]. inversion E. subst.
        cbn [set_ph set_tready set_q q] in *. destruct (CH _ _ _ Ec N) as [<- X]. auto.
      + destruct (runnable_worker _ _ _ _); inversion E; subst; contradiction.
      + destruct (select _ _ _ _); inversion E; subst; contradiction.
      + destruct (sel =? curr s) eqn:Ex; cbn [negb] in E.
        * destruct (change_idem _ _ _ _ _) as [r|] eqn:Ec; [|discriminate]. destruct (st_eqb cs Zombie); [discriminate|]. inversion E. subst.
          cbn [set_ph start_quantum refresh set_tready set_q q] in *. destruct (CI _ _ _ Ec N) as [<- X]. left. split; [reflexivity|]. split; [lia|exact X].
        * destruct (st_eqb cs Running) eqn:Er; [|inversion E; subst; contradiction]. wq E. cbn [set_q q] in *. destruct (CH _ _ _ Hr N) as [<- X]. right. split; [reflexivity|]. split; [lia|]. split; [|exact X].
          pose proof (i_ph s I) as PH. rewrite P in PH. apply PH. apply st_eqb_eq, Er.
      + destruct (_ && _); [discriminate|]. destruct (change_idem _ _ _ _ _) as [r|] eqn:Ec; [|discriminate]. inversion E. subst. apply (CI _ _ _ Ec N).
      + destruct (st_eqb _ _); inversion E; subst; contradiction.
      + inversion E; subst; contradiction.
  Qed.

  (** Eligibility *)
  Lemma zsum_ge f l m : (forall t, In t l -> m <= f t) -> m * zlen l <= zsum f l.
  Proof.
    induction l as [|x l IH]; intros H; [unfold zlen; cbn; lia|]. rewrite zlen_cons. cbn [zsum fold_right]. fold (zsum f l).
    pose proof (H x (or_introl eq_refl)). specialize (IH (fun t Ht => H t (or_intror Ht))). lia.
  Qed.
  Lemma least_is_eligible s t : reach s -> zsum (vr (q s)) (inorder (root (q s))) + vr (q s) (curr s) < 2 ^ 64 ->
    (forall u, queued s u -> vr (q s) t <= vr (q s) u) -> vr (q s) t <= vr (q s) (curr s) -> is_eligible s t = true.
  Proof.
    intros R B L1 L2. pose proof (reach_inv s R) as I. pose proof (i_q s I) as Q. pose proof (qsize _ Q). pose proof (qi_cnt _ Q) as N. pose proof (qi_sum _ Q) as S.
    pose proof (zlen_nonneg (inorder (root (q s)))). pose proof (i_vr s I t). pose proof (i_vr s I (curr s)).
    assert (G : vr (q s) t * zlen (inorder (root (q s))) <= zsum (vr (q s)) (inorder (root (q s)))).
    { apply zsum_ge. intros u Hu. apply L1. apply (qi_in _ Q) in Hu. rewrite queueable_iff in Hu. exact Hu. }
    assert (G0 : 0 <= zsum (vr (q s)) (inorder (root (q s)))).
    { pose proof (zsum_ge (vr (q s)) (inorder (root (q s))) 0 (fun u _ => proj1 (i_vr s I u))). lia. }
    unfold is_eligible, avg_vruntime. rewrite N, S, (Z.mod_small _ (2 ^ 64)) by lia. rewrite u64_small by lia. rewrite u32_small by lia.
    apply Z.leb_le. apply Z.div_le_lower_bound; lia.
  Qed.
End P.

(** ** Counterexamples: runs checked against the conditions of correct use *)
Section R.
  Variables (idle kproc : Z) (workers : list Z) (prio : Z -> Z) (latency gran : Z) (pool : list Z).
  Definition inb (t : Z) (l : list Z) : bool := existsb (Z.eqb t) l.
  Lemma inb_in t l : inb t l = true <-> In t l.
  Proof.
    unfold inb. rewrite existsb_exists. split; [intros (x & H & E); apply Z.eqb_eq in E; subst; exact H|intros H; exists t; split; [exact H|apply Z.eqb_refl]].
  Qed.
  Definition ordb t := inb t pool && negb (t =? idle) && negb (t =? kproc).
  Definition userb t := ordb t && negb (inb t workers).
  Definition liveb x := negb (st_eqb x Dead) && negb (st_eqb x Zombie).
  Definition activeb x := st_eqb x Running || st_eqb x Runnable.
  Definition is_run (p : phase) : bool := match p with Run => true | _ => false end.
  Definition allowedb (s : st) (a : action) : bool :=
    let f := ts (q s) in
    match a with
    | Tick => vr (q s) (curr s) + scale <? 2 ^ 64
    | TimerFire t => ordb t && liveb (f t)
    | WthWake t => ordb t && inb t workers && liveb (f t)
    | Next => negb (is_run (ph s))
    | _ => is_run (ph s) &&
      match a with
      | Sleep => ordb (curr s) && activeb (f (curr s))
      | Wake t => ordb t && liveb (f t)
      | Stop t => userb t && liveb (f t) && (negb (t =? curr s) || negb (st_eqb (f t) Sleeping))
      | Cont t | Kill t => userb t && liveb (f t)
      | Fork t => ordb t && st_eqb (f t) Dead
      | Vfork => userb (curr s) && activeb (f (curr s))
      | VforkDone t => userb t && st_eqb (f t) Stopped && vfs s t
      | Exit => ordb (curr s) && activeb (f (curr s))
      | Reap t => ordb t && st_eqb (f t) Zombie && negb (t =? curr s)
      | WthNormalize => ordb (curr s) && inb (curr s) workers
      | _ => true
      end
    end.
  Lemma ordb_ok t : ordb t = true -> ordinary idle kproc pool t.
  Proof. unfold ordb, ordinary. rewrite !andb_true_iff, !negb_true_iff, inb_in, !Z.eqb_neq. tauto. Qed.
  Lemma userb_ok t : userb t = true -> user idle kproc workers pool t.
  Proof.
    unfold userb, user. rewrite andb_true_iff, negb_true_iff. intros [A B]. split; [apply ordb_ok, A|]. rewrite <- inb_in. congruence.
  Qed.
  Lemma liveb_ok x : liveb x = true -> live x.
  Proof. unfold liveb, live. rewrite andb_true_iff, !negb_true_iff, !st_eqb_neq. tauto. Qed.
  Lemma activeb_ok x : activeb x = true -> active x.
  Proof. unfold activeb, active. rewrite orb_true_iff, !st_eqb_eq. tauto. Qed.
  Lemma is_run_ok p : is_run p = true -> p = Run. Proof. destruct p; [reflexivity|discriminate..]. Qed.
  Lemma allowedb_ok s a : allowedb s a = true -> allowed idle kproc workers pool s a.
  Proof.
    destruct a; cbn [allowedb allowed]; rewrite ?andb_true_iff, ?orb_true_iff, ?negb_true_iff, ?Z.ltb_lt, ?inb_in, ?st_eqb_eq, ?st_eqb_neq, ?Z.eqb_neq; intros H;
      repeat match goal with
      | H : _ /\ _ |- _ => destruct H
      | H : ordb _ = true |- _ => apply ordb_ok in H
      | H : userb _ = true |- _ => apply userb_ok in H
      | H : liveb _ = true |- _ => apply liveb_ok in H
      | H : activeb _ = true |- _ => apply activeb_ok in H
      | H : is_run _ = true |- _ => apply is_run_ok in H
      end; try tauto.
    - intros E. rewrite E in H. discriminate.
  Qed.
  Fixpoint runs (s : st) (l : list action) : option st :=
    match l with
    | [] => Some s
    | a :: l => if allowedb s a then match step idle kproc workers prio latency gran s a with Some s' => runs s' l | None => None end else None
    end.
  Lemma runs_reach l s s' : reach idle kproc workers prio latency gran pool s -> runs s l = Some s' -> reach idle kproc workers prio latency gran pool s'.
  Proof.
    revert s. induction l as [|a l IH]; intros s R; cbn [runs]; [intros E; inversion E; subst; exact R|].
    destruct (allowedb s a) eqn:A; [|discriminate]. destruct (step _ _ _ _ _ _ s a) as [s1|] eqn:E; [|discriminate]. apply IH. apply (reach_step _ _ _ _ _ _ _ s a s1 R); [apply allowedb_ok, A|exact E].
  Qed.
End R.

Definition cfg_pool := [0; 1; 2; 3; 10; 20; 21].
Definition cfg_workers := [20; 21].
Notation rreach := (reach 10 0 cfg_workers (fun t => t) 6 1 cfg_pool).
Notation rstep := (step 10 0 cfg_workers (fun t => t) 6 1).
Notation rruns := (runs 10 0 cfg_workers (fun t => t) 6 1 cfg_pool (st_init 10 0)).
Definition switch := [Schedule; Next; Next; Next; Next; Next; Next].

Lemma cfg_ok : config 10 0 cfg_workers cfg_pool.
Proof.
  split; [repeat (constructor; [cbn; lia|]); constructor|]. split; [vm_compute; discriminate|]. repeat (split; [cbn; lia|]). cbn; lia.
Qed.

Lemma run_check (l : list action) (P : st -> bool) :
  match rruns l with Some s => P s | None => false end = true -> exists s, rreach s /\ P s = true.
Proof.
  destruct (rruns l) as [s|] eqn:E; [|discriminate]. intros H. exists s. split; [|exact H]. apply (runs_reach _ _ _ _ _ _ _ l (st_init 10 0)); [constructor|exact E].
Qed.

Lemma step_check s a (P : st -> bool) : match rstep s a with Some s' => P s' | None => false end = true -> exists s', rstep s a = Some s' /\ P s' = true.
Proof. destruct (rstep s a); [|discriminate]. eauto. Qed.

(** Fork 1, run it, fork 2, stop it, let 1 run: then SIGCONT to 2 *)
Lemma stale_continue : exists s s', rreach s /\ rstep s (Cont 2) = Some s' /\ ts (q s) 2 = Stopped /\ ts (q s') 2 = Runnable /\ vr (q s') 2 < minv s' - bonus.
Proof.
  destruct (run_check ([Fork 1] ++ switch ++ [Fork 2; Stop 2] ++ repeat Tick 20)
    (fun s => st_eqb (ts (q s) 2) Stopped && match rstep s (Cont 2) with Some s' => st_eqb (ts (q s') 2) Runnable && (vr (q s') 2 <? minv s' - bonus) | None => false end)) as (s & R & H); [vm_compute; reflexivity|].
  rewrite andb_true_iff in H. destruct H as [H1 H2]. apply step_check in H2. destruct H2 as (s' & E & H2). rewrite andb_true_iff, st_eqb_eq in H2.
  exists s, s'. apply st_eqb_eq in H1. split; [exact R|]. split; [exact E|]. split; [exact H1|]. split; [apply H2|lia].
Qed.

(** 2 sleeps with a timeout and is stopped; the timer fires; then it is woken up *)
Lemma stopped_woken : exists s s', rreach s /\ rstep s Next = Some s' /\ ph s = Wake2 2 Runnable /\ ts (q s) 2 = Stopped /\ ts (q s') 2 = Runnable.
Proof.
  destruct (run_check ([Fork 1; Fork 2] ++ switch ++ [Sleep] ++ switch ++ [Sleep; Wake 1; Next; Next] ++ switch ++ [Stop 2; TimerFire 2; Wake 2; Next])
    (fun s => st_eqb (ts (q s) 2) Stopped && match ph s with Wake2 x Runnable => x =? 2 | _ => false end &&
       match rstep s Next with Some s' => st_eqb (ts (q s') 2) Runnable | None => false end)) as (s & R & H); [vm_compute; reflexivity|].
  rewrite !andb_true_iff in H. destruct H as [[H1 H3] H2]. apply step_check in H2. destruct H2 as (s' & E & H2). apply st_eqb_eq in H1, H2.
  exists s, s'. split; [exact R|]. split; [exact E|]. split; [|auto]. destruct (ph s) as [| | ? nx | | | | | | |]; try discriminate. destruct nx; try discriminate. apply Z.eqb_eq in H3. subst. reflexivity.
Qed.

(** 1 stops itself after its (stale) timer fired: schedule() returns at once *)
Lemma stop_lost : exists s s1 s2 s3, rreach s /\ rstep s (Stop 1) = Some s1 /\ ts (q s1) 1 = Stopped /\ rstep s1 Schedule = Some s2 /\ rstep s2 Next = Some s3 /\
  ts (q s3) 1 = Running /\ ph s3 = Run /\ curr s3 = 1.
Proof.
  destruct (run_check ([Fork 1] ++ switch ++ [TimerFire 1])
    (fun s => match rstep s (Stop 1) with Some s1 => st_eqb (ts (q s1) 1) Stopped && match rstep s1 Schedule with Some s2 => match rstep s2 Next with Some s3 =>
       st_eqb (ts (q s3) 1) Running && is_run (ph s3) && (curr s3 =? 1) | None => false end | None => false end | None => false end)) as (s & R & H); [vm_compute; reflexivity|].
  apply step_check in H. destruct H as (s1 & E1 & H). rewrite andb_true_iff in H. destruct H as [H1 H]. apply step_check in H. destruct H as (s2 & E2 & H). apply step_check in H. destruct H as (s3 & E3 & H).
  rewrite !andb_true_iff in H. destruct H as [[A B] D]. exists s, s1, s2, s3. apply st_eqb_eq in H1, A. apply is_run_ok in B. apply Z.eqb_eq in D. auto 10.
Qed.

(** Worker 20 runs and has the highest priority; asked to reschedule, it loses the CPU to worker 21 *)
Lemma worker_inversion : exists s s', rreach s /\ ph s = Sched1 Running true /\ curr s = 20 /\ ts (q s) 20 = Running /\ rstep s Next = Some s' /\ ph s' = Chosen Running 21.
Proof.
  destruct (run_check ([Fork 20; Fork 21; Fork 1] ++ [Schedule; Next; Next; Next; Next; Next; Sleep] ++ [Schedule; Next; Next; Next; Next; Next; Sleep] ++ switch ++ [Sleep; WthWake 20] ++ [Schedule; Next; Next; Next; Next; Next] ++ [TimerFire 1; WthWake 21; Schedule; Next])
    (fun s => match ph s with Sched1 Running true => true | _ => false end && (curr s =? 20) && st_eqb (ts (q s) 20) Running &&
      match rstep s Next with Some s' => match ph s' with Chosen Running x => x =? 21 | _ => false end | None => false end)) as (s & R & H); [vm_compute; reflexivity|].
  rewrite !andb_true_iff in H. destruct H as [[[A B] D] H]. apply step_check in H. destruct H as (s' & E & H). exists s, s'. split; [exact R|].
  split; [destruct (ph s) as [| | | |[] []| | | | |]; try discriminate; reflexivity|]. split; [lia|]. split; [apply st_eqb_eq, D|]. split; [exact E|].
  destruct (ph s') as [| | | | | |[] sel| | |]; try discriminate. apply Z.eqb_eq in H. subst. reflexivity.
Qed.

(** Same against an ordinary task: worker 20 runs, a timer wakes 1 *)
Lemma worker_preempted : exists s s', rreach s /\ ph s = Sched2 Running true /\ curr s = 20 /\ ts (q s) 20 = Running /\ rstep s Next = Some s' /\ ph s' = Chosen Running 1.
Proof.
  destruct (run_check ([Fork 20; Fork 1] ++ [Schedule; Next; Next; Next; Next; Next; Sleep] ++ switch ++ [Sleep; WthWake 20] ++ [Schedule; Next; Next; Next; Next; Next] ++ [TimerFire 1; Schedule; Next; Next])
    (fun s => match ph s with Sched2 Running true => true | _ => false end && (curr s =? 20) && st_eqb (ts (q s) 20) Running &&
      match rstep s Next with Some s' => match ph s' with Chosen Running x => x =? 1 | _ => false end | None => false end)) as (s & R & H); [vm_compute; reflexivity|].
  rewrite !andb_true_iff in H. destruct H as [[[A B] D] H]. apply step_check in H. destruct H as (s' & E & H). exists s, s'. split; [exact R|].
  split; [destruct (ph s) as [| | | | |[] []| | | |]; try discriminate; reflexivity|]. split; [lia|]. split; [apply st_eqb_eq, D|]. split; [exact E|].
  destruct (ph s') as [| | | | | |[] sel| | |]; try discriminate. apply Z.eqb_eq in H. subst. reflexivity.
Qed.

(** Two queued tasks whose deadlines are not in the order of their vruntimes *)
Lemma deadline_order : exists s, rreach s /\ queued 10 cfg_workers s 2 /\ queued 10 cfg_workers s 3 /\ vr (q s) 2 < vr (q s) 3 /\ dline s 3 < dline s 2.
Proof.
  destruct (run_check ([Fork 1] ++ switch ++ [Fork 2; Tick; Fork 3])
    (fun s => st_eqb (ts (q s) 2) Runnable && st_eqb (ts (q s) 3) Runnable && (vr (q s) 2 <? vr (q s) 3) && (dline s 3 <? dline s 2))) as (s & R & H); [vm_compute; reflexivity|].
  rewrite !andb_true_iff, !st_eqb_eq in H. exists s. split; [exact R|]. unfold queued, cfg_workers. cbn [In]. split; [split; [apply H|lia]|]. split; [split; [apply H|lia]|]. lia.
Qed.

(** vfork: the parent, stopped, is made RUNNING again by its stale timer; the ASSERTs made when the child is done fail *)
Lemma vfork_assert : exists s, rreach s /\ vfs s 1 = true /\ ts (q s) 1 = Running /\ rstep s (VforkDone 1) = None.
Proof.
  destruct (run_check ([Fork 1] ++ switch ++ [Fork 2; TimerFire 1; Vfork; Schedule; Next])
    (fun s => vfs s 1 && st_eqb (ts (q s) 1) Running && match rstep s (VforkDone 1) with None => true | Some _ => false end)) as (s & R & H); [vm_compute; reflexivity|].
  rewrite !andb_true_iff, st_eqb_eq in H. destruct H as [[H1 H2] H3]. exists s. split; [exact R|]. split; [exact H1|]. split; [exact H2|]. destruct (rstep s (VforkDone 1)); [discriminate|reflexivity].
Qed.
