From Verif Require Import Lib Avl_Model Avl_Spec Avl_Proofs Avl_Visit Avl_Tight.
From Coq Require Import Sorted Permutation.

Section F.
  Context (A K : Type) (key : A -> K) (cmp : K -> K -> Z).
  Hypothesis gc : good_cmp cmp.

  Lemma finite_map : forall ops, sizes_ok key cmp 5702885 ops ->
      exists t, bt_run key cmp E ops = Some (t, snd (spec_run key cmp [] ops)).
  Proof.
    intros ops H. destruct (bt_refines key cmp gc ops H) as (t & E1 & _). eauto.
  Qed.

  Lemma stays_balanced : forall ops, sizes_ok key cmp 5702885 ops ->
      exists t outs, bt_run key cmp E ops = Some (t, outs) /\ avl_shaped t /\
        fewest (Z.to_nat (depth t + 1)) <= zlen (contents key cmp ops).
  Proof.
    intros ops H. destruct (bt_refines key cmp gc ops H) as (t & E1 & E2 & E3 & E4).
    do 2 eexists; split; [exact E1|]. split; [auto|].
    apply avl_shaped_avl in E2. pose proof (avl_size t E2) as G.
    rewrite (avl_depth t E2) in G. unfold zlen in *. rewrite (Permutation_length E4) in G. exact G.
  Qed.

  Lemma avl_depth_30 : forall ops t, avl_shaped t ->
      Permutation (inorder t) (contents key cmp ops) -> zlen (contents key cmp ops) <= 5702885 ->
      depth t <= 30.
  Proof.
    intros ops t Ha P Hl. apply avl_shaped_avl in Ha. rewrite <- avl_depth by auto.
    apply avl_height_30; auto. unfold zlen in *. rewrite (Permutation_length P). auto.
  Qed.

  Lemma visit_in_order : forall ops, sizes_ok key cmp 5702885 ops ->
      zlen (contents key cmp ops) <= 5702885 ->
      exists t outs l, bt_run key cmp E ops = Some (t, outs) /\
        increasing key cmp l /\ Permutation l (contents key cmp ops) /\
        forall (S : Type) (cb : S -> A -> S * Z) (reverse : bool) (acc : S),
        exists n, forall fuel, (n <= fuel)%nat ->
          let res := visit_list cb (if reverse then rev l else l) acc in
          visit cb fuel reverse t acc = VStop (fst res) (snd res).
  Proof.
    intros ops H Hl. destruct (bt_refines key cmp gc ops H) as (t & E1 & E2 & E3 & E4).
    exists t. eexists. exists (inorder t). split; [exact E1|]. split; [auto|]. split; [auto|].
    intros S cb rv acc. pose proof (avl_depth_30 ops t E2 E4 Hl) as Hd.
    destruct (visit_ok cb t rv acc Hd) as (n & Hn). exists n. exact Hn.
  Qed.

  Lemma walk_in_order : forall ops, sizes_ok key cmp 5702885 ops ->
      zlen (contents key cmp ops) <= 5702885 ->
      exists t outs l, bt_run key cmp E ops = Some (t, outs) /\
        increasing key cmp l /\ Permutation l (contents key cmp ops) /\
        forall reverse : bool,
        exists n, forall fuel k, (n <= fuel)%nat ->
          walk_results fuel k (walk_start t reverse) =
          Some (firstn k (map Some (if reverse then rev l else l) ++ repeat None k)).
  Proof.
    intros ops H Hl. destruct (bt_refines key cmp gc ops H) as (t & E1 & E2 & E3 & E4).
    exists t. eexists. exists (inorder t). split; [exact E1|]. split; [auto|]. split; [auto|].
    intros rv. pose proof (avl_depth_30 ops t E2 E4 Hl) as Hd.
    destruct (walk_ok t rv Hd) as (n & Hn). exists n. exact Hn.
  Qed.

  Lemma first_last : forall ops, sizes_ok key cmp 5702885 ops ->
      exists t outs, bt_run key cmp E ops = Some (t, outs) /\
      match get_first t with
      | None => contents key cmp ops = []
      | Some m => In m (contents key cmp ops) /\
                  forall x, In x (contents key cmp ops) -> cmp (key m) (key x) <= 0
      end /\
      match get_last t with
      | None => contents key cmp ops = []
      | Some m => In m (contents key cmp ops) /\
                  forall x, In x (contents key cmp ops) -> cmp (key x) (key m) <= 0
      end.
  Proof.
    intros ops H. destruct (bt_refines key cmp gc ops H) as (t & E1 & E2 & E3 & E4).
    do 2 eexists; split; [exact E1|]. rewrite get_first_ok, get_last_ok. split.
    - destruct (inorder t) as [|m l] eqn:Ei; simpl.
      + apply Permutation_nil; auto.
      + split; [eapply Permutation_in; [exact E4|]; simpl; auto|].
        intros x Hx. apply Permutation_sym in E4.
        pose proof (Permutation_in _ E4 Hx) as [<-|Hin].
        * rewrite (gc_refl _ gc). lia.
        * inversion E3 as [|? ? G1 G2]; subst. rewrite Forall_forall in G2. specialize (G2 _ Hin). lia.
    - destruct (inorder t) as [|m0 l0] eqn:Ei.
      + simpl. apply Permutation_nil; auto.
      + destruct (exists_last (l := m0 :: l0)) as (l & m & Em); [discriminate|].
        rewrite Em in *. rewrite rev_app_distr. simpl. split.
        * eapply Permutation_in; [exact E4|]. apply in_app_iff. simpl; auto.
        * intros x Hx. apply Permutation_sym in E4.
          pose proof (Permutation_in _ E4 Hx) as Hin. apply in_app_iff in Hin.
          apply inc_app in E3. destruct E3 as (_ & _ & E3).
          destruct Hin as [Hin|[<-|[]]]; [|rewrite (gc_refl _ gc); lia].
          specialize (E3 x m Hin). simpl in E3. specialize (E3 ltac:(auto)). lia.
  Qed.
End F.

Lemma finite_map_ptr : forall (w lo : Z), 1 <= w ->
  forall (A : Type) (key : A -> {z | lo <= z < lo + 2 ^ (w - 1)}),
  let cmp := fun a b : {z | lo <= z < lo + 2 ^ (w - 1)} =>
               long_sub w (proj1_sig a) (proj1_sig b) in
  forall ops, sizes_ok key cmp 5702885 ops ->
  exists t, bt_run key cmp E ops = Some (t, snd (spec_run key cmp [] ops)).
Proof. intros w lo Hw A key cmp. apply finite_map. apply good_long; auto. Qed.

Lemma ptr_compare_loses : exists (k1 k2 k3 : Z) t,
    bt_run (fun x => x) (long_sub 64) E [BIns k1; BIns k2; BIns k3; BRem k1; BFind k3]
      = Some (t, [BBool true; BBool true; BBool true; BObj (Some k1); BObj None]) /\
    k1 <> k3 /\ k2 <> k3.
Proof.
  exists 4611686018427387904, (-4611686018427387905), 0. eexists.
  split; [vm_compute; reflexivity|]. lia.
Qed.

Lemma height_bound : forall (A : Type) (t : @tree A), avl_shaped t ->
    fewest (Z.to_nat (depth t + 1)) <= zlen (inorder t).
Proof.
  intros A t H. apply avl_shaped_avl in H. rewrite <- avl_depth by auto. apply avl_size; auto.
Qed.

(** The number of objects never exceeds the number of operations *)
Lemma contents_le : forall A K (key : A -> K) cmp ops l,
    zlen (fst (spec_run key cmp l ops)) <= zlen l + zlen ops.
Proof.
  intros A K key cmp. induction ops as [|o ops IH]; intros l.
  - simpl. unfold zlen; simpl; lia.
  - rewrite spec_run_cons. cbn [fst]. specialize (IH (fst (spec_step key cmp l o))).
    rewrite zlen_cons.
    assert (zlen (fst (spec_step key cmp l o)) <= 1 + zlen l); [|lia].
    destruct o; cbn [spec_step].
    + destruct (existsb _ l); cbn [fst]; rewrite ?zlen_cons; lia.
    + destruct (List.find _ l); cbn [fst]; [|lia].
      set (f := fun y : A => _). clear. unfold zlen.
      assert (length (filter f l) <= length l)%nat; [|lia].
      induction l; simpl; [lia|]. destruct (f a); simpl; lia.
    + cbn [fst]. lia.
Qed.

Lemma sizes_ok_short : forall A K (key : A -> K) cmp n ops, zlen ops <= n ->
    sizes_ok key cmp n ops.
Proof.
  intros A K key cmp n ops H pre o post ->. unfold contents.
  pose proof (contents_le A K key cmp pre []). rewrite zlen_app, zlen_cons in H.
  change (zlen (@nil A)) with 0 in H0. pose proof (zlen_nonneg post). lia.
Qed.

Lemma ex_sizes_ok : sizes_ok (fun x => x) Z.sub 5702885
  [BIns 10; BIns 20; BIns 30; BIns 40; BIns 50; BIns 25; BIns 20; BRem 40;
   BFind 25; BRem 10; BRem 99; BIns 7; BRem 25].
Proof. apply sizes_ok_short. vm_compute. discriminate. Qed.
