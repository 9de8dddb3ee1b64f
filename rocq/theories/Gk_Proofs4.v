(** Proofs: allocating in and freeing from small heaps. *)
From Coq Require Import Permutation.
From Verif Require Import Lib Bits Buddy_Model Buddy_Spec Buddy_Proofs Gk_Model Gk_Spec Gk_Proofs Gk_Proofs2 Gk_Proofs3.
From Coq Require Import ssreflect.

Lemma filter_perm {A} (f : A -> bool) l l' : Permutation l l' -> Permutation (filter f l) (filter f l').
Proof.
  elim => [//|x t t' P IH|x y t|t1 t2 t3 _ H1 _ H2] /=; last by rewrite H1.
  - case: (f x) => //. by constructor.
  - case: (f x); case: (f y) => //. by constructor.
Qed.
Lemma drop_not l b : ~ In b l -> drop_z l b = l.
Proof.
  elim: l => [//|x l IH] H. cbn. have -> : (x =? b) = false by (apply Z.eqb_neq => E; apply: H; left).
  cbn. f_equal. apply: IH => I. apply: H. by right.
Qed.
Lemma all_mid g1 g g2 : Permutation (all (g1 ++ g :: g2)) (absl g ++ all (g1 ++ g2)).
Proof. rewrite /all !flat_map_app /=. apply: Permutation_app_swap_app. Qed.
Lemma fmid {A} (P : A -> Prop) a x b : Forall P (a ++ x :: b) <-> P x /\ Forall P (a ++ b).
Proof. rewrite !Forall_app. split; first by move => [H1 H2]; inversion H2; subst. move => [H [H1 H2]]. split => //. by constructor. Qed.
Lemma map_mid {A B} (f : A -> B) a x b : map f (a ++ x :: b) = map f a ++ f x :: map f b.
Proof. by rewrite map_app. Qed.

(** [g] with other contents *)
Definition upd (g : gi) (h : heap) (l : list block) : gi := Gi (set_h (gx g) h) (gc g) l.

Lemma small_perm W gs rest rest' : smallok W gs rest -> Permutation rest rest' -> smallok W gs rest'.
Proof. move => [? ? ? ? ? P] Q. constructor => //. by rewrite P Q. Qed.
Lemma small_view W gs gs' rest : smallok W gs rest -> Forall okg gs' -> map view gs' = map view gs -> smallok W gs' rest.
Proof.
  move => [Hw _ C M D P] O V. symmetry in V. constructor => //.
  - apply: forall_view C => //. by move => ? ? /view_same [_ [_ [_ [-> _]]]].
  - apply: forall_view M => //. by move => ? ? /view_same [_ [_ [_ [_ ->]]]].
  - have <- // : map chunk gs = map chunk gs'. apply: map_view V => ? ? /view_same [E _]. by rewrite /chunk E.
  - rewrite -(all_view _ _ V). have <- // : map smd gs = map smd gs'. apply: map_view V => ? ? /view_same [E _]. by rewrite /smd E.
Qed.
Lemma av_view gs gs' av : avok gs av -> map view gs' = map view gs -> avok gs' av.
Proof.
  rewrite /avok => A V. symmetry in V.  have F : forall g g', view g = view g' -> notfull g = notfull g'. { move => g g' /view_same [_ [_ [_ [_ L]]]]. by rewrite /notfull L. }
  have <- // : map gb (filter notfull gs) = map gb (filter notfull gs'). apply: map_view (filter_view _ _ _ F V). move => ? ? /view_same [E _]. by rewrite /gb E.
Qed.
Lemma e_view gs gs' : map view gs' = map view gs -> zlen (filter isempty gs') = zlen (filter isempty gs).
Proof.
  move => V. have F : forall g g', view g = view g' -> isempty g = isempty g'. { move => g g' /view_same [_ [_ [_ [_ L]]]]. by rewrite /isempty L. }
  have := filter_view _ _ _ F V. move/(f_equal (@length _)). rewrite !map_length /zlen. lia.
Qed.
Lemma small_put W g1 g g2 rest h a b : smallok W (g1 ++ g :: g2) rest -> okh (gc g) h ((a, b) :: gl g) ->
  smallok W (g1 ++ upd g h ((a, b) :: gl g) :: g2) ((gb g + a, b) :: rest).
Proof.
  move => [Hw O C M D P] Oh. move/fmid: O => [_ O]. move/fmid: C => [C0 C]. move/fmid: M => [M0 M]. constructor => //.
  - apply/fmid. by split.
  - apply/fmid. by split.
  - apply/fmid. split => //. by right.
  - move: D. by rewrite !map_mid.
  - have E : map smd (g1 ++ upd g h ((a, b) :: gl g) :: g2) = map smd (g1 ++ g :: g2) by rewrite !map_mid.
    rewrite E. apply: (Permutation_trans (l' := (gb g + a, b) :: all (g1 ++ g :: g2))).
    + apply: Permutation_trans; first apply: all_mid. cbn. apply: perm_skip. apply: Permutation_sym. apply: all_mid.
    + apply: Permutation_trans; first by apply: perm_skip P. apply: Permutation_middle.
Qed.
Lemma small_take W g1 g g2 rest rest' h l' a b : smallok W (g1 ++ g :: g2) rest -> Permutation rest ((gb g + a, b) :: rest') ->
  Permutation (gl g) ((a, b) :: l') -> okh (gc g) h l' -> smallok W (g1 ++ upd g h l' :: g2) rest'.
Proof.
  move => S0 Q L Oh. have S1 := small_perm _ _ _ _ S0 Q. have F := small_fop _ _ _ S1. have B := small_in _ _ _ S1 (gb g + a, b) ltac:(by apply in_app_iff; right; left).
  move: (S1) => [Hw O C M D P]. move/fmid: O => [_ O]. move/fmid: C => [C0 C]. move/fmid: M => [M0 M]. constructor => //.
  - apply/fmid. by split.
  - apply/fmid. by split.
  - apply/fmid. split => //. cbn. have := Permutation_in _ L M0. case => [E|//]. exfalso.
    have Is : In (smd g) (map smd (g1 ++ g :: g2)) by apply: in_map; apply in_app_iff; right; left.
    have := fop_in _ _ (smd g) (gb g + a, b) F Is ltac:(by left). case: E => -> ->. rewrite /disjoint /smd /gb /SMD. cbn [fst snd]. lia.
  - move: D. by rewrite !map_mid.
  - have E : map smd (g1 ++ upd g h l' :: g2) = map smd (g1 ++ g :: g2) by rewrite !map_mid.
    rewrite E. apply: (Permutation_cons_inv (a := (gb g + a, b))). apply: Permutation_sym. apply: Permutation_trans; first apply: Permutation_middle.
    apply: Permutation_trans; first by (apply: Permutation_sym; apply P). rewrite !all_mid.
    change ((gb g + a, b) :: absl (upd g h l') ++ all (g1 ++ g2)) with (map (sh (gb g)) ((a, b) :: l') ++ all (g1 ++ g2)).
    apply: Permutation_app_tail. rewrite /absl. by apply: Permutation_map.
Qed.

Lemma av_mid g1 g g2 av : avok (g1 ++ g :: g2) av <-> Permutation av (map gb (filter notfull g1) ++ (if notfull g then [gb g] else []) ++ map gb (filter notfull g2)).
Proof. rewrite /avok filter_app map_app /=. by case: (notfull g). Qed.
Lemma gb_sub b f g : ~ In b (map gb g) -> ~ In b (map gb (filter f g)).
Proof. move => H /in_map_iff [x [E I]]. move/filter_In: I => [I _]. apply: H. apply/in_map_iff. by exists x. Qed.
Lemma av_drop g1 g g2 av : NoDup (map gb (g1 ++ g :: g2)) -> avok (g1 ++ g :: g2) av -> avok (g1 ++ g2) (drop_z av (gb g)).
Proof.
  rewrite map_mid => N /av_mid A. have := NoDup_remove_2 _ _ _ N. rewrite in_app_iff => X.
  rewrite /avok filter_app map_app. have A' := filter_perm (fun x => negb (x =? gb g)) _ _ A.
  apply: Permutation_trans A' _. rewrite !filter_app. rewrite -!/(drop_z _ _).
  rewrite (drop_not (map gb (filter notfull g1))); first by (apply: gb_sub; tauto).
  rewrite (drop_not (map gb (filter notfull g2))); first by (apply: gb_sub; tauto).
  case: (notfull g) => //=. by rewrite /drop_z /= Z.eqb_refl.
Qed.
Lemma av_put g1 g g2 g' av : NoDup (map gb (g1 ++ g :: g2)) -> gb g' = gb g -> notfull g = true -> avok (g1 ++ g :: g2) av ->
  avok (g1 ++ g' :: g2) (if notfull g' then av else drop_z av (gb g)).
Proof.
  move => N E F A. case E' : (notfull g').
  - move/av_mid: A. rewrite F => A. apply/av_mid. by rewrite E' E.
  - have := av_drop _ _ _ _ N A. rewrite /avok !filter_app /= E'. by [].
Qed.
Lemma av_back g1 g g2 g' av : gb g' = gb g -> notfull g = false -> notfull g' = true -> avok (g1 ++ g :: g2) av -> avok (g1 ++ g' :: g2) (av ++ [gb g]).
Proof.
  move => E F F' /av_mid. rewrite F => A. apply/av_mid. rewrite F' E A /= -app_assoc. apply: Permutation_app_head.
  apply: Permutation_sym. apply: (Permutation_cons_append _ (gb g)).
Qed.
Lemma e_mid g1 g g2 : zlen (filter isempty (g1 ++ g :: g2)) = zlen (filter isempty (g1 ++ g2)) + (if isempty g then 1 else 0).
Proof. rewrite !filter_app /= !zlen_app. case: (isempty g); rewrite ?zlen_cons; lia. Qed.

(** Memory in use of a small heap *)
Lemma sum_in l x : (forall y, In y l -> 0 <= snd y) -> In x l -> snd x <= sum_sizes l.
Proof.
  elim: l => [//|y l IH] P I. cbn. change (fold_right _ 0 l) with (sum_sizes l). have := P y ltac:(by left).
  have Q : 0 <= sum_sizes l. { clear IH I. elim: l P => [//|z l IH] P. cbn. change (fold_right _ 0 l) with (sum_sizes l). have := P z ltac:(by right; left). have := IH ltac:(by move => w [<-|Hw]; apply: P; [left|right; right]). lia. }
  case: I => [<-|I]; first lia. have := IH ltac:(by move => z Hz; apply: P; right) I. lia.
Qed.
Lemma sum_perm l l' : Permutation l l' -> sum_sizes l = sum_sizes l'.
Proof. elim => [//|x t t' P IH|x y t|t1 t2 t3 _ H1 _ H2]; [|cbn; lia|lia]. cbn. rewrite /sum_sizes in IH. lia. Qed.
Lemma small_mem W h l : okh (csm W) h l -> In (0, SMD) l -> mem h = sum_sizes l /\ hsize h = SSIZE /\ hmin h = 32 /\ SMD <= sum_sizes l <= SSIZE.
Proof.
  move => O I. have [_ [Hs Hm]] := okh_conf _ _ _ O. have [_ [R _]] := okh_perm_facts _ _ _ O. move: (O) => [G Re].
  have E := reach_exact _ _ _ G Re. have B := mem_bounds _ _ _ G Re. split => //. split => //. split => //.
  rewrite total_csm in B. have := sum_in l (0, SMD) ltac:(by move => y /R; change (minimum (csm W)) with 32; lia) I. cbn [snd]. lia.
Qed.
