(** Proofs: one heap; lists of heaps. *)
From Coq Require Import Permutation.
From Verif Require Import Lib Bits Buddy_Model Buddy_Spec Buddy_Tree Buddy_Ops Buddy_Proofs Gk_Model Gk_Spec.
From Coq Require Import ssreflect.

(** A heap that is in correct use *)
Definition okh (c : cfg) (h : heap) (l : list block) : Prop := good c /\ reach c true h l.

Lemma okh_conf c h l : okh c h l -> hW h = cW c /\ hsize h = total c /\ hmin h = minimum c.
Proof. move => [G R]. have [[? [? [? _]]] _] := reach_inv _ _ _ _ G R. done. Qed.
Lemma okh_perm_facts c h l : okh c h l -> NoDup l /\
  (forall b, In b l -> 0 <= fst b /\ fst b + snd b <= total c /\ minimum c <= snd b /\ (exists e, 0 <= e /\ snd b = 2 ^ e) /\ (snd b | fst b)) /\
  (forall b1 b2, In b1 l -> In b2 l -> b1 <> b2 -> disjoint b1 b2).
Proof. move => [G R]. by apply: disjoint_inside_out R. Qed.
Lemma min_pos c : good c -> 0 < minimum c.
Proof. rewrite /good /minimum => G. apply: Z.pow_pos_nonneg; lia. Qed.

Lemma pieces_pow2 (n : nat) (off e : Z) : 0 <= e < Z.of_nat n -> pieces n off (2 ^ e) = [(off, 2 ^ e)].
Proof.
  elim: n off => [|n IH] off He; first lia. cbn [pieces].
  destruct (Z.eq_dec e (Z.of_nat n)) as [->|N].
  - rewrite Z.pow2_bits_true; first lia. f_equal. apply: (pieces_zero _ _ _ 1). lia.
  - rewrite Z.pow2_bits_false; first lia. apply: IH. lia.
Qed.
Lemma block_of_pow c size : good c -> exists e, 0 <= e /\ block_of c size = 2 ^ e.
Proof.
  move => G. rewrite /block_of /minimum. case: (Z.max_spec (2 ^ Z.log2_up size) (2 ^ ca c)) => [[_ ->]|[_ ->]].
  - exists (ca c). rewrite /good in G. lia.
  - exists (Z.log2_up size). have := Z.log2_up_nonneg size. lia.
Qed.

Lemma one_alloc c h l size : okh c h l -> 0 < size ->
  exists h' r, kmalloc h size false 0 true = Some (h', r) /\
  match r with
  | None => okh c h' l /\ (total c < size \/ crowded c l (block_of c size))
  | Some (a, b) => okh c h' ((a, b) :: l) /\ b = block_of c size
  end.
Proof.
  move => [G R] S.
  have A : allowed c l (Alloc size false 0 true) by (split => //; split; [by left|done]).
  case E : (step h (Alloc size false 0 true)) => [[h' r]|]; last by case: (no_assert _ _ _ _ _ G R A E).
  exists h', r. split; first exact E.
  have K := alloc_result _ _ _ _ _ _ _ _ _ _ G R A E.
  have X : true = true -> exact_op c l (Alloc size false 0 true) by [].
  have R' := reach_step _ _ _ _ _ _ _ R A X E.
  case: r E K R' => [[a b]|] E K R'; last by split.
  cbn [fst snd] in K. move: K => [_ [P [Q [_ [B _]]]]]. split => //. split => //.
  move: R'. cbn [live_after handed_out Z.eqb fst snd].
  have [e [He Eb]] := block_of_pow c size G.
  rewrite B Eb pieces_pow2 //.
  split => //. rewrite /bits.
  have T : 2 ^ e <= total c by rewrite -Eb; lia.
  rewrite /total in T. have := Z.pow_le_mono_r_iff 2 e (ca c + Z.of_nat (cK c)). rewrite /good in G. lia.
Qed.
Lemma drop_one l b : In b l -> NoDup l -> (forall x y, In x l -> In y l -> x <> y -> disjoint x y) ->
  (forall x, In x l -> 0 < snd x) -> Permutation l (b :: drop l b).
Proof.
  move => I N D P. have [l1 [l2 E]] := in_split _ _ I.
  have F : forall t, incl t l -> ~ In b t -> drop t b = t.
  { elim => [|x t IH] S NI //=. have Sx : In x l by apply: S; left.
    have Nx : x <> b by move => E2; apply: NI; left.
    have -> : inside x b = false.
    { destruct (inside x b) eqn:W => //. have := D _ _ Sx I Nx. move/inside_spec: W. rewrite /disjoint. have := P _ Sx. lia. }
    cbn. f_equal. apply: IH. - move => y Hy. apply: S. by right. - move => Hy. apply: NI. by right. }
  subst l. rewrite /drop filter_app. cbn [filter].
  have -> : inside b b = true by apply/inside_spec; lia.
  cbn [negb]. have [N1 N2] : ~ In b l1 /\ ~ In b l2. { have := NoDup_remove_2 _ _ _ N. rewrite in_app_iff. tauto. }
  have E1 : drop l1 b = l1. { apply: F => // y Hy. apply in_app_iff. by left. }
  have E2 : drop l2 b = l2. { apply: F => // y Hy. apply in_app_iff. right. by right. }
  rewrite /drop in E1, E2. rewrite E1 E2. symmetry. apply Permutation_middle.
Qed.
Lemma one_free c h l a b u : okh c h l -> In (a, b) l -> b <> total c ->
  u = 0 \/ (0 < u <= b /\ 2 ^ Z.log2_up (Z.max u (minimum c)) = b) ->
  exists h' l', kfree h a u false false = Some (h', b) /\ okh c h' l' /\ Permutation l ((a, b) :: l').
Proof.
  move => [G R] I N U.
  have A : allowed c l (Free a u false false) by (exists b).
  have X : true = true -> exact_op c l (Free a u false false) by [].
  case E : (step h (Free a u false false)) => [[h' r]|]; last by case: (no_assert _ _ _ _ _ G R A E).
  have R' := reach_step _ _ _ _ _ _ _ R A X E.
  have [s [Er [_ S]]] := free_result _ _ _ _ _ _ _ _ _ _ G R A E. subst r.
  have [ND [RG DJ]] := okh_perm_facts c h l (conj G R).
  have P := min_pos c G.
  have Es : s = b.
  { have I2 := S eq_refl eq_refl. have [Eb|Nb] : (a, s) = (a, b) \/ (a, s) <> (a, b) by (destruct (Z.eq_dec s b) as [->|W]; [by left|right; congruence]).
    - by case: Eb.
    - have := DJ _ _ I2 I Nb. have := RG _ I. have := RG _ I2. rewrite /disjoint. cbn [fst snd]. lia. }
  subst s. exists h', (drop l (a, b)). split.
  { move: E. cbn [step]. case: (kfree h a u false false) => [[h2 s2]|] //. case => -> ->. done. }
  split; first by split.
  apply: drop_one => // x Hx. have := RG _ Hx. lia.
Qed.
