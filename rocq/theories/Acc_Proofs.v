From Coq Require Import ssreflect Permutation.
From Verif Require Import Lib Acc_Model Acc_Spec.

Section P.
Variables size count : Z.
Hypothesis Hs : 0 < size.
Hypothesis Hc : 0 < count.
Hypothesis Hm : size * count < 2 ^ 32.
Notation cf := (cells_from size count).
Notation cells := (cells size count).

Lemma cf_end i b : count <= i -> cf i b = [].
Proof. move=> H. rewrite /cells_from. by have -> : Z.to_nat (count - i) = 0%nat by lia. Qed.
Lemma cf_step i b : 0 <= i < count -> cf i b = (b + size * i) :: cf (i + 1) b.
Proof.
  move=> H. rewrite /cells_from. have -> : Z.to_nat (count - i) = S (Z.to_nat (count - (i + 1))) by lia.
  rewrite /= -seq_shift map_map. f_equal; first lia. apply: map_ext => j. nia.
Qed.
Lemma prod_ok i : 0 <= i < count -> u32 (size * i) = size * i /\ u32 (i * size) = size * i /\ u32 (i + 1) = i + 1.
Proof.
  move=> H. have A : 0 <= size * i < 2 ^ 32 by nia. have B : 0 <= i + 1 < 2 ^ 32 by nia.
  rewrite (Z.mul_comm i). by rewrite !u32_small.
Qed.
Definition wf (a : acc) : Prop := 0 <= cur a <= count.

Lemma took_app x y : took (x ++ y) = took x ++ took y. Proof. exact: flat_map_app. Qed.
Lemma gave_app x y : gave (x ++ y) = gave x ++ gave y. Proof. exact: flat_map_app. Qed.
Lemma freed_app x y : freed (x ++ y) = freed x ++ freed y. Proof. exact: flat_map_app. Qed.

Lemma get_ok ans a a' o : wf a -> get size count ans a = (a', o) -> wf a' /\
  cf (cur a) (buf a) ++ flat_map cells (took o) = gave o ++ cf (cur a') (buf a') /\ freed o = [].
Proof.
  move=> W. rewrite /get /give. case: (Z.eqb_spec (cur a) count) => E.
  - case: ans => [b|] [<- <-].
    + rewrite /=. have [P1 [_ P3]] := prod_ok 0 ltac:(lia). rewrite P1 P3 (cf_end (cur a) _ ltac:(lia)). split; first by rewrite /wf /=; lia.
      split=> //. by rewrite /= app_nil_r /Acc_Spec.cells (cf_step 0 b ltac:(lia)).
    + split=> //. rewrite /= app_nil_r. split=> //. by rewrite !cf_end //=; lia.
  - move=> [<- <-]. have H : 0 <= cur a < count by rewrite /wf in W; lia. have [P1 [_ P3]] := prod_ok _ H.
    rewrite /= P1 P3. split; first by rewrite /wf /=; lia. split=> //. by rewrite app_nil_r (cf_step (cur a)).
Qed.
Lemma destroy_ok : forall n a, wf a -> (Z.to_nat (count - cur a) <= n)%nat -> exists a' o, destroy size count n a = Some (a', o) /\
  cur a' = count /\ freed o = cf (cur a) (buf a) /\ took o = [] /\ gave o = [].
Proof.
  elim=> [|n IH] a W L /=.
  - have -> : (cur a <? count) = false by lia. exists a, []. rewrite /wf in W. split=> //. split; first lia. by rewrite cf_end //; lia.
  - case: (Z.ltb_spec (cur a) count) => H; last first.
    { exists a, []. rewrite /wf in W. split=> //. split; first lia. by rewrite cf_end //; lia. }
    have H' : 0 <= cur a < count by rewrite /wf in W; lia. have [_ [P2 P3]] := prod_ok _ H'. rewrite P2 P3.
    have [|//=|a' [o [E [E1 [E2 [E3 E4]]]]]] := IH (Acc (cur a + 1) (buf a)); [by rewrite /wf /=; lia | lia |].
    rewrite E. exists a', (Freed (buf a + size * cur a) :: o). split=> //. split=> //. split=> //. by rewrite /= E2 (cf_step (cur a)).
Qed.
Lemma run_ok : forall ops a, wf a -> exists a' o, run size count ops a = Some (a', o) /\ wf a' /\
  Permutation (cf (cur a) (buf a) ++ flat_map cells (took o)) (gave o ++ freed o ++ cf (cur a') (buf a')).
Proof.
  elim=> [|op ops IH] a W /=; first by exists a, []; rewrite /= app_nil_r.
  case: op => [ans|] /=.
  - case E: (get size count ans a) => [a1 o1]. have [W1 [P1 F1]] := get_ok _ _ _ _ W E.
    have [a2 [o2 [E2 [W2 P2]]]] := IH _ W1. rewrite E2. exists a2, (o1 ++ o2). split=> //. split=> //.
    rewrite took_app gave_app freed_app F1 flat_map_app app_assoc P1 /= -!app_assoc. exact: Permutation_app_head.
  - have [a1 [o1 [E [C [F [T G]]]]]] := destroy_ok (Z.to_nat count) a W ltac:(rewrite /wf in W; lia). rewrite E.
    have W1 : wf a1 by rewrite /wf; lia. have [a2 [o2 [E2 [W2 P2]]]] := IH _ W1. rewrite E2. exists a2, (o1 ++ o2). split=> //. split=> //.
    rewrite took_app gave_app freed_app F T G /=. rewrite (cf_end (cur a1) _ ltac:(lia)) in P2. rewrite /= in P2.
    rewrite P2 -!app_assoc. rewrite !app_assoc. do 2 apply: Permutation_app_tail. exact: Permutation_app_comm.
Qed.

(** Every history *)
Lemma account ops : exists a o, run size count ops (create count) = Some (a, o) /\ 0 <= cur a <= count /\
  Permutation (flat_map cells (took o)) (gave o ++ freed o ++ cf (cur a) (buf a)).
Proof.
  have [|a [o [E [W P]]]] := run_ok ops (create count); first by rewrite /wf /create /=; lia.
  exists a, o. split=> //. split=> //. rewrite (cf_end (cur (create count)) _ ltac:(rewrite /create /=; lia)) in P. exact: P.
Qed.
Lemma run_app x y a : run size count (x ++ y) a = match run size count x a with None => None | Some (a, o) => match run size count y a with None => None | Some (a, o') => Some (a, o ++ o') end end.
Proof.
  elim: x a => [|op x IH] a /=; first by case: (run size count y a) => [[? ?]|].
  case: (step size count op a) => [[a1 o1]|] //. rewrite IH. case: (run size count x a1) => [[a2 o2]|] //. case: (run size count y a2) => [[a3 o3]|] //. by rewrite app_assoc.
Qed.
(** After a destroy nothing is left over *)
Lemma no_leak ops : exists a o, run size count (ops ++ [Destroy]) (create count) = Some (a, o) /\
  Permutation (flat_map cells (took o)) (gave o ++ freed o).
Proof.
  have [a [o [E [W P]]]] := account (ops ++ [Destroy]). exists a, o. split=> //.
  suff C : cur a = count by rewrite (cf_end (cur a) _ ltac:(lia)) app_nil_r in P.
  have [a1 [o1 [E1 [W1 _]]]] := account ops. rewrite run_app E1 /= in E.
  have [a2 [o2 [E2 [C2 _]]]] := destroy_ok (Z.to_nat count) a1 W1 ltac:(lia). rewrite E2 in E. by case: E => <- _.
Qed.

Lemma disj_sym w p q : disj w p q -> disj w q p. Proof. rewrite /disj. lia. Qed.
Lemma apart_perm w l m : Permutation l m -> apart w l -> apart w m.
Proof.
  elim=> [|x l1 l2 P IH|x y l1|l1 l2 l3 P1 I1 P2 I2] //=.
  - move=> [F A]. split; last exact: IH. apply/Forall_forall => z Z. apply: (proj1 (Forall_forall _ _) F). apply: Permutation_in Z. exact: Permutation_sym.
  - move=> [F [G A]]. inversion F as [|? ? D F']; subst. split; [constructor=> //; exact: disj_sym | by split].
  - by move=> /I1 /I2.
Qed.
Lemma apart_app w l m : apart w (l ++ m) <-> apart w l /\ apart w m /\ Forall (fun x => Forall (disj w x) m) l.
Proof.
  elim: l => [|x l IH] /=; first by split=> [A|[_ [A _]]].
  rewrite Forall_app IH. split.
  - move=> [[F1 F2] [A1 [A2 F3]]]. split=> //. split=> //. by constructor.
  - move=> [[F1 A1] [A2 F]]. inversion F; subst. by split.
Qed.
Lemma in_cells b p : In p (cells b) <-> exists i, 0 <= i < count /\ p = b + size * i.
Proof.
  rewrite /Acc_Spec.cells /cells_from in_map_iff. split.
  - move=> [j [<- /in_seq J]]. exists (Z.of_nat j). split; lia.
  - move=> [i [H ->]]. exists (Z.to_nat i). split; first by rewrite Z2Nat.id; lia. apply/in_seq. lia.
Qed.
Lemma cells_in b p : In p (cells b) -> b <= p /\ p + size <= b + size * count.
Proof. move=> /in_cells [i [H ->]]. nia. Qed.
Lemma cf_apart n : forall i b, 0 <= i -> count - i = Z.of_nat n -> apart size (cf i b).
Proof.
  elim: n => [|n IH] i b H L; first by rewrite cf_end //; lia.
  rewrite (cf_step i b ltac:(lia)). split; last by apply: IH; lia.
  apply/Forall_forall => p. rewrite /cells_from in_map_iff => -[j [<- /in_seq J]]. left. nia.
Qed.
Lemma cells_apart l : apart (size * count) l -> apart size (flat_map cells l).
Proof.
  elim: l => [|b l IH] //= [F A]. apply/apart_app. split; first by apply: (cf_apart (Z.to_nat count)); lia.
  split; first exact: IH. apply/Forall_forall => p P. apply/Forall_forall => q /in_flat_map [c [C Q]].
  have := proj1 (Forall_forall _ _) F _ C. have := cells_in _ _ P. have := cells_in _ _ Q. rewrite /disj. lia.
Qed.
(** Blocks that do not overlap: neither do the elements given out and freed, and each is inside its block *)
Lemma elements_apart ops a o : run size count ops (create count) = Some (a, o) -> apart (size * count) (took o) ->
  apart size (gave o ++ freed o) /\
  Forall (fun p => exists b, In b (took o) /\ b <= p /\ p + size <= b + size * count) (gave o ++ freed o).
Proof.
  move=> E A. have [a' [o' [E' [_ P]]]] := account ops. rewrite E in E'. case: E' => Ea Eo. subst a' o'.
  have Q := apart_perm _ _ _ P (cells_apart _ A). rewrite app_assoc in P Q. move: Q => /apart_app [Q _]. split=> //.
  apply/Forall_forall => p I. have : In p (flat_map cells (took o)).
  { apply: Permutation_in; first exact: Permutation_sym P. apply/in_app_iff. by left. }
  move=> /in_flat_map [b [B C]]. exists b. split=> //. exact: cells_in.
Qed.
Lemma gets_ok : forall xs a a' o, wf a -> 0 < cur a -> run size count (map Get xs) a = Some (a', o) -> freed o = [] /\ 0 < cur a'.
Proof.
  elim=> [|x xs IH] a a' o W C /=; first by move=> [<- <-].
  case E: (get size count x a) => [a1 o1]. case E2: (run size count (map Get xs) a1) => [[a2 o2]|] // [<- <-].
  have [W1 [_ F1]] := get_ok _ _ _ _ W E.
  have C1 : 0 < cur a1.
  { move: E. rewrite /get /give. case: (Z.eqb_spec (cur a) count) => Ec.
    - by case: x => [b|] [<- _].
    - move=> [<- _] /=. rewrite /wf in W. have [_ [_ ->]] := prod_ok (cur a) ltac:(lia). lia. }
  have [F2 C2] := IH _ _ _ W1 C1 E2. by rewrite freed_app F1 F2.
Qed.
Lemma cf_len i b : 0 <= i <= count -> zlen (cf i b) = count - i.
Proof. move=> H. rewrite /zlen /cells_from map_length seq_length. lia. Qed.
Lemma cells_len l : zlen (flat_map cells l) = count * zlen l.
Proof. elim: l => [|b l IH] /=; first by rewrite /zlen /=; lia. rewrite zlen_app IH zlen_cons /Acc_Spec.cells cf_len; lia. Qed.
(** The heap is asked only when the block is used up *)
Lemma economy xs a o : run size count (map Get xs) (create count) = Some (a, o) ->
  freed o = [] /\ zlen (gave o) <= count * zlen (took o) < zlen (gave o) + count.
Proof.
  move=> E. have [a' [o' [E' [W P]]]] := account (map Get xs). rewrite E in E'. case: E' => Ea Eo. subst a' o'.
  have [F C] := gets_ok xs (create count) a o ltac:(rewrite /wf /=; lia) Hc E. split=> //.
  have L := f_equal Z.of_nat (Permutation_length P). rewrite -/(zlen (flat_map cells (took o))) -/(zlen (gave o ++ freed o ++ cf (cur a) (buf a))) in L.
  rewrite cells_len F /= zlen_app cf_len // in L. lia.
Qed.
(** A failure leaves the accelerator as one that needs a block *)
Lemma failed_get a : cur a = count -> forall a' o, get size count None a = (a', o) -> o = [Null] /\ cur a' = count.
Proof. by move=> E a' o; rewrite /get E Z.eqb_refl => -[<- <-]. Qed.
End P.
