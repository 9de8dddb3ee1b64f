From Verif Require Import Lib Mmap_Model Mmap_Spec.
From Coq Require Import Permutation.

Definition r0 := Reg 0 0 0 0.
Fixpoint del (l : list region) (i : nat) : list region :=
  match l, i with [], _ => [] | _ :: l, O => l | y :: l, S i => y :: del l i end.
Lemma upd_perm l : forall i x, (i < length l)%nat -> Permutation (upd l i x) (x :: del l i).
Proof.
  induction l as [|y l IH]; intros i x H; cbn in H; [lia|]. destruct i as [|i]; cbn [upd del]; [reflexivity|].
  rewrite (IH i x) by lia. apply perm_swap.
Qed.
Lemma nth_perm l : forall i, (i < length l)%nat -> Permutation l (nth i l r0 :: del l i).
Proof.
  induction l as [|y l IH]; intros i H; cbn in H; [lia|]. destruct i as [|i]; cbn [nth del]; [reflexivity|].
  rewrite (IH i) at 1 by lia. apply perm_swap.
Qed.
Lemma upd_app_l l1 l2 : forall i x, (i < length l1)%nat -> upd (l1 ++ l2) i x = upd l1 i x ++ l2.
Proof. induction l1 as [|y l1 IH]; intros i x H; cbn in H; [lia|]. destruct i; cbn; [reflexivity|]. rewrite IH by lia. reflexivity. Qed.
Lemma upd_snoc l z x : upd (l ++ [z]) (length l) x = l ++ [x].
Proof. induction l as [|y l IH]; cbn; [reflexivity|]. rewrite IH. reflexivity. Qed.
Lemma del_snoc l z : del (l ++ [z]) (length l) = l.
Proof. induction l as [|y l IH]; cbn; [reflexivity|]. rewrite IH. reflexivity. Qed.
Lemma del_app_l l1 l2 : forall i, (i < length l1)%nat -> del (l1 ++ l2) i = del l1 i ++ l2.
Proof. induction l1 as [|y l1 IH]; intros i H; cbn in H; [lia|]. destruct i; cbn; [reflexivity|]. rewrite IH by lia. reflexivity. Qed.
Lemma swap_perm l i : (i < length l)%nat -> Permutation (swap_remove l i) (del l i).
Proof.
  destruct l as [|z l _] using rev_ind; [cbn; lia|]. intros H. rewrite app_length in H. cbn [length] in H. unfold swap_remove. rewrite last_last.
  destruct (Nat.eq_dec i (length l)) as [->|].
  - rewrite upd_snoc, removelast_last, del_snoc. reflexivity.
  - rewrite upd_app_l by lia. rewrite removelast_last, del_app_l by lia. rewrite upd_perm by lia. apply Permutation_cons_append.
Qed.
Lemma pick2 l : forall i j, i <> j -> (i < length l)%nat -> (j < length l)%nat ->
  exists rest, Permutation (del l i) (nth j l r0 :: rest) /\ Permutation (del l j) (nth i l r0 :: rest).
Proof.
  induction l as [|y l IH]; intros i j N I J; cbn [length] in I, J; [lia|]. destruct i as [|i], j as [|j]; [lia| | |].
  - exists (del l j). cbn [del nth]. split; [apply nth_perm; lia|reflexivity].
  - exists (del l i). cbn [del nth]. split; [reflexivity|apply nth_perm; lia].
  - destruct (IH i j ltac:(lia) ltac:(lia) ltac:(lia)) as (rest & A & B). exists (y :: rest). cbn [del nth]. rewrite A, B. split; apply perm_swap.
Qed.

(** quantities that do not depend on the order *)
Fixpoint total (l : list region) : Z := match l with [] => 0 | r :: l => len r + total l end.
Definition at_ (a : Z) (l : list region) : Z := strictest (fun r => covers r a) l.
Lemma total_perm l l' : Permutation l l' -> total l = total l'.
Proof. induction 1; cbn [total]; lia. Qed.
Lemma strictest_perm sel l l' : Permutation l l' -> strictest sel l = strictest sel l'.
Proof. induction 1; cbn [strictest]; try congruence; [destruct (sel x); lia|destruct (sel x), (sel y); lia]. Qed.
Lemma at_cons a r l : at_ a (r :: l) = if covers r a then Z.max (type r) (at_ a l) else at_ a l.
Proof. reflexivity. Qed.
Lemma forall_perm (Q : region -> Prop) l l' : Permutation l l' -> Forall Q l -> Forall Q l'.
Proof. intros P F. rewrite Forall_forall in *. intros x X. apply F. apply (Permutation_in x (Permutation_sym P) X). Qed.
Lemma len_perm (l l' : list region) : Permutation l l' -> zlen l = zlen l'.
Proof. intros P. unfold zlen. rewrite (Permutation_length P). reflexivity. Qed.
Lemma at_lo a l : -1 <= at_ a l.
Proof. induction l as [|r l IH]; [cbn; lia|]. rewrite at_cons. destruct (covers r a); lia. Qed.

Lemma paged_end r : paged r -> end_of r = addr r + len r.
Proof. intros (A & B & C & _). unfold end_of. apply u64_small. lia. Qed.
(** what one step does *)
Definition step_ok (l l' : list region) : Prop :=
  Forall paged l' /\ (forall a, at_ a l' = at_ a l) /\ total l' < total l /\ total l' + zlen l' <= total l + zlen l - 1.
Lemma step_intro l l' base new old : Permutation l (old ++ base) -> Permutation l' (new ++ base) -> Forall paged l -> Forall paged new ->
  (forall a, at_ a (new ++ base) = at_ a (old ++ base)) -> total new < total old -> total new + zlen new <= total old + zlen old - 1 -> step_ok l l'.
Proof.
  intros P P' F Fn A T M. assert (Ta : forall x y, total (x ++ y) = total x + total y) by (induction x; intros; cbn [total app]; [lia|]; rewrite IHx; lia).
  split; [|split; [|split]].
  - apply (forall_perm paged (new ++ base)); [symmetry; exact P'|]. apply Forall_app. split; [exact Fn|]. apply (forall_perm paged l _ P) in F. apply Forall_app in F. tauto.
  - intros a. unfold at_. rewrite (strictest_perm _ _ _ P), (strictest_perm _ _ _ P'). apply A.
  - rewrite (total_perm _ _ P), (total_perm _ _ P'), !Ta. lia.
  - rewrite (total_perm _ _ P), (total_perm _ _ P'), (len_perm _ _ P), (len_perm _ _ P'), !Ta, !zlen_app. lia.
Qed.
Ltac cov := repeat match goal with H : context [_ mod _] |- _ => clear H end; intros a; unfold app; rewrite !at_cons; unfold covers; cbn [addr len type extra set_len]; match goal with |- context [at_ a ?l] => pose proof (at_lo a l) end;
  repeat match goal with |- context [?x <=? ?y] => destruct (Z.leb_spec x y) | |- context [?x <? ?y] => destruct (Z.ltb_spec x y) end; cbn [andb]; lia.
Ltac tot := cbn [total]; unfold zlen; cbn [length set_len len addr]; lia.
Lemma overlap1_ok l i j r1 r2 base : Permutation l (r1 :: r2 :: base) -> (forall x, Permutation (upd l i x) (x :: r2 :: base)) -> (forall x, Permutation (upd l j x) (r1 :: x :: base)) ->
  Permutation (swap_remove l i) (r2 :: base) -> Permutation (swap_remove l j) (r1 :: base) -> Forall paged l -> addr r1 <= addr r2 ->
  match overlap1 l i j r1 r2 with
  | Same => addr r1 + len r1 <= addr r2
  | Changed l' => step_ok l l'
  | TooMany => True
  end.
Proof.
  intros P Ui Uj Si Sj F Le. pose proof (forall_perm paged _ _ P F) as F'. inversion F' as [|? ? P1 F'']; subst. inversion F'' as [|? ? P2 _]; subst. clear F' F''.
  unfold overlap1. rewrite (paged_end r1 P1), (paged_end r2 P2). pose proof P1 as (A1 & B1 & C1 & D1 & E1 & T1). pose proof P2 as (A2 & B2 & C2 & D2 & E2 & T2).
  set (s1 := addr r1) in *. set (s2 := addr r2) in *. assert (X : exists k, addr r2 - addr r1 = 4096 * k) by (exists (s2 / 4096 - s1 / 4096); fold s1 s2; lia).
  assert (M1 : (s1 + len r1) mod 4096 = 0) by lia. assert (M2 : (s2 + len r2) mod 4096 = 0) by lia. clear X.
  destruct (s1 + len r1 <=? s2) eqn:Q1; [lia|]. destruct (s1 <=? s2) eqn:Q2; [|lia]. cbn [andb]. destruct (s2 + len r2 <=? s1 + len r1) eqn:Q3.
  - destruct (type r2 <=? type r1) eqn:Qt.
    + apply (step_intro l _ base [r1] [r1; r2] P Sj F); [repeat constructor; assumption|cov|tot|tot].
    + destruct ((s1 =? s2) && (s1 + len r1 =? s2 + len r2)) eqn:Q4.
      * apply andb_prop in Q4. apply (step_intro l _ base [r2] [r1; r2] P Si F); [repeat constructor; assumption|cov|tot|tot].
      * destruct (s1 =? s2) eqn:Q5.
        -- rewrite andb_true_l in Q4. rewrite u64_small by lia. apply (step_intro l _ base [Reg (s2 + len r2) (s1 + len r1 - (s2 + len r2)) (type r1) (extra r1); r2] [r1; r2] P (Ui _) F); [|cov|tot|tot].
           repeat constructor; cbn [addr len type]; try assumption; lia.
        -- destruct (s1 + len r1 =? s2 + len r2) eqn:Q6.
           ++ rewrite u64_small by lia. apply (step_intro l _ base [set_len r1 (s2 - s1); r2] [r1; r2] P (Ui _) F); [|cov|tot|tot]. repeat constructor; cbn [addr len type set_len]; fold s1 s2; try assumption; lia.
           ++ unfold append. destruct (MAX_MEM_REGIONS <=? _); [exact Logic.I|]. rewrite !u64_small by lia.
              apply (step_intro l _ base [set_len r1 (s2 - s1); r2; Reg (s2 + len r2) (s1 + len r1 - (s2 + len r2)) (type r1) (extra r1)] [r1; r2] P); [|exact F| |cov|tot|tot].
              ** rewrite (Ui (set_len r1 (s2 - s1))). rewrite <- Permutation_cons_append. cbn [app]. rewrite perm_swap. constructor. rewrite perm_swap. constructor. apply Permutation_refl.
              ** repeat constructor; cbn [addr len type set_len]; fold s1 s2; try assumption; lia.
  - destruct (type r2 <=? type r1) eqn:Qt.
    + rewrite u64_small by lia. apply (step_intro l _ base [r1; Reg (s1 + len r1) (s2 + len r2 - (s1 + len r1)) (type r2) (extra r2)] [r1; r2] P (Uj _) F); [|cov|tot|tot]. repeat constructor; cbn [addr len type]; try assumption; lia.
    + destruct (s1 =? s2) eqn:Q5.
      * apply (step_intro l _ base [r2] [r1; r2] P Si F); [repeat constructor; assumption|cov|tot|tot].
      * rewrite u64_small by lia. apply (step_intro l _ base [set_len r1 (s2 - s1); r2] [r1; r2] P (Ui _) F); [|cov|tot|tot]. repeat constructor; cbn [addr len type set_len]; fold s1 s2; try assumption; lia.
Qed.
Lemma overlap_ok l i j : i <> j -> (i < length l)%nat -> (j < length l)%nat -> Forall paged l ->
  match overlap l i j with
  | Same => addr (nth i l r0) <= addr (nth j l r0) -> addr (nth i l r0) + len (nth i l r0) <= addr (nth j l r0)
  | Changed l' => step_ok l l'
  | TooMany => True
  end.
Proof.
  intros N I J F. destruct (pick2 l i j N I J) as (base & Pi & Pj). unfold overlap. fold r0. set (r1 := nth i l r0) in *. set (r2 := nth j l r0) in *.
  assert (P : Permutation l (r1 :: r2 :: base)) by (rewrite (nth_perm l i I); constructor; exact Pi).
  assert (P' : Permutation l (r2 :: r1 :: base)) by (rewrite P; apply perm_swap).
  assert (Ui : forall x, Permutation (upd l i x) (x :: r2 :: base)) by (intros x; rewrite (upd_perm l i x I), Pi; reflexivity).
  assert (Uj : forall x, Permutation (upd l j x) (x :: r1 :: base)) by (intros x; rewrite (upd_perm l j x J), Pj; reflexivity).
  assert (Si : Permutation (swap_remove l i) (r2 :: base)) by (rewrite (swap_perm l i I); exact Pi).
  assert (Sj : Permutation (swap_remove l j) (r1 :: base)) by (rewrite (swap_perm l j J); exact Pj).
  destruct (addr r2 <? addr r1) eqn:E.
  - pose proof (overlap1_ok l j i r2 r1 base P' Uj ltac:(intros x; rewrite Ui; apply perm_swap) Sj Si F ltac:(lia)) as O. destruct (overlap1 l j i r2 r1); [lia|exact O|exact O].
  - pose proof (overlap1_ok l i j r1 r2 base P Ui ltac:(intros x; rewrite Uj; apply perm_swap) Si Sj F ltac:(lia)) as O. destruct (overlap1 l i j r1 r2); [auto|exact O|exact O].
Qed.

(** sorting *)
Definition le_all (x : region) (l : list region) : Prop := Forall (fun y => addr x <= addr y) l.
Fixpoint sorted (l : list region) : Prop := match l with [] => True | x :: l => le_all x l /\ sorted l end.
Lemma ins_perm x l : Permutation (ins x l) (x :: l).
Proof. induction l as [|y l IH]; cbn [ins]; [reflexivity|]. destruct (addr x <? addr y); [reflexivity|]. rewrite IH. apply perm_swap. Qed.
Lemma ins_sorted x l : sorted l -> sorted (ins x l).
Proof.
  induction l as [|y l IH]; cbn [ins sorted]; [intros _; split; [constructor|exact Logic.I]|]. intros [A B]. destruct (addr x <? addr y) eqn:E.
  - cbn [sorted]. split; [|split; assumption]. constructor; [lia|]. apply (Forall_impl _ (P := fun z => addr y <= addr z)); [intros; lia|exact A].
  - cbn [sorted]. split; [|apply IH, B]. apply (forall_perm _ (x :: l)); [symmetry; apply ins_perm|]. constructor; [lia|exact A].
Qed.
Lemma sort_gen l : forall acc, sorted acc -> sorted (fold_left (fun acc x => ins x acc) l acc) /\ Permutation (fold_left (fun acc x => ins x acc) l acc) (l ++ acc).
Proof.
  induction l as [|x l IH]; intros acc S; cbn [fold_left app]; [split; [exact S|reflexivity]|]. destruct (IH (ins x acc) (ins_sorted x acc S)) as [A B]. split; [exact A|]. rewrite B, (ins_perm x acc). symmetry. apply Permutation_middle.
Qed.
Lemma sort_ok l : sorted (sort l) /\ Permutation (sort l) l.
Proof. destruct (sort_gen l [] Logic.I) as [A B]. split; [exact A|]. unfold sort. rewrite B, app_nil_r. reflexivity. Qed.
Lemma ins_last x l : Forall (fun y => addr y <= addr x) l -> ins x l = l ++ [x].
Proof. induction 1 as [|y l A B IH]; cbn [ins app]; [reflexivity|]. destruct (addr x <? addr y) eqn:E; [lia|]. rewrite IH. reflexivity. Qed.
Lemma sort_id l : sorted l -> sort l = l.
Proof.
  intros S. unfold sort. assert (H : forall l acc, sorted (acc ++ l) -> fold_left (fun acc x => ins x acc) l acc = acc ++ l).
  { clear. induction l as [|x l IH]; intros acc S; cbn [fold_left]; [rewrite app_nil_r; reflexivity|]. rewrite ins_last.
    - rewrite IH; rewrite <- app_assoc; [reflexivity|exact S].
    - clear IH. induction acc as [|y acc IH]; [constructor|]. cbn in S. destruct S as [A B]. constructor; [|apply IH, B]. unfold le_all in A. rewrite Forall_forall in A. apply A. apply in_or_app. right. left. reflexivity. }
  apply (H l []). exact S.
Qed.
Lemma sorted_nth l : sorted l -> forall i, (S i < length l)%nat -> addr (nth i l r0) <= addr (nth (S i) l r0).
Proof.
  induction l as [|x l IH]; intros S i I; cbn [length] in I; [lia|]. destruct S as [A B]. destruct i as [|i].
  - cbn [nth]. destruct l as [|y l]; [cbn in I; lia|]. inversion A. assumption.
  - change (addr (nth i l r0) <= addr (nth (Datatypes.S i) l r0)). apply IH; [exact B|lia].
Qed.

(** merging *)
Lemma merge_ok l : forall ma, Forall paged (ma :: l) -> sorted (ma :: l) ->
  Forall paged (merge ma l) /\ sorted (merge ma l) /\ (forall a, at_ a (merge ma l) = at_ a (ma :: l)) /\ total (merge ma l) = total (ma :: l) /\ Forall (fun y => addr ma <= addr y) (merge ma l).
Proof.
  induction l as [|n l IH]; intros ma F S; cbn [merge].
  - split; [exact F|]. split; [exact S|]. split; [reflexivity|]. split; [reflexivity|]. constructor; [lia|constructor].
  - inversion F as [|? ? Pm F']; subst. inversion F' as [|? ? Pn F'']; subst. destruct S as [A [B C]]. inversion A as [|? ? A1 A2]; subst. destruct (mergeable ma n) eqn:Mg.
    + unfold mergeable in Mg. rewrite (paged_end ma Pm) in Mg. apply andb_prop in Mg. destruct Mg as [Mg M3]. apply andb_prop in Mg. destruct Mg as [M1 M2].
      pose proof Pm as (X1 & X2 & X3 & X4 & X5 & X6). pose proof Pn as (Y1 & Y2 & Y3 & Y4 & Y5 & Y6). rewrite u64_small by lia. set (j := set_len ma (len ma + len n)).
      assert (Pj : paged j) by (unfold j, paged; cbn [addr len type set_len]; repeat split; try assumption; lia).
      destruct (IH j) as (I1 & I2 & I3 & I4 & I5); [constructor; assumption|split; [|exact C]; exact A2|]. split; [exact I1|]. split; [exact I2|]. split; [|split; [rewrite I4; unfold j; cbn [total set_len len]; lia|exact I5]].
      intros a. rewrite I3. unfold j. revert a. cov.
    + destruct (IH n F') as (I1 & I2 & I3 & I4 & I5); [split; assumption|]. split; [constructor; assumption|]. split; [split; [|exact I2]|].
      * apply (Forall_impl _ (P := fun y => addr n <= addr y)); [intros; lia|exact I5].
      * split; [intros a; rewrite !(at_cons a ma), I3; reflexivity|]. split; [cbn [total]; rewrite I4; reflexivity|]. constructor; [lia|]. apply (Forall_impl _ (P := fun y => addr n <= addr y)); [intros; lia|exact I5].
Qed.
Lemma merge_adj_ok l : Forall paged l -> sorted l -> Forall paged (merge_adj l) /\ sorted (merge_adj l) /\ (forall a, at_ a (merge_adj l) = at_ a l).
Proof. destruct l as [|ma l]; intros F S; cbn [merge_adj]; [auto|]. destruct (merge_ok l ma F S) as (A & B & C & _). auto. Qed.

(** the loops *)
Lemma total_nonneg l : Forall paged l -> 0 <= total l.
Proof. induction 1 as [|r l P F IH]; cbn [total]; [lia|]. destruct P as (_ & P & _). lia. Qed.
Lemma pass_ok fuel : forall i l any, Forall paged l -> (Z.to_nat (total l + zlen l - Z.of_nat i) < fuel)%nat ->
  match pass fuel i l any with
  | None => False
  | Some None => True
  | Some (Some (l', any')) =>
      Forall paged l' /\ (forall a, at_ a l' = at_ a l) /\ (any' = false -> l' = l /\ any = false /\ forall k, (i <= k)%nat -> (S k < length l)%nat -> overlap l k (S k) = Same) /\ total l' <= total l /\ (any' = true -> any = false -> total l' < total l)
  end.
Proof.
  induction fuel as [|fuel IH]; intros i l any F Fu; [lia|]. cbn [pass]. destruct (S i <? length l)%nat eqn:E.
  - apply Nat.ltb_lt in E. pose proof (overlap_ok l i (S i) ltac:(lia) ltac:(lia) E F) as O. pose proof (total_nonneg l F). destruct (overlap l i (S i)) as [|l'|] eqn:Eo; [| |exact Logic.I].
    + specialize (IH (S i) l any F ltac:(unfold zlen in *; lia)). destruct (pass fuel (S i) l any) as [[[l' any']|]|]; auto. destruct IH as (I1 & I2 & I3 & I4 & I5). split; [exact I1|]. split; [exact I2|]. split; [|auto].
      intros Ha. destruct (I3 Ha) as (J1 & J2 & J3). split; [exact J1|]. split; [exact J2|]. intros k K Kl. destruct (Nat.eq_dec k i) as [->|]; [exact Eo|]. apply J3; lia.
    + destruct O as (O1 & O2 & O3 & O4). pose proof (total_nonneg l' O1). specialize (IH (S i) l' true O1 ltac:(unfold zlen in *; lia)). destruct (pass fuel (S i) l' true) as [[[l'' any']|]|]; auto. destruct IH as (I1 & I2 & I3 & I4 & I5).
      split; [exact I1|]. split; [intros a; rewrite I2; apply O2|]. split; [intros Ha; destruct (I3 Ha) as (_ & ? & _); discriminate|]. split; [lia|]. intros _ _. lia.
  - apply Nat.ltb_ge in E. split; [exact F|]. split; [reflexivity|]. split; [|split; [lia|congruence]]. intros ->. split; [reflexivity|]. split; [reflexivity|]. intros k K Kl. lia.
Qed.
Lemma separate_intro l : (forall k, (S k < length l)%nat -> addr (nth k l r0) + len (nth k l r0) <= addr (nth (S k) l r0)) -> separate l.
Proof.
  induction l as [|a l IH]; intros H; [exact Logic.I|]. destruct l as [|b l]; [exact Logic.I|]. split; [apply (H O); cbn; lia|]. apply IH. intros k K. apply (H (S k)). cbn [length] in K |- *. lia.
Qed.
Definition good (l l' : list region) : Prop := separate l' /\ Forall paged l' /\ forall a, at_ a l' = at_ a l.
(** the second loop ends; [n] bounds its rounds, [m] the lengths met in them *)
Lemma overlaps_ok n : forall l, Forall paged l -> sorted l -> (Z.to_nat (total l) < n)%nat -> zlen l <= 512 ->
  exists N, forall fuel, (N <= fuel)%nat -> handle_overlaps fuel l = Panic \/ exists l', handle_overlaps fuel l = Done l' /\ good l l' /\ zlen l' <= 512.
Proof.
  assert (Cap : forall fuel i l any, zlen l <= 512 -> match pass fuel i l any with Some (Some (l', _)) => zlen l' <= 512 | _ => True end).
  { induction fuel as [|fuel IH]; intros i l any L; cbn [pass]; [exact Logic.I|]. destruct (S i <? length l)%nat eqn:E; [|exact L]. apply Nat.ltb_lt in E.
    assert (O : match overlap l i (S i) with Changed l' => zlen l' <= 512 | _ => True end).
    { assert (Ul : forall l k x, length (upd l k x) = length l) by (induction l0; intros [|k] x; cbn; auto).
      assert (Sl : forall k, (k < length l)%nat -> zlen (swap_remove l k) <= 512) by (intros k K; rewrite (len_perm _ _ (swap_perm l k K)); pose proof (len_perm _ _ (nth_perm l k K)) as X; rewrite zlen_cons in X; lia).
      assert (O1 : forall a b r1 r2, (a < length l)%nat -> (b < length l)%nat -> match overlap1 l a b r1 r2 with Changed l' => zlen l' <= 512 | _ => True end).
      { intros a b r1 r2 A B. unfold overlap1. repeat match goal with |- context [if ?c then _ else _] => destruct c end; auto; try (unfold zlen; rewrite Ul; exact L). unfold append, MAX_MEM_REGIONS. match goal with |- context [if ?c then _ else _] => destruct c eqn:Q end; auto. rewrite zlen_app. change (zlen [_]) with 1. lia. }
      unfold overlap. destruct (_ <? _); apply O1; lia. }
    destruct (overlap l i (S i)); auto; apply IH; assumption. }
  induction n as [|n IH]; intros l F S T Cp; [lia|]. set (P := Datatypes.S (Z.to_nat (total l + zlen l))).
  (* a larger fuel for the pass does not matter *)
  assert (Mono : forall f f' i l any, (f <= f')%nat -> pass f i l any <> None -> pass f' i l any = pass f i l any).
  { clear. induction f as [|f IH]; intros f' i l any Lf H; [cbn in H; congruence|]. destruct f' as [|f']; [lia|]. cbn [pass] in *. destruct (S i <? length l)%nat; [|reflexivity]. destruct (overlap l i (S i)); [| |reflexivity]; apply IH; auto; lia. }
  pose proof (pass_ok P 0 l false F ltac:(unfold P; lia)) as K. pose proof (Cap P O l false Cp) as Cq. destruct (pass P 0 l false) as [[[l' any]|]|] eqn:E; [| |contradiction].
  - destruct K as (K1 & K2 & K3 & K4 & K5). destruct any.
    + destruct (sort_ok l') as [Ss Sp]. assert (F' : Forall paged (sort l')) by (apply (forall_perm paged l'); [symmetry; exact Sp|exact K1]).
      destruct (IH (sort l') F' Ss) as (N & HN); [rewrite (total_perm _ _ Sp); pose proof (total_nonneg l' K1); specialize (K5 eq_refl eq_refl); lia|rewrite (len_perm _ _ Sp); exact Cq|].
      exists (Datatypes.S (Nat.max N P)). intros fuel Hf. destruct fuel as [|fuel]; [lia|]. cbn [handle_overlaps]. rewrite (Mono P) by (try lia; rewrite E; discriminate). rewrite E.
      destruct (HN fuel ltac:(lia)) as [H|(l'' & H & (G1 & G2 & G3) & G4)]; [left; exact H|]. right. exists l''. split; [exact H|]. split; [|exact G4]. split; [exact G1|]. split; [exact G2|]. intros a. rewrite G3, <- (K2 a). unfold at_. apply strictest_perm, Sp.
    + destruct (K3 eq_refl) as (-> & _ & Ov). exists P. intros fuel Hf. destruct fuel as [|fuel]; [unfold P in Hf; lia|]. cbn [handle_overlaps]. rewrite (Mono P) by (try lia; rewrite E; discriminate). rewrite E. right. rewrite (sort_id l S). exists l. split; [reflexivity|]. split; [|exact Cp].
      split; [|split; [exact F|reflexivity]]. apply separate_intro. intros k Kl. pose proof (overlap_ok l k (Datatypes.S k) ltac:(lia) ltac:(lia) Kl F) as O. rewrite (Ov k ltac:(lia) Kl) in O. apply O, sorted_nth; assumption.
  - exists P. intros fuel Hf. destruct fuel as [|fuel]; [unfold P in Hf; lia|]. cbn [handle_overlaps]. rewrite (Mono P) by (try lia; rewrite E; discriminate). rewrite E. left. reflexivity.
Qed.

(** alignment *)
Lemma align_ok r : sane r -> paged (align r) /\ type (align r) = type r /\ forall a, covers (align r) a = touches r a.
Proof.
  intros (A & B & C & D). unfold align. assert (E : end_of r = addr r + len r) by (apply u64_small; lia). rewrite E. rewrite (u64_small (addr r + len r + 4095)) by lia. rewrite u64_small by lia.
  split; [|split; [reflexivity|]].
  - unfold paged. cbn [addr len type]. lia.
  - intros a. unfold covers, touches. cbn [addr len type]. destruct (addr r / 4096 * 4096 <=? a) eqn:Q1, (addr r <? a / 4096 * 4096 + 4096) eqn:Q2; try lia;
    cbn [andb]; try reflexivity.
Qed.
Lemma align_at l a : Forall sane l -> at_ a (map align l) = strictest (fun r => touches r a) l.
Proof. induction 1 as [|r l S F IH]; cbn [map]; [reflexivity|]. destruct (align_ok r S) as (_ & T & C). rewrite at_cons. cbn [strictest]. rewrite C, T, IH. reflexivity. Qed.
Lemma merge_len l : forall ma, zlen (merge ma l) <= 1 + zlen l.
Proof. induction l as [|n l IH]; intros ma; cbn [merge]; [reflexivity|]. rewrite (zlen_cons _ n l) || rewrite zlen_cons. destruct (mergeable ma n); [specialize (IH (set_len ma (u64 (len ma + len n)))); lia|]. rewrite zlen_cons. specialize (IH n). lia. Qed.
Lemma fix_ok l : Forall sane l -> zlen l <= 512 -> exists N, forall fuel, (N <= fuel)%nat -> fix_mem_regions fuel l = Panic \/
  exists l', fix_mem_regions fuel l = Done l' /\ separate l' /\ Forall paged l' /\ zlen l' <= 512 /\ forall a, strictest (fun r => covers r a) l' = strictest (fun r => touches r a) l.
Proof.
  intros F L. unfold fix_mem_regions. destruct (sort_ok (map align l)) as [Ss Sp]. assert (F1 : Forall paged (map align l)) by (clear - F; induction F as [|r l S F IH]; constructor; [apply align_ok, S|exact IH]).
  assert (F2 : Forall paged (sort (map align l))) by (apply (forall_perm paged (map align l)); [symmetry; exact Sp|exact F1]). destruct (merge_adj_ok _ F2 Ss) as (M1 & M2 & M3).
  assert (L2 : zlen (merge_adj (sort (map align l))) <= 512). { assert (X : zlen (sort (map align l)) = zlen l) by (rewrite (len_perm _ _ Sp); apply zlen_map). destruct (sort (map align l)) as [|x s]; cbn [merge_adj]; [change (zlen []) with 0; lia|]. rewrite zlen_cons in X. pose proof (merge_len s x). lia. }
  destruct (overlaps_ok (S (Z.to_nat (total (merge_adj (sort (map align l)))))) _ M1 M2 ltac:(lia) L2) as (N & HN). exists N. intros fuel Hf. destruct (HN fuel Hf) as [H|(l' & H & (G1 & G2 & G3) & G4)]; [left; exact H|]. right. exists l'. split; [exact H|]. split; [exact G1|]. split; [exact G2|]. split; [exact G4|].
  intros a. change (at_ a l' = strictest (fun r => touches r a) l). rewrite G3, M3, <- (align_at l a F). unfold at_. apply strictest_perm, Sp.
Qed.

(** lookups *)
Lemma region_of_gen l : forall i a, Forall paged l -> i <= region_of l i a < i + zlen l /\ covers (nth (Z.to_nat (region_of l i a - i)) l r0) a = true \/ region_of l i a = -1 /\ Forall (fun r => covers r a = false) l.
Proof.
  induction l as [|m l IH]; intros i a F; cbn [region_of]; [right; split; [reflexivity|constructor]|]. inversion F as [|? ? Pm F']; subst. rewrite (paged_end m Pm). change ((addr m <=? a) && (a <? addr m + len m)) with (covers m a). rewrite zlen_cons. pose proof (zlen_nonneg l). destruct (covers m a) eqn:E.
  - left. split; [lia|]. rewrite Z.sub_diag. exact E.
  - destruct (IH (i + 1) a F') as [[A B]|[A B]]; [left|right; split; [exact A|constructor; assumption]]. split; [lia|]. replace (Z.to_nat (region_of l (i + 1) a - i)) with (S (Z.to_nat (region_of l (i + 1) a - (i + 1)))) by lia. exact B.
Qed.
Lemma region_of_ok l a : Forall paged l ->
  (0 <= region_of l 0 a < zlen l /\ covers (nth (Z.to_nat (region_of l 0 a)) l r0) a = true) \/ (region_of l 0 a = -1 /\ strictest (fun r => covers r a) l = -1).
Proof.
  intros F. destruct (region_of_gen l 0 a F) as [[A B]|[A B]]; [left|right].
  - rewrite Z.sub_0_r in B. split; [lia|exact B].
  - split; [exact A|]. clear A F. induction B as [|r l E B IH]; [reflexivity|]. cbn [strictest]. rewrite E. exact IH.
Qed.
Lemma separate_le l : forall x, Forall paged (x :: l) -> separate (x :: l) -> Forall (fun y => addr x + len x <= addr y) l.
Proof.
  induction l as [|y l IH]; intros x F S; [constructor|]. destruct S as [A B]. inversion F as [|? ? Px F']; subst. constructor; [exact A|]. inversion F' as [|? ? Py F'']; subst. destruct Py as (_ & P & _). apply (Forall_impl _ (P := fun z => addr y + len y <= addr z)); [intros; lia|]. apply IH; assumption.
Qed.
Lemma separate_unique l : forall i j a, Forall paged l -> separate l -> (i < length l)%nat -> (j < length l)%nat -> covers (nth i l r0) a = true -> covers (nth j l r0) a = true -> i = j.
Proof.
  induction l as [|x l IH]; intros i j a F S I J Ci Cj; cbn [length] in I, J; [lia|]. pose proof (separate_le l x F S) as D. rewrite Forall_forall in D. cbv beta in D. inversion F as [|? ? Px F']; subst.
  assert (S' : separate l) by (destruct l; [exact Logic.I|destruct S; assumption]).
  destruct i as [|i], j as [|j]; [reflexivity| | |f_equal; apply (IH i j a); auto; lia]; exfalso; cbn [nth] in Ci, Cj; unfold covers in Ci, Cj; apply andb_prop in Ci, Cj.
  - specialize (D (nth j l r0) (@nth_In _ j l r0 ltac:(lia))). lia.
  - specialize (D (nth i l r0) (@nth_In _ i l r0 ltac:(lia))). lia.
Qed.
Lemma separate_type l i a : Forall paged l -> separate l -> (i < length l)%nat -> covers (nth i l r0) a = true -> strictest (fun r => covers r a) l = type (nth i l r0).
Proof.
  intros F S I C. pose proof (nth_perm l i I) as P. rewrite (strictest_perm _ _ _ P). cbn [strictest]. rewrite C.
  assert (N : strictest (fun r => covers r a) (del l i) = -1).
  { assert (X : forall y, In y (del l i) -> covers y a = false).
    { intros y Y. destruct (covers y a) eqn:E; [exfalso|reflexivity].
      assert (G : exists j, (j < length l)%nat /\ j <> i /\ nth j l r0 = y).
      { clear - Y I. revert i Y I. induction l as [|x l IH]; intros i Y I; cbn [length] in I; [lia|]. destruct i as [|i]; cbn [del] in Y.
        - destruct (In_nth l y r0 Y) as (j & J & K). exists (S j). cbn [length nth]. split; [lia|]. split; [discriminate|exact K].
        - destruct Y as [->|Y]; [exists O; cbn; split; [lia|]; split; [discriminate|reflexivity]|]. destruct (IH i Y ltac:(lia)) as (j & J1 & J2 & J3). exists (S j). cbn [length nth]. split; [lia|]. split; [congruence|exact J3]. }
      destruct G as (j & J1 & J2 & J3). apply J2. apply (separate_unique l j i a F S J1 I); [rewrite J3; exact E|exact C]. }
    clear - X. induction (del l i) as [|y d IH]; [reflexivity|]. cbn [strictest]. rewrite (X y) by (left; reflexivity). apply IH. intros z Z. apply X. right. exact Z. }
  rewrite N. pose proof F as T. rewrite Forall_forall in T. specialize (T (nth i l r0) (nth_In l r0 I)). destruct T as (_ & _ & _ & _ & _ & T). lia.
Qed.

(** what goes wrong *)
(** an empty region of a stricter type at the start of another: no number of rounds suffices *)
Lemma empty_loops : forall fuel, fix_mem_regions fuel [Reg 4096 4096 1 0; Reg 4096 0 2 0] = NoFuel.
Proof.
  intros fuel. unfold fix_mem_regions. set (l := merge_adj _). vm_compute in l. subst l. induction fuel as [|fuel IH]; [reflexivity|].
  cbn [handle_overlaps]. destruct fuel as [|fuel]; [reflexivity|]. replace (pass (S (S fuel)) 0 [Reg 4096 4096 1 0; Reg 4096 0 2 0] false) with (Some (Some ([Reg 4096 4096 1 0; Reg 4096 0 2 0], true))) by (destruct fuel; reflexivity). exact IH.
Qed.
Lemma top_overlaps : forall fuel, (2 <= fuel)%nat -> exists l, fix_mem_regions fuel [Reg (2 ^ 64 - 8192) 8192 1 0; Reg (2 ^ 64 - 4096) 4096 2 0] = Done l /\ ~ separate l.
Proof.
  intros fuel H. destruct fuel as [|[|fuel]]; [lia|lia|]. exists [Reg (2 ^ 64 - 8192) 8192 1 0; Reg (2 ^ 64 - 4096) 4096 2 0]. split; [|intros [A _]; cbn in A; lia].
  unfold fix_mem_regions. set (l := merge_adj _). vm_compute in l. subst l. cbn [handle_overlaps]. destruct fuel; reflexivity.
Qed.

(** ** The limits of the available memory *)
Lemma first_avail_spec : forall l m, first_avail l = Some m -> exists l1 l2, l = l1 ++ m :: l2 /\ type m = 1 /\ Forall (fun r => type r <> 1) l1.
Proof.
  induction l as [|x l IH]; cbn; intros m H; [discriminate|]. destruct (type x =? 1) eqn:T.
  - inversion H; subst. exists [], l. repeat split; auto. lia.
  - destruct (IH m H) as (l1 & l2 & -> & ? & ?). exists (x :: l1), l2. repeat split; auto. constructor; auto. lia.
Qed.
Lemma first_avail_none : forall l, first_avail l = None -> Forall (fun r => type r <> 1) l.
Proof. induction l as [|x l IH]; cbn; intros H; constructor; destruct (type x =? 1) eqn:T; try discriminate; auto. lia. Qed.
Lemma separate_tail : forall a l, separate (a :: l) -> separate l.
Proof. intros a [|b l]; cbn; tauto. Qed.
Lemma separate_order : forall l1 m l2, separate (l1 ++ m :: l2) -> Forall paged (l1 ++ m :: l2) ->
  Forall (fun r => addr r + len r <= addr m) l1 /\ Forall (fun r => addr m + len m <= addr r) l2.
Proof.
  assert (A : forall l m, separate (m :: l) -> Forall paged (m :: l) -> Forall (fun r => addr m + len m <= addr r) l).
  { induction l as [|b l IH]; intros m S0 P; constructor.
    - cbn in S0. tauto.
    - assert (Forall (fun r => addr b + len b <= addr r) l) as F by (apply IH; [eapply separate_tail; eauto | inversion P; auto]).
      assert (addr m + len m <= addr b) by (cbn in S0; tauto). inversion P; subst. inversion H3; subst. destruct H4 as (? & ? & _).
      eapply Forall_impl; [|exact F]. cbn. intros. lia. }
  induction l1 as [|x l1 IH]; intros m l2 S0 P; cbn in *.
  - split; auto.
  - destruct (IH m l2) as [F1 F2]; [eapply separate_tail; eauto | inversion P; auto|]. split; auto. constructor; auto.
    pose proof (A _ _ S0 P) as F. rewrite Forall_forall in F. apply F. apply in_app_iff. right. left. reflexivity.
Qed.
Lemma limits : forall l, Forall paged l -> separate l -> Forall (fun r => addr r + len r < 2 ^ 42) l -> (exists r, In r l /\ type r = 1) ->
  (forall r a, In r l -> type r = 1 -> covers r a = true -> lower_kb l * 1024 <= a < upper_kb l * 1024) /\
  (exists r, In r l /\ type r = 1 /\ addr r = lower_kb l * 1024) /\ (exists r, In r l /\ type r = 1 /\ addr r + len r = upper_kb l * 1024).
Proof.
  intros l P S0 B (r0 & I0 & T0). unfold lower_kb, upper_kb.
  destruct (first_avail l) as [m|] eqn:F.
  2: { apply first_avail_none in F. rewrite Forall_forall in F. exfalso. eapply F; eauto. }
  destruct (first_avail (rev l)) as [w|] eqn:W.
  2: { apply first_avail_none in W. rewrite Forall_forall in W. exfalso. apply (W r0); auto. apply -> in_rev. exact I0. }
  destruct (first_avail_spec _ _ F) as (l1 & l2 & E & Tm & N1). destruct (first_avail_spec _ _ W) as (k2 & k1 & E' & Tw & N2).
  assert (E2 : l = rev k1 ++ w :: rev k2).
  { rewrite <- (rev_involutive l), E'. rewrite rev_app_distr. cbn. rewrite <- app_assoc. reflexivity. }
  assert (Im : In m l) by (rewrite E; apply in_app_iff; right; left; auto). assert (Iw : In w l) by (rewrite E2; apply in_app_iff; right; left; auto).
  pose proof P as P0. pose proof B as B0. rewrite Forall_forall in P0, B0.
  destruct (P0 m Im) as (M1 & M2 & M3 & M4 & M5 & _). destruct (P0 w Iw) as (W1 & W2 & W3 & W4 & W5 & _). pose proof (B0 m Im). pose proof (B0 w Iw).
  assert (Q1 : u32 (addr m / 1024) * 1024 = addr m).
  { rewrite u32_small by (split; [apply Z.div_pos; lia | apply Z.div_lt_upper_bound; lia]).
    pose proof (Z.div_mod (addr m) 4096 ltac:(lia)). pose proof (Z.div_mod (addr m) 1024 ltac:(lia)). assert (addr m mod 1024 = 0); [|lia].
    rewrite H1, M4. rewrite Z.add_0_r. replace (4096 * (addr m / 4096)) with ((4 * (addr m / 4096)) * 1024) by lia. apply Z.mod_mul. lia. }
  assert (Q2 : u32 (end_of w / 1024) * 1024 = addr w + len w).
  { unfold end_of. rewrite u64_small by lia. rewrite u32_small by (split; [apply Z.div_pos; lia | apply Z.div_lt_upper_bound; lia]).
    pose proof (Z.div_mod (addr w) 4096 ltac:(lia)). pose proof (Z.div_mod (len w) 4096 ltac:(lia)).
    replace (addr w + len w) with ((4 * (addr w / 4096 + len w / 4096)) * 1024) at 1 by lia. rewrite Z.div_mul by lia. lia. }
  split; [|split; [exists m; auto | exists w; auto]].
  intros r a I T C. unfold covers in C. rewrite Q1, Q2.
  destruct (separate_order l1 m l2) as [_ G2]; [rewrite <- E; auto | rewrite <- E; auto|].
  destruct (separate_order (rev k1) w (rev k2)) as [G3 _]; [rewrite <- E2; auto | rewrite <- E2; auto|].
  rewrite Forall_forall in G2, G3, N1, N2. split.
  - rewrite E in I. apply in_app_iff in I. destruct I as [I|[<-|I]]; [exfalso; eapply N1; eauto | lia | specialize (G2 r I); lia].
  - rewrite E2 in I. apply in_app_iff in I. destruct I as [I|[<-|I]]; [specialize (G3 r I); pose proof (P0 r); destruct (P0 r) as (? & ? & _); [rewrite E2; apply in_app_iff; auto|lia] | lia | exfalso; apply (N2 r); auto; apply in_rev; auto].
Qed.
