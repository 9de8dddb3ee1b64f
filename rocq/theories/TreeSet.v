(** The AVL tree of Avl_Model.v holding objects whose keys are fields that change
    while the object is outside the tree: a set ordered by (field, tie-breaker).
    Facts used by the timer and scheduler models. *)
From Verif Require Import Lib Avl_Model Avl_Spec Avl_Proofs.
From Coq Require Import Sorted Permutation.

(** Lexicographic order of pairs *)
Definition lex (a b : Z * Z) : Z :=
  if negb (fst a =? fst b) then (if fst a <? fst b then -1 else 1)
  else if negb (snd a =? snd b) then (if snd a <? snd b then -1 else 1) else 0.

Definition fkey (v : Z -> Z) (x : Z) : Z * Z := (v x, x).

Lemma lex_good : good_cmp lex.
Proof.
  split.
  - intros [a b]. unfold lex. cbn. rewrite !Z.eqb_refl. reflexivity.
  - intros [a b] [c d]. unfold lex. cbn. rewrite (Z.eqb_sym c a), (Z.eqb_sym d b).
    destruct (a =? c) eqn:E1; cbn; [destruct (b =? d) eqn:E2; cbn|]; [reflexivity| |];
      [apply Z.eqb_neq in E2; destruct (b <? d) eqn:L1, (d <? b) eqn:L2|apply Z.eqb_neq in E1; destruct (a <? c) eqn:L1, (c <? a) eqn:L2];
      try reflexivity; exfalso; lia.
  - intros [a b] [c d] [e f]. unfold lex. cbn.
    destruct (a =? c) eqn:E1; cbn; destruct (c =? e) eqn:E2; cbn; destruct (a =? e) eqn:E3; cbn;
      repeat match goal with H : (_ =? _) = true |- _ => apply Z.eqb_eq in H | H : (_ =? _) = false |- _ => apply Z.eqb_neq in H end; subst; try lia;
      repeat match goal with |- context [if ?c then _ else _] => destruct c eqn:? end; lia.
Qed.
Lemma lex_le a b : lex a b <= 0 <-> (fst a < fst b \/ fst a = fst b /\ snd a <= snd b).
Proof.
  unfold lex. destruct (fst a =? fst b) eqn:E1; cbn; [destruct (snd a =? snd b) eqn:E2; cbn; [|destruct (snd a <? snd b) eqn:E3]|destruct (fst a <? fst b) eqn:E3]; lia.
Qed.
Lemma lex_eq0 v x y : lex (fkey v x) (fkey v y) = 0 -> x = y.
Proof.
  unfold lex, fkey. cbn. destruct (v x =? v y); cbn; [|destruct (v x <? v y); discriminate]. destruct (x =? y) eqn:E; cbn; [lia|destruct (x <? y); discriminate].
Qed.

(** Well-formed as ordered by field [v] *)
Definition tset (v : Z -> Z) (t : @tree Z) : Prop := wf (fkey v) lex t.

Lemma tset_empty v : tset v E.
Proof. split; [exact Logic.I|constructor]. Qed.

Lemma tset_ext v v' t : (forall x, In x (inorder t) -> v x = v' x) -> tset v t -> tset v' t.
Proof.
  intros H [A B]. split; [exact A|]. clear A. revert H B. generalize (inorder t). induction l as [|x l IH]; intros H B; [constructor|].
  apply StronglySorted_inv in B. destruct B as [B1 B2]. constructor.
  - apply IH; [intros y Hy; apply H; right; exact Hy|exact B1].
  - rewrite Forall_forall in *. intros y Hy. specialize (B2 y Hy). unfold fkey in *. rewrite <- (H x), <- (H y) by (simpl; auto). exact B2.
Qed.

Lemma tset_nodup v t : tset v t -> NoDup (inorder t).
Proof. intros [_ B]. apply (inc_keys_distinct (fkey v) lex lex_good) in B. apply B. Qed.

Lemma tset_insert v t x : tset v t -> ~ In x (inorder t) -> zlen (inorder t) <= 5702885 ->
  exists t', insert (fkey v) lex t x = Some (t', true) /\ tset v t' /\ Permutation (inorder t') (x :: inorder t).
Proof.
  intros W N L.
  destruct (insert_ok (fkey v) lex lex_good t x W (avl_height_30 t (proj1 W) L)) as (t2 & b & E2 & W2 & H).
  exists t2. destruct H as [(_ & _ & X)|(-> & _ & p & q & Ep & Eq)].
  - exfalso. apply existsb_exists in X. destruct X as (y & Hy & S). unfold same in S. apply Z.eqb_eq, lex_eq0 in S. subst y. contradiction.
  - split; [exact E2|]. split; [exact W2|]. rewrite Eq, Ep. symmetry. apply Permutation_middle.
Qed.

Lemma tset_remove v t x : tset v t -> In x (inorder t) -> zlen (inorder t) <= 5702885 ->
  exists t', remove (fkey v) lex t (fkey v x) = Some (t', Some x) /\ tset v t' /\ Permutation (inorder t) (x :: inorder t').
Proof.
  intros W I L. destruct (remove_ok (fkey v) lex lex_good t (fkey v x) W (avl_height_30 t (proj1 W) L)) as (t' & ob & E1 & W' & E2 & E3).
  assert (S : forall y, same (fkey v) lex (fkey v x) y = (y =? x)).
  { intros y. unfold same. destruct (y =? x) eqn:Q.
    - apply Z.eqb_eq in Q. subst y. apply Z.eqb_eq. apply (gc_refl _ lex_good).
    - apply Z.eqb_neq in Q. apply Z.eqb_neq. intros X. apply lex_eq0 in X. contradiction. }
  exists t'. assert (ob = Some x).
  { rewrite E2. clear - I S. induction (inorder t) as [|y l IH]; [destruct I|]. cbn [List.find]. rewrite S. destruct (y =? x) eqn:Q; [f_equal; lia|].
    apply IH. destruct I as [->|I]; [rewrite Z.eqb_refl in Q; discriminate|exact I]. }
  subst ob. rewrite H in E1. split; [exact E1|]. split; [exact W'|]. rewrite E3. pose proof (tset_nodup v t W) as ND. clear - I S ND.
  induction (inorder t) as [|y l IH]; [destruct I|]. apply NoDup_cons_iff in ND. destruct ND as [N1 N2]. cbn [filter]. rewrite S.
  destruct (y =? x) eqn:Q; cbn [negb].
  - apply Z.eqb_eq in Q. subst y. constructor. clear IH I N2. induction l as [|z l IH]; [constructor|]. cbn [filter]. rewrite S.
    replace (z =? x) with false; [constructor; apply IH; intros X; apply N1; right; exact X|]. symmetry. apply Z.eqb_neq. intros ->. apply N1. left. reflexivity.
  - apply Z.eqb_neq in Q. destruct I as [->|I]; [contradiction|]. rewrite perm_swap. constructor. apply IH; assumption.
Qed.

Lemma tset_first v t : tset v t ->
  match get_first t with
  | None => inorder t = []
  | Some m => In m (inorder t) /\ forall y, In y (inorder t) -> v m < v y \/ v m = v y /\ m <= y
  end.
Proof.
  intros [A B]. rewrite get_first_ok. destruct (inorder t) as [|m l]; [reflexivity|]. cbn [hd_error]. split; [left; reflexivity|].
  apply StronglySorted_inv in B. destruct B as [_ B]. rewrite Forall_forall in B. intros y [<-|Hy]; [right; lia|].
  specialize (B y Hy). assert (L : lex (fkey v m) (fkey v y) <= 0) by lia. apply lex_le in L. exact L.
Qed.

Lemma perm_in_iff (x : Z) l l' : Permutation l (x :: l') -> forall y, In y l <-> y = x \/ In y l'.
Proof.
  intros P y. split; intros H.
  - apply (Permutation_in _ P) in H. destruct H as [->|H]; auto.
  - apply (Permutation_in _ (Permutation_sym P)). destruct H as [->|H]; [left; reflexivity|right; exact H].
Qed.
Lemma perm_zlen (l l' : list Z) : Permutation l l' -> zlen l = zlen l'.
Proof. intros P. unfold zlen. rewrite (Permutation_length P). reflexivity. Qed.
