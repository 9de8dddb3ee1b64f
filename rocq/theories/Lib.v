(** Shared helpers: lists indexed by [Z], sub-range read and write with an
    explicit out-of-bounds outcome, machine-word wrap-around.  Nothing here
    models code of the repository by itself. *)
From Coq Require Export ZArith List Lia Bool.
From Coq Require Export ZifyBool ZifyNat ZifyN.
Export ListNotations.
Global Open Scope Z_scope.

Ltac Zify.zify_post_hook ::= Z.div_mod_to_equations.

Global Arguments Z.add : simpl never.
Global Arguments Z.sub : simpl never.
Global Arguments Z.mul : simpl never.
Global Arguments Z.max : simpl never.
Global Arguments Z.min : simpl never.
Global Arguments Z.of_nat : simpl never.
Global Arguments Z.to_nat : simpl never.

(** Unsigned machine words of width [w] bits: C arithmetic on them is modulo
    [2^w]. *)
Definition wrap (w x : Z) : Z := x mod 2 ^ w.
Definition u32 (x : Z) : Z := x mod 4294967296.
Definition u64 (x : Z) : Z := x mod 18446744073709551616.

Lemma u32_small x : 0 <= x < 4294967296 -> u32 x = x.
Proof. intros H; unfold u32; apply Z.mod_small; exact H. Qed.

Lemma u64_small x : 0 <= x < 18446744073709551616 -> u64 x = x.
Proof. intros H; unfold u64; apply Z.mod_small; exact H. Qed.

Section ZList.
  Context {A : Type}.
  Implicit Types l d : list A.

  Definition zlen l : Z := Z.of_nat (length l).
  Definition znth (dflt : A) l (i : Z) : A := nth (Z.to_nat i) l dflt.

  Lemma zlen_nonneg l : 0 <= zlen l.
  Proof. unfold zlen; lia. Qed.

  Lemma zlen_nil : zlen (@nil A) = 0.
  Proof. reflexivity. Qed.

  Lemma zlen_cons a l : zlen (a :: l) = 1 + zlen l.
  Proof. unfold zlen; simpl length; lia. Qed.

  Lemma zlen_app l1 l2 : zlen (l1 ++ l2) = zlen l1 + zlen l2.
  Proof. unfold zlen; rewrite app_length; lia. Qed.

  Lemma zlen_snoc a l : zlen (l ++ [a]) = zlen l + 1.
  Proof. unfold zlen; rewrite app_length; simpl length; lia. Qed.

  (** [memcpy] of [d] to offset [off] of [l]; [None] when it would touch a
      position outside [l]. *)
  Definition mem_write l (off : Z) d : option (list A) :=
    if (0 <=? off) && (off + zlen d <=? zlen l)
    then Some (firstn (Z.to_nat off) l ++ d
               ++ skipn (Z.to_nat off + length d)%nat l)
    else None.

  (** [memcpy] of [n] elements from offset [off] of [l]. *)
  Definition mem_read l (off n : Z) : option (list A) :=
    if (0 <=? off) && (0 <=? n) && (off + n <=? zlen l)
    then Some (firstn (Z.to_nat n) (skipn (Z.to_nat off) l))
    else None.

  Lemma mem_write_some l off d :
    0 <= off -> off + zlen d <= zlen l ->
    exists l', mem_write l off d = Some l' /\ zlen l' = zlen l /\
      forall dflt i, 0 <= i -> znth dflt l' i =
        if (off <=? i) && (i <? off + zlen d)
        then znth dflt d (i - off) else znth dflt l i.
  Proof.
    intros H1 H2. unfold mem_write.
    destruct ((0 <=? off) && (off + zlen d <=? zlen l)) eqn:E; [|lia].
    eexists; split; [reflexivity|]. unfold zlen in *. split.
    - rewrite !app_length, firstn_length, skipn_length. lia.
    - intros dflt i Hi. unfold znth.
      destruct ((off <=? i) && (i <? off + Z.of_nat (length d))) eqn:E2.
      + rewrite app_nth2 by (rewrite firstn_length; lia).
        rewrite firstn_length, app_nth1 by lia.
        f_equal. lia.
      + destruct (Z_lt_ge_dec i off).
        * rewrite app_nth1 by (rewrite firstn_length; lia).
          rewrite <- (firstn_skipn (Z.to_nat off) l) at 2.
          rewrite app_nth1 by (rewrite firstn_length; lia). reflexivity.
        * rewrite app_nth2 by (rewrite firstn_length; lia).
          rewrite app_nth2 by (rewrite firstn_length; lia).
          rewrite <- (firstn_skipn (Z.to_nat off + length d)%nat l) at 3.
          rewrite app_nth2 by (rewrite firstn_length; lia).
          rewrite !firstn_length. f_equal. lia.
  Qed.

  Lemma mem_read_some l off n :
    0 <= off -> 0 <= n -> off + n <= zlen l ->
    exists d, mem_read l off n = Some d /\ zlen d = n /\
      forall dflt i, 0 <= i < n -> znth dflt d i = znth dflt l (off + i).
  Proof.
    intros H1 H2 H3. unfold mem_read.
    destruct ((0 <=? off) && (0 <=? n) && (off + n <=? zlen l)) eqn:E; [|lia].
    eexists; split; [reflexivity|]. unfold zlen in *. split.
    - rewrite firstn_length, skipn_length. lia.
    - intros dflt i Hi. unfold znth.
      transitivity (nth (Z.to_nat i) (skipn (Z.to_nat off) l) dflt).
      + rewrite <- (firstn_skipn (Z.to_nat n) (skipn (Z.to_nat off) l)) at 2.
        rewrite app_nth1; [reflexivity|].
        rewrite firstn_length, skipn_length. lia.
      + rewrite <- (firstn_skipn (Z.to_nat off) l) at 2.
        rewrite app_nth2 by (rewrite firstn_length; lia).
        rewrite firstn_length. f_equal. lia.
  Qed.

  Lemma znth_ext (dflt : A) l1 l2 :
    zlen l1 = zlen l2 ->
    (forall i, 0 <= i < zlen l1 -> znth dflt l1 i = znth dflt l2 i) -> l1 = l2.
  Proof.
    unfold zlen, znth; intros HL H.
    apply (nth_ext _ _ dflt dflt); [lia|].
    intros n Hn. specialize (H (Z.of_nat n)). rewrite Nat2Z.id in H. apply H; lia.
  Qed.

  Lemma znth_app1 dflt l1 l2 i :
    0 <= i < zlen l1 -> znth dflt (l1 ++ l2) i = znth dflt l1 i.
  Proof. unfold znth, zlen; intros; apply app_nth1; lia. Qed.

  Lemma znth_app2 dflt l1 l2 i :
    zlen l1 <= i -> znth dflt (l1 ++ l2) i = znth dflt l2 (i - zlen l1).
  Proof. unfold znth, zlen; intros; rewrite app_nth2 by lia; f_equal; lia. Qed.

  Lemma znth_overflow dflt l i : zlen l <= i -> znth dflt l i = dflt.
  Proof. unfold znth, zlen; intros; apply nth_overflow; lia. Qed.

  Lemma znth_cons_0 dflt a l : znth dflt (a :: l) 0 = a.
  Proof. reflexivity. Qed.

  Lemma znth_cons_pos dflt a l i : 0 < i -> znth dflt (a :: l) i = znth dflt l (i - 1).
  Proof.
    unfold znth; intros. replace (Z.to_nat i) with (S (Z.to_nat (i - 1))) by lia.
    reflexivity.
  Qed.

  Lemma zlen_firstn n l : zlen (firstn n l) = Z.min (Z.of_nat n) (zlen l).
  Proof. unfold zlen; rewrite firstn_length; lia. Qed.

  Lemma zlen_skipn n l : zlen (skipn n l) = Z.max 0 (zlen l - Z.of_nat n).
  Proof. unfold zlen; rewrite skipn_length; lia. Qed.

  Lemma znth_firstn dflt n l i :
    0 <= i < Z.of_nat n -> znth dflt (firstn n l) i = znth dflt l i.
  Proof.
    unfold znth; intros.
    destruct (Nat.lt_ge_cases (Z.to_nat i) (length l)).
    - rewrite <- (firstn_skipn n l) at 2. rewrite app_nth1; [reflexivity|].
      rewrite firstn_length; lia.
    - rewrite !nth_overflow; [reflexivity|lia|rewrite firstn_length; lia].
  Qed.

  Lemma znth_skipn dflt n l i :
    0 <= i -> znth dflt (skipn n l) i = znth dflt l (Z.of_nat n + i).
  Proof.
    unfold znth; intros.
    destruct (Nat.le_gt_cases n (length l)).
    - rewrite <- (firstn_skipn n l) at 2.
      rewrite app_nth2 by (rewrite firstn_length; lia).
      rewrite firstn_length; f_equal; lia.
    - rewrite !nth_overflow; [reflexivity|lia|rewrite skipn_length; lia].
  Qed.
End ZList.

Lemma znth_map {A B} (f : A -> B) da db l i :
  0 <= i < zlen l -> znth db (map f l) i = f (znth da l i).
Proof.
  unfold znth, zlen; intros.
  rewrite (nth_indep _ db (f da)) by (rewrite map_length; lia).
  apply map_nth.
Qed.

Lemma zlen_map {A B} (f : A -> B) l : zlen (map f l) = zlen l.
Proof. unfold zlen; rewrite map_length; reflexivity. Qed.

(** Single array cells, with an out-of-bounds outcome *)
Definition aget {A} (l : list A) (i : Z) : option A :=
  if 0 <=? i then nth_error l (Z.to_nat i) else None.
Definition aset {A} (l : list A) (i : Z) (x : A) : option (list A) := mem_write l i [x].

Lemma aget_app {A} (p : list A) x s i : i = zlen p -> aget (p ++ x :: s) i = Some x.
Proof.
  intros ->. unfold aget, zlen. destruct (0 <=? Z.of_nat (length p)) eqn:E; [|lia].
  rewrite Nat2Z.id, nth_error_app2 by lia. rewrite Nat.sub_diag. reflexivity.
Qed.

Lemma aset_app {A} (p : list A) x y s i : i = zlen p ->
  aset (p ++ x :: s) i y = Some (p ++ y :: s).
Proof.
  intros ->. unfold aset, mem_write. rewrite zlen_app, !zlen_cons.
  change (zlen (@nil A)) with 0. pose proof (zlen_nonneg p). pose proof (zlen_nonneg s).
  destruct ((0 <=? zlen p) && (zlen p + (1 + 0) <=? zlen p + (1 + zlen s))) eqn:E; [|lia].
  unfold zlen. rewrite Nat2Z.id, firstn_app, Nat.sub_diag, firstn_O, app_nil_r, firstn_all.
  simpl length. rewrite skipn_app, skipn_all2 by lia.
  replace (length p + 1 - length p)%nat with 1%nat by lia. reflexivity.
Qed.

Lemma list_split_at {A} (l : list A) i : 0 <= i < zlen l ->
  exists p x s, l = p ++ x :: s /\ zlen p = i.
Proof.
  intros H. unfold zlen in *.
  destruct (nth_error l (Z.to_nat i)) as [x|] eqn:E.
  - apply nth_error_split in E. destruct E as (p & s & -> & Hp). exists p, x, s. split; [auto|lia].
  - apply nth_error_None in E. lia.
Qed.

(** A comparison function in the C style: a total preorder given by sign *)
Record total_preorder {A} (cmp : A -> A -> Z) : Prop := {
  tp_total : forall a b, 0 < cmp a b -> cmp b a <= 0;
  tp_trans : forall a b c, cmp a b <= 0 -> cmp b c <= 0 -> cmp a c <= 0
}.

(** Functions from [Z] updated at one point *)
Definition fupd {A} (f : Z -> A) (k : Z) (x : A) : Z -> A := fun i => if i =? k then x else f i.

Lemma fupd_same {A} (f : Z -> A) k x : fupd f k x k = x.
Proof. unfold fupd. rewrite Z.eqb_refl. reflexivity. Qed.

Lemma fupd_other {A} (f : Z -> A) k x i : i <> k -> fupd f k x i = f i.
Proof. intros H. unfold fupd. destruct (i =? k) eqn:E; [lia|reflexivity]. Qed.

(** Signed 32-bit arithmetic with wrap-around (-fwrapv) *)
Definition s32 (x : Z) : Z := (x + 2147483648) mod 4294967296 - 2147483648.

Lemma s32_small x : -2147483648 <= x < 2147483648 -> s32 x = x.
Proof. intros H. unfold s32. rewrite Z.mod_small by lia. lia. Qed.
