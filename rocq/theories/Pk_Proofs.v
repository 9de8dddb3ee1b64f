(** Proofs: room in the ring, for all histories. *)
From Verif Require Import Lib Pk_Model Pk_Spec.
From Coq Require Import ssreflect.

Definition ne (ps : list (list Z)) : Prop := Forall (fun p => p <> []) ps.
Definition good (f : frame) : Prop :=
  match at_ f with
  | Fmt c => 0 < bsz c
  | Got _ ps b | First ps b => ne ps /\ 0 < b
  | Out _ b => 0 < b
  | App ps => ne ps
  | Copy _ i p ps => ne ps /\ 0 <= i <= zlen p
  end.
Record J (n : Z) (s : st) : Prop := {
  j_n : zlen (ring s) = n; j_r : 0 <= rp s < n; j_w : 0 <= wp s < n; j_f : full s = false;
  j_s : Forall good (stack s); j_p : Forall good (parked s) }.
Lemma used_eq n s : J n s -> used s = (wp s - rp s) mod n /\ 0 <= used s < n.
Proof.
  move => [E R W F _ _]. rewrite /used /N E F. have B := Z.mod_pos_bound (wp s - rp s) n ltac:(lia).
  destruct (Z.eqb_spec ((wp s - rp s) mod n) 0) as [->|]; lia.
Qed.
Lemma ne_filter l : ne (filter nonempty l).
Proof. elim: l => [|p l IH] /=; first by constructor. case: p => [|x p] //=. by constructor. Qed.
Lemma len_pos (p : list Z) : p <> [] -> 0 < zlen p.
Proof. case: p => [//|x p] _. rewrite zlen_cons. have := zlen_nonneg p. lia. Qed.
Lemma aset_some {A} (l : list A) i x : 0 <= i < zlen l -> exists l', aset l i x = Some l' /\ zlen l' = zlen l /\ forall d j, 0 <= j -> znth d l' j = if j =? i then x else znth d l j.
Proof.
  move => H. have [l' [E [L Z]]] := mem_write_some l i [x] ltac:(lia) ltac:(by rewrite zlen_cons zlen_nil; lia). exists l'. split => //. split => // d j Hj. rewrite Z // zlen_cons zlen_nil.
  destruct (Z.eqb_spec j i) as [->|Nj].
  - have -> : (i <=? i) && (i <? i + (1 + 0)) = true by lia. by rewrite Z.sub_diag.
  - by have -> : (i <=? j) && (j <? i + (1 + 0)) = false by lia.
Qed.
Ltac Zify.zify_post_hook ::= Z.to_euclidean_division_equations.
Lemma mod_sub_ne a b n k : 0 <= a < n -> 0 <= b < n -> 0 < k -> (a - b) mod n + k < n -> (a + k) mod n <> b.
Proof.
  move => A B K L E. have X : (a + k - b) mod n = 0. { rewrite -E. rewrite Zminus_mod_idemp_r Z.sub_diag. by apply: Z.mod_0_l; lia. }
  have Y : (a + k - b) mod n = ((a - b) mod n + k) mod n by rewrite Zplus_mod_idemp_l; f_equal; lia.
  have B1 := Z.mod_pos_bound (a - b) n ltac:(lia). rewrite Y Z.mod_small in X; lia.
Qed.
Ltac Zify.zify_post_hook ::= idtac.
Lemma run_J n s : 0 < n -> J n s -> exists s', run s = Some s' /\ J n s'.
Proof.
  move => Hn H. have [U Ub] := used_eq n s H. move: (H) => [E R W F S P]. rewrite /run. case Es : (stack s) S => [|f t] S; first by exists s; split.
  inversion S as [|? ? G T]; subst. rewrite /good in G. case: (at_ f) G => [c|old ps b|ps b|c b|ps|pos i p ps] G.
  - eexists. split; first by []. constructor => //=. constructor => //. by split; [apply: ne_filter|].
  - eexists. split; first by []. constructor => //=. constructor => //. case: old => //=. by case: G.
  - case: ps G => [|p ps] [G1 G2].
    + case: (_ =? 0); (eexists; split; first by []); constructor => //=; last by constructor. rewrite /N. apply: Z.mod_pos_bound. lia.
    + eexists. split; first by []. constructor => //=. constructor => //. split => //. by inversion G1.
  - eexists. split; first by []. constructor => //=. constructor => //. by split; [constructor|].
  - case: ps G => [|p ps] G; first by eexists; split; first by []; constructor.
    inversion G; subst. have Lp := len_pos p ltac:(done). destruct (Z.leb_spec (N s) (used s + zlen p)) as [A|A].
    + eexists. split; first by []. constructor => //=. by constructor.
    + rewrite /N in A |- *. eexists. split; first by []. constructor => //=; first by apply: Z.mod_pos_bound; lia.
      * rewrite F /=. apply/Z.eqb_neq. apply: mod_sub_ne => //. lia.
      * constructor => //. split => //. lia.
  - move: G => [G1 G2]. destruct (Z.ltb_spec i (zlen p)) as [A|A].
    + have [r [-> [Lr _]]] := aset_some (ring s) ((pos + i) mod N s) (znth 0 p i) ltac:(rewrite /N; apply: Z.mod_pos_bound; lia).
      eexists. split; first by []. constructor => //=; try (by rewrite Lr). constructor => //. split => //. lia.
    + eexists. split; first by []. constructor => //=. by constructor.
Qed.
Lemma step_J n s o : 0 < n -> J n s -> fine o -> exists s', step s o = Some s' /\ J n s'.
Proof.
  move => Hn H Fo. move: (H) => [E R W F S P]. case: o Fo => [c|c| | |i] Fo /=.
  - eexists. split; first by []. case Es : (stack s) => [|f t] //. constructor => //=. constructor => //.
  - eexists. split; first by []. constructor => //=. constructor => //.
  - by apply: run_J.
  - eexists. split; first by []. case Es : (stack s) S => [|f [|g t]] S //. case: (preemptible f) => //. constructor => //=. apply Forall_app. split => //.
  - eexists. split; first by []. case Es : (stack s) => [|f t] //. case En : (nth_error (parked s) i) => [f|] //. have Ef := nth_error_In _ _ En.
    rewrite Forall_forall in P. constructor => //=.
    + constructor => //. by apply: P.
    + rewrite Forall_forall => x /in_app_iff [Hx|Hx]; apply: P; [rewrite -(firstn_skipn i (parked s))|rewrite -(firstn_skipn (Datatypes.S i) (parked s))]; apply in_or_app; [by left|by right].
Qed.
Lemma steps_J n l : 0 < n -> forall s, J n s -> Forall fine l -> exists s', steps s l = Some s' /\ J n s'.
Proof.
  move => Hn. elim: l => [|o l IH] s H F; first by exists s. inversion F; subst. have [s' [E H']] := step_J n s o Hn H ltac:(done). cbn. rewrite E. by apply: IH.
Qed.
Lemma init_J r : 0 < zlen r -> J (zlen r) (init r).
Proof. move => H. constructor => //=; lia. Qed.
