(** Proofs: lines made of options with their values and arguments. *)
From Verif Require Import Lib Itoa_Model Cmd_Model Cmd_Spec Cmd_Proofs Cmd_Proofs2.
From Coq Require Import ssreflect.

Lemma eqw_refl a : eqw a a = true.
Proof. rewrite /eqw. by case: (list_eq_dec Z.eq_dec a a). Qed.
Lemma eqw_neq a b : a <> b -> eqw a b = false.
Proof. rewrite /eqw. by case: (list_eq_dec Z.eq_dec a b). Qed.
Lemma eqw_true a b : eqw a b = true -> a = b.
Proof. rewrite /eqw. by case: (list_eq_dec Z.eq_dec a b). Qed.

(** The check of the table *)
Definition apart (x y : kopt) : Prop := clash x y = false.
Inductive alone : list kopt -> Prop :=
| alone_nil : alone []
| alone_cons y t : (forall x, In x t -> apart x y) -> alone t -> alone (y :: t).
Lemma check_from_alone tbl : forall pre, check_from pre tbl = true ->
  alone tbl /\ (forall x y, In x tbl -> In y pre -> apart x y) /\ (forall x, In x tbl -> kname x <> w_cmd /\ kalias x <> w_cmd).
Proof.
  elim: tbl => [|k t IH] pre; first by move => _; split; [constructor|split]. cbn. move => /andb_prop [/andb_prop [H1 H2] H3]. have [A [B C]] := IH _ H3. split; last split.
  - constructor => // x Hx. apply: B => //. apply in_or_app. by right; left.
  - move => x y [<-|Hx] Hy; last by apply: B => //; apply in_or_app; left. move: H1. rewrite forallb_forall => H1. move: (H1 _ Hy). rewrite /apart. by case: (clash k y).
  - move => x [<-|Hx]; last by apply: C. split => E; move: H2; rewrite E eqw_refl ?orb_true_r //.
Qed.
Definition mine (k : kopt) (n : list Z) : Prop := n = kname k \/ (n = kalias k /\ kalias k <> []).
Lemma apart_mine x y n : apart x y -> mine x n -> eqw n (kname y) || (negb (eqw (kalias y) []) && eqw n (kalias y)) = false.
Proof.
  rewrite /apart /clash. move => /orb_false_elim [/orb_false_elim [/orb_false_elim [H1 H2] H3] H4] [->|[-> Na]]; first by rewrite H1 H2.
  move: H3 H4. rewrite (eqw_neq _ _ Na) /=. by move => -> ->.
Qed.
Lemma find_mine tbl i : alone tbl -> forall k n, nth_error tbl i = Some k -> mine k n -> find_opt tbl (45 :: n) = Some i.
Proof.
  move => A. elim: A i => [[]//|y t H _ IH] i k n E M. cbn [find_opt]. rewrite Z.eqb_refl andb_true_l. case: i E => [|i] E.
  - cbn in E. injection E => ->. case: M => [->|[-> Na]]; first by rewrite eqw_refl. by rewrite eqw_refl (eqw_neq _ _ Na) /= orb_true_r.
  - cbn in E. rewrite (apart_mine k y n) //; first by apply: H; apply: nth_error_In E. by rewrite (IH _ _ _ E M).
Qed.
Lemma nameless k n : named k -> mine k n -> kname k <> w_cmd /\ kalias k <> w_cmd -> n <> w_cmd /\ n <> [45].
Proof. move => [A [B C]] M [D E]. case: M => [->|[-> _]]; by split. Qed.
Lemma given_use w tbl i al t n s : check tbl = true -> Forall named tbl -> given tbl i al t n -> md s = Initial ->
  use_arg w tbl s n = match t with KBool => Ok (set_var (set_last s (Some i)) i (VBool true)) | _ => Ok (set_md (set_last s (Some i)) Waiting) end /\ type_of tbl i = t /\ exists m, n = 45 :: m.
Proof.
  move => C F [k [E [T [-> Na]]]] M. have [A [_ N]] := check_from_alone _ _ C. set nm := if al then _ else _.
  have Mi : mine k nm. { rewrite /nm /mine. case: (al) Na => [Na|_]; [right; split => //; by apply: Na|by left]. }
  have Hin := nth_error_In _ _ E. have Fk : named k. { rewrite Forall_forall in F. by apply: F. }
  have [N1 N2] := nameless k nm Fk Mi (N _ Hin). have Ty : type_of tbl i = t by rewrite /type_of E.
  split; last by split => //; exists nm. rewrite /use_arg M. rewrite /is_bool_value /w_0 /w_1 /w_true /w_false. rewrite !eqw_neq //=; try congruence.
  rewrite (find_mine tbl i A k nm E Mi) Ty. case: t T Ty => //.
Qed.
Lemma bools_val b x : In x (bools b) -> is_bool_value x = true /\ forall v, h_bool v x = VBool b.
Proof. case: b => /= [[<-|[<-|//]]|[<-|[<-|//]]]; by vm_compute. Qed.
Lemma clean_bool b x : In x (bools b) -> clean x.
Proof. case: b => /= [[<-|[<-|//]]|[<-|[<-|//]]]; rewrite /clean /=; lia. Qed.
Lemma number_h w t x z v : number w t x z -> match t with KLong => h_long w v x = VNum z | KULong => h_ulong w v x = VNum z | _ => False end.
Proof.
  case: t => //=.
  - move => [e E]. by rewrite /h_long E.
  - rewrite /h_ulong. case => [[[e E] Nx]|[y [e [-> E]]]]; last by rewrite !Z.eqb_refl /= E.
    have -> : (match x with c :: d :: t => if (c =? 48) && (d =? 120) then (16, t) else (10, x) | _ => (10, x) end) = (10, x); last by rewrite E.
    case: x Nx {E} => [//|c [//|d t]] Nx. destruct (Z.eqb_spec c 48) as [->|]; last by []. destruct (Z.eqb_spec d 120) as [->|]; last by []. by elim Nx.
Qed.

Lemma foldw_app w tbl l1 l2 s : foldw w tbl s (l1 ++ l2) = match foldw w tbl s l1 with Ok s' => foldw w tbl s' l2 | r => r end.
Proof. elim: l1 s => [|a l IH] s //=. case: (use_arg w tbl s a) => // s'. Qed.
Lemma unknown_use w tbl x s : unknown tbl x -> md s = Initial -> use_arg w tbl s x = Ok s.
Proof.
  move => [B [S K]] M. rewrite /use_arg M /is_bool_value. have B' : forall y, In y [w_0; w_1; w_true; w_false] -> eqw x y = false by move => y Hy; apply: eqw_neq => E; apply: B; rewrite E.
  rewrite (B' w_0) ?(B' w_1) ?(B' w_true) ?(B' w_false); try (cbn; tauto). cbn [orb]. have -> : eqw x (45 :: w_cmd) = false by apply: eqw_neq => E; apply: S; right.
  have -> : eqw x [45; 45] = false by apply: eqw_neq => E; apply: S; left. cbn [orb]. have -> : find_opt tbl x = None; last by [].
  elim: tbl K => [//|k t IH] K. cbn [find_opt]. rewrite IH; first by move => k' Hk'; apply: K; right. have [K1 K2] := K k ltac:(by left). case: x B S K IH K1 K2 B' => [//|c n] B S K IH K1 K2 B'.
  destruct (Z.eqb_spec c 45) as [->|]; last by []. rewrite andb_true_l. have -> : eqw n (kname k) = false by apply: eqw_neq => E; apply: K1; rewrite E.
  case E : (eqw (kalias k) []); first by []. have -> : eqw n (kalias k) = false; last by []. apply: eqw_neq => En. apply: K2; last by rewrite En. move => E'. by rewrite E' eqw_refl in E.
Qed.
Lemma item_step w tbl it ws s vs xs : check tbl = true -> Forall named tbl -> item_is w tbl it ws -> Forall clean ws -> R s vs xs -> md s = Initial -> used s + cost it < PAGE ->
  exists s', foldw w tbl s ws = Ok s' /\ R s' (effect vs it) xs /\ md s' = Initial /\ used s' = used s + cost it.
Proof.
  move => C F I Cl H M U. case: it I U => [i al|i al b x|i al z x|i al x|x] I U; cbn [item_is cost effect] in *.
  - destruct I as [n [G ->]]. have [E [T _]] := given_use w tbl i al KBool n s C F G M. cbn [foldw]. rewrite E. eexists. split; first by []. split; last by (split; [|rewrite Z.add_0_r]).
    apply: set_var_ok; last by []. by apply: set_last_ok.
  - destruct I as [n [G [Hx ->]]]. have [E [T _]] := given_use w tbl i al KBool n s C F G M. cbn [foldw]. rewrite E. have [B1 B2] := bools_val _ _ Hx.
    rewrite /use_arg. cbn [md set_var set_last lastk]. rewrite M B1 T. cbn [generic]. rewrite B2. eexists. split; first by []. split; last by (split; [|rewrite Z.add_0_r]).
    apply: set_last_ok => //. have Hs := set_last_ok s vs xs (Some i) H M.
    have H1 := set_var_ok _ _ _ i (VBool true) (ABool true) Hs eq_refl. have H2 := set_var_ok _ _ _ i (VBool b) (ABool b) H1 eq_refl. apply: R_ext H2 _.
    move => j. rewrite /upd. by case: (Nat.eqb j i).
  - destruct I as [n [t [G [Nu ->]]]]. have [E [T _]] := given_use w tbl i al t n s C F G M. cbn [foldw]. rewrite E.
    have Nh := number_h w t x z (vars s i) Nu.
    have Hw : R (set_md (set_var (set_md (set_last s (Some i)) Waiting) i (VNum z)) Initial) (upd vs i (ANum z)) xs.
    { apply: set_md_ok; last by []. apply: set_var_ok; last by []. apply: set_md_ok; last by []. by apply: set_last_ok. }
    have Ub : used (set_md (set_var (set_md (set_last s (Some i)) Waiting) i (VNum z)) Initial) = used s + 0 by rewrite Z.add_0_r.
    have Ex : use_arg w tbl (set_md (set_last s (Some i)) Waiting) x = Ok (set_md (set_var (set_md (set_last s (Some i)) Waiting) i (VNum z)) Initial).
    { rewrite /use_arg. have -> : md (set_md (set_last s (Some i)) Waiting) = Waiting by []. have -> : lastk (set_md (set_last s (Some i)) Waiting) = Some i by [].
      rewrite T. have Ev : vars (set_md (set_last s (Some i)) Waiting) i = vars s i by []. case: (t) Nh => // Nh; rewrite /generic Ev Nh //. }
    eexists. split; last by split; [exact Hw|split; [|exact Ub]]. case: (t) Nh => // _; by rewrite Ex.
  - destruct I as [n [G ->]]. have [E [T _]] := given_use w tbl i al KWord n s C F G M. cbn [foldw]. rewrite E.
    rewrite /use_arg. cbn [md set_md set_last lastk]. rewrite T. cbn [generic].
    have H1 : R (set_md (set_last s (Some i)) Waiting) vs xs by apply: set_md_ok => //; apply: set_last_ok.
    have Cx : clean x by inversion Cl as [|? ? ? Cl']; subst; inversion Cl'.
    case: (h_word_ok _ _ _ i x H1 Cx) => [[L _]|[L [s' [-> [H' [_ [_ U']]]]]]]; first by cbn [used set_md set_last] in L; lia.
    eexists. split; first by []. split; first by apply: set_md_ok. split => //. cbn [used set_md set_last] in *. lia.
  - destruct I as [Un ->]. cbn [foldw]. rewrite (unknown_use w tbl x s Un M). exists s. split => //. split => //. split => //. lia.
Qed.
Lemma cost_pos it : 0 <= cost it.
Proof. case: it => [i al|i al b x|i al z x|i al x|x] /=; try lia. have := zlen_nonneg x. lia. Qed.
Lemma costs_pos l : 0 <= costs (map cost l).
Proof. elim: l => [//|a l IH] /=. have := cost_pos a. lia. Qed.
Lemma items_fold w tbl its wss : check tbl = true -> Forall named tbl -> Forall2 (item_is w tbl) its wss -> forall s vs xs, Forall clean (concat wss) -> R s vs xs -> md s = Initial ->
  used s + costs (map cost its) < PAGE -> exists s', foldw w tbl s (concat wss) = Ok s' /\ R s' (fold_left effect its vs) xs /\ md s' = Initial /\ used s' = used s + costs (map cost its).
Proof.
  move => C F. elim => [|it ws its' wss' I _ IH] s vs xs Cl H M U; first by exists s; cbn; rewrite Z.add_0_r.
  simpl in Cl, U. apply Forall_app in Cl as [Cl1 Cl2]. have := cost_pos it. have := costs_pos its'. move => P1 P2.
  have [s1 [E1 [H1 [M1 U1]]]] := item_step w tbl it ws s vs xs C F I Cl1 H M ltac:(lia).
  have [s2 [E2 [H2 [M2 U2]]]] := IH s1 _ xs Cl2 H1 M1 ltac:(lia). exists s2. cbn [concat]. rewrite foldw_app E1. split => //. split => //. split => //. rewrite U2 U1 /=. lia.
Qed.
Lemma args_fold w tbl ys : forall s vs xs, Forall clean ys -> R s vs xs -> md s = Final -> zlen xs + zlen ys <= 15 -> used s + costs (map size1 ys) < PAGE ->
  exists s', foldw w tbl s ys = Ok s' /\ R s' vs (xs ++ ys).
Proof.
  elim: ys => [|a ys IH] s vs xs Cl H M L U; first by exists s; rewrite app_nil_r. inversion Cl; subst. rewrite zlen_cons in L. simpl in U. have Ny := zlen_nonneg ys.
  have Np : 0 <= costs (map size1 ys). { elim: (ys) => [//|b l Hl] /=. have := zlen_nonneg b. rewrite {1}/size1. lia. }
  have Es : size1 a = zlen a + 1 by []. cbn [foldw]. rewrite /use_arg M. case: (h_cmd_ok s vs xs a H) => // [[[E|E] _]|[_ [_ [s' [-> [H' [M' [_ U']]]]]]]]; try lia.
  have [s2 [E2 Hr2]] := IH s' vs (xs ++ [a]) ltac:(done) H' ltac:(congruence) ltac:(rewrite zlen_snoc; lia) ltac:(rewrite U'; lia).
  exists s2. split => //. by rewrite -app_assoc in Hr2.
Qed.
(** Arguments that do not fit *)
Lemma args_panic w tbl ys : forall s vs xs, Forall clean ys -> R s vs xs -> md s = Final -> (15 < zlen xs + zlen ys \/ PAGE <= used s + costs (map size1 ys)) ->
  foldw w tbl s ys = Panic.
Proof.
  elim: ys => [|a ys IH] s vs xs Cl H M L. { have := r_15 _ _ _ H. have := r_used _ _ _ H. rewrite zlen_nil /= /PAGE in L. case: L; lia. }
  inversion Cl; subst. rewrite zlen_cons in L. simpl in L. have Es : size1 a = zlen a + 1 by []. cbn [foldw]. rewrite /use_arg M. case: (h_cmd_ok s vs xs a H) => // [[_ ->]//|[E1 [E2 [s' [-> [H' [M' [_ U']]]]]]]].
  apply: IH H' _ _ => //; first congruence. rewrite zlen_snoc U'. case: L; lia.
Qed.
Lemma R_init dv junk : zlen junk = 4096 -> (forall i, plain (dv i)) -> R (init dv junk) (fun i => plain_value (dv i)) [].
Proof.
  move => L P. constructor => //.
  - move => i. have := P i. cbn. case: (dv i) => [b|z|[| |o]] //=.
  - by exists [].
Qed.
