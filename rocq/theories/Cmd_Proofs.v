(** Proofs: words of a line; buffers. *)
From Verif Require Import Lib Itoa_Model Cmd_Model Cmd_Spec.
From Coq Require Import ssreflect.

Lemma eqw_spec a b : reflect (a = b) (eqw a b).
Proof. rewrite /eqw. case: (list_eq_dec Z.eq_dec a b) => H; by constructor. Qed.
Lemma cstr_app p q : clean p -> cstr (p ++ 0 :: q) = p.
Proof. elim: p => [//|c p IH] H. cbn. have -> : (c =? 0) = false by (apply Z.eqb_neq => E; apply: H; left). rewrite IH // => I. apply: H. by right. Qed.

Fixpoint foldw (w : Z) (tbl : list kopt) (s : ps) (ws : list (list Z)) : out ps :=
  match ws with [] => Ok s | x :: t => match use_arg w tbl s x with Ok s => foldw w tbl s t | r => r end end.

Lemma end_arg_ok w tbl s p x q : clean p -> end_arg w tbl s (p ++ x :: q) (zlen p) = match use_arg w tbl s p with Ok s => Ok (s, p ++ 0 :: q) | Panic => Panic | Oob => Oob end.
Proof. move => C. rewrite /end_arg aset_app // cstr_app //. Qed.
Lemma len_split {A} (l : list A) n : 0 <= n < zlen l -> exists p x q, l = p ++ x :: q /\ zlen p = n.
Proof. exact: list_split_at. Qed.

(** A word into the buffer *)
Lemma scan_fill w tbl x : forall l p q s, ~ In 32 x -> zlen p + zlen x <= 255 -> zlen (p ++ q) = 256 ->
  exists q', scan w tbl (x ++ l) false (p ++ q) (zlen p) s = scan w tbl l false ((p ++ x) ++ q') (zlen (p ++ x)) s /\ zlen ((p ++ x) ++ q') = 256.
Proof.
  elim: x => [|c x IH] l p q s N L B. { exists q. by rewrite !app_nil_r. }
  rewrite zlen_cons in L. have := zlen_nonneg x => Nx. have := zlen_nonneg p => Np.
  case: q B => [|y q] B. { rewrite app_nil_r in B. lia. }
  cbn [app scan andb]. have -> : (c =? 32) = false by (apply Z.eqb_neq => E; apply: N; left). have -> : (MAXL <=? zlen p) = false by (apply Z.leb_gt; rewrite /MAXL; lia).
  rewrite aset_app //. have E : p ++ c :: q = (p ++ [c]) ++ q by rewrite -app_assoc. have Ez : zlen p + 1 = zlen (p ++ [c]) by rewrite zlen_app.
  rewrite E Ez. have [q' [H1 H2]] := IH l (p ++ [c]) q s ltac:(by move => I; apply: N; right) ltac:(rewrite zlen_app zlen_cons zlen_nil; lia) ltac:(by rewrite -E; move: B; rewrite !zlen_app !zlen_cons).
  exists q'. have Ep : (p ++ [c]) ++ x = p ++ c :: x by rewrite -app_assoc. rewrite Ep in H1 H2. by split.
Qed.
Lemma scan_skip w tbl x : forall l buf s, ~ In 32 x -> scan w tbl (x ++ l) true buf 0 s = scan w tbl l true buf 0 s.
Proof.
  elim: x => [//|c x IH] l buf s N. cbn [app scan andb]. have -> : (c =? 32) = false by (apply Z.eqb_neq => E; apply: N; left). cbn [negb].
  apply: IH => I. apply: N. by right.
Qed.
Lemma clean_sub x y : clean (x ++ y) -> clean x /\ clean y.
Proof. rewrite /clean => H. split => I; apply: H; apply in_app_iff; tauto. Qed.

Lemma scan_word w tbl x l buf s : x <> [] -> ~ In 32 x -> clean x -> zlen buf = 256 -> (l = [] \/ exists l', l = 32 :: l') ->
  exists buf', zlen buf' = 256 /\ scan w tbl (x ++ l) false buf 0 s = match use_arg w tbl s (trunc x) with Ok s => scan w tbl l false buf' 0 s | r => r end.
Proof.
  move => X N C B H. have := zlen_nonneg x => Nx.
  destruct (Z.leb_spec (zlen x) 255) as [L|L].
  - have [q' [E1 E2]] := scan_fill w tbl x l [] buf s N ltac:(rewrite zlen_nil; lia) B. cbn [app] in E1, E2. change (zlen (@nil Z)) with 0 in E1. rewrite E1.
    case: q' E1 E2 => [|y q] E1 E2. { rewrite app_nil_r in E2. lia. }
    have T : trunc x = x by rewrite /trunc firstn_all2 //; rewrite /zlen in L; lia. rewrite T.
    have Xp : (zlen x =? 0) = false. { apply Z.eqb_neq. case: x X {N C Nx L E1 E2 T} => [//|c x] _. rewrite zlen_cons. have := zlen_nonneg x. lia. }
    exists (x ++ 0 :: q). split; first by (move: E2; rewrite !zlen_app !zlen_cons). clear E1.
    case: H => [->|[l' ->]]; cbn [scan andb].
    + rewrite Xp end_arg_ok //. by case: (use_arg w tbl s x).
    + cbn [Z.eqb]. rewrite Xp end_arg_ok //. case: (use_arg w tbl s x) => //.
  - set p := firstn 255 x. set r := skipn 255 x. have Ex : x = p ++ r by rewrite firstn_skipn.
    have Lp : zlen p = 255. { rewrite /p zlen_firstn. change (Z.of_nat 255) with 255. lia. }
    rewrite /trunc -/p. have Np : ~ In 32 p by move => I; apply: N; rewrite Ex; apply in_app_iff; left.
    have Nr : ~ In 32 r by move => I; apply: N; rewrite Ex; apply in_app_iff; right.
    rewrite Ex in C. have [Cp _] := clean_sub _ _ C.
    have Lr : 0 < zlen r. { rewrite Ex zlen_app in L. lia. }
    rewrite Ex -app_assoc. have [q' [E1 E2]] := scan_fill w tbl p (r ++ l) [] buf s Np ltac:(rewrite zlen_nil Lp; lia) B. cbn [app] in E1, E2. change (zlen (@nil Z)) with 0 in E1. rewrite E1. clear E1.
    case: q' E2 => [|y q] E2. { rewrite app_nil_r in E2. lia. }
    clear Ex. case: r Nr Lr {C} => [|c r] Nr Lr. { rewrite zlen_nil in Lr. lia. }
    exists (p ++ 0 :: q). split; first by (move: E2; rewrite !zlen_app !zlen_cons).
    cbn [app scan andb]. have -> : (c =? 32) = false by (apply Z.eqb_neq => E; apply: Nr; left).
    rewrite end_arg_ok //. have -> : (MAXL <=? zlen p) = true by (apply Z.leb_le; rewrite Lp).
    case: (use_arg w tbl s p) => // s'. rewrite scan_skip; first by move => I; apply: Nr; right.
    case: H => [->|[l' ->]]; by [].
Qed.
Lemma scan_words w tbl line ws : split line ws -> forall buf s, clean line -> zlen buf = 256 -> scan w tbl line false buf 0 s = foldw w tbl s (map trunc ws).
Proof.
  elim => [|l ws' _ IH|x l ws' X N H _ IH] buf s C B.
  - by [].
  - cbn. apply: IH => // I. apply: C. by right.
  - have [Cx Cl] := clean_sub _ _ C. have [buf' [B' ->]] := scan_word w tbl x l buf s X N Cx B H. cbn [map foldw].
    case: (use_arg w tbl s (trunc x)) => // s'. by apply: IH.
Qed.
Lemma split_exists line : exists ws, split line ws.
Proof.
  have [n Hn] : exists n, (length line <= n)%nat by exists (length line).
  elim: n line Hn => [|n IH] line Hn. { case: line Hn => [|c l] Hn; last by (cbn in Hn; lia). exists []. by constructor. }
  have X : forall y : list Z, exists x l, y = x ++ l /\ ~ In 32 x /\ (l = [] \/ exists l', l = 32 :: l').
  { elim => [|c y [x [l [E [N H]]]]]; first by exists [], []; repeat split => //; left.
    destruct (Z.eq_dec c 32) as [->|Nc]; first by (exists [], (32 :: y); repeat split => //; right; exists y).
    exists (c :: x), l. rewrite E. repeat split => //. by case => [E'|I]; [congruence|apply: N]. }
  case: (X line) => x [l [E [N H]]]. case: x E N => [|c x] E N.
  - cbn in E. case: H => [El|[l' El]]; subst; first by (exists []; constructor). have [ws Hw] := IH l' ltac:(cbn in Hn; lia). exists ws. by constructor.
  - have [ws Hw] := IH l ltac:(rewrite E app_length in Hn; cbn in Hn; lia). exists ((c :: x) :: ws). rewrite E. by constructor.
Qed.
