(** Proofs: whole lines, validation. *)
From Verif Require Import Lib Itoa_Model Cmd_Model Cmd_Spec Cmd_Proofs Cmd_Proofs2 Cmd_Proofs3.
From Coq Require Import ssreflect.

Lemma split_clean line ws : split line ws -> clean line -> Forall clean ws.
Proof.
  elim => [|l ws' _ IH|x l ws' _ _ _ _ IH] C; first by constructor.
  - apply: IH => I. apply: C. by right.
  - have [C1 C2] := clean_sub _ _ C. constructor => //. by apply: IH.
Qed.
Lemma trunc_clean ws : Forall clean ws -> Forall clean (map trunc ws).
Proof. elim => [|x l C _ IH] /=; first by constructor. constructor => // I. apply: C. rewrite -(firstn_skipn 255 x). apply in_or_app. by left. Qed.
Lemma parse_words w tbl dv junk buf line ws : split line ws -> clean line -> zlen buf = 256 -> parse w tbl dv junk buf line = foldw w tbl (init dv junk) (map trunc ws).
Proof. move => S C B. by apply: scan_words. Qed.

Lemma cmd_safe w tbl dv junk buf line : clean line -> zlen junk = 4096 -> zlen buf = 256 -> (forall i, plain (dv i)) -> parse w tbl dv junk buf line <> Oob.
Proof.
  move => C J B P. have [ws S] := split_exists line. rewrite (parse_words _ _ _ _ _ _ _ S C B).
  case: (foldw_safe w tbl (map trunc ws) _ _ _ (R_init dv junk J P)); [by apply: trunc_clean; apply: split_clean S C|by move => ->|by move => [s' [vs' [xs' [-> _]]]]].
Qed.
Lemma cmd_words w tbl dv junk buf buf' line line' ws ws' : split line ws -> split line' ws' -> map trunc ws = map trunc ws' -> clean line -> clean line' -> zlen buf = 256 -> zlen buf' = 256 ->
  parse w tbl dv junk buf line = parse w tbl dv junk buf' line'.
Proof. move => S S' E C C' B B'. by rewrite (parse_words _ _ _ _ _ _ _ S C B) (parse_words _ _ _ _ _ _ _ S' C' B') E. Qed.
Lemma trunc_short ws : Forall (fun x => zlen x <= 255) ws -> map trunc ws = ws.
Proof. elim => [//|x l L _ IH] /=. rewrite IH /trunc firstn_all2 //. rewrite /zlen in L. lia. Qed.
Lemma sep_use w tbl s x : sep x -> md s = Initial -> use_arg w tbl s x = Ok (set_md s Final).
Proof. move => S M. rewrite /use_arg M. by case: S => ->; vm_compute. Qed.
Lemma cmd_tail w tbl dv junk its wss ys x : check tbl = true -> Forall named tbl -> zlen junk = 4096 -> (forall i, plain (dv i)) -> Forall2 (item_is w tbl) its wss -> Forall clean (concat wss) -> sep x -> costs (map cost its) < PAGE ->
  exists s, foldw w tbl (init dv junk) (concat wss ++ x :: ys) = foldw w tbl s ys /\ R s (fold_left effect its (fun i => plain_value (dv i))) [] /\ md s = Final /\ used s = costs (map cost its).
Proof.
  move => C N J P F2 Cl S U. have [s [E [H [M Us]]]] := items_fold w tbl its wss C N F2 (init dv junk) _ [] Cl (R_init dv junk J P) eq_refl U.
  exists (set_md s Final). rewrite foldw_app E. cbn [foldw]. rewrite (sep_use w tbl s x S M). split => //. split; first by apply: set_md_ok. split => //.
Qed.
Lemma cmd_options w tbl dv junk buf line its wss : check tbl = true -> Forall named tbl -> zlen junk = 4096 -> zlen buf = 256 -> (forall i, plain (dv i)) -> clean line ->
  split line (concat wss) -> Forall2 (item_is w tbl) its wss -> Forall (fun x => zlen x <= 255) (concat wss) -> costs (map cost its) < PAGE ->
  exists s, parse w tbl dv junk buf line = Ok s /\ (forall i, value s i = fold_left effect its (fun j => plain_value (dv j)) i) /\ argv s = [init_path].
Proof.
  move => C N J B P Cl S F2 L U. have Cw := split_clean _ _ S Cl. rewrite (parse_words _ _ _ _ _ _ _ S Cl B) (trunc_short _ L).
  have [s [E [H [M Us]]]] := items_fold w tbl its wss C N F2 (init dv junk) _ [] Cw (R_init dv junk J P) eq_refl U.
  exists s. split => //. split; [move => i; by apply: R_value H|by apply: R_argv H].
Qed.
Lemma cmd_args w tbl dv junk buf line its wss x ys : check tbl = true -> Forall named tbl -> zlen junk = 4096 -> zlen buf = 256 -> (forall i, plain (dv i)) -> clean line ->
  split line (concat wss ++ x :: ys) -> Forall2 (item_is w tbl) its wss -> sep x -> Forall (fun x => zlen x <= 255) (concat wss ++ ys) -> costs (map cost its) < PAGE ->
  (zlen ys <= 15 -> costs (map cost its) + costs (map size1 ys) < PAGE ->
   exists s, parse w tbl dv junk buf line = Ok s /\ (forall i, value s i = fold_left effect its (fun j => plain_value (dv j)) i) /\ argv s = match ys with [] => [init_path] | _ => ys end) /\
  (15 < zlen ys \/ PAGE <= costs (map cost its) + costs (map size1 ys) -> parse w tbl dv junk buf line = Panic).
Proof.
  move => C N J B P Cl S F2 Sx L U. have Cw := split_clean _ _ S Cl. apply Forall_app in Cw as [Cw1 Cw2]. inversion Cw2; subst.
  have Lx : Forall (fun x => zlen x <= 255) (concat wss ++ x :: ys). { apply Forall_app in L as [L1 L2]. apply Forall_app. split => //. constructor => //. by case: Sx => ->; vm_compute. }
  rewrite (parse_words _ _ _ _ _ _ _ S Cl B) (trunc_short _ Lx). have [s [E [H [M Us]]]] := cmd_tail w tbl dv junk its wss ys x C N J P F2 Cw1 Sx U. rewrite E. split.
  - move => L15 Ub. have [s' [E' H']] := args_fold w tbl ys s _ [] ltac:(done) H M ltac:(rewrite zlen_nil; lia) ltac:(by rewrite Us). exists s'. split => //. split; [move => i; by apply: R_value H'|by apply: R_argv H'].
  - move => D. apply: args_panic H M _ => //. by rewrite zlen_nil Us.
Qed.
(** No panic without a separator or with few arguments *)
Lemma trunc_sep x : sep (trunc x) -> sep x.
Proof.
  rewrite /trunc /sep => D. have E : firstn 255 x = x; last by rewrite E in D. apply: firstn_all2. have [L|//] := Nat.le_gt_cases 255 (length x); last by lia.
  have Lf : length (firstn 255 x) = 255%nat by rewrite firstn_length; lia. case: D => D; rewrite D in Lf; discriminate Lf.
Qed.
Lemma use_nosep w tbl s vs xs a : R s vs xs -> clean a -> ~ sep a -> md s <> Final -> exists s' vs', use_arg w tbl s a = Ok s' /\ R s' vs' xs /\ md s' <> Final.
Proof.
  move => H C Ns M. rewrite /use_arg. case M' : (md s) => //.
  - case: (is_bool_value a).
    { case: (lastk s) => [i|]; last by exists s, vs; rewrite M'. case: (type_of tbl i); try (by exists s, vs; rewrite M').
      have [s' [vs' [-> [H' [E1 E2]]]]] := generic_ok w KBool s vs xs i a H C. exists (set_last s' None), vs'. split => //. split; first by apply: set_last_ok => //; congruence. cbn. congruence. }
    have -> : eqw a (45 :: w_cmd) = false by apply: eqw_neq => E; apply: Ns; right. have -> : eqw a [45; 45] = false by apply: eqw_neq => E; apply: Ns; left. cbn [orb].
    case: (find_opt tbl a) => [i|]; last by exists s, vs; rewrite M'. have H' := set_last_ok s vs xs (Some i) H M'. case: (type_of tbl i).
    + have [s' [vs' [-> [H2 [E1 _]]]]] := generic_ok w KBool _ vs xs i a H' C. exists s', vs'. split => //. split => //. rewrite E1. cbn. by rewrite M'.
    + eexists; exists vs. split; first by []. split; [by apply: set_md_ok|by []].
    + eexists; exists vs. split; first by []. split; [by apply: set_md_ok|by []].
    + eexists; exists vs. split; first by []. split; [by apply: set_md_ok|by []].
  - have := r_w _ _ _ H M'. case E : (lastk s) => [i|] // _.
    have [s' [vs' [-> [H' _]]]] := generic_ok w (type_of tbl i) s vs xs i a H C. exists (set_md s' Initial), vs'. split => //. split; [by apply: set_md_ok|by []].
Qed.
Lemma cmd_no_panic w tbl dv junk buf line ws : split line ws -> clean line -> zlen junk = 4096 -> zlen buf = 256 -> (forall i, plain (dv i)) -> (forall x, In x ws -> ~ sep x) ->
  exists s, parse w tbl dv junk buf line = Ok s /\ argv s = [init_path].
Proof.
  move => S C J B P Ns. rewrite (parse_words _ _ _ _ _ _ _ S C B). have Cw := trunc_clean _ (split_clean _ _ S C). have Ns' : forall x, In x (map trunc ws) -> ~ sep x.
  { move => x /in_map_iff [y [<- Hy]] D. apply: Ns Hy _. by apply: trunc_sep. }
  have M : md (init dv junk) <> Final by []. move: (init dv junk) (R_init dv junk J P) M. move: (fun i => plain_value (dv i)) (map trunc ws) Cw Ns' => vs l. elim: l vs => [|a l IH] vs Cw Ns' s H M.
  - exists s. split => //. by apply: R_argv H.
  - inversion Cw; subst. have [s' [vs' [E [H' M']]]] := use_nosep w tbl s vs [] a H ltac:(done) (Ns' _ (or_introl eq_refl)) M. cbn [foldw]. rewrite E. apply: IH H' M' => // x Hx. by apply: Ns'; right.
Qed.
(** The table *)
Lemma cmd_unique tbl i j al al' t t' n : check tbl = true -> given tbl i al t n -> given tbl j al' t' n -> i = j.
Proof.
  move => C. have [A [_ N]] := check_from_alone _ _ C. have X : forall i al t n, given tbl i al t n -> find_opt tbl n = Some i.
  { move => {i j al al' t t' n} i al t n [k [E [_ [-> Na]]]]. apply: find_mine A _ _ E _. rewrite /mine. case: al Na => Na; [right; split => //; by apply: Na|by left]. }
  move => G G'. have := X _ _ _ _ G. rewrite (X _ _ _ _ G'). congruence.
Qed.
Lemma cmd_not_sep tbl i al t n : check tbl = true -> Forall named tbl -> given tbl i al t n -> ~ sep n /\ ~ In n [w_0; w_1; w_true; w_false].
Proof.
  move => C F [k [E [T [-> Na]]]]. have [A [_ N]] := check_from_alone _ _ C. have Hin := nth_error_In _ _ E. have Fk : named k. { rewrite Forall_forall in F. by apply: F. }
  have [N1 N2] := N _ Hin. move: Fk => [F1 [F2 F3]]. split. { move => [[]|[]]; case: (al) => ?; congruence. } cbn. rewrite /w_0 /w_1 /w_true /w_false. move => [|[|[|[|//]]]]; congruence.
Qed.
(** Validation *)
Lemma selftest_iff s vs xs i : R s vs xs -> selftest s i = match vs i with AStr (Some x) => if zlen x <=? 246 then Ok tt else Oob | _ => Ok tt end.
Proof.
  move => H. have := r_v _ _ _ H i. rewrite /selftest. case: (vars s i) => [b ->|z ->|[->| |o]] //=. move => [x [-> Hx]]. rewrite (held_read _ _ _ Hx). change (MAXL + 1) with 256.
  destruct (Z.ltb_spec 256 (9 + zlen x + 1)); destruct (Z.leb_spec (zlen x) 246) => //; lia.
Qed.
Lemma R_parse w tbl dv junk buf line s : clean line -> zlen junk = 4096 -> zlen buf = 256 -> (forall i, plain (dv i)) -> parse w tbl dv junk buf line = Ok s -> exists vs xs, R s vs xs.
Proof.
  move => C J B P E. have [ws S] := split_exists line. rewrite (parse_words _ _ _ _ _ _ _ S C B) in E.
  case: (foldw_safe w tbl (map trunc ws) _ _ _ (R_init dv junk J P)); [by apply: trunc_clean; apply: split_clean S C|congruence|]. move => [s' [vs' [xs' [E' H]]]]. exists vs', xs'. congruence.
Qed.
Lemma cmd_validate w tbl dv junk buf line s it ist isc tc mt z b : clean line -> zlen junk = 4096 -> zlen buf = 256 -> (forall i, plain (dv i)) -> parse w tbl dv junk buf line = Ok s ->
  1 <= tc <= mt -> it <> ist -> it <> isc -> value s it = ANum z -> value s isc = ABool b ->
  (forall x, value s ist = AStr (Some x) -> zlen x <= 246) ->
  exists s', validate it ist isc tc mt s = Ok s' /\ argv s' = argv s /\ (forall i, i <> it -> value s' i = value s i) /\
    value s' it = ANum (if b then 1 else if (1 <=? z) && (z <=? mt) then z else tc).
Proof.
  move => C J B P E T N1 N2 Vt Vs L. have [vs [xs H]] := R_parse _ _ _ _ _ _ _ C J B P E.
  have V : forall i, vs i = value s i by move => i; rewrite (R_value _ _ _ _ H).
  have Ev : vars s isc = VBool b. { move: Vs. rewrite /value. case: (vars s isc) => [b'|z'|p] //. congruence. }
  have Et : vars s it = VNum z. { move: Vt. rewrite /value. case: (vars s it) => [b'|z'|p] //. congruence. }
  have Fin : forall s', (exists z', R s' (upd vs it (ANum z')) xs) -> selftest s' ist = Ok tt.
  { move => s' [z' H']. rewrite (selftest_iff _ _ _ _ H') /upd. have -> : Nat.eqb ist it = false by apply/Nat.eqb_neq; congruence. rewrite V.
    case Ei : (value s ist) => [ | |[x|]] //. have := L x Ei. by case: (Z.leb_spec (zlen x) 246) => //; lia. }
  have Sv : forall s0 z', exists s', set_var s0 it (VNum z') = s' /\ (R s0 vs xs -> R s' (upd vs it (ANum z')) xs).
  { move => s0 z'. eexists. split; first by []. move => H0. by apply: set_var_ok. }
  have Out : forall s' z', R s' (upd vs it (ANum z')) xs -> argv s' = argv s /\ (forall i, i <> it -> value s' i = value s i) /\ value s' it = ANum z'.
  { move => s' z' H'. rewrite (R_argv _ _ _ H') (R_argv _ _ _ H). split => //. split.
    - move => i Ni. rewrite (R_value _ _ _ _ H') /upd. have -> : Nat.eqb i it = false by apply/Nat.eqb_neq. by rewrite V.
    - by rewrite (R_value _ _ _ _ H') /upd Nat.eqb_refl. }
  rewrite /validate Ev. case: b Vs Ev => Vs Ev.
  - have -> : vars (set_var s it (VNum 1)) it = VNum 1 by rewrite /set_var /= /upd Nat.eqb_refl. have -> : (1 <=? 0) || (mt <? 1) = false by lia.
    have H1 : R (set_var s it (VNum 1)) (upd vs it (ANum 1)) xs by apply: set_var_ok. rewrite (Fin _ (ex_intro _ 1 H1)). eexists. split; first by []. by apply: Out.
  - rewrite Et. destruct (Z.leb_spec z 0) as [A|A]; last destruct (Z.ltb_spec mt z) as [A'|A'].
    + have H1 : R (set_var s it (VNum tc)) (upd vs it (ANum tc)) xs by apply: set_var_ok. cbn [orb]. rewrite (Fin _ (ex_intro _ tc H1)). eexists. split; first by [].
      have -> : (1 <=? z) && (z <=? mt) = false by lia. by apply: Out.
    + have H1 : R (set_var s it (VNum tc)) (upd vs it (ANum tc)) xs by apply: set_var_ok. cbn [orb]. rewrite (Fin _ (ex_intro _ tc H1)). eexists. split; first by [].
      have -> : (1 <=? z) && (z <=? mt) = false by lia. by apply: Out.
    + have H1 : R s (upd vs it (ANum z)) xs. { apply: R_ext H _ => j. rewrite /upd. destruct (Nat.eqb_spec j it) as [->|]; last by []. by rewrite V. }
      cbn [orb]. rewrite (Fin _ (ex_intro _ z H1)). eexists. split; first by []. have -> : (1 <=? z) && (z <=? mt) = true by lia. by apply: Out.
Qed.
