(** Proofs: options and arguments. *)
From Verif Require Import Lib Itoa_Model Cmd_Model Cmd_Spec Cmd_Proofs.
From Coq Require Import ssreflect.

Definition filled (s : ps) : list Z := firstn (Z.to_nat (used s)) (ab s).
Definition held (P : list Z) (o : Z) (x : list Z) : Prop := exists pre post, P = pre ++ x ++ 0 :: post /\ zlen pre = o /\ clean x.
Lemma held_app P Q o x : held P o x -> held (P ++ Q) o x.
Proof. move => [pre [post [-> [E C]]]]. exists pre, (post ++ Q). by rewrite -!app_assoc. Qed.
Definition isval (P : list Z) (v : val) (a : aval) : Prop :=
  match v with
  | VBool b => a = ABool b
  | VNum z => a = ANum z
  | VPtr PNull => a = AStr None
  | VPtr (PBuf o) => exists x, a = AStr (Some x) /\ held P o x
  | VPtr PInit => False
  end.
Lemma isval_app P Q v a : isval P v a -> isval (P ++ Q) v a.
Proof. case: v => [b|z|[| |o]] //=. move => [x [-> H]]. exists x. split => //. by apply: held_app. Qed.
Definition isarg (P : list Z) (p : ptr) (x : list Z) : Prop := exists o, p = PBuf o /\ held P o x.
Definition rest0 (n : nat) : list ptr := skipn n (PInit :: repeat PNull 15).
Record R (s : ps) (vs : nat -> aval) (xs : list (list Z)) : Prop := {
  r_len : zlen (ab s) = 4096; r_used : 0 <= used s < 4096;
  r_v : forall i, isval (filled s) (vars s i) (vs i);
  r_n : ncmd s = zlen xs; r_15 : zlen xs <= 15;
  r_c : exists front, cargs s = front ++ rest0 (length xs) /\ Forall2 (isarg (filled s)) front xs;
  r_w : md s = Waiting -> lastk s <> None }.

Lemma f2_len {A B} (P : A -> B -> Prop) l l' : Forall2 P l l' -> length l = length l'.
Proof. elim => [//|x y t t' _ _ IH]. cbn. lia. Qed.
Lemma store_ok s vs xs a : R s vs xs -> used s + zlen a + 1 < 4096 ->
  exists b, mem_write (ab s) (used s) (a ++ [0]) = Some b /\ zlen b = 4096 /\ firstn (Z.to_nat (used s + zlen a + 1)) b = filled s ++ a ++ [0].
Proof.
  move => [L U _ _ _ _ _] F. have Na := zlen_nonneg a. rewrite /mem_write. have Ed : zlen (a ++ [0]) = zlen a + 1 by rewrite zlen_snoc.
  rewrite Ed L. have -> : (0 <=? used s) && (used s + (zlen a + 1) <=? 4096) = true by lia. eexists. split; first by []. split.
  - rewrite /zlen in L, F, Na. rewrite /zlen !app_length firstn_length skipn_length /=. lia.
  - rewrite /filled app_assoc firstn_app. have El : length (firstn (Z.to_nat (used s)) (ab s) ++ a ++ [0]) = Z.to_nat (used s + zlen a + 1).
    { rewrite !app_length firstn_length /=. rewrite /zlen in L, F, Na. rewrite /zlen. lia. }
    rewrite -El Nat.sub_diag firstn_O app_nil_r. by apply: firstn_all.
Qed.
Lemma upd_isval P vars vs i v a : (forall j, isval P (vars j) (vs j)) -> isval P v a -> forall j, isval P (upd vars i v j) (upd vs i a j).
Proof. move => H H' j. rewrite /upd. by case: (Nat.eqb j i). Qed.
Lemma f2_impl {A B} (P Q : A -> B -> Prop) l l' : (forall x y, P x y -> Q x y) -> Forall2 P l l' -> Forall2 Q l l'.
Proof. move => H. elim => [|x y t t' Hp _ IH]; first by constructor. constructor => //. by apply: H. Qed.

Lemma h_word_ok s vs xs i a : R s vs xs -> clean a ->
  (PAGE <= used s + zlen a + 1 /\ h_word s i a = Ok s) \/
  (used s + zlen a + 1 < PAGE /\ exists s', h_word s i a = Ok s' /\ R s' (upd vs i (AStr (Some a))) xs /\ md s' = md s /\ lastk s' = lastk s /\ used s' = used s + zlen a + 1).
Proof.
  move => H C. rewrite /h_word. destruct (Z.leb_spec PAGE (used s + zlen a + 1)) as [L|L]; [by left|right]. split => //.
  have [b [E [Lb Fb]]] := store_ok _ _ _ a H L. rewrite E. eexists. split; first by []. move: (H) => [Hl Hu Hv Hn H15 [front [Hc Hf]] Hw]. have Na := zlen_nonneg a.
  have Ff : forall m l v c n, filled (Ps m l v c n b (used s + zlen a + 1)) = filled s ++ a ++ [0] by move => *; rewrite /filled.
  split; last by []. constructor; cbn [ab used vars ncmd cargs md lastk] => //.
  - rewrite /PAGE in L. lia.
  - rewrite Ff. apply: upd_isval; first by (move => j; apply: isval_app). cbn. exists a. split => //. exists (filled s), []. split => //. split => //.
    rewrite /filled zlen_firstn. rewrite Hl. lia.
  - exists front. split => //. rewrite Ff. apply: f2_impl Hf => p x [o [-> Ho]]. exists o. split => //. by apply: held_app.
Qed.
Lemma rest0_cons n : (n <= 15)%nat -> exists p, rest0 n = p :: rest0 (S n).
Proof. do 16 (case: n => [|n]; first by (move => _; eexists)). lia. Qed.
Lemma h_cmd_ok s vs xs a : R s vs xs -> clean a ->
  ((zlen xs = 15 \/ PAGE <= used s + zlen a + 1) /\ h_cmd s a = Panic) \/
  (zlen xs < 15 /\ used s + zlen a + 1 < PAGE /\ exists s', h_cmd s a = Ok s' /\ R s' vs (xs ++ [a]) /\ md s' = md s /\ lastk s' = lastk s /\ used s' = used s + zlen a + 1).
Proof.
  move => H C. rewrite /h_cmd. move: (H) => [Hl Hu Hv Hn H15 [front [Hc Hf]] Hw]. rewrite Hn. change (MAXA - 1) with 15.
  destruct (Z.eqb_spec (zlen xs) 15) as [E|E]; first by left; split => //; left.
  destruct (Z.leb_spec PAGE (used s + zlen a + 1)) as [L|L]; first by left; split => //; right. right. split; first lia. split => //.
  have [b [Eb [Lb Fb]]] := store_ok _ _ _ a H L. rewrite Eb. have Na := zlen_nonneg a.
  have [p Ep] := rest0_cons (length xs) ltac:(rewrite /zlen in H15; lia). have Lf := f2_len _ _ _ Hf.
  rewrite Hc Ep aset_app; first by rewrite /zlen Lf. eexists. split; first by []. split; last by [].
  have Ff : forall m l v c n, filled (Ps m l v c n b (used s + zlen a + 1)) = filled s ++ a ++ [0] by move => *; rewrite /filled.
  constructor; cbn [ab used vars ncmd cargs md lastk] => //.
  - rewrite /PAGE in L. lia.
  - rewrite Ff => j. by apply: isval_app.
  - by rewrite zlen_snoc.
  - rewrite zlen_snoc. lia.
  - exists (front ++ [PBuf (used s)]). rewrite app_length /= Nat.add_1_r -app_assoc. split => //. rewrite Ff. apply: Forall2_app.
    + apply: f2_impl Hf => q x [o [-> Ho]]. exists o. split => //. by apply: held_app.
    + constructor; last by constructor. exists (used s). split => //. exists (filled s), []. split => //. split => //. rewrite /filled zlen_firstn Hl. lia.
Qed.
Definition abs_bool (a : aval) (x : list Z) : aval := match h_bool (VNum 0) x with VBool b => ABool b | _ => a end.
Lemma set_var_ok s vs xs i v a : R s vs xs -> isval (filled s) v a -> R (set_var s i v) (upd vs i a) xs.
Proof. move => [Hl Hu Hv Hn H15 Hc Hw] H. constructor => //. by apply: upd_isval. Qed.
Lemma R_ext s vs vs' xs : R s vs xs -> (forall i, vs i = vs' i) -> R s vs' xs.
Proof. move => [Hl Hu Hv Hn H15 Hc Hw] H. constructor => // i. by rewrite -H. Qed.
Lemma set_md_ok s vs xs m : R s vs xs -> (m = Waiting -> lastk s <> None) -> R (set_md s m) vs xs.
Proof. move => [Hl Hu Hv Hn H15 Hc Hw] H. by constructor. Qed.
Lemma set_last_ok s vs xs l : R s vs xs -> md s = Initial -> R (set_last s l) vs xs.
Proof. move => [Hl Hu Hv Hn H15 Hc Hw] H. constructor => //. cbn. by rewrite H. Qed.

Lemma num_cases v o : (exists z, match o with Some r => match p_err r with NoErr => VNum (p_val r) | _ => v end | None => v end = VNum z) \/
  match o with Some r => match p_err r with NoErr => VNum (p_val r) | _ => v end | None => v end = v.
Proof. case: o => [r|]; [|by right]. case: (p_err r); [left; by eexists|by right|by right]. Qed.
(** Any option's value: a new one is stored or the old one stays *)
Lemma generic_ok w t s vs xs i a : R s vs xs -> clean a -> exists s' vs', generic w t s i a = Ok s' /\ R s' vs' xs /\ md s' = md s /\ lastk s' = lastk s.
Proof.
  move => H C. have Same : forall v, v = vars s i \/ (exists b, v = VBool b) \/ (exists z, v = VNum z) -> exists s' vs', Ok (set_var s i v) = Ok s' /\ R s' vs' xs /\ md s' = md s /\ lastk s' = lastk s.
  { move => v Hv. have [a' Ha] : exists a', isval (filled s) v a'. { case: Hv => [->|[[b ->]|[z ->]]]; [exists (vs i); apply H|by exists (ABool b)|by exists (ANum z)]. }
    exists (set_var s i v), (upd vs i a'). split => //. split => //. by apply: set_var_ok. }
  case: t => /=.
  - apply: Same. rewrite /h_bool. case: (match a with _ :: _ => _ | _ => _ end); first by right; left; eexists.
    case: (_ || _); first by right; left; eexists. case: (_ || _); first by right; left; eexists. by left.
  - apply: Same. rewrite /h_long. case: (num_cases (vars s i) (strtol w true (a ++ [0]) 10)); [by right; right|by left].
  - apply: Same. rewrite /h_ulong. set q := match a with _ :: _ => _ | _ => _ end. case: q => base b.
    case: (num_cases (vars s i) (strtol w false (b ++ [0]) base)); [by right; right|by left].
  - case: (h_word_ok s vs xs i a H C) => [[_ ->]|[_ [s' [-> [H' [E1 [E2 _]]]]]]]; [by exists s, vs|by exists s', (upd vs i (AStr (Some a)))].
Qed.
Lemma use_arg_safe w tbl s vs xs a : R s vs xs -> clean a -> use_arg w tbl s a = Panic \/ exists s' vs' xs', use_arg w tbl s a = Ok s' /\ R s' vs' xs'.
Proof.
  move => H C. rewrite /use_arg. case M : (md s).
  - right. case: (is_bool_value a).
    { case: (lastk s) => [i|]; last by exists s, vs, xs. case: (type_of tbl i); try (by exists s, vs, xs).
      have [s' [vs' [-> [H' [E1 E2]]]]] := generic_ok w KBool s vs xs i a H C. exists (set_last s' None), vs', xs. split => //. apply: set_last_ok => //. congruence. }
    case: (_ || _). { exists (set_md s Final), vs, xs. split => //. by apply: set_md_ok. }
    case: (find_opt tbl a) => [i|]; last by exists s, vs, xs.
    have H' := set_last_ok s vs xs (Some i) H M. case: (type_of tbl i).
    + have [s' [vs' [-> [H2 _]]]] := generic_ok w KBool _ vs xs i a H' C. by exists s', vs', xs.
    + eexists; exists vs, xs. split; first by []. by apply: set_md_ok.
    + eexists; exists vs, xs. split; first by []. by apply: set_md_ok.
    + eexists; exists vs, xs. split; first by []. by apply: set_md_ok.
  - right. have := r_w _ _ _ H M. case E : (lastk s) => [i|] // _.
    have [s' [vs' [-> [H' _]]]] := generic_ok w (type_of tbl i) s vs xs i a H C. exists (set_md s' Initial), vs', xs. split => //. by apply: set_md_ok.
  - case: (h_cmd_ok s vs xs a H C) => [[_ ->]|[_ [_ [s' [-> [H' _]]]]]]; [by left|right]. by exists s', vs, (xs ++ [a]).
Qed.
Lemma foldw_safe w tbl ws : forall s vs xs, R s vs xs -> Forall clean ws -> foldw w tbl s ws = Panic \/ exists s' vs' xs', foldw w tbl s ws = Ok s' /\ R s' vs' xs'.
Proof.
  elim: ws => [|a ws IH] s vs xs H F; first by right; exists s, vs, xs. inversion F; subst. cbn.
  case: (use_arg_safe w tbl s vs xs a H) => // [->|[s' [vs' [xs' [-> H']]]]]; [by left|by apply: IH H' _].
Qed.

(** Reading back *)
Lemma held_read s o x : held (filled s) o x -> cstr (skipn (Z.to_nat o) (ab s)) = x.
Proof.
  move => [pre [post [E [Eo C]]]]. have Ea : ab s = pre ++ x ++ 0 :: (post ++ skipn (Z.to_nat (used s)) (ab s)).
  { rewrite -{1}(firstn_skipn (Z.to_nat (used s)) (ab s)). rewrite -/(filled s) E -!app_assoc. by []. }
  rewrite Ea -Eo /zlen Nat2Z.id skipn_app skipn_all Nat.sub_diag /=. by apply: cstr_app.
Qed.
Lemma R_value s vs xs i : R s vs xs -> value s i = vs i.
Proof.
  move => H. have := r_v _ _ _ H i. rewrite /value. case: (vars s i) => [b|z|[| |o]] //=. move => [x [-> Hx]]. by rewrite (held_read _ _ _ Hx).
Qed.
Lemma R_argv s vs xs : R s vs xs -> argv s = match xs with [] => [init_path] | _ => xs end.
Proof.
  move => [Hl Hu Hv Hn H15 [front [Hc Hf]] Hw]. rewrite /argv Hc.
  have X : forall f y tl, Forall2 (isarg (filled s)) f y -> strs s (f ++ tl) = y ++ strs s tl.
  { move => f y tl. elim => [//|p x f' y' [o [-> Ho]] _ IH]. cbn. by rewrite (held_read _ _ _ Ho) IH. }
  rewrite (X _ _ _ Hf). case: xs Hn H15 Hc Hf => [|x xs] Hn H15 Hc Hf; first by [].
  have -> : strs s (rest0 (length (x :: xs))) = []; last by rewrite app_nil_r.
  have : (length (x :: xs) <= 15)%nat by rewrite /zlen in H15; lia. cbn [length]. move: (length xs) => n.
  do 15 (case: n => [|n]; first by []). lia.
Qed.
