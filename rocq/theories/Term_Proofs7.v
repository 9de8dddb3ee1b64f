From Verif Require Import Lib Term_Model Term_Spec Term_Proofs Term_Proofs2 Term_Proofs4 Term_Proofs5.
From Coq Require Import ssreflect.
Set Warnings "-all".

(** *** The history stays *)

Definition grows (a a' : ab) : Prop :=
  top a <= top a' /\ forall n j, n < top a -> ln a' n j = ln a n j.

Lemma grows_refl a a' : ln a' = ln a -> top a' = top a -> grows a a'.
Proof. move=> E T. split; first lia. by rewrite E. Qed.

Lemma grows_trans a b d : grows a b -> grows b d -> grows a d.
Proof. move=> [A1 A2] [B1 B2]. split; first lia. move=> n j Hn. rewrite B2; first lia. by apply A2. Qed.

Lemma grows_scr g a f : grows a (a_scr g a f).
Proof.
  split; first by cbn; lia. move=> n j Hn /=.
  have -> : (top a <=? n) = false by apply Z.leb_gt. done.
Qed.

Lemma grows_rows g a m : grows a (a_rows g a m).
Proof. exact (grows_scr g a _). Qed.

Lemma grows_cells g a i x y F : grows a (a_cells g a i x y F).
Proof. exact (grows_scr g a _). Qed.

Lemma grows_next g a : 0 < rows g -> grows a (a_next g a).
Proof.
  move=> R. rewrite /a_next. case: (_ <? _); first by apply grows_refl.
  case: (_ && _).
  { split; first by cbn; lia. move=> n j Hn /=.
    by have -> : (n =? top a + rows g) = false by apply Z.eqb_neq; lia. }
  case: (_ =? _); first by apply grows_rows. by case: (_ <? _); apply grows_refl.
Qed.

Lemma grows_back g a k : grows a (a_back g a k).
Proof.
  rewrite /a_back. case: (_ && _); first by apply grows_refl.
  case: (_ =? 0); last by apply grows_refl. exact (grows_scr g a _).
Qed.

Lemma grows_while g sp k fuel : forall a, grows a (a_while g sp k fuel a).
Proof.
  elim: fuel => [| f IH] a /=; first by apply grows_refl.
  case: (_ <=? _); first by apply grows_refl. case: (Bool.eqb _ _); last by apply grows_refl.
  apply: grows_trans; [by apply grows_back | by apply IH].
Qed.

Lemma grows_put g a e : grows a (a_put g a e).
Proof. exact (grows_scr g a _). Qed.

Lemma grows_erase_line g a m : grows a (a_erase_line g a m).
Proof.
  rewrite /a_erase_line. case: (m =? 0); first by apply grows_cells.
  case: (m =? 1); first by apply grows_cells.
  case: (m =? 2); [by apply grows_rows | by apply grows_refl].
Qed.

Lemma grows_exec g k a i : 0 < rows g -> ~ wipes (OItem i) -> grows a (a_exec g k a i).
Proof.
  move=> R N. have G0 : forall a', ln a' = ln a -> top a' = top a -> grows a a' by apply grows_refl.
  destruct i; cbn [a_exec wipes] in *; try done; try by apply G0.
  - rewrite /a_char. case: (_ =? 10); first by apply grows_next.
    case: (_ =? 13); first by apply G0. case: (_ =? 9); first by apply G0.
    case: (_ =? cols g); last by apply grows_put.
    apply: (grows_trans _ (a_next g (a_cur a (ar a) 0))); last by apply grows_put.
    exact (grows_next g (a_cur a (ar a) 0) R).
  - apply grows_back.
  - rewrite /a_word. apply: grows_trans; by apply grows_while.
  - rewrite /a_erase_display. case: (m =? 0).
    { apply: grows_trans; [by apply (grows_erase_line g a 0) | by apply grows_rows]. }
    case: (m =? 1).
    { apply: grows_trans; [by apply (grows_rows g a (wipe 0 (ar a))) | by apply grows_erase_line]. }
    case: (m =? 2); first by apply grows_rows.
    case: (Z.eqb_spec m 3) => X; [done | by apply G0].
  - apply grows_erase_line.
  - rewrite /a_alt. case: (Bool.eqb _ _); first by apply G0.
    case: b; first by case: (_ && _); apply G0. exact (grows_scr g a (sv a)).
  - case: (_ =? 0); [by apply G0 | by apply grows_rows].
  - case: (_ =? 0); [by apply G0 | by apply grows_rows].
  - case: (_ || _); [by apply G0 | exact (grows_rows g a _)].
  - case: (_ || _); [by apply G0 | exact (grows_rows g a _)].
  - case: (_ <=? _); by apply G0.
  - apply grows_cells.
  - apply grows_cells.
  - apply grows_cells.
Qed.

Lemma history g l : 0 < rows g -> (forall o, In o l -> ~ wipes o) ->
  forall a a', aruns g a l a' ->
  top a <= top a' /\ forall n j, n < top a -> ln a' n j = ln a n j.
Proof.
  move=> R. elim: l => [| o l IH] N a a' /=.
  { move=> ->. split; [lia | done]. }
  move=> [a1 [[k [_ ->]] A]].
  have G1 : grows a (a_step g k a o).
  { have No := N o (or_introl eq_refl).
    destruct o; cbn [a_step]; try by apply grows_refl. by apply grows_exec. }
  have G2 := IH (fun o' X => N o' (or_intror X)) _ _ A.
  exact (grows_trans _ _ _ G1 G2).
Qed.

(** *** The main screen comes back *)

Definition keeps (a a' : ab) : Prop :=
  aalt a = true ->
  aalt a' = true /\ sv a' = sv a /\ sr a' = sr a /\ sc a' = sc a /\
  otb a' = otb a /\ ors a' = ors a /\ ore a' = ore a.

Lemma keeps_trans a b d : keeps a b -> keeps b d -> keeps a d.
Proof.
  move=> A B X. case: (A X) => X1 [A1 [A2 [A3 [A4 [A5 A6]]]]].
  case: (B X1) => X2 [B1 [B2 [B3 [B4 [B5 B6]]]]].
  rewrite -A1 -A2 -A3 -A4 -A5 -A6. done.
Qed.

Lemma keeps_back g a k : keeps a (a_back g a k).
Proof. rewrite /a_back. case: (_ && _) => //. by case: (_ =? 0). Qed.

Lemma keeps_next g a : keeps a (a_next g a).
Proof.
  rewrite /a_next. case: (_ <? _) => //. case: (_ && _) => //. case: (_ =? _) => //.
  by case: (_ <? _).
Qed.

Lemma keeps_while g sp k fuel : forall a, keeps a (a_while g sp k fuel a).
Proof.
  elim: fuel => [| f IH] a //=. case: (_ <=? _) => //. case: (Bool.eqb _ _) => //.
  apply: keeps_trans; [by apply keeps_back | by apply IH].
Qed.

Lemma keeps_erase_line g a m : keeps a (a_erase_line g a m).
Proof. rewrite /a_erase_line. case: (m =? 0) => //. case: (m =? 1) => //. by case: (m =? 2). Qed.

Lemma keeps_exec g k a i : ~ leaves (OItem i) -> keeps a (a_exec g k a i).
Proof.
  move=> N. destruct i; cbn [a_exec leaves] in *; try done.
  - rewrite /a_char. case: (_ =? 10); first by apply keeps_next.
    case: (_ =? 13) => //. case: (_ =? 9) => //.
    case: (_ =? cols g) => //.
    exact (keeps_next g (a_cur a (ar a) 0)).
  - apply keeps_back.
  - rewrite /a_word. apply: keeps_trans; by apply keeps_while.
  - rewrite /a_erase_display. case: (m =? 0); first exact (keeps_erase_line g a 0).
    case: (m =? 1); first exact (keeps_erase_line g (a_rows g a _) 1).
    case: (m =? 2) => //. by case: (m =? 3).
  - apply keeps_erase_line.
  - case: b N => // _. move=> X. by rewrite /a_alt X.
  - by case: (_ =? 0).
  - by case: (_ =? 0).
  - by case: (_ || _).
  - by case: (_ || _).
  - by case: (_ <=? _).
Qed.

Lemma keeps_run g l : (forall o, In o l -> ~ leaves o) ->
  forall a a', aruns g a l a' -> keeps a a'.
Proof.
  elim: l => [| o l IH] N a a' /=; first by move=> ->.
  move=> [a1 [[k [_ ->]] A]].
  apply: (keeps_trans a (a_step g k a o)); last by apply (IH (fun o' X => N o' (or_intror X))).
  have No := N o (or_introl eq_refl).
  destruct o; cbn [a_step]; try done. by apply keeps_exec.
Qed.

Lemma aruns_app g l1 l2 : forall a a', aruns g a (l1 ++ l2) a' <->
  exists a1, aruns g a l1 a1 /\ aruns g a1 l2 a'.
Proof.
  elim: l1 => [| o l1 IH] a a' /=.
  - split; first by move=> X; exists a. by move=> [a1 [-> X]].
  - split.
    + move=> [a1 [A X]]. case: (proj1 (IH _ _) X) => a2 [X1 X2]. exists a2. split; last done.
      by exists a1.
    + move=> [a2 [[a1 [A X1]] X2]]. exists a1. split; first done. apply IH. by exists a2.
Qed.

Lemma alt_back g l b a a' : (forall o, In o l -> ~ leaves o) -> aalt a = false ->
  aruns g a (OItem (IAlt true true) :: l ++ [OItem (IAlt false b)]) a' ->
  (forall i j, 0 <= i < rows g -> scrn a' i j = scrn a i j) /\ ar a' = ar a /\ ac a' = ac a /\
  tb a' = tb a /\ rs a' = rs a /\ re a' = re a /\ aalt a' = false.
Proof.
  move=> N AF [a1 [[k1 [_ E1]] X]].
  case: (proj1 (aruns_app _ _ _ _ _) X) => a2 [X2 /= [a3 [[k3 [_ E3]] ->]]].
  have K := keeps_run g l N _ _ X2.
  have E1' : a1 = Ab (ln a) (top a) (ar a) (ac a) (off a) (otb a) (ors a) (ore a) (tb a) (rs a) (re a)
            true true (scrn a) (ar a) (ac a) (acen a) (aon a).
  { rewrite E1. cbn [a_step a_exec]. rewrite /a_alt AF. cbn [Bool.eqb negb]. by rewrite andb_false_r. }
  rewrite E1' in K. case: (K eq_refl) => T [A1 [A2 [A3 [A4 [A5 A6]]]]].
  cbn [a_step a_exec] in E3. rewrite /a_alt T in E3. cbn [Bool.eqb] in E3. rewrite E3.
  cbn [ln top ar ac tb rs re aalt sv sr sc otb ors ore] in *.
  split; last by rewrite A2 A3 A4 A5 A6.
  move=> i j Hi. rewrite {1}/scrn. cbn [ln top a_scr a_ln].
  have -> : (top a2 <=? top a2 + i) && (top a2 + i <? top a2 + rows g) = true.
  { apply andb_true_iff. rewrite Z.leb_le Z.ltb_lt. lia. }
  rewrite A1. f_equal. lia.
Qed.
