From Verif Require Import Lib Term_Model Term_Spec Term_Proofs Term_Proofs2 Term_Proofs4 Term_Proofs7.
From Coq Require Import ssreflect.
Set Warnings "-all".

(** *** Typing and erasing *)

Lemma cells_cell g a i x F p : 0 < cols g -> 0 <= i < rows g -> 0 <= x < cols g ->
  cell g (a_cells g a i x (x + 1) F) p =
  if p =? (top a + i) * cols g + x then F x else cell g a p.
Proof.
  move=> C Hi Hx. rewrite /cell /=.
  have D := Z.div_mod p (cols g) ltac:(lia). have B := Z.mod_pos_bound p (cols g) C.
  set n := p / cols g in D *. set j := p mod cols g in D B *. rewrite /scrn.
  have -> : top a + (n - top a) = n by lia.
  case: (Z.eqb_spec p ((top a + i) * cols g + x)) => E.
  - have [En Ej] : n = top a + i /\ j = x by apply (ix_inj (cols g)) => //; lia.
    rewrite En Ej. zb; lia || done.
  - have -> : ((n - top a =? i) && (x <=? j) && (j <? x + 1)) = false; last by case: (_ && _).
    case: (Z.eqb_spec (n - top a) i) => // X. have Y : n = top a + i by lia.
    have : j <> x by move=> Z; apply E; rewrite D Y Z; lia.
    zb; lia || done.
Qed.

Lemma put_plain g a e : plain g a -> ac a < cols g ->
  plain g (a_put g a e) /\ pos g (a_put g a e) = pos g a + 1 /\ top (a_put g a e) = top a /\
  (forall p, cell g (a_put g a e) p = if p =? pos g a then e else cell g a p).
Proof.
  move=> [R [C [P1 [P2 [P3 [P4 P5]]]]]] L. split.
  { rewrite /plain /=. do 4 (split; first done). split; first done. split; [lia | done]. }
  split; first by rewrite /pos /=; lia. split; first done. move=> p.
  have := cells_cell g a (ar a) (ac a) (fun _ => e) p C P3 ltac:(lia). done.
Qed.

Lemma next_plain g a : plain g a ->
  plain g (a_next g a) /\ pos g (a_next g a) = pos g a + cols g /\ top a <= top (a_next g a) /\
  (forall p, p < (top a + rows g) * cols g -> cell g (a_next g a) p = cell g a p).
Proof.
  move=> [R [C [P1 [P2 [P3 [P4 P5]]]]]]. rewrite /a_next P1 P2.
  case: (Z.ltb_spec (ar a) (rows g - 1)) => L.
  { split. { rewrite /plain /=. do 4 (split; first done). split; first lia. done. }
    split; first by rewrite /pos /=; lia. split; [cbn; lia | done]. }
  rewrite (Z.eqb_refl (rows g)) (Z.eqb_refl 0). cbn [andb]. split.
  { rewrite /plain /=. do 6 (split; first done). move=> i j [Hi Hj].
    case: (Z.eqb_spec i (rows g - 1)) => // N. apply P5. split; lia. }
  split; first by rewrite /pos /=; lia. split; first by cbn; lia.
  move=> p Hp. rewrite /cell /=.
  have D := Z.div_mod p (cols g) ltac:(lia). have B := Z.mod_pos_bound p (cols g) C.
  have -> : (p / cols g =? top a + rows g) = false; last done.
  apply Z.eqb_neq => E. rewrite E in D. lia.
Qed.

Lemma char_plain g a ch color : plain g a -> printable ch ->
  plain g (a_char g a ch color) /\ pos g (a_char g a ch color) = pos g a + 1 /\
  top a <= top (a_char g a ch color) /\
  (forall p, p < pos g a -> cell g (a_char g a ch color) p = cell g a p) /\
  cell g (a_char g a ch color) (pos g a) = entry ch color.
Proof.
  move=> P [N1 [N2 N3]]. have [R [C [P1 [P2 [P3 [P4 P5]]]]]] := P.
  rewrite /a_char.
  have -> : (ch =? 10) = false by apply Z.eqb_neq.
  have -> : (ch =? 13) = false by apply Z.eqb_neq.
  have -> : (ch =? 9) = false by apply Z.eqb_neq.
  case: (Z.eqb_spec (ac a) (cols g)) => X.
  - have PC : plain g (a_cur a (ar a) 0).
    { rewrite /plain /=. do 5 (split; first done). split; [lia | done]. }
    have [Q1 [Q2 [Q3 Q4]]] := next_plain g _ PC.
    set a1 := a_next _ _ in Q1 Q2 Q3 Q4 *.
    have AC : ac a1 = 0 by rewrite /a1 next_ac.
    have [S1 [S2 [S3 S4]]] := put_plain g a1 (entry ch color) Q1 ltac:(lia).
    have PP : pos g a1 = pos g a by rewrite Q2 /pos /= X; lia.
    split; first done. split; first by rewrite S2 PP. split; first by rewrite S3.
    split.
    + move=> p Hp. rewrite S4 PP. have -> : (p =? pos g a) = false by apply Z.eqb_neq; lia.
      rewrite Q4; last done. cbn [a_cur top]. move: Hp. rewrite /pos X. nia.
    + by rewrite S4 PP Z.eqb_refl.
  - have [S1 [S2 [S3 S4]]] := put_plain g a (entry ch color) P ltac:(lia).
    split; first done. split; first done. split; first by rewrite S3; lia.
    split.
    + move=> p Hp. rewrite S4. by have -> : (p =? pos g a) = false by apply Z.eqb_neq; lia.
    + by rewrite S4 Z.eqb_refl.
Qed.

Lemma text_ok g l : forall a a', plain g a -> Forall (fun x => printable (fst x)) l ->
  aruns g a (typed l) a' ->
  plain g a' /\ pos g a' = pos g a + zlen l /\ top a <= top a' /\
  (forall p, p < pos g a -> cell g a' p = cell g a p) /\
  (forall i ch color, nth_error l i = Some (ch, color) ->
     cell g a' (pos g a + Z.of_nat i) = entry ch color).
Proof.
  elim: l => [| [ch color] l IH] a a' P F.
  { move=> ->. split; first done. split; first by rewrite /zlen /=; lia.
    split; first lia. split; first done. by case. }
  move=> [a1 [[k [_ E]] A]]. cbn [a_step a_exec fst snd] in E.
  have Fc := Forall_inv F. have Fl := Forall_inv_tail F. cbn in Fc.
  have [S1 [S2 [S3 [S4 S5]]]] := char_plain g a ch color P Fc.
  rewrite -E in S1 S2 S3 S4 S5.
  have [T1 [T2 [T3 [T4 T5]]]] := IH _ _ S1 Fl A.
  split; first done. split; first by rewrite T2 S2 /zlen /=; lia.
  split; first lia. split.
  - move=> p Hp. rewrite T4; first lia. by apply S4.
  - case=> [| i] ch' color' /= X.
    + injection X => <- <-. rewrite Z.add_0_r T4; first lia. done.
    + have := T5 i ch' color' X. rewrite S2.
      by have -> : pos g a + 1 + Z.of_nat i = pos g a + Z.of_nat (S i) by lia.
Qed.

Lemma back_plain g a k : plain g a -> top a * cols g < pos g a ->
  plain g (a_back g a k) /\ pos g (a_back g a k) = pos g a - 1 /\ top (a_back g a k) = top a /\
  (forall p, cell g (a_back g a k) p = if p =? pos g a - 1 then entry 32 k else cell g a p).
Proof.
  move=> P L. have [R [C [P1 [P2 [P3 [P4 P5]]]]]] := P. rewrite /a_back.
  case X: ((ac a =? 0) && (ar a =? 0)).
  { exfalso. move: X L. rewrite andb_true_iff !Z.eqb_eq /pos => [[-> ->]]. lia. }
  set y := if ac a =? 0 then _ else ar a. set x := if ac a =? 0 then _ else ac a - 1.
  have Hyx : 0 <= y < rows g /\ 0 <= x < cols g /\ (top a + y) * cols g + x = pos g a - 1.
  { move: X. rewrite /y /x /pos. zb; try done; lia. }
  clearbody x y. case: Hyx => Hy [Hx E].
  rewrite P5; first by split. cbn [Z.eqb].
  split. { rewrite /plain /=. do 4 (split; first done). split; first done. split; [lia | done]. }
  split; first exact E. split; first done. move=> p.
  have := cells_cell g a y x (fun _ => entry 32 k) p C Hy Hx. by rewrite E.
Qed.

Lemma backs_ok g k : forall a a', plain g a -> top a * cols g <= pos g a - Z.of_nat k ->
  aruns g a (backs k) a' ->
  plain g a' /\ pos g a' = pos g a - Z.of_nat k /\ top a' = top a /\
  (forall p, p < pos g a - Z.of_nat k \/ pos g a <= p -> cell g a' p = cell g a p) /\
  (forall p, pos g a - Z.of_nat k <= p < pos g a -> e_char (cell g a' p) = 32).
Proof.
  elim: k => [| k IH] a a' P L.
  { move=> ->. split; first done. split; first by cbn; lia. split; first done.
    split; first done. move=> p. lia. }
  move=> [a1 [[c0 [_ E]] A]]. cbn [a_step a_exec] in E.
  have [S1 [S2 [S3 S4]]] := back_plain g a c0 P ltac:(lia).
  rewrite -E in S1 S2 S3 S4.
  have [T1 [T2 [T3 [T4 T5]]]] := IH _ _ S1 ltac:(lia) A.
  split; first done. split; first lia. split; first lia. split.
  - move=> p Hp. rewrite T4; first lia. rewrite S4.
    by have -> : (p =? pos g a - 1) = false by apply Z.eqb_neq; lia.
  - move=> p Hp. case: (Z.eq_dec p (pos g a - 1)) => X; last by apply T5; lia.
    rewrite T4; first lia. rewrite S4 X Z.eqb_refl /e_char /entry.
    have -> : 32 + 256 * c0 = 32 + c0 * 256 by lia. by rewrite Z.mod_add.
Qed.

Lemma type_erase g a a' l : plain g a -> Forall (fun x => printable (fst x)) l ->
  aruns g a (typed l ++ backs (length l)) a' -> top a' * cols g <= pos g a ->
  pos g a' = pos g a /\ plain g a' /\
  (forall p, p < pos g a -> cell g a' p = cell g a p) /\
  (forall p, pos g a <= p < pos g a + zlen l -> e_char (cell g a' p) = 32).
Proof.
  move=> P F A L. case: (proj1 (aruns_app _ _ _ _ _) A) => a1 [A1 A2].
  have [T1 [T2 [T3 [T4 T5]]]] := text_ok g l a a1 P F A1.
  have EL : zlen l = Z.of_nat (length l) by [].
  have TT : top a' = top a1.
  { clear -A2. elim: (length l) a1 A2 => [| k IH] a1 /=; first by move=> ->.
    move=> [a2 [[c0 [_ ->]] X]]. rewrite (IH _ X). cbn [a_step a_exec]. rewrite /a_back.
    case: (_ && _) => //. by case: (_ =? 0). }
  have [B1 [B2 [B3 [B4 B5]]]] := backs_ok g (length l) a1 a' T1 ltac:(lia) A2.
  split; first lia. split; first done. split.
  - move=> p Hp. rewrite B4; first lia. by apply T4.
  - move=> p Hp. apply B5. lia.
Qed.
