(** The invariant of the line discipline in canonical mode. *)
From Verif Require Import Lib Tty_Model Tty_Spec.
From Coq Require Import ssreflect.
Set Warnings "-all".

(** *** Special characters *)

Lemma uniq_pairs (l : list Z) :
  NoDup (filter (fun v => negb (v =? 0)) l) ->
  ForallOrdPairs (fun x y => x <> 0 -> x <> y) l.
Proof.
  elim: l => [_ | x l IH]; first by constructor.
  cbn [filter]. case: (Z.eqb_spec x 0) => [E | N] /= H.
  - constructor; last by apply IH. apply Forall_forall => y _ X. lia.
  - inversion H; subst. constructor; last by apply IH.
    apply Forall_forall => y Hy _ E. subst y. apply H2.
    apply filter_In. split; auto. by case: (Z.eqb_spec x 0).
Qed.

Lemma in_use_not k v x : ~ In x (in_use k) -> In v (specials k) -> x <> 0 -> v <> x.
Proof.
  move=> H I N E. subst v. apply H. apply filter_In. split; auto.
  by case: (Z.eqb_spec x 0).
Qed.

(** A key in canonical mode does what its meaning says *)
Definition key_does (s : st) (c : Z) (b : bool) (s' : st) : Prop :=
  match canon_meaning (cf s) c with
  | MNone => s' = s
  | MFlush => s' = inbuf_reset s
  | MErase => s' = inbuf_drop_last s
  | MEnd d => is_delim (cf s) d = true /\
      (is_full s = false -> s' = set_cnt (set_q s (q s ++ [d])) (cnt s + 1))
  | MData d => is_delim (cf s) d = false /\ s' = inbuf_write s d b false
  end.

Ltac getpairs H :=
  repeat match goal with
  | K : ForallOrdPairs _ (_ :: _) |- _ => inversion K; clear K; subst
  | K : Forall _ (_ :: _) |- _ => inversion K; clear K; subst
  | K : Forall _ [] |- _ => clear K
  | K : ForallOrdPairs _ [] |- _ => clear K
  end.

Definition key1 (s : st) (c : Z) (b : bool) : st :=
  let (s1, done) := special_controls s c b in
  if done then s1
  else if icanon (cf s1) then canon_key s1 c b
  else inbuf_write s1 c b false.

Definition cmean (k : tconf) (c : Z) : meaning :=
    if isig k && (is_cc (vintr k) c || is_cc (vquit k) c) then MFlush
    else if isig k && is_cc (vsusp k) c then MNone
    else if ixon k && (is_cc (vstart k) c || is_cc (vstop k) c) then MNone
    else if is_cc (vreprint k) c || (iexten k && is_cc (vlnext k) c) then MNone
    else if is_cc (verase k) c then MErase
    else if (c =? 10) || is_cc (veof k) c || is_cc (veol k) c || is_cc (veol2 k) c
         then MEnd c
    else MData c.

Lemma is_cc_pos v c : 0 < c -> is_cc v c = (c =? v).
Proof.
  move=> H. rewrite /is_cc. case: (Z.eqb_spec v 0) => //= ->.
  by case: (Z.eqb_spec c 0) => //; lia.
Qed.

(** Equality tests of one character against the special characters: at most one
    succeeds. *)
Lemma eq_tests k c : sane k -> 0 < c ->
  let t := map (fun v => c =? v) (specials k) in
  t = map (fun _ => false) (specials k) \/
  (c <> 10 /\ exists i, (i < 12)%nat /\
     t = map (fun j => Nat.eqb i j) (seq 0 12)).
Proof.
  move=> [U [N10 [N13 [_ [_ _]]]]] Hc /=.
  have P := uniq_pairs _ U.
  have T10 := in_use_not k c 10 N10.
  rewrite /specials in P.
  inversion P as [| ? ? F1 P1]; subst. inversion P1 as [| ? ? F2 P2]; subst.
  inversion P2 as [| ? ? F3 P3]; subst. inversion P3 as [| ? ? F4 P4]; subst.
  inversion P4 as [| ? ? F5 P5]; subst. inversion P5 as [| ? ? F6 P6]; subst.
  inversion P6 as [| ? ? F7 P7]; subst. inversion P7 as [| ? ? F8 P8]; subst.
  inversion P8 as [| ? ? F9 P9]; subst. inversion P9 as [| ? ? F10 P10]; subst.
  inversion P10 as [| ? ? F11 P11]; subst. clear P P1 P2 P3 P4 P5 P6 P7 P8 P9 P10 P11.
  have sp : forall a b, c = a -> a <> b -> (c =? b) = false.
  { move=> a b -> Hab. by case: (Z.eqb_spec a b). }
  have FI : forall a l, c = a -> Forall (fun y => a <> 0 -> a <> y) l ->
            map (fun v => c =? v) l = map (fun _ => false) l.
  { move=> a l E F. apply map_ext_in => x Hx.
    apply (sp a); auto. move/Forall_forall: F => F. apply F; auto. lia. }
  case: (Z.eqb_spec c (verase k)) => [E | M1].
  { right. split; first by (apply T10; [rewrite E; cbn; auto 20 | lia]).
    exists 0%nat. split; first lia. have Q := FI _ _ E F1. cbn in Q. cbn.
    congruence. }
  case: (Z.eqb_spec c (veof k)) => [E | M2].
  { right. split; first by (apply T10; [rewrite E; cbn; auto 20 | lia]).
    exists 1%nat. split; first lia. have Q := FI _ _ E F2. cbn in Q. cbn.
    congruence. }
  case: (Z.eqb_spec c (veol k)) => [E | M3].
  { right. split; first by (apply T10; [rewrite E; cbn; auto 20 | lia]).
    exists 2%nat. split; first lia. have Q := FI _ _ E F3. cbn in Q. cbn.
    congruence. }
  case: (Z.eqb_spec c (veol2 k)) => [E | M4].
  { right. split; first by (apply T10; [rewrite E; cbn; auto 20 | lia]).
    exists 3%nat. split; first lia. have Q := FI _ _ E F4. cbn in Q. cbn.
    congruence. }
  case: (Z.eqb_spec c (vintr k)) => [E | M5].
  { right. split; first by (apply T10; [rewrite E; cbn; auto 20 | lia]).
    exists 4%nat. split; first lia. have Q := FI _ _ E F5. cbn in Q. cbn.
    congruence. }
  case: (Z.eqb_spec c (vquit k)) => [E | M6].
  { right. split; first by (apply T10; [rewrite E; cbn; auto 20 | lia]).
    exists 5%nat. split; first lia. have Q := FI _ _ E F6. cbn in Q. cbn.
    congruence. }
  case: (Z.eqb_spec c (vsusp k)) => [E | M7].
  { right. split; first by (apply T10; [rewrite E; cbn; auto 20 | lia]).
    exists 6%nat. split; first lia. have Q := FI _ _ E F7. cbn in Q. cbn.
    congruence. }
  case: (Z.eqb_spec c (vstart k)) => [E | M8].
  { right. split; first by (apply T10; [rewrite E; cbn; auto 20 | lia]).
    exists 7%nat. split; first lia. have Q := FI _ _ E F8. cbn in Q. cbn.
    congruence. }
  case: (Z.eqb_spec c (vstop k)) => [E | M9].
  { right. split; first by (apply T10; [rewrite E; cbn; auto 20 | lia]).
    exists 8%nat. split; first lia. have Q := FI _ _ E F9. cbn in Q. cbn.
    congruence. }
  case: (Z.eqb_spec c (vreprint k)) => [E | M10].
  { right. split; first by (apply T10; [rewrite E; cbn; auto 20 | lia]).
    exists 9%nat. split; first lia. have Q := FI _ _ E F10. cbn in Q. cbn.
    congruence. }
  case: (Z.eqb_spec c (vdiscard k)) => [E | M11].
  { right. split; first by (apply T10; [rewrite E; cbn; auto 20 | lia]).
    exists 10%nat. split; first lia. have Q := FI _ _ E F11. cbn in Q. cbn.
    congruence. }
  case: (Z.eqb_spec c (vlnext k)) => [E | M12].
  { right. split; first by (apply T10; [rewrite E; cbn; auto 20 | lia]).
    exists 11%nat. split; first lia. reflexivity. }
  by left.
Qed.

Lemma write_nf s d b af : is_full s = false ->
  inbuf_write s d b af =
  (if af then set_cnt (set_q s (q s ++ [d])) (cnt s + 1)
   else set_q s (q s ++ [d])).
Proof.
  rewrite /is_full /inbuf_write. case: (zlen (q s) <? INPUT_BS) => //.
Qed.

Lemma key1_ok s c b : sane (cf s) -> icanon (cf s) = true -> 0 < c ->
  match cmean (cf s) c with
  | MNone => key1 s c b = s
  | MFlush => key1 s c b = inbuf_reset s
  | MErase => key1 s c b = inbuf_drop_last s
  | MEnd d => is_delim (cf s) d = true /\
      (is_full s = false -> key1 s c b = set_cnt (set_q s (q s ++ [d])) (cnt s + 1))
  | MData d => is_delim (cf s) d = false /\ key1 s c b = inbuf_write s d b false
  end.
Proof.
  move=> Hs Hi Hc.
  have N0 : (c =? 0) = false by case: (Z.eqb_spec c 0) => //; lia.
  rewrite /cmean !is_cc_pos //.
  rewrite /key1 /special_controls /ctrl_handler /ctrl_delim Hi N0.
  case: (eq_tests _ _ Hs Hc) => [T | [C10 [i [Hlt T]]]].
  - cbn in T. injection T => E12 E11 E10 E9 E8 E7 E6 E5 E4 E3 E2 E1.
    rewrite E1 E2 E3 E4 E5 E6 E7 E8 E9 E10 E11 E12 Hi /canon_key E1.
    rewrite /is_delim E2 E3 E4 !orb_false_r !andb_false_r.
    case E: (c =? 10) => /=.
    + split; first by rewrite ?E. move=> F. by rewrite ?E ?E2 ?E3 ?E4 write_nf.
    + by rewrite ?E ?E2 ?E3 ?E4.
  - have N10 : (c =? 10) = false by case: (Z.eqb_spec c 10).
    have V : forall v, c = v -> v = c by [].
    destruct i as [|[|[|[|[|[|[|[|[|[|[|[| i]]]]]]]]]]]]; last lia;
      cbn in T; injection T => E12 E11 E10 E9 E8 E7 E6 E5 E4 E3 E2 E1;
      rewrite ?E1 ?E2 ?E3 ?E4 ?E5 ?E6 ?E7 ?E8 ?E9 ?E10 ?E11 ?E12 ?N10 /=; clear T.
    (* erase *)
    + rewrite Hi /canon_key E1 !andb_false_r /=. reflexivity.
    (* eof *)
    + have X := E2. move/Z.eqb_eq: X => X. rewrite -X ?andb_false_r /=.
      split; first by rewrite /is_delim E2 ?orb_true_r.
      move=> F. rewrite write_nf //.
    + have X := E3. move/Z.eqb_eq: X => X. rewrite -X ?andb_false_r /=.
      split; first by rewrite /is_delim E3 ?orb_true_r.
      move=> F. rewrite write_nf //.
    + have X := E4. move/Z.eqb_eq: X => X. rewrite -X ?andb_false_r /=.
      split; first by rewrite /is_delim E4 ?orb_true_r.
      move=> F. rewrite write_nf //.
    (* intr *)
    + rewrite ?andb_false_r ?andb_true_r. case: (isig (cf s)) => //=.
      rewrite ?andb_false_r /=. rewrite Hi /canon_key E1 /is_delim E2 E3 E4 ?N10 //.
    + rewrite ?andb_false_r ?andb_true_r. case: (isig (cf s)) => //=.
      rewrite ?andb_false_r /=. rewrite Hi /canon_key E1 /is_delim E2 E3 E4 ?N10 //.
    + rewrite ?andb_false_r ?andb_true_r. case: (isig (cf s)) => //=.
      rewrite ?andb_false_r /=. rewrite Hi /canon_key E1 /is_delim E2 E3 E4 ?N10 //.
    (* start, stop *)
    + rewrite ?andb_false_r ?andb_true_r. case: (ixon (cf s)) => //=.
      rewrite ?andb_false_r /=. rewrite Hi /canon_key E1 /is_delim E2 E3 E4 ?N10 //.
    + rewrite ?andb_false_r ?andb_true_r. case: (ixon (cf s)) => //=.
      rewrite ?andb_false_r /=. rewrite Hi /canon_key E1 /is_delim E2 E3 E4 ?N10 //.
    + rewrite ?andb_false_r ?andb_true_r /=. done.
    + rewrite ?andb_false_r ?andb_true_r /=. rewrite Hi /canon_key E1 /is_delim E2 E3 E4 ?N10 //.
    + rewrite ?andb_false_r ?andb_true_r. case: (iexten (cf s)) => //=.
      rewrite Hi /canon_key E1 /is_delim E2 E3 E4 ?N10 //.
Qed.

Lemma key_ok s c b : sane (cf s) -> icanon (cf s) = true -> 0 < c ->
  key_does s c b (send_keyevent s c b).
Proof.
  move=> Hs Hi Hc. rewrite /key_does /send_keyevent /map_cr /canon_meaning.
  have K10 := key1_ok s 10 b Hs Hi ltac:(lia).
  have K13 := key1_ok s 13 b Hs Hi ltac:(lia).
  have K := key1_ok s c b Hs Hi Hc.
  rewrite /cmean in K10, K13, K.
  case: (Z.eqb_spec c 13) => [E | N13].
  - subst c. case: (igncr (cf s)) => //=.
    case: (icrnl (cf s)); rewrite ?andb_false_r //=.
  - cbn [andb]. case: (Z.eqb_spec c 10) => [E | N10] /=.
    + subst c. case: (inlcr (cf s)) => //=.
    + exact K.
Qed.
