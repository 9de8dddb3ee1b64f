(** How many parameters the array holds; lost text. *)
From Coq Require Import ssreflect.
From Verif Require Import Lib Itoa_Model Itoa_Spec Itoa_Proofs Term_Model Term_Spec Term_Proofs6
  Csi_Model Csi_Spec Csi_Proofs Csi_Proofs2 Csi_Proofs3 Csi_Proofs4 Csi_Proofs5.

Definition pbyte (c : Z) : Prop := 48 <= c <= 63.
Definition digit (c : Z) : Prop := 48 <= c <= 57.

Lemma valid_digit c : pbyte c -> is_valid_digit c 10 = (c <=? 57).
Proof.
  move=> H. have A : forallb (fun c => (c <? 48) || (63 <? c) || Bool.eqb (is_valid_digit c 10) (c <=? 57))
    (map Z.of_nat (List.seq 0 64)) = true by vm_compute.
  rewrite -> forallb_forall in A. have := A c (in_range 64 c ltac:(rewrite /pbyte in H; lia)).
  rewrite /pbyte in H. have -> : (c <? 48) = false by apply/Z.ltb_ge; lia.
  have -> : (63 <? c) = false by apply/Z.ltb_ge; lia. cbn [orb]. exact: Bool.eqb_prop.
Qed.

(** Where strtol stops: at the beginning (overflow), or after the digits *)
Lemma loop_stop w l : forall n res, Forall pbyte l -> 0 <= n ->
  exists p, strtol_loop w true 10 1 0 (l ++ [0]) n res = Some p /\
    (p_end p = 0 \/
     exists d t, l = d ++ t /\ p_end p = n + zlen d /\ Forall digit d /\
       match t with [] => True | c :: _ => 57 < c end).
Proof.
  elim: l => [| c l IH] n res F N.
  - cbn. eexists. split; first reflexivity. right. exists [], []. cbn.
    split; first done. split; first by rewrite /zlen /=; lia. by split; constructor.
  - inversion F as [| ? ? C F']; subst. cbn [app strtol_loop].
    have -> : (c =? 0) = false by apply/Z.eqb_neq; rewrite /pbyte in C; lia.
    rewrite (valid_digit c C). cbn [orb].
    case: (Z.leb_spec c 57) => L; cbn [negb].
    + case: (negb _); first by eexists; split; [reflexivity | left].
      have [p [E H]] := IH (n + 1) (to_type w true (res * 10 + 1 * digit_to_val c)) F' ltac:(lia).
      exists p. split; first exact: E. case: H => [-> | [d [t [-> [E2 [D T]]]]]]; first by left.
      right. exists (c :: d), t. split; first done. split.
      { rewrite E2 /zlen. cbn [length]. lia. }
      split; last done. constructor => //. rewrite /digit. rewrite /pbyte in C. lia.
    + eexists. split; first reflexivity. right. exists [], (c :: l). cbn.
      split; first done. split; first by rewrite /zlen /=; lia. by split; first constructor.
Qed.

Lemma strtol_stop w l : Forall pbyte l ->
  exists p d t, strtol w true (l ++ [0]) 10 = Some p /\ l = d ++ t /\ p_end p = zlen d /\
    Forall digit d.
Proof.
  move=> F.
  have E : strtol w true (l ++ [0]) 10 = strtol_loop w true 10 1 0 (l ++ [0]) 0 0.
  { rewrite /strtol. cbn [Z.leb Z.compare Pos.compare Pos.compare_cont andb].
    case: l F => [| c l] F //. inversion F as [| ? ? C _]; subst. cbn [app].
    have -> : (c =? 45) = false by apply/Z.eqb_neq; rewrite /pbyte in C; lia.
    by []. }
  have [p [E1 H]] := loop_stop w l 0 0 F ltac:(lia).
  rewrite E E1. case: H => [H | [d [t [E2 [E3 [D _]]]]]].
  - exists p, [], l. do 2 (split; first done). split; first exact: H. by constructor.
  - exists p, d, t. do 2 (split; first done). split; last done. lia.
Qed.

Lemma skip_app (d t : list Z) : skipn (Z.to_nat (zlen d)) ((d ++ t) ++ [0]) = t ++ [0].
Proof. rewrite /zlen Nat2Z.id -app_assoc skipn_app skipn_all Nat.sub_diag //. Qed.

Lemma sep_app a b : separators (a ++ b) = separators a + separators b.
Proof. by rewrite /separators filter_app /zlen app_length Nat2Z.inj_add. Qed.
Lemma sep_digits d : Forall digit d -> separators d = 0.
Proof.
  elim=> [| c l C _ IH] //. rewrite /separators. cbn [List.filter].
  have -> : (57 <? c) = false by apply/Z.ltb_ge; rewrite /digit in C; lia. exact: IH.
Qed.
Lemma sep_cons c t : separators (c :: t) <= 1 + separators t.
Proof. rewrite /separators. cbn [List.filter]. case: (57 <? c); rewrite /zlen; cbn [length]; lia. Qed.

Lemma many_params w fuel : forall l acc, Forall pbyte l -> 16 <= separators l + zlen acc ->
  get_params w fuel (l ++ [0]) acc = None.
Proof.
  elim: fuel => [| fuel IH] l acc F L //. cbn [get_params].
  case: (Z.leb_spec 16 (zlen acc)) => A //.
  have [p [d [t [-> [E [-> D]]]]]] := strtol_stop w l F. subst l.
  rewrite skip_app.
  rewrite sep_app (sep_digits d D) in L. apply Forall_app in F as [_ F].
  case: t F L => [| c t] F L; cbn [app].
  - exfalso. move: L. rewrite /separators /=. change (zlen (@nil Z)) with 0. lia.
  - inversion F as [| ? ? C F']; subst.
    have -> : (c =? 0) = false by apply/Z.eqb_neq; rewrite /pbyte in C; lia.
    apply: IH => //. have := sep_cons c t. rewrite /zlen app_length. cbn [length].
    rewrite /zlen in L A. lia.
Qed.

Lemma few_bytes w fuel : forall l acc, Forall pbyte l -> zlen l + zlen acc <= 15 ->
  (length l < fuel)%nat -> exists ps, get_params w fuel (l ++ [0]) acc = Some ps.
Proof.
  elim: fuel => [| fuel IH] l acc F L Fu; first lia. cbn [get_params].
  have -> : (16 <=? zlen acc) = false by apply/Z.leb_gt; rewrite /zlen in L |- *; lia.
  have [p [d [t [-> [E [-> D]]]]]] := strtol_stop w l F. subst l.
  rewrite skip_app. apply Forall_app in F as [_ F].
  case: t F L Fu => [| c t] F L Fu; cbn [app]; first by eexists.
  inversion F as [| ? ? C F']; subst.
  have -> : (c =? 0) = false by apply/Z.eqb_neq; rewrite /pbyte in C; lia.
  apply: IH => //.
  - move: L. rewrite /zlen !app_length. cbn [length]. lia.
  - move: Fu. rewrite app_length. cbn [length]. lia.
Qed.

Lemma pvt_tail x : Forall (fun c => 48 <= c <= 63) (pb x) ->
  exists l, (if (match pb x with 63 :: _ => true | _ => false end) then tl (pb x) else pb x) = l /\
    Forall pbyte l /\ zlen l <= zlen (pb x) /\ separators (pb x) <= 1 + separators l /\
    (match pb x with 63 :: _ => true | _ => false end = false -> l = pb x).
Proof.
  move=> F. case: (match pb x with 63 :: _ => true | _ => false end) => /=; eexists; split; try reflexivity.
  - case: (pb x) F => [| c t] F /=.
    + split; first by constructor. split; first lia. split; first by rewrite /separators /=; lia. by [].
    + inversion F; subst. split; first done. split; first by rewrite /zlen /=; lia.
      split; last by []. exact: sep_cons.
  - split; first exact: F. split; first lia. split; first lia. by [].
Qed.

(** Final bytes *)
Lemma csi_final g w mem f y z x k : pst_ x = PCsi -> 64 <= f <= 126 ->
  filter g w mem f y z x k = end_csi g w mem f y z x k.
Proof.
  move=> P F. rewrite /filter P.
  have -> : (f =? 27) = false by apply/Z.eqb_neq; lia. rewrite /st_csi.
  have -> : (48 <=? f) && (f <=? 63) = false by zb; lia.
  have -> : (32 <=? f) && (f <=? 47) = false by zb; lia.
  by have -> : (64 <=? f) && (f <=? 126) = true by zb; lia.
Qed.

Lemma overflow g w mem f y z x k : pst_ x = PCsi -> parsing x -> 64 <= f <= 126 ->
  17 <= separators (pb x) \/ (16 <= separators (pb x) /\ hd 0 (pb x) <> 63) \/
  zlen (pb x) = 64 \/ zlen (ib x) = 64 ->
  filter g w mem f y z x k = None.
Proof.
  move=> P [P1 [P2 [P3 P4]]] F H. rewrite csi_final // /end_csi.
  case: (Z.leb_spec 64 (zlen (pb x))) => L1; first by [].
  case: (Z.leb_spec 64 (zlen (ib x))) => L2; first by []. cbn [orb].
  have [l [E [B [_ [S1 S2]]]]] := pvt_tail x P3. rewrite E.
  have SL : 16 <= separators l.
  { case: H => [H | [[H N] | H]]; try lia.
    rewrite S2 //. case: (pb x) N => [| c t] //= N. case: c N => //= p. do 6 (case: p => // p). }
  rewrite many_params //; first by (rewrite /zlen /=; lia).
  case PB : (pb x) => [| c t] //. exfalso. move: SL. rewrite -E PB /separators /zlen /=. lia.
Qed.

Lemma safe g w mem c y z x k : parsing x -> zlen (pb x) <= 15 -> zlen (ib x) < 64 ->
  exists o, filter g w mem c y z x k = Some o.
Proof.
  move=> [P1 [P2 [P3 P4]]] L I. rewrite /filter.
  case: (pst_ x); try (by eexists); case: (c =? 27); try (by eexists).
  rewrite /st_csi. case: (_ && _); first by case: (64 <=? zlen (pb x)); eexists.
  case: (_ && _); first by case: (64 <=? zlen (ib x)); eexists.
  case: (_ && _); last by eexists.
  rewrite /end_csi.
  have -> : (64 <=? zlen (pb x)) = false by apply/Z.leb_gt; lia.
  have -> : (64 <=? zlen (ib x)) = false by apply/Z.leb_gt; lia. cbn [orb].
  have [l [E [B [LL _]]]] := pvt_tail x P3. rewrite E.
  have [ps H] := few_bytes w (S (length (pb x))) l [] B ltac:(rewrite /zlen /= in LL L |- *; lia)
    ltac:(rewrite /zlen in LL; lia).
  rewrite H. case: (pb x); by eexists.
Qed.

Lemma swallow g w mem x s v k rep e l : ccorr g x v -> 48 <= e <= 63 ->
  Forall (fun c => c <> 27 /\ ~ 64 <= c <= 95) l ->
  feed g w mem (Vt x s k rep) (27 :: e :: l) = Some (Vt (set_st x PUnk) s k rep).
Proof.
  move=> CC E F. cbn [feed]. rewrite (esc_in g w mem x s v k rep CC). cbn [obind].
  have -> : feed1 g w mem (Vt (set_st x PEsc) s k rep) e = Some (Vt (set_st x PUnk) s k rep).
  { apply: feed1_nothing. have B := in_range 64 e ltac:(lia).
    have : e = 48 \/ e = 49 \/ e = 50 \/ e = 51 \/ e = 52 \/ e = 53 \/ e = 54 \/ e = 55 \/
      e = 56 \/ e = 57 \/ e = 58 \/ e = 59 \/ e = 60 \/ e = 61 \/ e = 62 \/ e = 63 by lia.
    move=> H. repeat (destruct H as [-> | H]; first reflexivity). by subst e. }
  cbn [obind]. elim: F => [| c l' [C1 C2] _ IH] //. cbn [feed].
  have -> : feed1 g w mem (Vt (set_st x PUnk) s k rep) c = Some (Vt (set_st x PUnk) s k rep).
  { apply: feed1_nothing. rewrite /filter. cbn [set_st pst_].
    have -> : (c =? 27) = false by apply/Z.eqb_neq.
    rewrite /st_unk. by have -> : (64 <=? c) && (c <=? 95) = false by zb; lia. }
  exact: IH.
Qed.
