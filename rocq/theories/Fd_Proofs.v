From Coq Require Import ZArith List Bool Lia.
From Verif Require Import Lib Fd_Model Fd_Spec.
Import ListNotations.
Open Scope Z_scope.

(* ---------- counting *)
Definition cnt (P : Z -> Prop) (n : Z) : Prop :=
  exists L, NoDup L /\ (forall h, In h L <-> P h) /\ n = zlen L.

Lemma cnt_ext P Q n : cnt P n -> (forall h, Q h <-> P h) -> cnt Q n.
Proof.
  intros (L & D & M & E) HQ. exists L; split; [ exact D | split; [ | exact E ] ].
  intro h. rewrite M. symmetry. apply HQ.
Qed.
Lemma cnt_add P Q n y :
  cnt P n -> ~ P y -> (forall h, Q h <-> P h \/ h = y) -> cnt Q (n + 1).
Proof.
  intros (L & D & M & E) NY HQ. exists (y :: L). split; [ | split ].
  - constructor; [ rewrite M; exact NY | exact D ].
  - intro h. cbn [In]. rewrite M, HQ. intuition.
  - rewrite zlen_cons. lia.
Qed.
Lemma cnt_del P Q n y :
  cnt P n -> P y -> (forall h, Q h <-> P h /\ h <> y) -> cnt Q (n - 1).
Proof.
  intros (L & D & M & E) PY HQ. assert (IY : In y L) by (apply M; exact PY).
  apply in_split in IY. destruct IY as (A & B & ->).
  exists (A ++ B). split; [ apply NoDup_remove_1 in D; exact D | split ].
  - intro h. rewrite HQ, <- M, !in_app_iff. cbn [In].
    assert (NI := NoDup_remove_2 _ _ _ D). rewrite in_app_iff in NI.
    split; intro K.
    + split; [ tauto | intros ->; tauto ].
    + destruct K as (K & NE). destruct K as [K | [K | K]]; [ tauto | congruence | tauto ].
  - unfold zlen in *. rewrite !app_length in *. cbn [length] in *. lia.
Qed.
Lemma cnt_pos P n y : cnt P n -> P y -> 0 < n.
Proof.
  intros (L & D & M & E) PY. apply M in PY. destruct L as [ | a L ]; [ destruct PY | ].
  rewrite zlen_cons in E. unfold zlen in E. lia.
Qed.
Lemma cnt_nonneg P n : cnt P n -> 0 <= n.
Proof. intros (L & D & M & E). unfold zlen in E. lia. Qed.
Lemma cnt_zero P : cnt P 0 -> forall h, ~ P h.
Proof. intros C h Ph. assert (K := cnt_pos _ _ _ C Ph). lia. Qed.
Lemma cnt_none P : (forall h, ~ P h) -> cnt P 0.
Proof.
  intro H. exists []. split; [ constructor | split; [ | reflexivity ] ].
  intro h. cbn [In]. split; [ tauto | intro K; exact (H h K) ].
Qed.

Definition b2z (b : bool) : Z := if b then 1 else 0.
Definition hp (f : Z -> option hnd) (C : hnd -> bool) (h : Z) : Prop :=
  exists x, f h = Some x /\ C x = true.

Lemma cnt_new f C n y x :
  cnt (hp f C) n -> f y = None -> cnt (hp (fupd f y (Some x)) C) (n + b2z (C x)).
Proof.
  intros K N. destruct (C x) eqn:E; cbn [b2z].
  - apply (cnt_add (hp f C) _ n y K).
    + intros (z & Z1 & _). congruence.
    + intro h. unfold hp. destruct (Z.eq_dec h y) as [-> | NE].
      * rewrite fupd_same. split; [ tauto | intros _; exists x; auto ].
      * rewrite fupd_other by exact NE. split; [ tauto | intros [Q | Q]; [ exact Q | congruence ] ].
  - rewrite Z.add_0_r. apply (cnt_ext (hp f C)); [ exact K | ].
    intro h. unfold hp. destruct (Z.eq_dec h y) as [-> | NE].
    + rewrite fupd_same, N. split; intros (z & Z1 & Z2); congruence.
    + rewrite fupd_other by exact NE. tauto.
Qed.
Lemma cnt_rm f C n y x :
  cnt (hp f C) n -> f y = Some x -> cnt (hp (fupd f y None) C) (n - b2z (C x)).
Proof.
  intros K N. destruct (C x) eqn:E; cbn [b2z].
  - apply (cnt_del (hp f C) _ n y K).
    + exists x; auto.
    + intro h. unfold hp. destruct (Z.eq_dec h y) as [-> | NE].
      * rewrite fupd_same. split; [ intros (z & Z1 & _); congruence | tauto ].
      * rewrite fupd_other by exact NE. tauto.
  - rewrite Z.sub_0_r. apply (cnt_ext (hp f C)); [ exact K | ].
    intro h. unfold hp. destruct (Z.eq_dec h y) as [-> | NE].
    + rewrite fupd_same, N. split; intros (z & Z1 & Z2); congruence.
    + rewrite fupd_other by exact NE. tauto.
Qed.
Lemma cnt_upd f C n y x x' :
  cnt (hp f C) n -> f y = Some x -> C x' = C x -> cnt (hp (fupd f y (Some x')) C) n.
Proof.
  intros K N E. apply (cnt_ext (hp f C)); [ exact K | ].
  intro h. unfold hp. destruct (Z.eq_dec h y) as [-> | NE].
  - rewrite fupd_same, N. split; intros (z & Z1 & Z2); injection Z1 as <-;
      eexists; (split; [ reflexivity | congruence ]).
  - rewrite fupd_other by exact NE. tauto.
Qed.
Lemma cnt_hext f g C n : cnt (hp f C) n -> (forall h, g h = f h) -> cnt (hp g C) n.
Proof. intros K E. apply (cnt_ext (hp f C)); [ exact K | ]. intro h. unfold hp. rewrite E. tauto. Qed.

(* ---------- the invariant *)
Definition C_o (o : Z) (x : hnd) : bool := h_o x =? o.
Definition C_r (o : Z) (x : hnd) : bool := (h_o x =? o) && negb (wronly x).
Definition C_w (o : Z) (x : hnd) : bool := (h_o x =? o) && wronly x.
Definition C_f c (f : Z) (x : hnd) : bool := fs c (h_o x) =? f.

Record inv c (s : st) : Prop := {
  v_maxh : 0 <= maxh c;
  v_slot : forall p fd h, tb s p fd = Some h ->
             pr s p = true /\ 0 <= fd < maxh c /\ exists x, hs s h = Some x;
  v_inj : forall p fd p' fd' h, tb s p fd = Some h -> tb s p' fd' = Some h -> p = p' /\ fd = fd';
  v_own : forall h x, hs s h = Some x -> exists p fd, tb s p fd = Some h;
  v_obj : forall h x, hs s h = Some x -> ok s (h_o x) <> ONone;
  v_rf : forall o, cnt (hp (hs s) (C_o o)) (rf s o);
  v_rd : forall o, ok s o = OPipe -> cnt (hp (hs s) (C_r o)) (rd s o);
  v_wr : forall o, ok s o = OPipe -> cnt (hp (hs s) (C_w o)) (wr s o);
  v_fr : forall f, cnt (hp (hs s) (C_f c f)) (fr s f - 1) }.
Definition pipes (s : st) : Prop := forall o, ok s o = OPipe -> 0 < rf s o.

Lemma fupd2 {B} (t : Z -> Z -> B) p fd h a i :
  fupd t p (fupd (t p) fd h) a i = if (a =? p) && (i =? fd) then h else t a i.
Proof.
  destruct (Z.eqb_spec a p) as [-> | NA]; cbn [andb].
  - rewrite fupd_same. destruct (Z.eqb_spec i fd) as [-> | NI].
    + apply fupd_same.
    + rewrite fupd_other by exact NI. reflexivity.
  - rewrite fupd_other by exact NA. reflexivity.
Qed.
Lemma fupd1 {B} (t : Z -> B) p v a : fupd t p v a = if a =? p then v else t a.
Proof.
  destruct (Z.eqb_spec a p) as [-> | NA]; [ apply fupd_same | apply fupd_other; exact NA ].
Qed.

(* states that agree: all that matters *)
Definition agree (s s' : st) : Prop :=
  (forall h, hs s' h = hs s h) /\ (forall o, ok s' o = ok s o) /\ (forall o, rf s' o = rf s o) /\
  (forall o, ok s o = OPipe -> rd s' o = rd s o) /\ (forall o, ok s o = OPipe -> wr s' o = wr s o) /\
  (forall f, fr s' f = fr s f).

Lemma inv_agree c s s' : inv c s -> agree s s' -> (forall p fd, tb s' p fd = tb s p fd) ->
  (forall p fd, tb s p fd <> None -> pr s' p = true) -> inv c s'.
Proof.
  intros V (A1 & A2 & A3 & A4 & A5 & A6) T P. destruct V as [v0 v1 v2 v3 v4 v5 v6 v7 v8].
  constructor.
  - exact v0.
  - intros p fd h E. rewrite T in E. destruct (v1 _ _ _ E) as (K1 & K2 & x & K3).
    split; [ apply (P p fd); congruence | split; [ exact K2 | exists x; rewrite A1; exact K3 ] ].
  - intros p fd p' fd' h E1 E2. rewrite T in E1, E2. apply (v2 _ _ _ _ _ E1 E2).
  - intros h x E. rewrite A1 in E. destruct (v3 _ _ E) as (p & fd & K). exists p, fd. rewrite T; exact K.
  - intros h x E. rewrite A1 in E. rewrite A2. apply (v4 _ _ E).
  - intro o. rewrite A3. apply (cnt_hext (hs s)); [ apply v5 | exact A1 ].
  - intros o E. rewrite A2 in E. rewrite A4 by exact E. apply (cnt_hext (hs s)); [ apply v6; exact E | exact A1 ].
  - intros o E. rewrite A2 in E. rewrite A5 by exact E. apply (cnt_hext (hs s)); [ apply v7; exact E | exact A1 ].
  - intro f. rewrite A6. apply (cnt_hext (hs s)); [ apply v8 | exact A1 ].
Qed.

Lemma ent_some c s p fd h : inv c s -> tb s p fd = Some h -> exists x, hs s h = Some x /\ ent s p fd = Some x.
Proof.
  intros V E. destruct (v_slot _ _ V _ _ _ E) as (_ & _ & x & K). exists x. unfold ent. rewrite E. auto.
Qed.
Lemma ent_none c s p fd : inv c s -> (ent s p fd = None <-> tb s p fd = None).
Proof.
  intros V. unfold ent. destruct (tb s p fd) as [h | ] eqn:E; [ | tauto ].
  destruct (v_slot _ _ V _ _ _ E) as (_ & _ & x & K). rewrite K. split; congruence.
Qed.
Lemma ent_out c s p fd : inv c s -> ~ (0 <= fd < maxh c) -> ent s p fd = None.
Proof.
  intros V NR. unfold ent. destruct (tb s p fd) as [h | ] eqn:E; [ | reflexivity ].
  destruct (v_slot _ _ V _ _ _ E) as (_ & K & _). tauto.
Qed.

(* ---------- a handle more *)
Definition added c s y x : st :=
  let s := set_hs s y (Some x) in
  let s := add_rf s (h_o x) 1 in
  let s := match ok s (h_o x) with OPipe => add_end s x 1 | _ => s end in
  add_fr s (fs c (h_o x)) 1.

Lemma added_hs c s y x : hs (added c s y x) = fupd (hs s) y (Some x).
Proof. unfold added, add_end. cbn. destruct (ok s (h_o x)), (wronly x); reflexivity. Qed.
Lemma added_tb c s y x : tb (added c s y x) = tb s.
Proof. unfold added, add_end. cbn. destruct (ok s (h_o x)), (wronly x); reflexivity. Qed.
Lemma added_pr c s y x : pr (added c s y x) = pr s.
Proof. unfold added, add_end. cbn. destruct (ok s (h_o x)), (wronly x); reflexivity. Qed.
Lemma added_ok c s y x : Fd_Model.ok (added c s y x) = ok s.
Proof. unfold added, add_end. cbn. destruct (ok s (h_o x)), (wronly x); reflexivity. Qed.
Lemma added_rf c s y x o : rf (added c s y x) o = rf s o + b2z (C_o o x).
Proof.
  replace (rf (added c s y x)) with (fupd (rf s) (h_o x) (rf s (h_o x) + 1)).
  - rewrite fupd1. unfold C_o. rewrite Z.eqb_sym. destruct (Z.eqb_spec (h_o x) o) as [-> | N]; cbn [b2z]; lia.
  - unfold added, add_end. cbn. destruct (ok s (h_o x)), (wronly x); reflexivity.
Qed.
Lemma added_fr c s y x f : fr (added c s y x) f = fr s f + b2z (C_f c f x).
Proof.
  replace (fr (added c s y x)) with (fupd (fr s) (fs c (h_o x)) (fr s (fs c (h_o x)) + 1)).
  - rewrite fupd1. unfold C_f. rewrite Z.eqb_sym. destruct (Z.eqb_spec (fs c (h_o x)) f) as [-> | N]; cbn [b2z]; lia.
  - unfold added, add_end. cbn. destruct (ok s (h_o x)), (wronly x); reflexivity.
Qed.
Lemma added_rd c s y x o : ok s o = OPipe -> rd (added c s y x) o = rd s o + b2z (C_r o x).
Proof.
  intro E. unfold added, add_end, C_r. cbn. destruct (Z.eqb_spec (h_o x) o) as [-> | N].
  - rewrite E. destruct (wronly x); cbn; [ lia | rewrite fupd_same; reflexivity ].
  - cbn. rewrite Z.add_0_r. destruct (ok s (h_o x)), (wronly x); cbn; try reflexivity.
    apply fupd_other. congruence.
Qed.
Lemma added_wr c s y x o : ok s o = OPipe -> wr (added c s y x) o = wr s o + b2z (C_w o x).
Proof.
  intro E. unfold added, add_end, C_w. cbn. destruct (Z.eqb_spec (h_o x) o) as [-> | N].
  - rewrite E. destruct (wronly x); cbn; [ rewrite fupd_same; reflexivity | lia ].
  - cbn. rewrite Z.add_0_r. destruct (ok s (h_o x)), (wronly x); cbn; try reflexivity.
    apply fupd_other. congruence.
Qed.

Lemma add_inv c s p fd y x :
  inv c s -> pr s p = true -> 0 <= fd < maxh c -> tb s p fd = None -> hs s y = None ->
  ok s (h_o x) <> ONone -> inv c (set_tb (added c s y x) p fd (Some y)).
Proof.
  intros V P R T Y K. destruct V as [v0 v1 v2 v3 v4 v5 v6 v7 v8].
  assert (NY : forall a i, tb s a i <> Some y).
  { intros a i E. destruct (v1 _ _ _ E) as (_ & _ & z & Hz). congruence. }
  constructor; cbn [set_tb hs tb pr Fd_Model.ok rf rd wr fr];
    rewrite ?added_hs, ?added_tb, ?added_pr, ?added_ok.
  - exact v0.
  - intros a i h E. rewrite fupd2 in E. destruct ((a =? p) && (i =? fd)) eqn:B.
    + apply andb_true_iff in B. destruct B as (B1 & B2). apply Z.eqb_eq in B1, B2. subst.
      injection E as <-. split; [ exact P | split; [ exact R | exists x; apply fupd_same ] ].
    + destruct (v1 _ _ _ E) as (K1 & K2 & z & K3). split; [ exact K1 | split; [ exact K2 | ] ].
      exists z. rewrite fupd_other by (intros ->; exact (NY _ _ E)). exact K3.
  - intros a i a' i' h E1 E2. rewrite fupd2 in E1, E2.
    destruct ((a =? p) && (i =? fd)) eqn:B1; destruct ((a' =? p) && (i' =? fd)) eqn:B2.
    + apply andb_true_iff in B1, B2. destruct B1, B2. rewrite Z.eqb_eq in *. lia.
    + injection E1 as <-. destruct (NY _ _ E2).
    + injection E2 as <-. destruct (NY _ _ E1).
    + apply (v2 _ _ _ _ _ E1 E2).
  - intros h z E. rewrite fupd1 in E. destruct (Z.eqb_spec h y) as [-> | NE].
    + exists p, fd. rewrite fupd2, !Z.eqb_refl. reflexivity.
    + destruct (v3 _ _ E) as (a & i & Hai). exists a, i. rewrite fupd2.
      destruct ((a =? p) && (i =? fd)) eqn:B; [ | exact Hai ].
      apply andb_true_iff in B. destruct B as (B1 & B2). apply Z.eqb_eq in B1, B2. subst. congruence.
  - intros h z E. rewrite fupd1 in E. destruct (Z.eqb_spec h y) as [-> | NE].
    + injection E as <-. exact K.
    + apply (v4 _ _ E).
  - intro o. rewrite added_rf. apply cnt_new; [ apply v5 | exact Y ].
  - intros o E. rewrite added_rd by exact E. apply cnt_new; [ apply v6; exact E | exact Y ].
  - intros o E. rewrite added_wr by exact E. apply cnt_new; [ apply v7; exact E | exact Y ].
  - intro f. rewrite added_fr. replace (fr s f + b2z (C_f c f x) - 1) with (fr s f - 1 + b2z (C_f c f x)) by lia.
    apply cnt_new; [ apply v8 | exact Y ].
Qed.

Lemma add_pipes c s p fd y x : pipes s -> pipes (set_tb (added c s y x) p fd (Some y)).
Proof.
  intros PP o. cbn [set_tb Fd_Model.ok rf]. rewrite added_ok, added_rf. intro E.
  specialize (PP o E). unfold b2z. destruct (C_o o x); lia.
Qed.

Lemma add_ent c s p fd y x : inv c s -> hs s y = None ->
  others s (set_tb (added c s y x) p fd (Some y)) p fd /\
  ent (set_tb (added c s y x) p fd (Some y)) p fd = Some x.
Proof.
  intros V Y. split.
  - intros a i N. unfold ent. cbn [set_tb tb hs]. rewrite added_tb, added_hs, fupd2.
    replace ((a =? p) && (i =? fd)) with false
      by (symmetry; apply andb_false_iff; rewrite !Z.eqb_neq; tauto).
    destruct (tb s a i) as [h | ] eqn:E; [ | reflexivity ].
    destruct (v_slot _ _ V _ _ _ E) as (_ & _ & z & Hz).
    apply fupd_other. congruence.
  - unfold ent. cbn [set_tb tb hs]. rewrite added_tb, added_hs, fupd2, !Z.eqb_refl. cbn [andb].
    apply fupd_same.
Qed.

(* ---------- a handle less *)
Definition closed c s h x : st :=
  let o := h_o x in
  let pipe := match ok s o with OPipe => true | _ => false end in
  let s := if pipe then add_end s x (-1) else s in
  let s := add_rf s o (-1) in
  let s := if pipe && (rf s o =? 0) then set_ok s o ONone else s in
  let s := set_hs s h None in
  add_fr s (fs c o) (-1).

Ltac cls := unfold closed, add_end; cbn zeta;
  match goal with |- context[ok ?s (h_o ?x)] => destruct (ok s (h_o x)) eqn:?, (wronly x) eqn:? end;
  cbn [andb add_rf rf set_ok set_hs add_fr hs tb pr Fd_Model.ok rd wr fr];
  rewrite ?fupd_same;
  try match goal with |- context[if ?b then _ else _] => destruct b eqn:? end;
  cbn [andb add_rf rf set_ok set_hs add_fr hs tb pr Fd_Model.ok rd wr fr].

Lemma closed_hs c s h x : hs (closed c s h x) = fupd (hs s) h None.
Proof. cls; reflexivity. Qed.
Lemma closed_tb c s h x : tb (closed c s h x) = tb s.
Proof. cls; reflexivity. Qed.
Lemma closed_pr c s h x : pr (closed c s h x) = pr s.
Proof. cls; reflexivity. Qed.
Lemma closed_rf c s h x o : rf (closed c s h x) o = rf s o - b2z (C_o o x).
Proof.
  replace (rf (closed c s h x)) with (fupd (rf s) (h_o x) (rf s (h_o x) + -1)).
  - rewrite fupd1. unfold C_o. rewrite Z.eqb_sym. destruct (Z.eqb_spec (h_o x) o) as [-> | N]; cbn [b2z]; lia.
  - cls; reflexivity.
Qed.
Lemma closed_fr c s h x f : fr (closed c s h x) f = fr s f - b2z (C_f c f x).
Proof.
  replace (fr (closed c s h x)) with (fupd (fr s) (fs c (h_o x)) (fr s (fs c (h_o x)) + -1)).
  - rewrite fupd1. unfold C_f. rewrite Z.eqb_sym. destruct (Z.eqb_spec (fs c (h_o x)) f) as [-> | N]; cbn [b2z]; lia.
  - cls; reflexivity.
Qed.
Lemma closed_ok c s h x o :
  Fd_Model.ok (closed c s h x) o =
  match ok s o with
  | OPipe => if (o =? h_o x) && (rf s o - 1 =? 0) then ONone else OPipe
  | k => k
  end.
Proof.
  unfold closed. cbn zeta.
  destruct (Z.eqb_spec o (h_o x)) as [-> | N]; cbn [andb].
  - destruct (ok s (h_o x)) eqn:E; cbn [andb]; try (cbn; exact E).
    unfold add_end. destruct (wronly x); cbn; rewrite fupd_same;
      replace (rf s (h_o x) + -1) with (rf s (h_o x) - 1) by lia;
      destruct (rf s (h_o x) - 1 =? 0); cbn; [ apply fupd_same | exact E | apply fupd_same | exact E ].
  - transitivity (ok s o); [ | destruct (ok s o); reflexivity ].
    unfold add_end. destruct (ok s (h_o x)), (wronly x); cbn; try reflexivity; rewrite fupd_same;
      destruct (_ =? 0); cbn; try reflexivity; apply fupd_other; exact N.
Qed.
Lemma closed_rd c s h x o : ok s o = OPipe -> rd (closed c s h x) o = rd s o - b2z (C_r o x).
Proof.
  intro E. unfold C_r. destruct (Z.eqb_spec (h_o x) o) as [Q | N]; cbn [andb].
  - subst o. cls; try congruence; cbn [b2z negb]; try lia; rewrite fupd_same; lia.
  - cbn [b2z]. rewrite Z.sub_0_r. cls; try reflexivity; apply fupd_other; congruence.
Qed.
Lemma closed_wr c s h x o : ok s o = OPipe -> wr (closed c s h x) o = wr s o - b2z (C_w o x).
Proof.
  intro E. unfold C_w. destruct (Z.eqb_spec (h_o x) o) as [Q | N]; cbn [andb].
  - subst o. cls; try congruence; cbn [b2z negb]; try lia; rewrite fupd_same; lia.
  - cbn [b2z]. rewrite Z.sub_0_r. cls; try reflexivity; apply fupd_other; congruence.
Qed.

Lemma close_closed c s p fd h : inv c s -> tb s p fd = Some h ->
  exists x, hs s h = Some x /\ close c s h = Ok (closed c s h x).
Proof.
  intros V T. destruct (v_slot _ _ V _ _ _ T) as (_ & _ & x & Hx). exists x. split; [ exact Hx | ].
  unfold close, deref. rewrite Hx. cbn [bind].
  assert (PR : 0 < rf s (h_o x)).
  { apply (cnt_pos _ _ h (v_rf _ _ V (h_o x))). exists x. split; [ exact Hx | apply Z.eqb_refl ]. }
  assert (PF : 0 < fr s (fs c (h_o x)) - 1).
  { apply (cnt_pos _ _ h (v_fr _ _ V (fs c (h_o x)))). exists x. split; [ exact Hx | apply Z.eqb_refl ]. }
  unfold closed. cbn zeta.
  assert (PE : ok s (h_o x) = OPipe -> (get_end s x <=? 0) = false).
  { intro E. apply Z.leb_gt. unfold get_end. destruct (wronly x) eqn:W.
    - apply (cnt_pos _ _ h (v_wr _ _ V _ E)). exists x. split; [ exact Hx | unfold C_w; rewrite Z.eqb_refl, W; reflexivity ].
    - apply (cnt_pos _ _ h (v_rd _ _ V _ E)). exists x. split; [ exact Hx | unfold C_r; rewrite Z.eqb_refl, W; reflexivity ]. }
  assert (L1 : (rf s (h_o x) <=? 0) = false) by (apply Z.leb_gt; exact PR).
  assert (L2 : (fr s (fs c (h_o x)) + -1 <=? 0) = false) by (apply Z.leb_gt; lia).
  destruct (ok s (h_o x)) eqn:E; cbn [andb].
  - rewrite L1. cbn. rewrite fupd_same, L2. reflexivity.
  - rewrite L1. cbn. rewrite fupd_same, L2. reflexivity.
  - rewrite PE by reflexivity. unfold add_end. destruct (wronly x); cbn; rewrite L1, ?fupd_same;
      destruct (rf s (h_o x) + -1 =? 0); cbn; rewrite ?fupd_same, L2; reflexivity.
Qed.

Lemma del_inv c s p fd h x :
  inv c s -> tb s p fd = Some h -> hs s h = Some x ->
  inv c (set_tb (closed c s h x) p fd None).
Proof.
  intros V T Hx. assert (V' := V). destruct V as [v0 v1 v2 v3 v4 v5 v6 v7 v8].
  constructor; cbn [set_tb hs tb pr Fd_Model.ok rf rd wr fr];
    rewrite ?closed_hs, ?closed_tb, ?closed_pr.
  - exact v0.
  - intros a i k E. rewrite fupd2 in E. destruct ((a =? p) && (i =? fd)) eqn:B; [ discriminate | ].
    destruct (v1 _ _ _ E) as (K1 & K2 & z & K3). split; [ exact K1 | split; [ exact K2 | ] ].
    exists z. rewrite fupd_other; [ exact K3 | ]. intros ->.
    destruct (v2 _ _ _ _ _ E T) as (-> & ->). rewrite !Z.eqb_refl in B. discriminate.
  - intros a i a' i' k E1 E2. rewrite fupd2 in E1, E2.
    destruct ((a =? p) && (i =? fd)); [ discriminate | ].
    destruct ((a' =? p) && (i' =? fd)); [ discriminate | ].
    apply (v2 _ _ _ _ _ E1 E2).
  - intros k z E. rewrite fupd1 in E. destruct (Z.eqb_spec k h) as [-> | NE]; [ discriminate | ].
    destruct (v3 _ _ E) as (a & i & Hai). exists a, i. rewrite fupd2.
    destruct ((a =? p) && (i =? fd)) eqn:B; [ | exact Hai ].
    apply andb_true_iff in B. destruct B as (B1 & B2). apply Z.eqb_eq in B1, B2. subst. congruence.
  - intros k z E. rewrite closed_ok. rewrite fupd1 in E. destruct (Z.eqb_spec k h) as [-> | NE]; [ discriminate | ].
    assert (NO := v4 _ _ E). destruct (ok s (h_o z)) eqn:Ok; try congruence.
    destruct ((h_o z =? h_o x) && (rf s (h_o z) - 1 =? 0)) eqn:B; [ | congruence ].
    apply andb_true_iff in B. destruct B as (B1 & B2). apply Z.eqb_eq in B1, B2.
    assert (K := cnt_rm _ _ _ _ _ (v5 (h_o z)) Hx). unfold C_o at 2 in K.
    rewrite <- B1, Z.eqb_refl in K. cbn [b2z] in K. rewrite B2 in K.
    exfalso. apply (cnt_zero _ K k). exists z. rewrite fupd_other by exact NE.
    split; [ exact E | apply Z.eqb_refl ].
  - intro o. rewrite closed_rf. apply cnt_rm; [ apply v5 | exact Hx ].
  - intros o E. rewrite closed_ok in E. assert (E' : ok s o = OPipe).
    { destruct (ok s o); try discriminate; reflexivity. }
    rewrite closed_rd by exact E'. apply cnt_rm; [ apply v6; exact E' | exact Hx ].
  - intros o E. rewrite closed_ok in E. assert (E' : ok s o = OPipe).
    { destruct (ok s o); try discriminate; reflexivity. }
    rewrite closed_wr by exact E'. apply cnt_rm; [ apply v7; exact E' | exact Hx ].
  - intro f. rewrite closed_fr. replace (fr s f - b2z (C_f c f x) - 1) with (fr s f - 1 - b2z (C_f c f x)) by lia.
    apply cnt_rm; [ apply v8 | exact Hx ].
Qed.

Lemma del_pipes c s p fd h x : inv c s -> hs s h = Some x -> pipes s ->
  pipes (set_tb (closed c s h x) p fd None).
Proof.
  intros V Hx PP o. cbn [set_tb Fd_Model.ok rf]. rewrite closed_ok, closed_rf. intro E.
  destruct (ok s o) eqn:E1; try discriminate. specialize (PP o E1).
  destruct ((o =? h_o x) && (rf s o - 1 =? 0)) eqn:B; [ discriminate | ].
  unfold C_o. rewrite Z.eqb_sym. destruct (o =? h_o x) eqn:EO; cbn [b2z].
  - cbn [andb] in B. apply Z.eqb_neq in B. lia.
  - lia.
Qed.

Lemma del_ent c s p fd h x : inv c s -> tb s p fd = Some h ->
  others s (set_tb (closed c s h x) p fd None) p fd /\
  ent (set_tb (closed c s h x) p fd None) p fd = None.
Proof.
  intros V T. split.
  - intros a i N. unfold ent. cbn [set_tb tb hs]. rewrite closed_tb, closed_hs, fupd2.
    replace ((a =? p) && (i =? fd)) with false
      by (symmetry; apply andb_false_iff; rewrite !Z.eqb_neq; tauto).
    destruct (tb s a i) as [k | ] eqn:E; [ | reflexivity ].
    apply fupd_other. intros ->. destruct (v_inj _ _ V _ _ _ _ _ E T). tauto.
  - unfold ent. cbn [set_tb tb hs]. rewrite closed_tb, fupd2, !Z.eqb_refl. reflexivity.
Qed.

(* ---------- a handle's flags or position *)
Lemma upd_inv c s h x x' : inv c s -> hs s h = Some x -> h_o x' = h_o x -> wronly x' = wronly x ->
  inv c (set_hs s h (Some x')).
Proof.
  intros V Hx EO EW. destruct V as [v0 v1 v2 v3 v4 v5 v6 v7 v8].
  constructor; cbn [set_hs hs tb pr Fd_Model.ok rf rd wr fr].
  - exact v0.
  - intros p fd k E. destruct (v1 _ _ _ E) as (K1 & K2 & z & K3). split; [ exact K1 | split; [ exact K2 | ] ].
    rewrite fupd1. destruct (Z.eqb_spec k h); eauto.
  - exact v2.
  - intros k z E. rewrite fupd1 in E. destruct (Z.eqb_spec k h) as [-> | NE]; eauto.
  - intros k z E. rewrite fupd1 in E. destruct (Z.eqb_spec k h) as [-> | NE]; [ | eauto ].
    injection E as <-. rewrite EO. eauto.
  - intro o. apply (cnt_upd _ _ _ _ x); [ apply v5 | exact Hx | unfold C_o; rewrite EO; reflexivity ].
  - intros o E. apply (cnt_upd _ _ _ _ x); [ apply v6; exact E | exact Hx | unfold C_r; rewrite EO, EW; reflexivity ].
  - intros o E. apply (cnt_upd _ _ _ _ x); [ apply v7; exact E | exact Hx | unfold C_w; rewrite EO, EW; reflexivity ].
  - intro f. apply (cnt_upd _ _ _ _ x); [ apply v8 | exact Hx | unfold C_f; rewrite EO; reflexivity ].
Qed.
Lemma upd_ent c s p fd h x' : inv c s -> tb s p fd = Some h ->
  others s (set_hs s h (Some x')) p fd /\ ent (set_hs s h (Some x')) p fd = Some x'.
Proof.
  intros V T. split.
  - intros a i N. unfold ent. cbn [set_hs tb hs]. destruct (tb s a i) as [k | ] eqn:E; [ | reflexivity ].
    apply fupd_other. intros ->. destruct (v_inj _ _ V _ _ _ _ _ E T). tauto.
  - unfold ent. cbn [set_hs tb hs]. rewrite T. apply fupd_same.
Qed.

(* ---------- the lowest free descriptor *)
Lemma free_from_ok c s p n : forall fd, inv c s -> 0 <= fd -> Z.of_nat n = Z.max 0 (maxh c - fd) ->
  exists r, free_from s p n fd = Ok r /\
    ((lowest c s p fd r /\ tb s p r = None) \/ (r = -1 /\ all_open c s p fd)).
Proof.
  induction n as [ | n IH ]; intros fd V R E.
  - exists (-1). split; [ reflexivity | right ]. split; [ reflexivity | ]. intros i Ri. lia.
  - cbn [free_from]. replace (fd <? 0) with false by (symmetry; apply Z.ltb_ge; lia).
    destruct (tb s p fd) as [h | ] eqn:T.
    + destruct (IH (fd + 1) V ltac:(lia) ltac:(lia)) as (r & Er & K). exists r. split; [ exact Er | ].
      assert (NN : ent s p fd <> None) by (rewrite (ent_none c) by exact V; congruence).
      destruct K as [((L1 & L2 & L3) & L4) | (K1 & K2)]; [ left | right ].
      * split; [ | exact L4 ]. split; [ lia | split; [ exact L2 | ] ].
        intros i Ri. destruct (Z.eq_dec i fd) as [-> | NE]; [ exact NN | apply L3; lia ].
      * split; [ exact K1 | ]. intros i Ri. destruct (Z.eq_dec i fd) as [-> | NE]; [ exact NN | apply K2; lia ].
    + exists fd. split; [ reflexivity | left ]. split; [ | exact T ].
      split; [ lia | split; [ apply (ent_none c); assumption | intros; lia ] ].
Qed.
Lemma free_ge_ok c s p fd : inv c s -> 0 <= fd ->
  exists r, free_ge c s p fd = Ok r /\
    ((lowest c s p fd r /\ tb s p r = None) \/ (r = -1 /\ all_open c s p fd)).
Proof. intros V R. apply (free_from_ok c); [ exact V | exact R | lia ]. Qed.

Lemma get_h_tb c s p fd : inv c s -> get_h c s p fd = tb s p fd.
Proof.
  intro V. unfold get_h. destruct ((0 <=? fd) && (fd <? maxh c)) eqn:B; [ reflexivity | ].
  destruct (tb s p fd) as [h | ] eqn:E; [ | reflexivity ].
  destruct (v_slot _ _ V _ _ _ E) as (_ & K & _). apply andb_false_iff in B.
  rewrite Z.leb_gt, Z.ltb_ge in B. lia.
Qed.
