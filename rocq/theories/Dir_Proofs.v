(** Lemmas on the directory model: the bookkeeping invariant *)
From Verif Require Import Lib Dir_Model Dir_Spec.

Lemma name_eqb_iff a : forall b, name_eqb a b = true <-> a = b.
Proof.
  induction a as [|x a IH]; intros [|y b]; cbn; split; intros H; try discriminate; auto.
  - apply andb_true_iff in H as [H1 H2]. apply IH in H2. assert (x = y) by lia. congruence.
  - injection H as -> ->. rewrite Z.eqb_refl. cbn. apply IH. reflexivity.
Qed.

Lemma ftype_eqb_iff a b : ftype_eqb a b = true <-> a = b.
Proof. destruct a, b; cbn; split; intros H; congruence. Qed.

Lemma count_nil {A} (f : A -> bool) : count f [] = 0.
Proof. reflexivity. Qed.

Lemma count_cons {A} (f : A -> bool) x l : count f (x :: l) = (if f x then 1 else 0) + count f l.
Proof. unfold count. cbn. destruct (f x); rewrite ?zlen_cons; lia. Qed.

Lemma count_app {A} (f : A -> bool) l l' : count f (l ++ l') = count f l + count f l'.
Proof. unfold count. rewrite filter_app, zlen_app. reflexivity. Qed.

Lemma count_nonneg {A} (f : A -> bool) l : 0 <= count f l.
Proof. unfold count. apply zlen_nonneg. Qed.

Lemma count_pos {A} (f : A -> bool) l : 0 < count f l <-> exists x, In x l /\ f x = true.
Proof.
  induction l as [|y l IH].
  - rewrite count_nil. split; [lia|]. intros (x & [] & _).
  - rewrite count_cons. pose proof (count_nonneg f l). split.
    + intros H1. destruct (f y) eqn:E; [exists y; split; [left; reflexivity|exact E]|].
      destruct (proj1 IH) as (x & A1 & A2); [lia|]. exists x. split; [right|]; assumption.
    + intros (x & [-> | A1] & A2); [rewrite A2; lia|].
      enough (0 < count f l) by (destruct (f y); lia). apply IH. eauto.
Qed.

Lemma count_zero {A} (f : A -> bool) l : (forall x, In x l -> f x = false) -> count f l = 0.
Proof.
  intros H. pose proof (count_nonneg f l). destruct (Z.eq_dec (count f l) 0); [assumption|].
  destruct (proj1 (count_pos f l)) as (x & A1 & A2); [lia|]. rewrite H in A2 by assumption. discriminate.
Qed.

Lemma count_ext {A} (f g : A -> bool) l : (forall x, In x l -> f x = g x) -> count f l = count g l.
Proof.
  induction l as [|y l IH]; intros H; [reflexivity|].
  rewrite !count_cons, IH, (H y) by (intros; try apply H; cbn; auto). reflexivity.
Qed.

Lemma count_map {A B} (g : A -> B) (f : B -> bool) l : count f (map g l) = count (fun x => f (g x)) l.
Proof. induction l as [|y l IH]; [reflexivity|]. cbn [map]. rewrite !count_cons, IH. reflexivity. Qed.

Lemma filter_id {A} (f : A -> bool) l : (forall x, In x l -> f x = true) -> filter f l = l.
Proof.
  induction l as [|y l IH]; intros H; [reflexivity|]. cbn. rewrite H by (left; reflexivity).
  f_equal. apply IH. intros x Hx. apply H. right. exact Hx.
Qed.

(** Removal of the one element with a given key *)
Lemma count_remove {A} (k : A -> Z) (f : A -> bool) e l : NoDup (map k l) -> In e l ->
  count f (filter (fun x => negb (k x =? k e)) l) = count f l - (if f e then 1 else 0).
Proof.
  induction l as [|y l IH]; intros ND HI; [destruct HI|].
  cbn [map] in ND. inversion ND as [|? ? N1 N2]; subst. cbn [filter]. destruct HI as [-> | HI].
  - rewrite Z.eqb_refl. cbn. rewrite count_cons.
    replace (filter (fun x => negb (k x =? k e)) l) with l; [lia|].
    symmetry. apply filter_id. intros x Hx.
    apply negb_true_iff, Z.eqb_neq. intros E. apply N1. rewrite <- E. apply in_map. exact Hx.
  - assert (k y <> k e) by (intros E; apply N1; rewrite E; apply in_map; exact HI).
    destruct (k y =? k e) eqn:E; [lia|]. cbn. rewrite !count_cons, IH by assumption. lia.
Qed.

Lemma in_remove {A} (k : A -> Z) (x : Z) (y : A) l :
  In y (filter (fun z => negb (k z =? x)) l) <-> In y l /\ k y <> x.
Proof.
  rewrite filter_In. split; intros [H1 H2]; split; auto.
  - apply negb_true_iff in H2. lia.
  - apply negb_true_iff. lia.
Qed.

Lemma NoDup_map_filter {A B} (k : A -> B) (f : A -> bool) l : NoDup (map k l) -> NoDup (map k (filter f l)).
Proof.
  induction l as [|y l IH]; cbn; intros H; [constructor|].
  inversion H as [|? ? N1 N2]; subst. destruct (f y); cbn; [|apply IH; assumption].
  constructor; [|apply IH; assumption]. intros C. apply N1.
  apply in_map_iff in C as (z & E & C). apply filter_In in C as [C _]. rewrite <- E. apply in_map. exact C.
Qed.

Lemma NoDup_key {A B} (k : A -> B) l x y : NoDup (map k l) -> In x l -> In y l -> k x = k y -> x = y.
Proof.
  induction l as [|z l IH]; cbn; intros ND Hx Hy E; [destruct Hx|].
  inversion ND as [|? ? N1 N2]; subst. destruct Hx as [-> | Hx], Hy as [-> | Hy]; auto.
  - exfalso. apply N1. rewrite E. apply in_map. exact Hy.
  - exfalso. apply N1. rewrite <- E. apply in_map. exact Hx.
Qed.

Lemma NoDup_snoc {A} (l : list A) x : NoDup l -> ~ In x l -> NoDup (l ++ [x]).
Proof.
  intros H1 H2. apply NoDup_rev in H1. rewrite <- (rev_involutive (l ++ [x])). apply NoDup_rev.
  rewrite rev_app_distr. cbn. constructor; [|assumption]. rewrite <- in_rev. exact H2.
Qed.

Lemma find_name_some s d n e : find_name s d n = Some e -> named s d n e.
Proof.
  unfold find_name. intros H. apply find_some in H as [H1 H2].
  apply andb_true_iff in H2 as [H2 H3]. apply name_eqb_iff in H3.
  split; [assumption|]. split; [lia|assumption].
Qed.

Lemma find_name_none s d n e : find_name s d n = None -> ~ named s d n e.
Proof.
  unfold find_name, named. intros H (H1 & H2 & H3).
  eapply find_none in H; [|exact H1]. cbn in H. rewrite H3 in H.
  replace (name_eqb n n) with true in H by (symmetry; apply name_eqb_iff; reflexivity). lia.
Qed.

Lemma find_id_some s x e : find_eid s x = Some e -> In e (ents s) /\ e_id e = x.
Proof. unfold find_eid. intros H. apply find_some in H as [H1 H2]. split; [assumption|lia]. Qed.

Lemma find_id_in s e : NoDup (map e_id (ents s)) -> In e (ents s) -> find_eid s (e_id e) = Some e.
Proof.
  intros ND HI. destruct (find_eid s (e_id e)) as [f|] eqn:E.
  - apply find_id_some in E as [E1 E2]. f_equal. eapply NoDup_key; eauto.
  - unfold find_eid in E. eapply find_none in E; [|exact HI]. cbn in E. lia.
Qed.

Lemma find_h_some s x g : find_h s x = Some g -> In g (hnds s) /\ h_id g = x.
Proof. unfold find_h. intros H. apply find_some in H as [H1 H2]. split; [assumption|lia]. Qed.

Lemma find_h_in s g : NoDup (map h_id (hnds s)) -> In g (hnds s) -> find_h s (h_id g) = Some g.
Proof.
  intros ND HI. destruct (find_h s (h_id g)) as [f|] eqn:E.
  - apply find_h_some in E as [E1 E2]. f_equal. eapply NoDup_key; eauto.
  - unfold find_h in E. eapply find_none in E; [|exact HI]. cbn in E. lia.
Qed.

Lemma find_name_in s d n e : NoDup (map (fun e => (e_dir e, e_name e)) (ents s)) ->
  named s d n e -> find_name s d n = Some e.
Proof.
  intros ND (H1 & H2 & H3). destruct (find_name s d n) as [f|] eqn:E.
  - apply find_name_some in E as (E1 & E2 & E3). f_equal.
    eapply (NoDup_key _ _ _ _ ND); auto. cbn. congruence.
  - exfalso. eapply find_name_none; [exact E|]. split; [exact H1|]. auto.
Qed.

Lemma dents_in s d e : In e (dents s d) <-> In e (ents s) /\ e_dir e = d.
Proof. unfold dents. rewrite filter_In. split; intros [H1 H2]; split; auto; lia. Qed.

(** The fields of an inode that the directory operations leave alone *)
Definition same (x y : inode) : Prop :=
  i_type x = i_type y /\ i_mode x = i_mode y /\ i_refs x = i_refs y /\
  i_parent x = i_parent y /\ i_path x = i_path y.

Definition shape (s s' : st) : Prop :=
  forall i, match ino s i, ino s' i with
            | Some x, Some y => same x y
            | None, None => True
            | _, _ => False end.

Lemma same_refl x : same x x.
Proof. unfold same. auto. Qed.

Lemma same_trans x y z : same x y -> same y z -> same x z.
Proof. unfold same. intuition congruence. Qed.

Lemma shape_refl s s' : ino s' = ino s -> shape s s'.
Proof. intros E i. rewrite E. destruct (ino s i); [apply same_refl|exact I]. Qed.

Lemma shape_trans s1 s2 s3 : shape s1 s2 -> shape s2 s3 -> shape s1 s3.
Proof.
  intros A B i. specialize (A i). specialize (B i).
  destruct (ino s1 i), (ino s2 i), (ino s3 i); try contradiction; auto. eapply same_trans; eauto.
Qed.

Lemma shape_some s s' i x : shape s s' -> ino s i = Some x -> exists y, ino s' i = Some y /\ same x y.
Proof. intros A E. specialize (A i). rewrite E in A. destruct (ino s' i); [eauto|contradiction]. Qed.

Lemma shape_some' s s' i y : shape s s' -> ino s' i = Some y -> exists x, ino s i = Some x /\ same x y.
Proof. intros A E. specialize (A i). rewrite E in A. destruct (ino s i); [eauto|contradiction]. Qed.

Lemma shape_dir s s' d : shape s s' -> is_dir s d -> is_dir s' d.
Proof.
  intros A (D & E & T). destruct (shape_some _ _ _ _ A E) as (y & E' & S1). exists y. split; [exact E'|].
  destruct S1 as (S1 & _). congruence.
Qed.

Lemma upd_some s i f s' : upd s i f = Some s' ->
  exists x, ino s i = Some x /\ s' = set_ino s (fupd (ino s) i (Some (f x))).
Proof. unfold upd. destruct (ino s i) as [x|]; [|discriminate]. intros E. injection E as <-. eauto. Qed.

(** How an operation may change what is left to list for a handle: removed
    entries disappear, new ones may come, nothing else changes. *)
Definition rest (s : st) (h : handle) : list entry :=
  match h_dpos h with
  | None => []
  | Some x => match from_eid (dents s (h_ino h)) x with Some l => l | None => [] end
  end.

Definition ev (s s' : st) : Prop :=
  nexte s <= nexte s' /\ nexth s <= nexth s' /\
  (forall e, In e (ents s') -> In e (ents s) \/ nexte s <= e_id e) /\
  (forall g', In g' (hnds s') -> h_id g' < nexth s ->
     exists g, In g (hnds s) /\ h_id g = h_id g' /\ h_ino g = h_ino g' /\
  (forall e, In e (rest s' g') -> In e (rest s g) \/ nexte s <= e_id e) /\
  (forall e, In e (rest s g) -> In e (ents s') -> In e (rest s' g'))).

Lemma rest_in s h e : In e (rest s h) -> In e (ents s) /\ e_dir e = h_ino h.
Proof.
  unfold rest. destruct (h_dpos h) as [x|]; [|intros []].
  destruct (from_eid (dents s (h_ino h)) x) as [l|] eqn:E; [|intros []].
  intros H. apply dents_in. clear - E H. revert l E H.
  induction (dents s (h_ino h)) as [|f k IH]; cbn; intros l E H; [discriminate|].
  destruct (e_id f =? x); [injection E as <-; exact H|]. right. eapply IH; eauto.
Qed.

Lemma ev_same s s' : ents s' = ents s -> nexte s' = nexte s -> nexth s <= nexth s' ->
  (forall g, In g (hnds s') -> h_id g < nexth s -> In g (hnds s)) -> ev s s'.
Proof.
  intros E1 E2 E3 E4. split; [lia|]. split; [lia|]. split; [rewrite E1; auto|].
  intros g HG HL. exists g. split; [auto|]. split; [reflexivity|]. split; [reflexivity|].
  assert (R : rest s' g = rest s g) by (unfold rest, dents; rewrite E1; reflexivity).
  rewrite R. auto.
Qed.

Lemma ev_trans s1 s2 s3 : (forall e, In e (ents s1) -> e_id e < nexte s1) ->
  ev s1 s2 -> ev s2 s3 -> ev s1 s3.
Proof.
  intros LT (A1 & A2 & A3 & A4) (B1 & B2 & B3 & B4).
  split; [lia|]. split; [lia|]. split.
  - intros e HE. apply B3 in HE as [HE | HE]; [|right; lia]. apply A3 in HE as [HE | HE]; auto.
  - intros g HG HL. destruct (B4 g HG) as (g2 & G1 & G2 & G3 & G4 & G5); [lia|].
    destruct (A4 g2 G1) as (g1 & F1 & F2 & F3 & F4 & F5); [lia|].
    exists g1. split; [exact F1|]. split; [congruence|]. split; [congruence|]. split.
    + intros e HE. apply G4 in HE as [HE | HE]; [|right; lia]. apply F4 in HE as [HE | HE]; auto.
    + intros e HE HE3. apply G5; [|exact HE3]. apply F5; [exact HE|].
      apply B3 in HE3 as [HE3 | HE3]; [exact HE3|]. apply rest_in in HE as [HE _]. apply LT in HE. lia.
Qed.

(** The list from an entry on *)
Lemma from_app l k x r : from_eid l x = Some r -> from_eid (l ++ k) x = Some (r ++ k).
Proof.
  induction l as [|f l IH]; cbn; [discriminate|]. destruct (e_id f =? x); [|exact IH].
  intros E. injection E as <-. reflexivity.
Qed.

Lemma from_some l e : In e l -> exists r, from_eid l (e_id e) = Some r.
Proof.
  induction l as [|f l IH]; intros H; [destruct H|]. cbn. destruct (e_id f =? e_id e) eqn:Q; [eauto|].
  destruct H as [-> | H]; [lia|]. apply IH. exact H.
Qed.

(** After the removal of another entry the list from [x] on is the old one without it *)
Lemma from_remove l x y r : x <> y -> from_eid l x = Some r ->
  from_eid (filter (fun f => negb (e_id f =? y)) l) x = Some (filter (fun f => negb (e_id f =? y)) r).
Proof.
  intros NE. induction l as [|f l IH]; cbn; [discriminate|]. destruct (e_id f =? x) eqn:Q.
  - intros E. injection E as <-. cbn. destruct (e_id f =? y) eqn:Q2; [lia|]. cbn. rewrite Q. reflexivity.
  - intros E. destruct (e_id f =? y) eqn:Q2; cbn; [apply IH; exact E|]. rewrite Q. apply IH. exact E.
Qed.

(** The position of a removed entry becomes the position of the next one *)
Lemma from_next l x r : NoDup (map e_id l) -> from_eid l x = Some r ->
  match next_eid l x with
  | Some y => from_eid (filter (fun f => negb (e_id f =? x)) l) y = Some (filter (fun f => negb (e_id f =? x)) r)
  | None => filter (fun f => negb (e_id f =? x)) r = []
  end.
Proof.
  induction l as [|f l IH]; cbn; intros ND H; [discriminate|].
  inversion ND as [|? ? N1 N2]; subst. destruct (e_id f =? x) eqn:Q.
  - injection H as <-. cbn. rewrite Q. cbn.
    assert (FI : filter (fun g => negb (e_id g =? x)) l = l).
    { apply filter_id. intros g HG. apply negb_true_iff, Z.eqb_neq. intros E. apply N1.
      replace (e_id f) with (e_id g) by lia. apply in_map. exact HG. }
    rewrite FI. destruct l as [|g l]; [reflexivity|]. cbn. rewrite Z.eqb_refl. reflexivity.
  - specialize (IH N2 H). destruct (next_eid l x) as [y|] eqn:NE; [|exact IH].
    cbn. destruct (e_id f =? y) eqn:Q2; [|exact IH]. exfalso. apply N1.
    enough (exists e, In e l /\ e_id e = y) as (e & A & B).
    { replace (e_id f) with (e_id e) by lia. apply in_map. exact A. }
    clear - NE. induction l as [|g l IH]; cbn in NE; [discriminate|]. destruct (e_id g =? x).
    + destruct l as [|k l]; [discriminate|]. injection NE as <-. exists k. cbn. auto.
    + destruct (IH NE) as (e & A & B). exists e. cbn. auto.
Qed.

Lemma dents_filter s d x : filter (fun f => negb (e_id f =? x)) (dents s d) =
  filter (fun e => e_dir e =? d) (filter (fun f => negb (e_id f =? x)) (ents s)).
Proof.
  unfold dents. induction (ents s) as [|f l IH]; [reflexivity|]. cbn.
  destruct (e_dir f =? d) eqn:Q1, (e_id f =? x) eqn:Q2; cbn; rewrite ?Q1, ?Q2; cbn; rewrite ?IH; reflexivity.
Qed.

Section P.
  Variables (dbg : bool) (NAMEMAX : Z).
  Notation core := (core NAMEMAX).
  Notation add_entry := (add_entry NAMEMAX).
  Notation remove_entry := (remove_entry dbg).

  (** ** Adding an entry *)
  Lemma add_ok s d iname n ie : core s -> is_dir s d -> (exists T, ino s ie = Some T) ->
    (iname = n \/ iname = n ++ [SLASH]) -> n <> [] -> ~ In SLASH n -> zlen iname + 1 <= NAMEMAX ->
    (forall e, ~ named s d n e) ->
    exists s', add_entry s true d iname ie = Ok s' 0 [] /\ core s' /\ shape s s' /\
      ents s' = ents s ++ [mkE (nexte s) d n ie] /\
      hnds s' = hnds s /\ pins s' = pins s /\ nexti s' = nexti s /\ nexth s' = nexth s /\
      nexte s' = nexte s + 1 /\ ev s s'.
  Proof.
    intros C (D & ED & TD) (T & ET) HN N1 N2 NL FR. unfold Dir_Model.add_entry. rewrite ED, TD. cbn [ftype_eqb negb].
    pose proof (zlen_nonneg n).
    assert (ZN : zlen n >= 1).
    { destruct n; [congruence|]. rewrite zlen_cons. pose proof (zlen_nonneg n). lia. }
    assert (ZI : zlen n <= zlen iname) by (destruct HN as [-> | ->]; rewrite ?zlen_snoc; lia).
    destruct (zlen iname + 1 =? 1) eqn:Q1; [lia|]. destruct (zlen iname + 1 >? NAMEMAX) eqn:Q2; [lia|].
    cbn [negb]. rewrite ET.
    assert (LN : (if last iname 0 =? SLASH then removelast iname else iname) = n).
    { destruct HN as [-> | ->].
      - destruct (last n 0 =? SLASH) eqn:Q3; [|reflexivity]. exfalso. apply N2.
        rewrite (app_removelast_last 0 N1). apply in_or_app. right. left. lia.
      - rewrite last_last, removelast_last. rewrite Z.eqb_refl. reflexivity. }
    rewrite LN. destruct (find_name s d n) as [f|] eqn:FN.
    { exfalso. eapply FR. eapply find_name_some. exact FN. }
    unfold upd. cbn [ino set_ino ents hnds pins nexti nexte nexth]. rewrite ET. cbn [ino set_ino].
    set (m1 := fupd (ino s) ie (Some (with_nlink T (i_nlink T + 1)))).
    assert (M1 : exists D1, m1 d = Some D1 /\ i_type D1 = FDir /\ i_mode D1 = i_mode D /\ i_refs D1 = i_refs D
       /\ i_parent D1 = i_parent D /\ i_path D1 = i_path D /\ i_num D1 = i_num D /\
       i_nlink D1 = i_nlink D + (if d =? ie then 1 else 0)).
    { unfold m1. destruct (Z.eq_dec d ie) as [-> | NE].
      - rewrite fupd_same. assert (T = D) by congruence. subst T. eexists. split; [reflexivity|].
        rewrite Z.eqb_refl. cbn. repeat match goal with |- _ /\ _ => split end; auto.
      - rewrite fupd_other by assumption. exists D. destruct (d =? ie) eqn:Q; [lia|].
        repeat match goal with |- _ /\ _ => split end; auto. lia. }
    destruct M1 as (D1 & E1 & T1 & M2 & M3 & M4 & M5 & M6 & M7). rewrite E1. cbn.
    eexists. split; [reflexivity|].
    set (s' := set_ino _ _).
    assert (IN : forall i x', ino s' i = Some x' -> exists x, ino s i = Some x /\ same x x' /\
               i_nlink x' = i_nlink x + (if i =? ie then 1 else 0) /\
               i_num x' = i_num x + (if i =? d then 1 else 0)).
    { intros i x'. unfold s'. cbn. unfold fupd at 1. destruct (i =? d) eqn:Q.
      - assert (i = d) by lia. subst i. intros E. injection E as <-. exists D. split; [exact ED|].
        split; [|cbn; rewrite M6, M7; split; reflexivity]. unfold same. cbn. intuition congruence.
      - unfold m1, fupd. destruct (i =? ie) eqn:Q2'.
        + assert (i = ie) by lia. subst i. intros E. injection E as <-. exists T. split; [exact ET|].
          split; [unfold same; cbn; auto|]. cbn. split; lia.
        + intros E. exists x'. split; [exact E|]. split; [apply same_refl|]. split; lia. }
    assert (INB : forall i x, ino s i = Some x -> exists x', ino s' i = Some x').
    { intros i x E. unfold s'. cbn. unfold fupd at 1. destruct (i =? d); [eauto|].
      unfold m1, fupd. destruct (i =? ie); eauto. }
    assert (SH : shape s s').
    { intros i. destruct (ino s i) as [x|] eqn:E.
      - destruct (INB _ _ E) as (x' & E'). rewrite E'. destruct (IN _ _ E') as (y & Ey & S1 & _).
        assert (x = y) by congruence. subst y. exact S1.
      - destruct (ino s' i) as [x'|] eqn:E'; [|exact I]. destruct (IN _ _ E') as (y & Ey & _). congruence. }
    assert (EN : ents s' = ents s ++ [mkE (nexte s) d n ie]) by reflexivity.
    assert (EV : ev s s').
    { split; [change (nexte s') with (nexte s + 1); lia|]. split; [apply Z.le_refl|]. split.
      - rewrite EN. intros e HI. apply in_app_or in HI as [HI | [<- | []]]; [auto|]. right. cbn. lia.
      - change (hnds s') with (hnds s). intros g HG _. exists g. split; [exact HG|].
        split; [reflexivity|]. split; [reflexivity|].
        assert (R : exists k, rest s' g = rest s g ++ k /\ forall e, In e k -> nexte s <= e_id e).
        { unfold rest. destruct (h_dpos g) as [x|] eqn:DP; [|exists []; split; [reflexivity|intros e []]].
          destruct (c_hpos _ _ C g x HG DP) as (f & F1 & F2 & F3).
          destruct (from_some (dents s (h_ino g)) f) as (r & ER); [apply dents_in; auto|]. rewrite F2 in ER.
          rewrite ER. replace (dents s' (h_ino g)) with (dents s (h_ino g) ++
             filter (fun e => e_dir e =? h_ino g) [mkE (nexte s) d n ie])
            by (unfold dents; rewrite EN, filter_app; reflexivity).
          rewrite (from_app _ _ _ _ ER). eexists. split; [reflexivity|]. intros e HI.
          apply filter_In in HI as [[<- | []] _]. cbn. lia. }
        destruct R as (k & R1 & R2). rewrite R1. split; intros e HI.
        + apply in_app_or in HI as [HI | HI]; auto.
        + intros _. apply in_or_app. auto. }
    repeat match goal with |- _ /\ _ => split end; try exact SH; try exact EV; try reflexivity.
    destruct C. constructor.
    - rewrite EN, map_app. apply NoDup_snoc; [assumption|]. cbn. intros HI.
      apply in_map_iff in HI as (e & E & HI). apply c_idlt in HI. lia.
    - rewrite EN. intros e HI. change (nexte s') with (nexte s + 1).
      apply in_app_or in HI as [HI | [<- | []]]; cbn; [apply c_idlt in HI|]; lia.
    - rewrite EN, map_app. apply NoDup_snoc; [assumption|]. cbn. intros HI.
      apply in_map_iff in HI as (e & E & HI). injection E as E1' E2'.
      apply (FR e). split; [assumption|]. auto.
    - rewrite EN. intros e HI. eapply shape_dir; [exact SH|].
      apply in_app_or in HI as [HI | [<- | []]]; cbn; [apply c_dir; assumption|]. exists D. auto.
    - rewrite EN. intros e HI. apply in_app_or in HI as [HI | [<- | []]].
      + destruct (c_tgt _ HI) as (x & E). eapply INB. exact E.
      + cbn. eapply INB. exact ET.
    - rewrite EN. intros e HI. apply in_app_or in HI as [HI | [<- | []]]; [apply c_nm; assumption|].
      cbn. unfold okname. repeat split; auto. lia.
    - intros i x' E'. destruct (IN _ _ E') as (x & E & S1 & E2 & E3). rewrite EN, count_app, E2, (c_nlink _ _ E).
      rewrite count_cons, count_nil. cbn. rewrite (Z.eqb_sym i ie). lia.
    - intros i x' E' TX. destruct (IN _ _ E') as (x & E & S1 & E2 & E3).
      rewrite EN, count_app, E3, (c_num _ _ E) by (destruct S1; congruence).
      rewrite count_cons, count_nil. cbn. rewrite (Z.eqb_sym i d). lia.
    - intros i x' E'. destruct (IN _ _ E') as (x & E & S1 & _). change (hnds s') with (hnds s).
      change (pins s') with (pins s). rewrite <- (c_refs _ _ E). destruct S1 as (_ & _ & S1 & _). congruence.
    - exact c_hids.
    - exact c_hlt.
    - intros h HI. destruct (c_hino h HI) as (x & E & A1 & A2). destruct (shape_some _ _ _ _ SH E) as (y & Ey & S1).
      exists y. split; [exact Ey|]. destruct S1 as (S1 & _). rewrite <- S1. auto.
    - intros h x HI HX. destruct (c_hpos h x HI HX) as (e & A1 & A2). exists e. split; [|exact A2].
      rewrite EN. apply in_or_app. auto.
    - intros i HI. eapply shape_dir; [exact SH|]. apply c_pins. exact HI.
    - intros i x' E'. destruct (IN _ _ E') as (x & E & _). change (nexti s') with (nexti s). eapply c_inolt. exact E.
  Qed.

  (** [list_next_obj] of an entry is the following entry of the list *)
  Lemma next_in l x y : NoDup (map e_id l) -> next_eid l x = Some y ->
    exists e, In e l /\ e_id e = y /\ y <> x.
  Proof.
    induction l as [|e l IH]; cbn; intros ND H; [discriminate|].
    inversion ND as [|? ? N1 N2]; subst. destruct (e_id e =? x) eqn:Q.
    - destruct l as [|f l]; [discriminate|]. injection H as <-. exists f. split; [right; left; reflexivity|].
      split; [reflexivity|]. intros E. apply N1. cbn. left. lia.
    - destruct (IH N2 H) as (f & A1 & A2 & A3). exists f. auto.
  Qed.

  (** ** Removing an entry *)
  Definition moved (s : st) (d x : Z) : list handle := map (move_dpos s d x) (hnds s).

  Lemma move_fields s d x h : h_id (move_dpos s d x h) = h_id h /\ h_ino (move_dpos s d x h) = h_ino h /\
    h_reg (move_dpos s d x h) = h_reg h /\ h_pos (move_dpos s d x h) = h_pos h.
  Proof. unfold move_dpos. destruct (_ && _); cbn; auto. Qed.

  Lemma remove_ok s e : core s -> In e (ents s) ->
    exists s', remove_entry s (e_dir e) (Some (e_id e)) = Ok s' 0 [] /\ core s' /\ shape s s' /\
      ents s' = filter (fun f => negb (e_id f =? e_id e)) (ents s) /\
      hnds s' = moved s (e_dir e) (e_id e) /\ pins s' = pins s /\ nexti s' = nexti s /\
      nexth s' = nexth s /\ nexte s' = nexte s /\ ev s s'.
  Proof.
    intros C HE. pose proof C as C0. destruct C.
    destruct (c_dir _ HE) as (D & ED & TD). destruct (c_tgt _ HE) as (T & ET).
    unfold Dir_Model.remove_entry. rewrite (find_id_in s e c_ids HE), ED, ET, TD. cbn [ftype_eqb negb].
    assert (NP : 0 < i_nlink T).
    { rewrite (c_nlink _ _ ET). apply count_pos. exists e. split; [assumption|]. apply Z.eqb_refl. }
    destruct (0 <? i_nlink T) eqn:Q; [|lia]. cbn [negb]. rewrite andb_false_r.
    unfold upd. cbn [ino set_ino set_ents set_hnds ents hnds pins nexti nexte nexth]. rewrite ET. cbn [ino set_ino].
    set (ie := e_tgt e) in *. set (d := e_dir e) in *.
    set (m1 := fupd (ino s) ie (Some (with_nlink T (i_nlink T - 1)))).
    assert (M1 : exists D1, m1 d = Some D1 /\ i_type D1 = FDir /\ i_mode D1 = i_mode D /\ i_refs D1 = i_refs D
       /\ i_parent D1 = i_parent D /\ i_path D1 = i_path D /\ i_num D1 = i_num D /\
       i_nlink D1 = i_nlink D - (if d =? ie then 1 else 0)).
    { unfold m1. destruct (Z.eq_dec d ie) as [E | NE].
      - rewrite E, fupd_same. assert (T = D) by congruence. subst T. eexists. split; [reflexivity|].
        rewrite Z.eqb_refl. cbn. repeat match goal with |- _ /\ _ => split end; auto.
      - rewrite fupd_other by assumption. exists D. destruct (d =? ie) eqn:Q2; [lia|].
        repeat match goal with |- _ /\ _ => split end; auto. lia. }
    destruct M1 as (D1 & E1 & T1 & M2 & M3 & M4 & M5 & M6 & M7). rewrite E1. cbn.
    eexists. split; [reflexivity|].
    set (s' := set_ino _ _).
    assert (IN : forall i x', ino s' i = Some x' -> exists x, ino s i = Some x /\ same x x' /\
               i_nlink x' = i_nlink x - (if i =? ie then 1 else 0) /\
               i_num x' = i_num x - (if i =? d then 1 else 0)).
    { intros i x'. unfold s'. cbn. unfold fupd at 1. destruct (i =? d) eqn:Q1.
      - assert (i = d) by lia. subst i. intros E. injection E as <-. exists D. split; [exact ED|].
        split; [|cbn; rewrite M6, M7; split; reflexivity]. unfold same. cbn. intuition congruence.
      - unfold m1, fupd. destruct (i =? ie) eqn:Q2'.
        + assert (i = ie) by lia. subst i. intros E. injection E as <-. exists T. split; [exact ET|].
          split; [unfold same; cbn; auto|]. cbn. split; lia.
        + intros E. exists x'. split; [exact E|]. split; [apply same_refl|]. split; lia. }
    assert (INB : forall i x, ino s i = Some x -> exists x', ino s' i = Some x').
    { intros i x E. unfold s'. cbn. unfold fupd at 1. destruct (i =? d); [eauto|].
      unfold m1, fupd. destruct (i =? ie); eauto. }
    assert (SH : shape s s').
    { intros i. destruct (ino s i) as [x|] eqn:E.
      - destruct (INB _ _ E) as (x' & E'). rewrite E'. destruct (IN _ _ E') as (y & Ey & S1 & _).
        assert (x = y) by congruence. subst y. exact S1.
      - destruct (ino s' i) as [x'|] eqn:E'; [|exact I]. destruct (IN _ _ E') as (y & Ey & _). congruence. }
    assert (EN : ents s' = filter (fun f => negb (e_id f =? e_id e)) (ents s)) by reflexivity.
    assert (EH : hnds s' = moved s d (e_id e)) by reflexivity.
    assert (IE : forall f, In f (ents s') <-> In f (ents s) /\ e_id f <> e_id e).
    { intros f. rewrite EN. apply in_remove. }
    assert (IH : forall g, In g (hnds s') -> exists h, In h (hnds s) /\ g = move_dpos s d (e_id e) h).
    { intros g HG. rewrite EH in HG. unfold moved in HG. apply in_map_iff in HG as (h & E & HI). eauto. }
    assert (EV : ev s s').
    { split; [apply Z.le_refl|]. split; [apply Z.le_refl|]. split; [intros f HF; left; apply IE in HF; tauto|].
      intros g HG _. apply IH in HG as (h & HI & ->). exists h. split; [exact HI|].
      destruct (move_fields s d (e_id e) h) as (A1 & A2 & A3 & _). split; [congruence|]. split; [congruence|].
      assert (DE : forall y, dents s' y = filter (fun f => negb (e_id f =? e_id e)) (dents s y)).
      { intros y. rewrite dents_filter. unfold dents. rewrite EN. reflexivity. }
      assert (R : rest s' (move_dpos s d (e_id e) h) = filter (fun f => negb (e_id f =? e_id e)) (rest s h)).
      { unfold rest. rewrite A2, DE. unfold move_dpos.
        destruct (h_dpos h) as [z|] eqn:DP; [|rewrite andb_false_r, DP; reflexivity].
        destruct (c_hpos h z HI DP) as (f & F1 & F2 & F3).
        destruct (from_some (dents s (h_ino h)) f) as (r & ER); [apply dents_in; auto|]. rewrite F2 in ER.
        rewrite ER. destruct (Z.eq_dec z (e_id e)) as [-> | NE].
        - assert (f = e) by (eapply (NoDup_key e_id); eauto). subst f. fold d in F3.
          destruct (c_hino h HI) as (y & Ey & B1 & _).
          rewrite (B1 ltac:(congruence)), <- F3, !Z.eqb_refl. cbn [andb h_dpos].
          assert (NDD : NoDup (map e_id (dents s d))) by (unfold dents; apply NoDup_map_filter; exact c_ids).
          rewrite <- F3 in ER. pose proof (from_next _ _ _ NDD ER) as FN.
          destruct (next_eid (dents s d) (e_id e)) as [y'|]; [rewrite FN; reflexivity|]. symmetry. exact FN.
        - replace (z =? e_id e) with false by (symmetry; apply Z.eqb_neq; exact NE).
          rewrite andb_false_r, DP. rewrite (from_remove _ _ _ _ NE ER). reflexivity. }
      rewrite R. split; intros f HF.
      - apply in_remove in HF. tauto.
      - intros HF'. apply in_remove. apply IE in HF'. tauto. }
    repeat match goal with |- _ /\ _ => split end; try exact SH; try exact EV; try reflexivity.
    constructor.
    - rewrite EN. apply NoDup_map_filter. exact c_ids.
    - intros f HF. apply IE in HF as [HF _]. change (nexte s') with (nexte s). apply c_idlt. exact HF.
    - rewrite EN. apply NoDup_map_filter. exact c_names.
    - intros f HF. apply IE in HF as [HF _]. eapply shape_dir; [exact SH|]. apply c_dir. exact HF.
    - intros f HF. apply IE in HF as [HF _]. destruct (c_tgt _ HF) as (x & E). eapply INB. exact E.
    - intros f HF. apply IE in HF as [HF _]. apply c_nm. exact HF.
    - intros i x' E'. destruct (IN _ _ E') as (x & E & S1 & E2 & E3). rewrite EN.
      rewrite (count_remove e_id) by assumption. rewrite E2, (c_nlink _ _ E). fold ie. rewrite (Z.eqb_sym i ie). lia.
    - intros i x' E' TX. destruct (IN _ _ E') as (x & E & S1 & E2 & E3). rewrite EN.
      rewrite (count_remove e_id) by assumption. rewrite E3, (c_num _ _ E) by (destruct S1; congruence).
      fold d. rewrite (Z.eqb_sym i d). lia.
    - intros i x' E'. destruct (IN _ _ E') as (x & E & S1 & _). change (pins s') with (pins s).
      rewrite EH. unfold moved. rewrite count_map.
      rewrite (count_ext _ (fun h => h_ino h =? i)).
      2:{ intros h _. destruct (move_fields s d (e_id e) h) as (_ & -> & _). reflexivity. }
      rewrite <- (c_refs _ _ E). destruct S1 as (_ & _ & S1 & _). congruence.
    - rewrite EH. unfold moved. rewrite map_map.
      rewrite (map_ext _ h_id); [exact c_hids|]. intros h. apply move_fields.
    - intros g HG. apply IH in HG as (h & HI & ->). destruct (move_fields s d (e_id e) h) as (-> & _).
      change (nexth s') with (nexth s). apply c_hlt. exact HI.
    - intros g HG. apply IH in HG as (h & HI & ->). destruct (move_fields s d (e_id e) h) as (_ & A1 & A2 & _).
      rewrite A1, A2. destruct (c_hino h HI) as (x & E & B1 & B2).
      destruct (shape_some _ _ _ _ SH E) as (y & Ey & S1). exists y. split; [exact Ey|].
      destruct S1 as (S1 & _). rewrite <- S1. split; [exact B1|]. intros NT. destruct (B2 NT) as [B3 B4].
      split; [exact B3|]. unfold move_dpos. rewrite B3. cbn. exact B4.
    - intros g x HG HX. apply IH in HG as (h & HI & ->).
      destruct (move_fields s d (e_id e) h) as (_ & A1 & _). rewrite A1.
      destruct (c_hino h HI) as (y & E & B1 & B2).
      destruct (Z.eq_dec (h_ino h) d) as [ED' | ND'].
      + assert (TD' : i_type y = FDir) by congruence. specialize (B1 TD').
        unfold move_dpos in HX. rewrite B1, ED', Z.eqb_refl in HX. cbn [andb] in HX.
        destruct (h_dpos h) as [z|] eqn:DP; [|rewrite DP in HX; discriminate].
        destruct (z =? e_id e) eqn:Q2.
        * cbn [h_dpos] in HX. apply next_in in HX.
          2:{ unfold dents. apply NoDup_map_filter. exact c_ids. }
          destruct HX as (f & F1 & F2 & F3). apply dents_in in F1 as [F1 F4].
          exists f. split; [apply IE; split; [exact F1|congruence]|]. split; [exact F2|congruence].
        * assert (z = x) by congruence. subst z. destruct (c_hpos h x HI DP) as (f & F1 & F2 & F3).
          exists f. split; [apply IE; split; [exact F1|lia]|]. auto.
      + assert (HX' : h_dpos h = Some x).
        { unfold move_dpos in HX. replace (h_ino h =? d) with false in HX by (symmetry; apply Z.eqb_neq; exact ND').
          rewrite andb_false_r in HX. cbn in HX. exact HX. }
        destruct (c_hpos h x HI HX') as (f & F1 & F2 & F3). exists f. split; [|auto]. apply IE. split; [exact F1|].
        intros EQ. apply ND'. rewrite <- F3. unfold d. f_equal. eapply (NoDup_key e_id); eauto.
    - intros i HI. eapply shape_dir; [exact SH|]. apply c_pins. exact HI.
    - intros i x' E'. destruct (IN _ _ E') as (x & E & _). change (nexti s') with (nexti s). eapply c_inolt. exact E.
  Qed.

  (** ** A new inode *)
  Lemma new_ok s t mode par path : core s -> 0 < nexti s ->
    core (fst (new_inode s t mode par path)).
  Proof.
    intros C NP. destruct C.
    assert (NX : ino s (nexti s) = None).
    { destruct (ino s (nexti s)) as [x|] eqn:E; [|reflexivity]. apply c_inolt in E. lia. }
    unfold new_inode. cbn [fst].
    set (s' := mkS _ _ _ _ _ _ _).
    assert (OLD : forall i x, ino s i = Some x -> ino s' i = Some x).
    { intros i x E. unfold s'. cbn. rewrite fupd_other; [exact E|]. congruence. }
    assert (DIR : forall d, is_dir s d -> is_dir s' d).
    { intros d (D & E & TD). exists D. split; [apply OLD; exact E|exact TD]. }
    assert (NEW : forall i x, ino s' i = Some x -> i <> nexti s -> ino s i = Some x).
    { intros i x E NE. unfold s' in E. cbn in E. rewrite fupd_other in E by assumption. exact E. }
    assert (Z0 : forall x, ino s' (nexti s) = Some x -> i_nlink x = 0 /\ i_num x = 0 /\ i_refs x = 0).
    { intros x E. unfold s' in E. cbn in E. rewrite fupd_same in E. injection E as <-. auto. }
    constructor; try assumption.
    - intros e HI. apply DIR, c_dir. exact HI.
    - intros e HI. destruct (c_tgt e HI) as (x & E). eauto.
    - intros i x E. destruct (Z.eq_dec i (nexti s)) as [-> | NE]; [|apply c_nlink; eauto].
      destruct (Z0 _ E) as (-> & _). symmetry. apply count_zero. intros e HI.
      destruct (c_tgt _ HI) as (y & Ey). apply Z.eqb_neq. congruence.
    - intros i x E TX. destruct (Z.eq_dec i (nexti s)) as [-> | NE]; [|apply c_num; eauto].
      destruct (Z0 _ E) as (_ & -> & _). symmetry. apply count_zero. intros e HI.
      destruct (c_dir _ HI) as (y & Ey & _). apply Z.eqb_neq. congruence.
    - intros i x E. destruct (Z.eq_dec i (nexti s)) as [-> | NE]; [|apply c_refs; eauto].
      destruct (Z0 _ E) as (_ & _ & ->). rewrite !count_zero; [reflexivity| |].
      + intros p HI. destruct (c_pins _ HI) as (y & Ey & _). apply Z.eqb_neq. congruence.
      + intros h HI. destruct (c_hino _ HI) as (y & Ey & _). apply Z.eqb_neq. congruence.
    - intros h HI. destruct (c_hino h HI) as (x & E & A). exists x. split; [apply OLD; exact E|exact A].
    - intros i HI. apply DIR, c_pins. exact HI.
    - intros i x E. change (nexti s') with (nexti s + 1).
      destruct (Z.eq_dec i (nexti s)) as [-> | NE]; [lia|]. apply NEW in E; [|assumption]. apply c_inolt in E. lia.
  Qed.

  (** ** Freeing an inode nothing refers to *)
  Lemma kfree_ok s i : core s -> (forall e, In e (ents s) -> e_dir e <> i /\ e_tgt e <> i) ->
    (forall h, In h (hnds s) -> h_ino h <> i) -> ~ In i (pins s) -> core (kfree s i).
  Proof.
    intros C NE NH NP. destruct C. set (s' := kfree s i).
    assert (OLD : forall j, j <> i -> ino s' j = ino s j).
    { intros j HJ. unfold s', kfree. cbn. apply fupd_other. exact HJ. }
    assert (SUB : forall j x, ino s' j = Some x -> ino s j = Some x).
    { intros j x E. destruct (Z.eq_dec j i) as [-> | N]; [|rewrite <- OLD; assumption].
      unfold s', kfree in E. cbn in E. rewrite fupd_same in E. discriminate. }
    constructor; try assumption.
    - intros e HI. destruct (c_dir e HI) as (D & E & TD). exists D. split; [|exact TD].
      rewrite OLD; [exact E|]. apply NE. exact HI.
    - intros e HI. destruct (c_tgt e HI) as (D & E). exists D. rewrite OLD; [exact E|]. apply NE. exact HI.
    - intros j x E. apply c_nlink. apply SUB. exact E.
    - intros j x E. apply c_num. apply SUB. exact E.
    - intros j x E. apply c_refs. apply SUB. exact E.
    - intros h HI. destruct (c_hino h HI) as (x & E & A). exists x. split; [|exact A].
      rewrite OLD; [exact E|]. apply NH. exact HI.
    - intros j HI. destruct (c_pins j HI) as (D & E & TD). exists D. split; [|exact TD]. rewrite OLD; [exact E|].
      intros ->. contradiction.
    - intros j x E. apply SUB in E. change (nexti s') with (nexti s). eapply c_inolt. exact E.
  Qed.

  Lemma destroy_ok s i x : core s -> ino s i = Some x -> i_nlink x = 0 -> i_refs x = 0 ->
    (i_type x = FDir -> forall e, In e (ents s) -> e_dir e <> i) ->
    destroy dbg s i = Ok (kfree s i) 0 [] /\ core (kfree s i).
  Proof.
    intros C E NL RF ND. pose proof C as C0. destruct C. split.
    - unfold destroy. rewrite E, NL, RF. cbn. rewrite andb_false_r.
      destruct (ftype_eqb (i_type x) FDir) eqn:Q; [|rewrite andb_false_r; reflexivity].
      apply ftype_eqb_iff in Q. destruct (dents s i) as [|e l] eqn:DE; [rewrite andb_false_r; reflexivity|].
      exfalso. assert (HI : In e (dents s i)) by (rewrite DE; left; reflexivity).
      apply dents_in in HI as [HI HD]. eapply ND; eauto.
    - apply kfree_ok; auto.
      + intros e HI. split.
        * destruct (i_type x) eqn:TX.
          -- intros ED. destruct (c_dir _ HI) as (D & E' & TD). congruence.
          -- auto.
          -- intros ED. destruct (c_dir _ HI) as (D & E' & TD). congruence.
        * intros ET. pose proof (c_nlink _ _ E). rewrite NL in H. symmetry in H.
          assert (0 < count (fun e => e_tgt e =? i) (ents s)); [|lia].
          apply count_pos. exists e. split; [assumption|]. lia.
      + intros h HI EH. pose proof (c_refs _ _ E). rewrite RF in H.
        assert (0 < count (fun h => h_ino h =? i) (hnds s)).
        { apply count_pos. exists h. split; [assumption|]. lia. }
        pose proof (count_nonneg (fun p => p =? i) (pins s)). lia.
      + intros HI. pose proof (c_refs _ _ E). rewrite RF in H.
        assert (0 < count (fun p => p =? i) (pins s)).
        { apply count_pos. exists i. split; [assumption|]. lia. }
        pose proof (count_nonneg (fun h => h_ino h =? i) (hnds s)). lia.
  Qed.
End P.
