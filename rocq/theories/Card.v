(** Number of tasks satisfying a predicate *)
From Verif Require Import Lib.

Definition card (f : Z -> bool) (n : Z) : Prop :=
  exists L, NoDup L /\ (forall t, In t L <-> f t = true) /\ n = zlen L.

Lemma card_ext f g n : (forall t, f t = g t) -> card f n -> card g n.
Proof. intros H (L & A & B & C). exists L. split; [exact A|]. split; [|exact C]. intros t. rewrite <- H. apply B. Qed.

Lemma card_none f : (forall t, f t = false) -> card f 0.
Proof.
  intros H. exists []. split; [constructor|]. split; [|reflexivity].
  intros t. rewrite H. split; [intros []|discriminate].
Qed.

Lemma card_nonneg f n : card f n -> 0 <= n.
Proof. intros (L & _ & _ & ->). unfold zlen. lia. Qed.

Lemma card_zero f t : card f 0 -> f t = false.
Proof.
  intros (L & _ & B & C). destruct L; [|unfold zlen in C; cbn in C; lia].
  destruct (f t) eqn:E; [|reflexivity]. apply B in E. destruct E.
Qed.

Lemma card_pos f n t : card f n -> f t = true -> 0 < n.
Proof.
  intros (L & _ & B & ->) H. apply B in H. destruct L; [destruct H|]. unfold zlen. cbn. lia.
Qed.

Lemma card_ex f n : card f n -> 0 < n -> exists t, f t = true.
Proof.
  intros (L & _ & B & ->) H. destruct L as [|t L]; [unfold zlen in H; cbn in H; lia|].
  exists t. apply B. left. reflexivity.
Qed.

Lemma card_add f g n t : f t = false -> (forall x, g x = (x =? t) || f x) -> card f n -> card g (n + 1).
Proof.
  intros H G (L & A & B & ->). exists (t :: L). split; [|split].
  - constructor; [|exact A]. intros K. apply B in K. congruence.
  - intros x. cbn [In]. rewrite B, G. destruct (x =? t) eqn:E; cbn; intuition (try lia).
  - unfold zlen. cbn [length]. lia.
Qed.

Lemma filter_neq_notin (t : Z) L : ~ In t L -> filter (fun x => negb (x =? t)) L = L.
Proof.
  induction L as [|y L IH]; [reflexivity|]. intros N. cbn [filter].
  destruct (y =? t) eqn:E; cbn [negb]; [exfalso; apply N; left; lia|].
  f_equal. apply IH. intros H. apply N. right. exact H.
Qed.

Lemma filter_neq_in (t : Z) L x : In x (filter (fun x => negb (x =? t)) L) <-> In x L /\ x <> t.
Proof. rewrite filter_In. destruct (x =? t) eqn:E; cbn; intuition (try lia; try discriminate). Qed.

Lemma filter_neq_len (t : Z) L : NoDup L -> In t L -> zlen (filter (fun x => negb (x =? t)) L) = zlen L - 1.
Proof.
  unfold zlen. induction L as [|x L IH]; intros ND HI; [destruct HI|].
  apply NoDup_cons_iff in ND. destruct ND as [N1 N2]. cbn [filter]. destruct (x =? t) eqn:E; cbn [negb length].
  - assert (x = t) by lia. subst x. rewrite filter_neq_notin by assumption. lia.
  - destruct HI as [HI|HI]; [lia|]. specialize (IH N2 HI). lia.
Qed.

Lemma card_drop f g n t : f t = true -> (forall x, g x = negb (x =? t) && f x) -> card f n -> card g (n - 1).
Proof.
  intros H G (L & A & B & ->). exists (filter (fun x => negb (x =? t)) L). split; [|split].
  - apply NoDup_filter, A.
  - intros x. rewrite filter_neq_in, B, G. destruct (x =? t) eqn:E; cbn; intuition (try lia; try discriminate).
  - rewrite filter_neq_len; [reflexivity|exact A|]. apply B, H.
Qed.

Lemma card_one f n t : card f n -> n = 1 -> f t = true -> forall u, f u = true -> u = t.
Proof.
  intros (L & A & B & ->) N H u Hu. apply B in H. apply B in Hu.
  destruct L as [|x [|y L]]; unfold zlen in N; cbn in N; try lia.
  destruct H as [->|[]]. destruct Hu as [->|[]]. reflexivity.
Qed.

Lemma card_two f n t : card f n -> 1 < n -> exists u, u <> t /\ f u = true.
Proof.
  intros (L & A & B & ->) N. destruct L as [|x [|y L]]; unfold zlen in N; cbn in N; try lia.
  apply NoDup_cons_iff in A. destruct A as [A _].
  destruct (Z.eq_dec x t) as [->|Hx].
  - exists y. split; [|apply B; cbn; auto]. intros ->. apply A. left. reflexivity.
  - exists x. split; [exact Hx|]. apply B. cbn. auto.
Qed.

Definition b2z (b : bool) : Z := if b then 1 else 0.

Lemma card_upd f g n t m : (forall u, u <> t -> g u = f u) -> m = n + b2z (g t) - b2z (f t) -> card f n -> card g m.
Proof.
  intros H -> C. destruct (f t) eqn:Ef, (g t) eqn:Eg; cbn [b2z].
  - replace (n + 1 - 1) with n by lia. eapply card_ext; [|exact C]. intros u. destruct (Z.eq_dec u t) as [->|N]; [congruence|]. symmetry. auto.
  - replace (n + 0 - 1) with (n - 1) by lia. eapply (card_drop f g n t Ef); [|exact C]. intros u.
    destruct (u =? t) eqn:E; cbn; [assert (u = t) by lia; congruence|]. apply H. lia.
  - replace (n + 1 - 0) with (n + 1) by lia. eapply (card_add f g n t Ef); [|exact C]. intros u.
    destruct (u =? t) eqn:E; cbn; [assert (u = t) by lia; congruence|]. apply H. lia.
  - replace (n + 0 - 0) with n by lia. eapply card_ext; [|exact C]. intros u. destruct (Z.eq_dec u t) as [->|N]; [congruence|]. symmetry. auto.
Qed.

(** A waiting list that holds exactly the tasks satisfying [f] *)
Definition queue (f : Z -> bool) (l : list Z) : Prop := NoDup l /\ forall t, In t l <-> f t = true.

Lemma queue_ext f g l : (forall u, g u = f u) -> queue f l -> queue g l.
Proof. intros H [A B]. split; [exact A|]. intros t. rewrite H. apply B. Qed.

Lemma NoDup_snoc (l : list Z) t : NoDup l -> ~ In t l -> NoDup (l ++ [t]).
Proof.
  intros A B. induction l as [|x l IH]; cbn; [constructor; [intros []|constructor]|].
  apply NoDup_cons_iff in A. destruct A as [A1 A2]. constructor.
  - rewrite in_app_iff. intros [H|[H|[]]]; [auto|]. apply B. left. auto.
  - apply IH; [exact A2|]. intros H. apply B. right. exact H.
Qed.

Lemma queue_snoc f g l t : f t = false -> g t = true -> (forall u, u <> t -> g u = f u) -> queue f l -> queue g (l ++ [t]).
Proof.
  intros F G H [A B]. split.
  - apply NoDup_snoc; [exact A|]. intros K. apply B in K. congruence.
  - intros u. rewrite in_app_iff. cbn [In]. rewrite B. destruct (Z.eq_dec u t) as [->|N]; [intuition|].
    rewrite H by assumption. intuition congruence.
Qed.

Lemma queue_drop f g l t : g t = false -> (forall u, u <> t -> g u = f u) -> queue f l ->
  queue g (filter (fun x => negb (x =? t)) l).
Proof.
  intros G H [A B]. split; [apply NoDup_filter, A|].
  intros u. rewrite filter_neq_in, B. destruct (Z.eq_dec u t) as [->|N]; [rewrite G; intuition discriminate|].
  rewrite H by assumption. intuition.
Qed.

Lemma queue_tail f g l t : g t = false -> (forall u, u <> t -> g u = f u) -> queue f (t :: l) -> queue g l.
Proof.
  intros G H Q. pose proof (queue_drop f g (t :: l) t G H Q) as K. cbn [filter] in K.
  rewrite Z.eqb_refl in K. cbn [negb] in K. destruct Q as [A _]. apply NoDup_cons_iff in A.
  rewrite filter_neq_notin in K by apply A. exact K.
Qed.

Lemma queue_nil f : (forall u, f u = false) -> queue f [].
Proof. intros H. split; [constructor|]. intros t. rewrite H. split; [intros []|discriminate]. Qed.

Lemma queue_nil_inv f t : queue f [] -> f t = false.
Proof. intros [_ B]. destruct (f t) eqn:E; [|reflexivity]. apply B in E. destruct E. Qed.
