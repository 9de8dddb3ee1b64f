(** Proofs: what is printed, without preemption inside printk. *)
From Coq Require Import Permutation.
From Verif Require Import Lib Pk_Model Pk_Spec Pk_Proofs.
From Coq Require Import ssreflect.

Definition region (n : Z) (L : list Z) (rd : Z) (f : frame) (b : Z) : Prop :=
  match at_ f with
  | Copy pos i p ps => pos = b mod n /\ rd <= b /\ b + zlen p <= zlen L /\ forall j, 0 <= j < zlen p -> znth 0 L (b + j) = znth 0 p j
  | _ => True
  end.
Definition unc (f : frame) (b a : Z) : Prop := match at_ f with Copy _ i p _ => b + i <= a < b + zlen p | _ => False end.
Definition later (f : frame) : Prop := match at_ f with Fmt _ | Got true _ _ | App _ | Copy _ _ _ _ => True | _ => False end.
Definition early (f : frame) : Prop := match at_ f with Fmt _ => True | _ => False end.
Definition boss (f : frame) : Prop := match at_ f with Got false _ _ | First _ _ | Out _ _ => True | _ => False end.
Definition pend (f : frame) : list Z := match at_ f with Out c _ => c | _ => [] end.
Definition left_ (f : frame) : list (list Z) := match at_ f with Got _ ps _ | First ps _ | App ps | Copy _ _ _ ps => ps | _ => [] end.
(** [al]: calls above the one that prints, with the places they copy to; [m]: that one; [bl]: below *)
Inductive shape (s : st) (rd : Z) : list (frame * Z) -> option frame -> list frame -> Prop :=
| sh_idle bl : first s = false -> stack s = bl -> rd = zlen (concat (logged s)) -> shape s rd [] None bl
| sh_busy al m bl : first s = true -> stack s = map fst al ++ m :: bl -> boss m -> Forall (fun x => later (fst x)) al -> shape s rd al (Some m) bl.
Record I (n : Z) (s : st) (rd : Z) (al : list (frame * Z)) (m : option frame) (bl : list frame) : Prop := {
  i_j : J n s; i_pk : parked s = []; i_sh : shape s rd al m bl; i_bl : Forall early bl;
  i_rd : 0 <= rd <= zlen (concat (logged s)); i_room : zlen (concat (logged s)) - rd < n;
  i_rp : rp s = rd mod n; i_wp : wp s = zlen (concat (logged s)) mod n;
  i_al : Forall (fun x => region n (concat (logged s)) rd (fst x) (snd x)) al;
  i_ring : forall a, rd <= a < zlen (concat (logged s)) -> znth 0 (ring s) (a mod n) = znth 0 (concat (logged s)) a \/ exists x, In x al /\ unc (fst x) (snd x) a;
  i_out : from_ring (shown s) ++ match m with Some f => pend f | None => [] end = firstn (Z.to_nat rd) (concat (logged s));
  i_due : Permutation (direct (shown s) ++ logged s ++ flat_map left_ (stack s)) (due s) }.

Lemma from_app l e : from_ring (l ++ [e]) = from_ring l ++ match e with ERing p => p | _ => [] end.
Proof. elim: l => [|x l IH] /=; first by case: e => p //=; rewrite app_nil_r. case: x => p //. by rewrite IH app_assoc. Qed.
Lemma direct_app l e : direct (l ++ [e]) = direct l ++ match e with EDirect p => [p] | _ => [] end.
Proof. elim: l => [|x l IH] /=; first by case: e. case: x => p //. by rewrite IH. Qed.
Lemma early_left l : Forall early l -> flat_map left_ l = [].
Proof. elim => [//|f t E _ IH] /=. rewrite IH app_nil_r. rewrite /early in E. rewrite /left_. by case: (at_ f) E. Qed.
Lemma used_I n s rd al m bl : 0 < n -> I n s rd al m bl -> used s = zlen (concat (logged s)) - rd.
Proof.
  move => Hn H. have [E _] := used_eq n s (i_j _ _ _ _ _ _ H). rewrite E (i_rp _ _ _ _ _ _ H) (i_wp _ _ _ _ _ _ H) -Zminus_mod. apply: Z.mod_small. have := i_rd _ _ _ _ _ _ H. have := i_room _ _ _ _ _ _ H. lia.
Qed.
Lemma mod_inj n rd a b : 0 < n -> rd <= a < rd + n -> rd <= b < rd + n -> a mod n = b mod n -> a = b.
Proof.
  move => Hn A B E. have X : (a - b) mod n = 0 by rewrite Zminus_mod E Z.sub_diag; apply: Z.mod_0_l; lia.
  apply Z.mod_divide in X; last lia. move: X => [k X]. have : k = 0 by nia. lia.
Qed.
Lemma read_ok n s rd al m bl k : 0 < n -> I n s rd al m bl -> al = [] -> 0 <= k <= used s ->
  read_ring s k = firstn (Z.to_nat k) (skipn (Z.to_nat rd) (concat (logged s))).
Proof.
  move => Hn H Ea K. have U := used_I _ _ _ _ _ _ Hn H. move: (H) => [Hj Hp Hs Hb Hr Hro Hrp Hwp Ha Hri Ho Hd]. move: (Hj) => [En _ _ _ _ _].
  have Lr : zlen (read_ring s k) = k by rewrite /read_ring zlen_map /zlen seq_length; lia.
  apply: (znth_ext 0).
  - rewrite Lr zlen_firstn zlen_skipn. lia.
  - move => i Hi. rewrite Lr in Hi. rewrite znth_firstn ?znth_skipn; try lia.
    have -> : znth 0 (read_ring s k) i = znth 0 (ring s) ((rp s + i) mod n).
    { rewrite /read_ring (znth_map _ O); first by rewrite /zlen seq_length; lia. rewrite /znth seq_nth; first lia. rewrite /N En. f_equal. f_equal. f_equal. lia. }
    rewrite Hrp Zplus_mod_idemp_l. case: (Hri (rd + i) ltac:(lia)) => [->|[x [Hx _]]]; last by rewrite Ea in Hx. f_equal. lia.
Qed.
