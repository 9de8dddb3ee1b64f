From Coq Require Import ssreflect FinFun.
From Verif Require Import Lib Poll_Model Sel_Model Sel_Spec.
Ltac Zify.zify_post_hook ::= Z.to_euclidean_division_equations.

Section P.
Variable handle : Z -> option (Z -> bool).
Variable rdy : nat -> Z -> Z -> bool.
Variable nfds : Z.
Notation fds := (fds nfds).
Notation set_ready_l := (set_ready_l handle rdy).
Notation count_set := (count_set handle rdy).
Notation write_user := (write_user handle rdy nfds).
Notation count_ready := (count_ready handle rdy nfds).
Notation wants := (wants nfds).

Lemma in_fds fd : In fd fds <-> 0 <= fd < nfds.
Proof.
  rewrite /fds in_map_iff. split.
  - move=> [k [<- /in_seq]]. lia.
  - move=> H. exists (Z.to_nat fd). rewrite in_seq. lia.
Qed.
Lemma nodup_fds : NoDup fds.
Proof. apply: FinFun.Injective_map_NoDup; [move=> x y; lia | exact: seq_NoDup]. Qed.

Lemma filter_same (f g : Z -> bool) l : (forall x, In x l -> f x = g x) -> filter f l = filter g l.
Proof. elim: l => [|x l IH] H //=. rewrite (H x (or_introl eq_refl)) IH // => y Hy. apply: H. by right. Qed.

Lemma set_ready_spec i l : forall set t n set' t', NoDup l -> set_ready_l i l set t = (n, set', t') ->
  (t <= t')%nat /\ (forall fd, ~ In fd l -> set' fd = set fd) /\
  (forall fd, In fd l -> set' fd = true -> set fd = true /\ handle fd <> None /\ exists u, (u < t')%nat /\ rdy u fd i = true) /\
  (forall fd, In fd l -> set fd = true -> set' fd = false -> handle fd = None \/ exists u, (u < t')%nat /\ rdy u fd i = false) /\
  n = zlen (filter set' l).
Proof.
  elim: l => [|x l IH] set t n set' t' N /=.
  - move=> [<- <- <-]. by repeat split.
  - move/NoDup_cons_iff: N => [Nx N]. case Sx: (set x).
    + case Hx: (handle x) => [c|].
      * case Rx: (rdy t x i).
        -- case E: (set_ready_l i l set (S t)) => [[n1 set1] t1] [<- <- <-].
           have [A [B [C [D F]]]] := IH _ _ _ _ _ N E. have Ex : set1 x = true by rewrite B.
           split; first lia. split; first by move=> fd Hf; apply: B; tauto.
           split. { move=> fd [<-|Hf] H; last exact: C. split=> //. split; first by rewrite Hx. exists t. split=> //. }
           split. { move=> fd [<-|Hf] H1 H2; last exact: D. by rewrite Ex in H2. }
           rewrite /= Ex zlen_cons F. lia.
        -- move=> E. have [A [B [C [D F]]]] := IH _ _ _ _ _ N E. have Ex : set' x = false by rewrite B // fupd_same.
           split; first lia. split. { move=> fd Hf. rewrite B; first tauto. rewrite fupd_other //. move=> ?; subst; tauto. }
           split. { move=> fd [<-|Hf] H; first by rewrite Ex in H. have := C _ Hf H. rewrite fupd_other //. by move=> ?; subst. }
           split. { move=> fd [<-|Hf] H1 H2; first by right; exists t; split. apply: D => //. rewrite fupd_other //. by move=> ?; subst. }
           by rewrite /= Ex.
      * move=> E. have [A [B [C [D F]]]] := IH _ _ _ _ _ N E. have Ex : set' x = false by rewrite B // fupd_same.
        split; first lia. split. { move=> fd Hf. rewrite B; first tauto. rewrite fupd_other //. move=> ?; subst; tauto. }
        split. { move=> fd [<-|Hf] H; first by rewrite Ex in H. have := C _ Hf H. rewrite fupd_other //. by move=> ?; subst. }
        split. { move=> fd [<-|Hf] H1 H2; first by left. apply: D => //. rewrite fupd_other //. by move=> ?; subst. }
        by rewrite /= Ex.
    + move=> E. have [A [B [C [D F]]]] := IH _ _ _ _ _ N E. have Ex : set' x = false by rewrite B.
      split; first lia. split; first by move=> fd Hf; apply: B; tauto.
      split. { move=> fd [<-|Hf] H; first by rewrite Ex in H. exact: C. }
      split. { move=> fd [<-|Hf] H1 H2; last exact: D. by rewrite Sx in H1. }
      by rewrite /= Ex.
Qed.
Lemma set_ready_some i l : forall set t n set' t' fd, set_ready_l i l set t = (n, set', t') -> In fd l -> NoDup l -> set fd = true -> handle fd <> None ->
  (forall u, (t <= u)%nat -> rdy u fd i = true) -> 0 < n.
Proof.
  move=> set t n set' t' fd E Hf N Hs Hh Hr.
  have : set' fd = true.
  { elim: l set t n set' t' E Hf N Hs Hr => [|x l IH] set t n set' t' E Hf N Hs Hr //.
    move/NoDup_cons_iff: N => [Nx N]. move: E. rewrite /=.
    case: Hf => [Ex|Hf].
    - subst x. rewrite Hs. case Hc: (handle fd) Hh => [c|] // _. rewrite Hr //.
      case E: (set_ready_l i l set (S t)) => [[n1 set1] t1] [_ <- _].
      have [_ [B _]] := set_ready_spec _ _ _ _ _ _ _ N E. by rewrite B.
    - have Nf : fd <> x by move=> ?; subst.
      case: (set x); last by move=> E; apply: (IH _ _ _ _ _ E Hf N Hs Hr).
      case: (handle x) => [c|]; last by move=> E; apply: (IH _ _ _ _ _ E Hf N) => //; rewrite fupd_other.
      have Hr' : forall u, (S t <= u)%nat -> rdy u fd i = true by move=> u Hu; apply: Hr; lia.
      case: (rdy t x i); last by move=> E; apply: (IH _ _ _ _ _ E Hf N) => //; rewrite fupd_other.
      case E: (set_ready_l i l set (S t)) => [[n1 set1] t1] [_ <- _]. exact: (IH _ _ _ _ _ E Hf N Hs Hr'). }
  move=> S. have [_ [_ [_ [_ ->]]]] := set_ready_spec _ _ _ _ _ _ _ N E.
  have : In fd (filter set' l) by apply/filter_In.
  by case: (filter set' l) => [|y ys].
Qed.
Lemma count_mono i set l : forall t n t', count_set i set l t = (n, t') -> (t <= t')%nat /\ 0 <= n.
Proof.
  elim: l => [|x l IH] t n t' /=; first by move=> [<- <-].
  case: (set x); last exact: IH. case: (handle x) => [c|]; last exact: IH.
  case E: (count_set i set l (S t)) => [n1 t1] [<- <-]. have := IH _ _ _ E. case: (rdy t x i); lia.
Qed.
Lemma count_pos i set l : forall t n t', count_set i set l t = (n, t') -> 0 < n ->
  exists fd u, In fd l /\ set fd = true /\ handle fd <> None /\ (t <= u < t')%nat /\ rdy u fd i = true.
Proof.
  elim: l => [|x l IH] t n t' /=; first by move=> [<- <-]; lia.
  case Sx: (set x); last first. { move=> E H. have [fd [u [A [B [C [D F]]]]]] := IH _ _ _ E H. exists fd, u. split; first by right. done. }
  case Hx: (handle x) => [c|]; last first. { move=> E H. have [fd [u [A [B [C [D F]]]]]] := IH _ _ _ E H. exists fd, u. split; first by right. done. }
  case E: (count_set i set l (S t)) => [n1 t1] [<- <-]. have [M1 M2] := count_mono _ _ _ _ _ _ E. case R: (rdy t x i) => H.
  - exists x, t. split; first by left. split; first done. split; first by rewrite Hx. split; [lia | done].
  - have [|fd [u [A [B [C [D F]]]]]] := IH _ _ _ E; first lia. exists fd, u. split; first by right. split; first done. split; first done. split; [lia | done].
Qed.
Lemma count_hit i set l fd : forall t n t', count_set i set l t = (n, t') -> In fd l -> set fd = true -> handle fd <> None ->
  (forall u, (t <= u)%nat -> rdy u fd i = true) -> 0 < n.
Proof.
  elim: l => [|x l IH] t n t' E Hf Hs Hh Hr //. move: E. rewrite /=. case: Hf => [Ex|Hf].
  - subst x. rewrite Hs. case: (handle fd) Hh => [c|] // _. case E: (count_set i set l (S t)) => [n1 t1] [<- _].
    have [_ M] := count_mono _ _ _ _ _ _ E. rewrite Hr //. lia.
  - case: (set x); last by move=> E; exact: (IH _ _ _ E).
    case: (handle x) => [c|]; last by move=> E; exact: (IH _ _ _ E).
    case E: (count_set i set l (S t)) => [n1 t1] [<- _].
    have : 0 < n1 by apply: (IH _ _ _ E) => // u Hu; apply: Hr; lia. case: (rdy t x i); lia.
Qed.
Lemma cond_some i set l : forall k, count_cond handle i set l = Some k -> 0 <= k /\
  (forall fd, In fd l -> set fd = true -> handle fd <> None /\ forall c, handle fd = Some c -> c i = true -> 0 < k).
Proof.
  elim: l => [|x l IH] k /=; first by move=> [<-]; split; [lia | done].
  case Sx: (set x).
  - case Hx: (handle x) => [c|] //. case E: (count_cond handle i set l) => [k1|] //= [<-]. have [K1 K2] := IH _ E.
    split; first by case: (c i); lia. move=> fd [<-|Hf] Hs.
    + rewrite Hx. split=> // c' [<-] ->. lia.
    + have [A B] := K2 _ Hf Hs. split=> // c' Hc Hi. have := B _ Hc Hi. case: (c i); lia.
  - move=> E. have [K1 K2] := IH _ E. split=> // fd [<-|Hf] Hs; first by rewrite Sx in Hs. exact: K2.
Qed.

(** the three sets *)
Lemma set_of_spec s i t n o t' : set_of handle rdy nfds s i t = (n, o, t') ->
  (t <= t')%nat /\ (o = None <-> s i = None) /\ n = zlen (filter (bit (fun _ => o) i) fds) /\
  (forall fd, ~ 0 <= fd < nfds -> bit (fun _ => o) i fd = bit s i fd) /\
  (forall fd, 0 <= fd < nfds -> bit (fun _ => o) i fd = true -> bit s i fd = true /\ handle fd <> None /\ exists u, (u < t')%nat /\ rdy u fd i = true) /\
  (forall fd, 0 <= fd < nfds -> bit s i fd = true -> bit (fun _ => o) i fd = false -> handle fd = None \/ exists u, (u < t')%nat /\ rdy u fd i = false).
Proof.
  rewrite /set_of /bit. case: (s i) => [set|].
  - case E: (set_ready_l i fds set t) => [[n1 set1] t1] [<- <- <-].
    have [A [B [C [D F]]]] := set_ready_spec _ _ _ _ _ _ _ nodup_fds E.
    split=> //. split=> //. split=> //. split; first by move=> fd Hf; apply: B; rewrite in_fds.
    split; move=> fd /in_fds Hf; [exact: C | exact: D].
  - move=> [<- <- <-]. split=> //. split=> //. split; last by []. by elim: fds.
Qed.
Lemma write_spec c rc c' : write_user c = (rc, c') ->
  (qs c <= qs c')%nat /\ us c' = ss c' /\ tv c' = tv c /\ utv c' = tv c /\ honest handle rdy nfds (qs c') (ss c) (us c') /\ rc = bits nfds (us c').
Proof.
  rewrite /write_user. case E0: (set_of handle rdy nfds (ss c) 0 (qs c)) => [[n0 s0] t0].
  case E1: (set_of handle rdy nfds (ss c) 1 t0) => [[n1 s1] t1]. case E2: (set_of handle rdy nfds (ss c) 2 t1) => [[n2 s2] t2] [<- <-] /=.
  have [A0 [B0 [C0 [D0 [F0 G0]]]]] := set_of_spec _ _ _ _ _ _ E0.
  have [A1 [B1 [C1 [D1 [F1 G1]]]]] := set_of_spec _ _ _ _ _ _ E1.
  have [A2 [B2 [C2 [D2 [F2 G2]]]]] := set_of_spec _ _ _ _ _ _ E2.
  have W : forall n m fd i v, (n <= m)%nat -> (exists u, (u < n)%nat /\ rdy u fd i = v) -> exists u, (u < m)%nat /\ rdy u fd i = v.
  { move=> n m fd i v H [u [Hu Hv]]. exists u. split=> //. lia. }
  split; first lia. split; first done. split; first done. split; first done. split; last first.
  { rewrite /bits /= C0 C1 C2 /bit /=. lia. }
  split.
  - by move=> i [<-|[<-|[<-|//]]] /=.
  - move=> i fd [[<-|[<-|[<-|//]]] [Hf Hb]].
    + have [X [Y Z]] := F0 _ Hf Hb. split; first by split; [left | ]. split=> //. apply: W Z. lia.
    + have [X [Y Z]] := F1 _ Hf Hb. split; first by split; [right; left | ]. split=> //. apply: W Z. lia.
    + have [X [Y Z]] := F2 _ Hf Hb. split; first by split; [right; right; left | ]. split=> //.
  - move=> i fd [[<-|[<-|[<-|//]]] [Hf Hb]] Hg.
    + case: (G0 _ Hf Hb Hg); [by left | right]. apply: W b. lia.
    + case: (G1 _ Hf Hb Hg); [by left | right]. apply: W b. lia.
    + exact: G2.
  - move=> i fd [<-|[<-|[<-|//]]] Hf; [exact: D0 | exact: D1 | exact: D2].
Qed.
End P.
