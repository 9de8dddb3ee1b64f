From Coq Require Import ssreflect.
From Verif Require Import Lib Poll_Model Poll_Proofs Sel_Model Sel_Spec Sel_Proofs.
Ltac Zify.zify_post_hook ::= Z.to_euclidean_division_equations.

Section P.
Variable handle : Z -> option (Z -> bool).
Variable rdy : nat -> Z -> Z -> bool.
Variable nfds : Z.
Variable mx : Z.
Notation fds := (fds nfds).
Notation write_user := (write_user handle rdy nfds).
Notation count_ready := (count_ready handle rdy nfds).
Notation wants := (wants nfds).
Notation honest := (honest handle rdy nfds).
Notation wait := (wait handle rdy nfds).
Notation select := (select handle rdy nfds mx).

Lemma honest_trans n m a b c : (n <= m)%nat -> honest n a b -> honest m b c -> honest m a c.
Proof.
  move=> L [A1 A2 A3 A4] [B1 B2 B3 B4]. split.
  - move=> i Hi. by rewrite B1 // A1.
  - move=> i fd H. have [H1 [H2 H3]] := B2 _ _ H. have [H4 _] := A2 _ _ H1. by split.
  - move=> i fd H Hc. case Hb: (bit b i fd).
    + apply: B3 => //. move: H => [Hi [Hf _]]. by split.
    + case: (A3 _ _ H Hb) => [|[u [Hu Hr]]]; [by left | right]. exists u. split=> //. lia.
  - move=> i fd Hi Hf. by rewrite B4 // A4.
Qed.

Lemma cof_mono s i t n t' : count_of handle rdy nfds s i t = (n, t') -> (t <= t')%nat /\ 0 <= n.
Proof. rewrite /count_of. case: (s i) => [set|]; last by move=> [<- <-]. exact: count_mono. Qed.
Lemma cof_pos s i t n t' : In i kinds -> count_of handle rdy nfds s i t = (n, t') -> 0 < n -> exists fd u, wants s i fd /\ handle fd <> None /\ (t <= u < t')%nat /\ rdy u fd i = true.
Proof.
  rewrite /count_of => Hi. case Es: (s i) => [set|]; last by move=> [<- _].
  move=> E H. have [fd [u [H1 [H2 [H3 [H4 H5]]]]]] := count_pos _ _ _ _ _ _ _ _ E H. exists fd, u. split=> //. split=> //. split; first by apply/in_fds. by rewrite /bit Es.
Qed.
Lemma cof_hit s i t n t' fd : count_of handle rdy nfds s i t = (n, t') -> wants s i fd -> handle fd <> None ->
  (forall u, (t <= u)%nat -> rdy u fd i = true) -> 0 < n.
Proof.
  rewrite /count_of /wants /bit. case Es: (s i) => [set|]; last by move=> _ [_ [_ //]].
  move=> E [_ [Hf Hb]] Hh Hr. apply: (count_hit _ _ _ _ _ fd _ _ _ E) => //. by apply/in_fds.
Qed.
Lemma cr_spec s t n t' : count_ready s t = (n, t') -> (t <= t')%nat /\ 0 <= n /\
  (0 < n -> exists i fd u, wants s i fd /\ handle fd <> None /\ (u < t')%nat /\ rdy u fd i = true) /\
  (forall i fd, wants s i fd -> handle fd <> None -> (forall u, (t <= u)%nat -> rdy u fd i = true) -> 0 < n).
Proof.
  rewrite /count_ready. case E0: (count_of handle rdy nfds s 0 t) => [n0 t0]. case E1: (count_of handle rdy nfds s 1 t0) => [n1 t1].
  case E2: (count_of handle rdy nfds s 2 t1) => [n2 t2] [<- <-].
  have [M0 P0] := cof_mono _ _ _ _ _ E0. have [M1 P1] := cof_mono _ _ _ _ _ E1. have [M2 P2] := cof_mono _ _ _ _ _ E2.
  split; first lia. split; first lia. split.
  - move=> H. have [H0|[H0|H0]] : 0 < n0 \/ 0 < n1 \/ 0 < n2 by lia.
    + have [fd [u [A [B [C D]]]]] := cof_pos _ _ _ _ _ (or_introl eq_refl) E0 H0. exists 0, fd, u. split=> //. split=> //. split=> //. lia.
    + have [fd [u [A [B [C D]]]]] := cof_pos _ _ _ _ _ (or_intror (or_introl eq_refl)) E1 H0. exists 1, fd, u. split=> //. split=> //. split=> //. lia.
    + have [fd [u [A [B [C D]]]]] := cof_pos _ _ _ _ _ (or_intror (or_intror (or_introl eq_refl))) E2 H0. exists 2, fd, u. split=> //. split=> //. split=> //. lia.
  - move=> i fd W Hh Hr. move: (W) => [[Ei|[Ei|[Ei|//]]] _]; subst i.
    + have := cof_hit _ _ _ _ _ _ E0 W Hh Hr. lia.
    + have := cof_hit _ _ _ _ _ _ E1 W Hh (fun u Hu => Hr u ltac:(lia)). lia.
    + have := cof_hit _ _ _ _ _ _ E2 W Hh (fun u Hu => Hr u ltac:(lia)). lia.
Qed.
Lemma sof_pos s i t n o t' fd : set_of handle rdy nfds s i t = (n, o, t') -> wants s i fd -> handle fd <> None ->
  (forall u, (t <= u)%nat -> rdy u fd i = true) -> 0 < n.
Proof.
  rewrite /set_of /wants /bit. case Es: (s i) => [set|]; last by move=> _ [_ [_ //]].
  case E: (set_ready_l handle rdy i fds set t) => [[n1 set1] t1] [<- _ _] [_ [Hf Hb]] Hh Hr.
  apply: (set_ready_some _ _ _ _ _ _ _ _ _ fd E) => //; [by apply/in_fds | exact: nodup_fds].
Qed.
Lemma bits_pos s : 0 <= bits nfds s.
Proof. rewrite /bits /=. have := zlen_nonneg (filter (bit s 0) fds). have := zlen_nonneg (filter (bit s 1) fds). have := zlen_nonneg (filter (bit s 2) fds). lia. Qed.
Lemma write_pos c rc c' i fd : write_user c = (rc, c') -> wants (ss c) i fd -> handle fd <> None ->
  (forall u, (qs c <= u)%nat -> rdy u fd i = true) -> 0 < rc.
Proof.
  rewrite /write_user. case E0: (set_of handle rdy nfds (ss c) 0 (qs c)) => [[n0 s0] t0].
  case E1: (set_of handle rdy nfds (ss c) 1 t0) => [[n1 s1] t1]. case E2: (set_of handle rdy nfds (ss c) 2 t1) => [[n2 s2] t2] [<- _].
  have [A0 [_ [C0 _]]] := set_of_spec _ _ _ _ _ _ _ _ _ E0.
  have [A1 [_ [C1 _]]] := set_of_spec _ _ _ _ _ _ _ _ _ E1.
  have [A2 [_ [C2 _]]] := set_of_spec _ _ _ _ _ _ _ _ _ E2.
  have P0 : 0 <= n0 by rewrite C0; exact: zlen_nonneg. have P1 : 0 <= n1 by rewrite C1; exact: zlen_nonneg. have P2 : 0 <= n2 by rewrite C2; exact: zlen_nonneg.
  move=> W Hh Hr. move: (W) => [[Ei|[Ei|[Ei|//]]] _]; subst i.
  - have := sof_pos _ _ _ _ _ _ _ E0 W Hh Hr. lia.
  - have := sof_pos _ _ _ _ _ _ _ E1 W Hh (fun u Hu => Hr u ltac:(lia)). lia.
  - have := sof_pos _ _ _ _ _ _ _ E2 W Hh (fun u Hu => Hr u ltac:(lia)). lia.
Qed.

(** The loop *)
Lemma wait_spec ticks pend : forall its c rc c', wait ticks pend its c = Some (rc, c') ->
  (ss c' = ss c /\ us c' = us c /\ utv c' = utv c /\ (qs c <= qs c')%nat /\
    (rc = -4 /\ (tv c' = tv c \/ tv c <> None /\ tv c' = Some (0, 0)) \/
     rc = 0 /\ tv c <> None /\ tv c' = Some (0, 0) /\ exists x, In x its /\ expired ticks x)) \/
  (exists x c1 rc0, In x its /\ ss c1 = ss c /\ (qs c <= qs c1)%nat /\ tv c1 = (match tv c with Some _ => Some (remaining ticks (el1 x)) | None => None end) /\
    write_user c1 = (rc0, c') /\ rc = (if pend then -4 else rc0) /\
    exists i fd u, wants (ss c) i fd /\ handle fd <> None /\ (u < qs c1)%nat /\ rdy u fd i = true).
Proof.
  elim=> [|x its IH] c rc c' //=.
  case Ec: (count_ready (ss c) (qs c)) => [n t]. have [M [N0 [H1 H2]]] := cr_spec _ _ _ _ Ec.
  have REC : wait ticks pend its (set_qs c t) = Some (rc, c') -> 
    (ss c' = ss c /\ us c' = us c /\ utv c' = utv c /\ (qs c <= qs c')%nat /\
      (rc = -4 /\ (tv c' = tv c \/ tv c <> None /\ tv c' = Some (0, 0)) \/
       rc = 0 /\ tv c <> None /\ tv c' = Some (0, 0) /\ exists x0, In x0 (x :: its) /\ expired ticks x0)) \/
    (exists x0 c1 rc0, In x0 (x :: its) /\ ss c1 = ss c /\ (qs c <= qs c1)%nat /\ tv c1 = (match tv c with Some _ => Some (remaining ticks (el1 x0)) | None => None end) /\
      write_user c1 = (rc0, c') /\ rc = (if pend then -4 else rc0) /\
      exists i fd u, wants (ss c) i fd /\ handle fd <> None /\ (u < qs c1)%nat /\ rdy u fd i = true).
  { move/IH => [[A1 [A2 [A3 [A4 A5]]]]|[x0 [c1 [rc0 [B1 [B2 [B3 [B4 [B5 [B6 B7]]]]]]]]]].
    - left. rewrite /= in A1 A2 A3 A4 A5. split=> //. split=> //. split=> //. split; first lia. case: A5 => [A5|[A5 [A6 [A7 [y [A8 A9]]]]]]; [by left | right].
      split=> //. split=> //. split=> //. exists y. split=> //. by right.
    - right. rewrite /= in B2 B3 B4 B7. exists x0, c1, rc0. split; first by right. split=> //. split; first lia. done. }
  case: (Z.ltb_spec 0 n) => Hn.
  - case Ew: (write_user (set_tv (set_qs c t) (remaining ticks (el1 x)))) => [rc0 c0] [<- <-].
    right. exists x, (set_tv (set_qs c t) (remaining ticks (el1 x))), rc0. split; first by left. split=> //. split=> //. split=> //. split=> //. split=> //. exact: H1.
  - case: (missed x); first exact: REC.
    have [[v Et]|Et] : (exists v, tv (set_qs c t) = Some v) \/ tv (set_qs c t) = None by case: (tv _) => [v|]; [left; exists v | right].
    + have {}Et : tv c = Some v by []. move: REC; rewrite /= !Et /= => REC. case: (Z.leb_spec ticks (el2 x)) => Hl.
      * move=> [<- <-]. left. rewrite /= Et. split=> //. split=> //. split=> //. split=> //. case: (pend); [left; split=> //; right; by split | right]. split=> //. split=> //. split=> //. exists x. split; [by left | by left].
      * case Ew: (woken x).
        -- exact: REC.
        -- move=> [<- <-]. left. rewrite /= Et. split=> //. split=> //. split=> //. split=> //. case: (pend); [left; split=> //; right; by split | right]. split=> //. split=> //. split=> //. exists x. split; [by left | by right].
        -- move=> [<- <-]. left. rewrite /= Et. split=> //. split=> //. split=> //. split=> //. left. split=> //. by left.
    + have {}Et : tv c = None by []. move: REC; rewrite /= !Et /= => REC. case: (woken x); try exact: REC. move=> [<- <-]. left. rewrite /=. split=> //. split=> //. split=> //. split=> //. left. split=> //. by left.
Qed.

(** All the ways to return *)
Lemma select_cases asked timeout pend its rc c : select asked timeout pend its = Some (rc, c) ->
  (rc < 0 /\ us c = asked /\ utv c = timeout) \/
  (exists c1, ss c1 = asked /\ (tv c1 = timeout \/ timeout <> None /\ (tv c1 = Some (0, 0) \/ exists x, In x its /\ tv c1 = Some (remaining (ticks_of timeout) (el1 x)))) /\
     write_user c1 = (rc, c)) \/
  (exists c1 c2 x, ss c1 = asked /\ write_user c1 = (0, c2) /\ write_user c2 = (rc, c) /\ tv c1 = (match timeout with Some _ => Some (remaining (ticks_of timeout) (el1 x)) | None => None end) /\ In x its /\
     exists i fd u, wants asked i fd /\ handle fd <> None /\ (u < qs c1)%nat /\ rdy u fd i = true) \/
  (exists c1 rc0, rc = -4 /\ pend = true /\ ss c1 = asked /\ write_user c1 = (rc0, c)).
Proof.
  rewrite /select. case: ((nfds <? 0) || (mx <? nfds)); first by move=> [<- <-]; left.
  rewrite -/(ticks_of timeout).
  case Ec: (count_ready asked 0) => [n t]. case: (Z.ltb_spec 0 n) => Hn.
  { move=> [E]. right. left. eexists. split; last split; last exact: E; [done | by left]. }
  case Ek: (cond_cnt handle nfds asked) => [k|]; last by move=> [<- <-]; left.
  case: ((0 <? k) && _).
  - case Ew: (wait (ticks_of timeout) pend its _) => [[rc0 c0]|] //.
    case: (wait_spec _ _ _ _ _ _ Ew) => /=.
    + move=> [A1 [A2 [A3 [A4 A5]]]]. case: (Z.eqb_spec rc0 0) => H0.
      * move=> [E]. right. left. exists c0. split=> //. split=> //. case: A5 => [[A5 _]|[_ [A6 [A7 _]]]]; first lia. right. split=> //. by left.
      * move=> [<- <-]. left. case: A5 => [[A5 _]|[A5 _]]; [|lia]. split; first lia. by split.
    + move=> [x [c1 [rc1 [B1 [B2 [B3 [B4 [B5 [B6 B7]]]]]]]]]. case: (Z.eqb_spec rc0 0) => H0.
      * move=> [E]. right. right. left. exists c1, c0, x. split=> //. split. { rewrite B5. f_equal. move: B6. case: pend {Ew}; lia. } split=> //.
      * move=> [<- <-]. case: pend B6 {Ew} => B6.
        -- right. right. right. by exists c1, rc1.
        -- right. left. exists c1. split=> //. split; last by rewrite B5 B6. rewrite B4. case: (timeout); [move=> v; right; split=> //; right; by exists x | by left].
  - case: ((0 <? ticks_of timeout) && pend); first by move=> [<- <-]; left.
    move=> [E]. right. left. eexists. split; last split; last exact: E; [done | by left].
Qed.

Lemma select_honest asked timeout pend its rc c : select asked timeout pend its = Some (rc, c) -> 0 <= rc ->
  honest (qs c) asked (us c) /\ rc = bits nfds (us c).
Proof.
  move=> H Hr. case: (select_cases _ _ _ _ _ _ H) => [[? _]|[[c1 [E1 [_ E2]]]|[[c1 [c2 [x [E1 [E2 [E3 _]]]]]]|[c1 [rc0 [? _]]]]]]; [lia | | | lia].
  - have [_ [_ [_ [_ [F1 F2]]]]] := write_spec _ _ _ _ _ _ E2. by rewrite -E1.
  - have [_ [U1 [_ [_ [F1 F2]]]]] := write_spec _ _ _ _ _ _ E2. have [M2 [_ [_ [_ [G1 G2]]]]] := write_spec _ _ _ _ _ _ E3.
    split=> //. rewrite -E1. apply: honest_trans F1 _; first exact: M2. by rewrite U1.
Qed.
Lemma select_errors asked timeout pend its rc c : select asked timeout pend its = Some (rc, c) -> rc < 0 -> rc <> -4 -> us c = asked /\ utv c = timeout.
Proof.
  move=> H Hr H4. case: (select_cases _ _ _ _ _ _ H) => [[_ ?]|[[c1 [E1 [_ E2]]]|[[c1 [c2 [x [E1 [E2 [E3 _]]]]]]|[c1 [rc0 [? _]]]]]] //.
  - have [_ [_ [_ [_ [_ F2]]]]] := write_spec _ _ _ _ _ _ E2. have := bits_pos (us c). lia.
  - have [_ [_ [_ [_ [_ F2]]]]] := write_spec _ _ _ _ _ _ E3. have := bits_pos (us c). lia.
Qed.
Lemma select_steady r asked timeout pend its : steady rdy r -> 0 <= nfds <= mx -> (exists i fd, wants asked i fd /\ handle fd <> None /\ r fd i = true) ->
  exists rc c, select asked timeout pend its = Some (rc, c) /\ 0 < rc /\ rc = bits nfds (us c) /\ utv c = timeout /\
    forall i fd, In i kinds -> 0 <= fd < nfds -> bit (us c) i fd = (bit asked i fd && (match handle fd with Some _ => true | None => false end) && r fd i)%bool.
Proof.
  move=> St Hn [i0 [fd0 [W [Hh Hr]]]]. rewrite /select.
  have -> : (nfds <? 0) || (mx <? nfds) = false by lia.
  case Ec: (count_ready asked 0) => [n t]. have [_ [_ [_ H2]]] := cr_spec _ _ _ _ Ec.
  have HA : forall u : nat, rdy u fd0 i0 = true by move=> u; rewrite St.
  have -> : (0 <? n) = true. { have := H2 _ _ W Hh (fun u _ => HA u). lia. }
  set c0 := set_qs _ t. case Ew: (write_user c0) => [rc c]. exists rc, c. split; first done.
  have := write_pos _ _ _ _ _ Ew W Hh (fun u _ => HA u). have [_ [_ [_ [U [F1 F2]]]]] := write_spec _ _ _ _ _ _ Ew.
  split=> //. split=> //. split=> //. move: F1 => [_ A B _] i fd Hi Hf.
  case Eb: (bit (us c) i fd).
  - have [[_ [_ H1]] [H3 [u [_ H4]]]] := A _ _ (conj Hi (conj Hf Eb)). rewrite St in H4. rewrite H1 H4 /=. by case: (handle fd) H3.
  - case Ea: (bit asked i fd) => //=. case: (B _ _ (conj Hi (conj Hf Ea)) Eb) => [->|[u [_ H4]]] //. rewrite St in H4. by rewrite H4 andb_false_r.
Qed.
Lemma cond_of_some asked i k : cond_of handle nfds asked i = Some k -> 0 <= k /\
  (forall fd, wants asked i fd -> handle fd <> None /\ forall c, handle fd = Some c -> c i = true -> 0 < k).
Proof.
  rewrite /cond_of /wants /bit. case: (asked i) => [set|]; last by move=> [<-]; split=> // fd [_ [_ //]].
  move=> E. have [H1 H2] := cond_some _ rdy _ _ _ _ E. split=> // fd [_ [Hf Hb]]. apply: H2 => //. by apply/in_fds.
Qed.
Lemma cond_cnt_some asked k : cond_cnt handle nfds asked = Some k -> 0 <= k /\ (forall i fd, wants asked i fd -> handle fd <> None) /\ (has_cond handle nfds asked -> 0 < k).
Proof.
  rewrite /cond_cnt. case E0: (cond_of handle nfds asked 0) => [a|] //. case E1: (cond_of handle nfds asked 1) => [b|] //. case E2: (cond_of handle nfds asked 2) => [d|] // [<-].
  have [P0 Q0] := cond_of_some _ _ _ E0. have [P1 Q1] := cond_of_some _ _ _ E1. have [P2 Q2] := cond_of_some _ _ _ E2.
  split; first lia. split.
  - move=> i fd W. move: (W) => [[Ei|[Ei|[Ei|//]]] _]; subst i; [exact: (proj1 (Q0 _ W)) | exact: (proj1 (Q1 _ W)) | exact: (proj1 (Q2 _ W))].
  - move=> [i [fd [c [W [Hc Hi]]]]]. move: (W) => [[Ei|[Ei|[Ei|//]]] _]; subst i.
    + have := proj2 (Q0 _ W) _ Hc Hi. lia.
    + have := proj2 (Q1 _ W) _ Hc Hi. lia.
    + have := proj2 (Q2 _ W) _ Hc Hi. lia.
Qed.
Lemma select_ebadf asked timeout pend its : 0 <= nfds <= mx -> (exists i fd, wants asked i fd /\ handle fd = None) ->
  (forall t i fd, wants asked i fd -> handle fd <> None -> rdy t fd i = false) ->
  exists c, select asked timeout pend its = Some (-9, c) /\ us c = asked.
Proof.
  move=> Hn [i0 [fd0 [W Hc]]] Hr. rewrite /select. have -> : (nfds <? 0) || (mx <? nfds) = false by lia.
  case Ec: (count_ready asked 0) => [n t]. have [_ [H0 [H1 _]]] := cr_spec _ _ _ _ Ec.
  have -> : (0 <? n) = false. { case: (Z.ltb_spec 0 n) => // Hn'. have [i [fd [u [A [B [_ D]]]]]] := H1 Hn'. by rewrite (Hr _ _ _ A B) in D. }
  case Ek: (cond_cnt handle nfds asked) => [k|]; last by eexists.
  have [_ [K _]] := cond_cnt_some _ _ Ek. by case: (K _ _ W).
Qed.
Lemma select_zero asked timeout pend its c : lasting rdy -> 0 <= nfds <= mx -> has_cond handle nfds asked -> select asked timeout pend its = Some (0, c) ->
  timeout <> None /\ utv c = Some (0, 0) /\ exists x, In x its /\ expired (ticks_of timeout) x.
Proof.
  move=> La Hn Hc. rewrite /select. have -> : (nfds <? 0) || (mx <? nfds) = false by lia.
  rewrite -/(ticks_of timeout).
  have LP : forall c1 c2 i fd u, write_user c1 = (0, c2) -> wants (ss c1) i fd -> handle fd <> None -> (u < qs c1)%nat -> rdy u fd i = true -> False.
  { move=> c1 c2 i fd u Ew W Hh Hu Hr. have := write_pos _ _ _ _ _ Ew W Hh (fun v Hv => La u v _ _ ltac:(lia) Hr). lia. }
  case Ec: (count_ready asked 0) => [n t]. have [_ [H0 [H1 _]]] := cr_spec _ _ _ _ Ec.
  case: (Z.ltb_spec 0 n) => Hn'.
  { move=> [E]. have [i [fd [u [A [B [C D]]]]]] := H1 Hn'. by case: (LP _ _ i fd u E). }
  case Ek: (cond_cnt handle nfds asked) => [k|] //. have [_ [_ K]] := cond_cnt_some _ _ Ek. have Kp := K Hc.
  have -> : (0 <? k) && (match timeout with None => true | Some _ => 0 <? ticks_of timeout end) = true.
  { case: (timeout) => [[sec usec]|]; last by lia. have : 1 <= select_ticks sec usec by rewrite /select_ticks; lia. rewrite /ticks_of. lia. }
  case Ew: (wait (ticks_of timeout) pend its _) => [[rc0 c0]|] //.
  case: (wait_spec _ _ _ _ _ _ Ew) => /=.
  - move=> [A1 [A2 [A3 [A4 A5]]]]. case: (Z.eqb_spec rc0 0) => H4; last by move=> [? _].
    case: A5 => [[A5 _]|[_ [A6 [A7 A8]]]]; first lia. move=> [E]. split=> //. split=> //.
    have [_ [_ [_ [U _]]]] := write_spec _ _ _ _ _ _ E. by rewrite U A7.
  - move=> [x [c1 [rc1 [B1 [B2 [B3 [B4 [B5 [B6 [i [fd [u [C1 [C2 [C3 C4]]]]]]]]]]]]]]].
    case: (Z.eqb_spec rc0 0) => H4; last by move=> [? _].
    have E1 : rc1 = 0 by move: B6; case: pend {Ew}; lia. subst rc1. case: (LP _ _ i fd u B5) => //. by rewrite B2.
Qed.
Lemma select_time asked timeout pend its rc c : select asked timeout pend its = Some (rc, c) -> 0 <= rc ->
  utv c = timeout \/ timeout <> None /\ (utv c = Some (0, 0) \/ exists x, In x its /\ utv c = Some (remaining (ticks_of timeout) (el1 x))).
Proof.
  move=> H Hr. case: (select_cases _ _ _ _ _ _ H) => [[? _]|[[c1 [E1 [T E2]]]|[[c1 [c2 [x [E1 [E2 [E3 [T [I _]]]]]]]]|[c1 [rc0 [? _]]]]]]; [lia | | | lia].
  - have [_ [_ [_ [U _]]]] := write_spec _ _ _ _ _ _ E2. by rewrite U.
  - have [_ [_ [U1 _]]] := write_spec _ _ _ _ _ _ E2. have [_ [_ [_ [U2 _]]]] := write_spec _ _ _ _ _ _ E3.
    rewrite U2 U1 T. case: (timeout); [move=> v; right; split=> //; right; by exists x | by left].
Qed.
End P.
Lemma remaining_ok ticks el : 0 <= el -> 0 <= ticks < 2 ^ 32 ->
  in_ticks (remaining ticks el) = Z.max 0 (ticks - el) /\ 0 <= fst (remaining ticks el) /\ 0 <= snd (remaining ticks el) < 1000000.
Proof.
  move=> H1 H2. rewrite /in_ticks /remaining /=. case: (Z.ltb_spec el ticks) => H.
  - rewrite u32_small; first lia. lia.
  - rewrite /=. lia.
Qed.
