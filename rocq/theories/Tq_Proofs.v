From Coq Require Import ssreflect.
From Verif Require Import Lib Tq_Model Tq_Spec.

Section P.
Variable cap : Z.
Hypothesis Hcap : 0 < cap.
Notation step := (step cap).
Notation run := (run cap).

Record inv (s : tq) : Prop := Inv {
  i_fifo : enq s = exd s ++ q s;
  i_room : zlen (q s) <= cap;
  i_lock : forall i, inside (pcs s i) <-> lk s = Some i;
  i_drain : q s <> [] -> exists i, drains (pcs s i);
  i_len : length (shown s) = length (exd s) /\ length (want s) = length (enq s) }.

Lemma inv0 m : inv (tq0 m).
Proof. split=> //=; rewrite /zlen /=; lia. Qed.
Lemma upd_same f (i : Z) (x : pc) : fupd f i x i = x. Proof. by rewrite /fupd Z.eqb_refl. Qed.
Lemma upd_other f (i j : Z) (x : pc) : j <> i -> fupd f i x j = f j. Proof. rewrite /fupd. case: (Z.eqb_spec j i) => //. Qed.
Lemma empty_q s : empty s = true <-> q s = []. Proof. rewrite /empty. by case: (q s). Qed.

(** the mutex when only task i moves *)
Lemma lock_keep s i x : (forall j, inside (pcs s j) <-> lk s = Some j) -> (inside x <-> inside (pcs s i)) ->
  forall j, inside (fupd (pcs s) i x j) <-> lk s = Some j.
Proof. move=> L X j. have [->|N] := Z.eq_dec j i; [rewrite upd_same X; exact: L | rewrite upd_other //; exact: L]. Qed.
Lemma lock_take s i x : (forall j, inside (pcs s j) <-> lk s = Some j) -> lk s = None -> inside x ->
  forall j, inside (fupd (pcs s) i x j) <-> Some i = Some j.
Proof.
  move=> L F X j. have [->|N] := Z.eq_dec j i; first by rewrite upd_same.
  rewrite upd_other // L F. split=> // -[]. congruence.
Qed.
Lemma lock_drop s i x : (forall j, inside (pcs s j) <-> lk s = Some j) -> lk s = Some i -> ~ inside x ->
  forall j, inside (fupd (pcs s) i x j) <-> None = Some j.
Proof.
  move=> L F X j. have [->|N] := Z.eq_dec j i; first by rewrite upd_same.
  rewrite upd_other // L F. split=> // -[]. congruence.
Qed.
Lemma drain_keep s i x : (exists j, drains (pcs s j)) -> (drains (pcs s i) -> drains x) -> exists j, drains (fupd (pcs s) i x j).
Proof.
  move=> [j J] X. have [E|N] := Z.eq_dec j i; [exists i; rewrite upd_same; apply: X; by rewrite -E | exists j; by rewrite upd_other].
Qed.
Lemma drain_self (s : tq) i x : drains x -> exists j, drains (fupd (pcs s) i x j).
Proof. move=> X. exists i. by rewrite upd_same. Qed.

Lemma step_inv i o s s' : inv s -> step i o s = Some s' -> inv s'.
Proof.
  move=> [F R L D [N1 N2]]. rewrite /Tq_Model.step.
  have PUSH : room cap s = true -> forall a, enq s ++ [a] = exd s ++ (q s ++ [a]) /\ zlen (q s ++ [a]) <= cap.
  { rewrite /room => H a. rewrite F app_assoc. split=> //. rewrite zlen_app /zlen /= in H *. lia. }
  have LEN : forall a, length (want s ++ [mem s a]) = length (enq s ++ [a]) by move=> a; rewrite !app_length N2.
  have LENX : forall a, length (shown s ++ [mem s a]) = length (exd s ++ [a]) by move=> a; rewrite !app_length N1.
  have IRQ : forall a, (if room cap s then if empty s then Some (pop (push s a) a []) else Some (push s a) else None) = Some s' -> inv s'.
  { move=> a. case Rm: (room cap s) => //. have [P1 P2] := PUSH Rm a. case Em: (empty s) => -[<-].
    - have Q := proj1 (empty_q s) Em. split=> //=; [by rewrite P1 Q app_nil_r | by rewrite /zlen /=; lia].
    - split=> //= _. apply: D => E. by rewrite (proj2 (empty_q s) E) in Em. }
  case: o => [a|a| | | | |p v]; case P: (pcs s i) => [|b|b| | |] //; try exact: IRQ; try (by move=> [<-]; split).
  - case Rm: (room cap s) => -[<-].
    + have [P1 P2] := PUSH Rm a. split=> //=.
      * apply: lock_keep => //. rewrite P. by case: (empty s).
      * move=> _. case Em: (empty s); first by apply: drain_self; left. apply: drain_keep; last by rewrite P => -[|[]].
        apply: D => E. by rewrite (proj2 (empty_q s) E) in Em.
    + split=> //=; first by apply: lock_keep => //; rewrite P. move=> /D H. apply: drain_keep => //. by rewrite P => -[|[]].
  - case Lk: (lk s) => [//|] [<-]. split=> //=; first exact: lock_take. move=> /D H. apply: drain_keep => //. by rewrite P => -[|[]].
  - case Lk: (lk s) => [//|] [<-]. split=> //=; first exact: lock_take. move=> _. apply: drain_self. right. by left.
  - have Lk : lk s = Some i by apply/L; rewrite P.
    case Rm: (room cap s) => -[<-].
    + have [P1 P2] := PUSH Rm b. split=> //=.
      * apply: lock_drop => //. by case: (empty s).
      * move=> _. case Em: (empty s); first by apply: drain_self; left. apply: drain_keep; last by rewrite P => -[|[]].
        apply: D => E. by rewrite (proj2 (empty_q s) E) in Em.
    + split=> //=; first exact: lock_drop. move=> /D H. apply: drain_keep => //. by rewrite P => -[|[]].
  - have Lk : lk s = Some i by apply/L; rewrite P.
    case Q: (q s) => [|a l] [<-].
    + split=> //=; exact: lock_drop.
    + split=> //=; [by rewrite F Q -app_assoc | by move: R; rewrite Q /zlen /=; lia | by apply: lock_keep => //; rewrite P |].
      move=> _. apply: drain_self. right. by right.
  - move=> [<-]. split=> //=; first by apply: lock_keep => //; rewrite P. move=> _. apply: drain_self. right. by left.
Qed.
Lemma run_cons i o l s : run ((i, o) :: l) s = match step i o s with None => None | Some s => run l s end. Proof. by []. Qed.
Lemma run_inv l : forall s s', inv s -> run l s = Some s' -> inv s'.
Proof. elim: l => [|[i o] l IH] s s' I /=; first by move=> [<-]. case E: (step i o s) => [s1|] //. apply: IH. exact: step_inv E. Qed.
Lemma run_app x y s : run (x ++ y) s = match run x s with None => None | Some s => run y s end.
Proof. elim: x s => [|[i o] x IH] s //=. by case: (step i o s). Qed.

(** All histories *)
Lemma reach m l s : run l (tq0 m) = Some s -> enq s = exd s ++ q s /\ zlen (q s) <= cap /\
  (forall i j, inside (pcs s i) -> inside (pcs s j) -> i = j) /\
  (q s <> [] -> exists i, drains (pcs s i)).
Proof.
  move=> H. have [F R L D _] := run_inv _ _ _ (inv0 m) H. split=> //. split=> //. split=> // i j /L Li /L Lj. congruence.
Qed.

(** The holder of the lock in its loop empties the queue *)
Lemma drain_loop : forall n s i, inv s -> length (q s) = n -> pcs s i = Loop ->
  exists l s', run l s = Some s' /\ q s' = [] /\ Forall (fun x => internal (snd x)) l.
Proof.
  elim=> [|n IH] s i I Q P.
  - exists [], s. split=> //. split=> //. by case: (q s) Q.
  - case E: (q s) Q => [|a l] //= [Q].
    have S1 : step i Read s = Some (at_pc (pop s a l) i Exec (lk s)) by rewrite /Tq_Model.step P E.
    have I1 := step_inv _ _ _ _ I S1. set s1 := at_pc _ _ _ _ in S1 I1.
    have P1 : pcs s1 i = Exec by rewrite /s1 /= upd_same.
    have S2 : step i Done s1 = Some (at_pc s1 i Loop (lk s1)) by rewrite /Tq_Model.step P1.
    have I2 := step_inv _ _ _ _ I1 S2. have [|//=|l' [s' [R [Z F]]]] := IH _ i I2; [done | by rewrite /= upd_same |].
    exists ((i, Read) :: (i, Done) :: l'), s'. split; first by rewrite run_cons S1 run_cons S2. split=> //.
    constructor; first by rewrite /internal /=; tauto. constructor; first by rewrite /internal /=; tauto. done.
Qed.
Lemma cons_int i o l : internal o -> Forall (fun x : Z * op => internal (snd x)) l -> Forall (fun x => internal (snd x)) ((i, o) :: l).
Proof. by constructor. Qed.
Lemma drain_free s : inv s -> lk s = None -> exists l s', run l s = Some s' /\ q s' = [] /\ Forall (fun x => internal (snd x)) l.
Proof.
  move=> I Lk. case Q: (q s) => [|a r]; first by exists [], s.
  have [_ _ L D _] := I. have [i [W|X]] := D ltac:(by rewrite Q); last first.
  { have : inside (pcs s i) by case: X => ->. move=> /L. by rewrite Lk. }
  have S1 : step i Lock s = Some (at_pc s i Loop (Some i)) by rewrite /Tq_Model.step W Lk.
  have I1 := step_inv _ _ _ _ I S1. have [|l [s' [R [Z F]]]] := drain_loop _ _ i I1 eq_refl; first by rewrite /= upd_same.
  exists ((i, Lock) :: l), s'. split; first by rewrite run_cons S1. split=> //. apply: cons_int => //. by left.
Qed.
Lemma drain_any s : inv s -> exists l s', run l s = Some s' /\ q s' = [] /\ Forall (fun x => internal (snd x)) l.
Proof.
  move=> I. case Lk: (lk s) => [i|]; last exact: drain_free. have [_ _ L _ _] := I. have := proj2 (L i) Lk.
  case P: (pcs s i) => [|b|b| | |] // _.
  - have [s1 [S1 K]] : exists s1, step i Redo s = Some s1 /\ lk s1 = None by rewrite /Tq_Model.step P; case: (room cap s); eexists.
    have [l [s' [R [Z F]]]] := drain_free _ (step_inv _ _ _ _ I S1) K. exists ((i, Redo) :: l), s'. split; first by rewrite run_cons S1. split=> //. apply: cons_int => //. right. by left.
  - exact: (drain_loop _ _ i I eq_refl P).
  - have S1 : step i Done s = Some (at_pc s i Loop (lk s)) by rewrite /Tq_Model.step P.
    have [|l [s' [R [Z F]]]] := drain_loop _ _ i (step_inv _ _ _ _ I S1) eq_refl; first by rewrite /= upd_same.
    exists ((i, Done) :: l), s'. split; first by rewrite run_cons S1. split=> //. apply: cons_int => //. by do 3 right.
Qed.
(** Nothing is stuck in the queue: the tasks inside their calls can always execute all of it *)
Lemma not_stuck m l s : run l (tq0 m) = Some s -> exists l' s', run l' s = Some s' /\ q s' = [] /\ exd s' = enq s' /\
  Forall (fun x => internal (snd x)) l'.
Proof.
  move=> H. have I := run_inv _ _ _ (inv0 m) H. have [l' [s' [R [Z F]]]] := drain_any _ I. exists l', s'. split=> //. split=> //.
  have [E _ _ _ _] := run_inv _ _ _ I R. by rewrite E Z app_nil_r.
Qed.

(** Texts *)
Lemma map_upd (m : Z -> Z) p v l : ~ In p l -> map (fupd m p v) l = map m l.
Proof. move=> N. apply: map_ext_in => a A. rewrite /fupd. case: (Z.eqb_spec a p) => // E. by rewrite E in A. Qed.
Lemma careful_step i o s s' : (match o with Store p _ => ~ In p (q s) | _ => True end) -> step i o s = Some s' ->
  want s = shown s ++ map (mem s) (q s) -> want s' = shown s' ++ map (mem s') (q s').
Proof.
  move=> C. rewrite /Tq_Model.step.
  have PU : forall a, want s = shown s ++ map (mem s) (q s) -> want s ++ [mem s a] = shown s ++ map (mem s) (q s ++ [a]) by move=> a ->; rewrite map_app app_assoc.
  have IRQ : forall a, (if room cap s then if empty s then Some (pop (push s a) a []) else Some (push s a) else None) = Some s' ->
    want s = shown s ++ map (mem s) (q s) -> want s' = shown s' ++ map (mem s') (q s').
  { move=> a. case: (room cap s) => //. case Em: (empty s) => -[<-] /=; last exact: PU. move=> ->. by rewrite (proj1 (empty_q s) Em) /= !app_nil_r. }
  have ST : forall p v, ~ In p (q s) -> want s = shown s ++ map (mem s) (q s) -> want s = shown s ++ map (fupd (mem s) p v) (q s) by move=> p v N ->; rewrite map_upd.
  case: o C => [a|a| | | | |p v] C; case P: (pcs s i) => [|b|b| | |] //; try exact: IRQ; try (by case=> <-; exact: ST).
  - case: (room cap s) => -[<-] //=. exact: PU.
  - by case: (lk s) => [//|] [<-].
  - by case: (lk s) => [//|] [<-].
  - case: (room cap s) => -[<-] //=. exact: PU.
  - case Q: (q s) => [|a l] [<-] /=; [by rewrite Q | by move=> ->; rewrite -app_assoc].
  - by move=> [<-].
Qed.
Lemma shown_ok m l s : careful cap l (tq0 m) -> run l (tq0 m) = Some s -> want s = shown s ++ map (mem s) (q s).
Proof.
  have G : forall l s0, want s0 = shown s0 ++ map (mem s0) (q s0) -> careful cap l s0 -> run l s0 = Some s -> want s = shown s ++ map (mem s) (q s).
  { elim=> [|[i o] l' IH] s0 W /=; first by move=> _ [<-]. move=> [C1 C2]. case E: (step i o s0) C2 => [s1|] // C2. apply: IH => //. exact: careful_step E W. }
  exact: G.
Qed.
End P.
