(** Concrete histories of the queue of terminal actions. *)
From Coq Require Import ssreflect.
From Verif Require Import Lib Tq_Model Tq_Spec.

(** tasks 1 and 2 write the texts at 10 and 20, which are 7 and 8 *)
Definition m0 (p : Z) : Z := if p =? 10 then 7 else if p =? 20 then 8 else 0.
Definition view (s : tq) : list Z * list Z * list Z * pc * pc := (want s, shown s, q s, pcs s 1, pcs s 2).
(** Task 2 has returned from its call when it changes its buffer; its old text is never shown *)
Definition reuse : list (Z * op) := [(1, Call 10); (2, Call 20); (2, Store 20 9); (1, Lock); (1, Read); (1, Done); (1, Read); (1, Done); (1, Read)].
Lemma reuse_returned : option_map view (run 32 (firstn 2 reuse) (tq0 m0)) = Some ([7; 8], [], [10; 20], Wait, Out).
Proof. by vm_compute. Qed.
Lemma reuse_shown : option_map view (run 32 reuse (tq0 m0)) = Some ([7; 8], [7; 9], [], Out, Out).
Proof. by vm_compute. Qed.
(** An interrupt executes its action while a task is executing another *)
Lemma irq_inside : option_map view (run 32 [(1, Call 10); (1, Lock); (1, Read); (0, Irq 20)] (tq0 m0)) = Some ([7; 8], [7; 8], [], Exec, Out).
Proof. by vm_compute. Qed.
(** A ring of any size: one task waits for the lock, another one fills the ring, and the next interrupt that writes panics *)
Lemma fill cap a n : forall s, pcs s 2 = Out -> q s <> [] -> zlen (q s) + Z.of_nat n <= cap ->
  exists s', run cap (repeat (2, Call a) n) s = Some s' /\ zlen (q s') = zlen (q s) + Z.of_nat n.
Proof.
  elim: n => [|n IH] s P N L; first by exists s; split=> //=; lia.
  have R : room cap s = true by rewrite /room; lia.
  have E : empty s = false by rewrite /empty; case: (q s) N.
  have [|||s' [X Y]] := IH (at_pc (push s a) 2 Out (lk s)).
  - by rewrite /= /fupd.
  - rewrite /=. by case: (q s).
  - rewrite /= zlen_app /zlen /= in L *. lia.
  - exists s'. split; first by rewrite /= P R E. rewrite Y /= zlen_app /zlen /=. lia.
Qed.
Lemma irq_panic cap a : 0 < cap -> exists s, run cap ((1, Call a) :: repeat (2, Call a) (Z.to_nat (cap - 1))) (tq0 m0) = Some s /\
  zlen (q s) = cap /\ forall i b, step cap i (Irq b) s = None.
Proof.
  move=> H. have R : room cap (tq0 m0) = true by rewrite /room /zlen /=; lia.
  have [|||s [X Y]] := fill cap a (Z.to_nat (cap - 1)) (at_pc (push (tq0 m0) a) 1 Wait None); [done | done | by rewrite /zlen /=; lia |].
  have Y' : zlen (q s) = cap by rewrite Y /zlen /=; lia.
  exists s. split; first by rewrite /= R. split=> // i b. rewrite /= /room Y'. by have -> : (cap <? cap) = false by lia.
Qed.
