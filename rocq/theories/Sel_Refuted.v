(** Concrete calls of select. *)
From Coq Require Import ssreflect.
From Verif Require Import Lib Poll_Model Sel_Model Sel_Spec.

(** descriptors 0 to 2 open, 0 and 1 with a condition for each of the three kinds *)
Definition hs (fd : Z) : option (Z -> bool) :=
  if (0 <=? fd) && (fd <? 2) then Some (fun _ => true) else if fd =? 2 then Some (fun _ => false) else None.
Definition only (l : list Z) : fdset := fun fd => existsb (Z.eqb fd) l.
Definition rset (l : list Z) : sets3 := fun i => if i =? 0 then Some (only l) else None.
Definition none3 : sets3 := fun _ => None.
(** answers and what the user sees of the read set below [n] *)
Definition seen (n : Z) (r : option (Z * ctx)) : option (Z * option (list bool) * option tval) :=
  option_map (fun '(rc, c) => (rc, option_map (fun set : fdset => map set (fds n)) (us c 0), utv c)) r.
Definition answers (l : list bool) : nat -> Z -> Z -> bool := fun t _ _ => nth t l false.
Definition round (w : wake) : it := It 0 false 0 w.

(** Ready when counted, not any more when written: 0 without a timeout *)
Lemma spurious_zero : seen 2 (select hs (answers [true; false]) 2 16 (rset [0]) None false []) = Some (0, Some [false; false], None).
Proof. by vm_compute. Qed.
(** Neither descriptors nor a timeout: not waiting at all *)
Lemma pause_zero : seen 0 (select hs (answers []) 0 16 none3 None false []) = Some (0, None, None).
Proof. by vm_compute. Qed.
(** A descriptor which is never ready and has no condition: the same *)
Lemma nocond_zero : seen 3 (select hs (answers []) 3 16 (rset [2]) None false []) = Some (0, Some [false; false; false], None).
Proof. by vm_compute. Qed.
(** EINTR with the sets and the time written *)
Lemma eintr_written : seen 2 (select hs (answers [false; true; true]) 2 16 (rset [0]) (Some (1, 0)) true [It 5 false 5 ByCond]) = Some (-4, Some [true; false], Some (0, 980000)).
Proof. by vm_compute. Qed.
(** A closed descriptor next to a ready one: no EBADF *)
Lemma closed_silent : seen 4 (select hs (answers [true; true]) 4 16 (rset [0; 3]) None false []) = Some (1, Some [true; false; false; false], None).
Proof. by vm_compute. Qed.
Lemma closed_ebadf : option_map fst (select hs (answers [false; true]) 4 16 (rset [0; 3]) None false []) = Some (-9).
Proof. by vm_compute. Qed.
(** More time left than given *)
Lemma more_left : seen 1 (select hs (answers [false; true; true]) 1 16 (rset [0]) (Some (0, 1000)) false [round ByCond]) = Some (1, Some [true], Some (0, 4000)).
Proof. by vm_compute. Qed.
(** The whole time slept without conditions, and the time left is the time given *)
Lemma slept_unchanged : seen 3 (select hs (answers []) 3 16 (rset [2]) (Some (5, 0)) false []) = Some (0, Some [false; false; false], Some (5, 0)).
Proof. by vm_compute. Qed.
(** pselect6 with 32 bits: the nanoseconds are not looked at, the microseconds left go to the high word of the seconds *)
Lemma pselect32_nsec w0 w1 n1 n2 sel : fst (pselect false (w0, w1, n1) sel) = fst (pselect false (w0, w1, n2) sel).
Proof. rewrite /pselect. by case: (sel (w0, w1)) => rc [a b]. Qed.
Lemma pselect32_high w0 w1 n sel rc a b : sel (w0, w1) = (rc, (a, b)) -> pselect false (w0, w1, n) sel = (rc, (a, b, div1000 n * 1000)).
Proof. by rewrite /pselect => ->. Qed.
Lemma pselect64_ok w0 w1 w2 sel : pselect true (w0, w1, w2) sel = (fst (sel (w0, Z.quot w1 1000)), (fst (snd (sel (w0, Z.quot w1 1000))), snd (snd (sel (w0, Z.quot w1 1000))) * 1000, w2)).
Proof. rewrite /pselect /div1000. by case: (sel _) => rc [a b]. Qed.
Lemma neg_secs : select_ticks (-1) 0 = 2 ^ 32 - 1.
Proof. by vm_compute. Qed.
