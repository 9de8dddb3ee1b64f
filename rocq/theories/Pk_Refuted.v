(** A task preempted inside printk, between lines 397 and 431. *)
From Verif Require Import Lib Pk_Model Pk_Spec.
From Coq Require Import ssreflect.

Definition ring0 : list Z := repeat 0 (Z.to_nat 8192).
Definition msg (x : Z) : call := Call [91; 93] [x; x; 10] 224.
Definition runs (n : nat) : list op := repeat ORun n.
(** Task 1 is the first and is preempted, task 2 is not and is preempted; task 1 prints and returns; task 2 continues *)
Definition window : list op := [OCall (msg 65); ORun; OPark; OCall (msg 66); ORun; OPark; OResume 0] ++ runs 4 ++ [OResume 0].
Definition shows (o : option st) : option (list event * list frame * list frame * Z) := option_map (fun s => (shown s, stack s, parked s, used s)) o.
Lemma stuck : Forall fine (window ++ runs 12) /\ shows (steps (init ring0) (window ++ runs 12)) = Some ([EDirect [91; 93]; EDirect [65; 65; 10]], [], [], 5).
Proof. split; [by repeat constructor|vm_compute; reflexivity]. Qed.
(** An interrupt comes when task 2 has its place in the ring but has not copied its text *)
Definition garbled : list op := window ++ runs 2 ++ [OIrq (msg 67)] ++ runs 7 ++ runs 20.
Lemma garbage : Forall fine garbled /\ exists s, steps (init ring0) garbled = Some s /\ stack s = [] /\ parked s = [] /\ from_ring (shown s) = [0; 0] /\ logged s = [[91; 93]; [66; 66; 10]].
Proof. split; [by repeat constructor|]. eexists. split; [vm_compute; reflexivity|]. vm_compute. by repeat split. Qed.
