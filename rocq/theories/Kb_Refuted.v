(** Concrete keys. *)
From Coq Require Import ssreflect.
From Verif Require Import Lib Kb_Model Kb_Spec.

(** a layout with one letter: key 30 is a, with shift A *)
Definition lay (sh : bool) (k : Z) : Z := if k =? 30 then (if sh then 65 else 97) else 0.
Definition up (c : Z) : Z := if (97 <=? c) && (c <=? 122) then c - 32 else c.
Definition typed (l : list Z) : list kout := snd (run lay (fun _ => 0) up kb0 l).
(** A lost release byte: shift stays *)
Lemma stuck_shift : typed [42; 170; 30] = [Ev 42 0 true; Ev 42 0 false; Ev 30 97 true] /\ typed [42; 30] = [Ev 42 0 true; Ev 30 65 true].
Proof. by vm_compute. Qed.
(** A lost prefix: the right Ctrl is the left one *)
Lemma lost_prefix : typed [224; 29] = [Ev 57373 0 true] /\ typed [29] = [Ev 29 0 true].
Proof. by vm_compute. Qed.
(** CapsLock held until it repeats is off again *)
Lemma caps_repeat : typed (flat_map code [Key false 58 true; Key false 30 true]) = [Ev 30 65 true] /\
  typed (flat_map code [Key false 58 true; Key false 58 true; Key false 30 true]) = [Ev 30 97 true].
Proof. by vm_compute. Qed.
(** The right Ctrl, the right Alt and the Del of the number pad do not reboot *)
Lemma right_ctrl : typed (flat_map code [Key false 29 true; Key false 56 true; Key true 83 true]) = [Ev 29 0 true; Ev 56 0 true; Reboot] /\
  typed (flat_map code [Key true 29 true; Key false 56 true; Key true 83 true]) = [Ev 57373 0 true; Ev 56 0 true; Ev 57427 0 true].
Proof. by vm_compute. Qed.
