(** What select may answer. *)
From Verif Require Import Lib Poll_Model Sel_Model.

Definition kinds : list Z := [0; 1; 2].
Definition bit (s : sets3) (i fd : Z) : bool := match s i with Some set => set fd | None => false end.
(** number of bits of the three sets below nfds *)
Definition bits (nfds : Z) (s : sets3) : Z := fold_right (fun i n => zlen (filter (bit s i) (fds nfds)) + n) 0 kinds.

Section Spec.
Variable handle : Z -> option (Z -> bool).
Variable rdy : nat -> Z -> Z -> bool.
Variable nfds : Z.
Definition wants (asked : sets3) (i fd : Z) : Prop := In i kinds /\ 0 <= fd < nfds /\ bit asked i fd = true.
(** The bits given are asked for, open, and were ready when looked at; those taken away were
    not open, or not ready when looked at ([n]: questions asked so far); bits from nfds on and
    sets not given stay *)
Record honest (n : nat) (asked got : sets3) : Prop := Honest {
  h_null : forall i, In i kinds -> got i = None <-> asked i = None;
  h_yes : forall i fd, wants got i fd -> wants asked i fd /\ handle fd <> None /\ exists t, (t < n)%nat /\ rdy t fd i = true;
  h_no : forall i fd, wants asked i fd -> bit got i fd = false -> handle fd = None \/ exists t, (t < n)%nat /\ rdy t fd i = false;
  h_out : forall i fd, In i kinds -> ~ 0 <= fd < nfds -> bit got i fd = bit asked i fd }.
(** once ready, ready until the end of the call *)
Definition lasting : Prop := forall t t' fd i, (t <= t')%nat -> rdy t fd i = true -> rdy t' fd i = true.
Definition steady (r : Z -> Z -> bool) : Prop := forall t fd i, rdy t fd i = r fd i.
(** an asked source with a condition to wait on *)
Definition has_cond (asked : sets3) : Prop := exists i fd c, wants asked i fd /\ handle fd = Some c /\ c i = true.
End Spec.
(** a time in ticks *)
Definition in_ticks (v : tval) : Z := fst v * 250 + snd v / 4000.
(** the time given, in ticks of 4 ms, at least one (C53) *)
Definition ticks_of (timeout : option tval) : Z := match timeout with Some (sec, usec) => select_ticks sec usec | None => 0 end.
(** in this round the time was over *)
Definition expired (ticks : Z) (x : it) : Prop := ticks <= el2 x \/ woken x = ByTimer.
