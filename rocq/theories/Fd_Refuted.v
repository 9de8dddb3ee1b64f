(* Concrete histories: where descriptors do not do what POSIX says, or worse. *)
From Coq Require Import ZArith List Bool Lia.
From Verif Require Import Lib Fd_Model Fd_Spec Fd_Proofs5.
Import ListNotations.
Open Scope Z_scope.

(* a table of three; process 1; the file 5 *)
Definition c3 := Cfg 3 (fun o => o / 10).
Definition s_0 := St (fun _ => None) (fun _ _ => None) (fun p => p =? 1) (fun o => if o =? 5 then OFile else ONone)
  (fun _ => 0) (fun _ => 0) (fun _ => 0) (fun _ => 1).

Fixpoint al_of (l : list Z) (s : st) : option Z :=
  match l with
  | [] => None
  | y :: l => match hs s y with None => Some y | Some _ => al_of l s end
  end.
Fixpoint alo_of (l : list Z) (s : st) : option Z :=
  match l with
  | [] => None
  | o :: l => match ok s o with ONone => Some o | _ => alo_of l s end
  end.
Definition memory := al_of [100; 101; 102; 103; 104; 105].
Definition no_memory := al_of [].
Definition pipe_memory := alo_of [10; 11].

Lemma al_of_ok l : al_ok (al_of l).
Proof.
  intros s y. induction l as [ | a l IH ]; cbn [al_of]; [ discriminate | ].
  destruct (hs s a) eqn:E; [ exact IH | congruence ].
Qed.
Lemma alo_of_ok l : alo_ok (alo_of l).
Proof.
  intros s y. induction l as [ | a l IH ]; cbn [alo_of]; [ discriminate | ].
  destruct (ok s a) eqn:E; [ congruence | exact IH | exact IH ].
Qed.
Lemma init_s0 : init c3 s_0.
Proof. constructor; try reflexivity; [ intro o; cbn; destruct (o =? 5); discriminate | cbn; lia ]. Qed.

Definition may (s : st) (o : op) : bool :=
  match o with
  | OOpen p o _ _ => pr s p && match ok s o with OFile => true | _ => false end
  | OClose p _ | ODup p _ | OSetfd p _ _ | OAdvance p _ _ | OPipe2 p _ _ | OExec p | OExit p => pr s p
  | ODup2 p _ fd' => pr s p && match ent s p fd' with None => true | _ => false end
  | _ => false
  end.
Lemma may_allowed s o : may s o = true -> allowed memory s o.
Proof.
  destruct o; cbn [may allowed]; try discriminate; auto; intro H; apply andb_true_iff in H; destruct H as (A & B);
    (split; [ exact A | ]).
  - destruct (ok s o); auto; discriminate.
  - left. destruct (ent s p fd'); auto; discriminate.
Qed.
Fixpoint mays (l : list op) (s : st) : bool :=
  match l with
  | [] => true
  | o :: l => may s o && match step c3 memory pipe_memory s o with Ok s => mays l s | _ => false end
  end.
Fixpoint play (l : list op) (s : st) : st :=
  match l with
  | [] => s
  | o :: l => match step c3 memory pipe_memory s o with Ok s => play l s | _ => s end
  end.
Definition at_ (l : list op) : st := play l s_0.
Lemma mays_runs : forall l s, mays l s = true -> runs c3 l s (play l s).
Proof.
  induction l as [ | o l IH ]; intros s M; [ constructor | ]. cbn [mays play] in *.
  apply andb_true_iff in M. destruct M as (M1 & M2). apply may_allowed in M1.
  destruct (step c3 memory pipe_memory s o) as [s1 | | | | ] eqn:E; try discriminate.
  apply (runs_cons c3 o l memory pipe_memory s s1); auto; [ apply al_of_ok | apply alo_of_ok ].
Qed.
Lemma mays_reach l : mays l s_0 = true -> reach c3 (at_ l).
Proof. intro M. exists s_0, l. split; [ exact init_s0 | apply mays_runs; exact M ]. Qed.

Definition two_open := [OOpen 1 5 0 0; OOpen 1 5 O_CLOEXEC 0].
Definition with_hole := two_open ++ [OClose 1 0].

Ltac at_two := apply mays_reach; vm_compute; reflexivity.

Lemma dup2_dangling : exists c al s p fd fd' s',
  reach c s /\ al_ok al /\ pr s p = true /\ sys_dup2 c al s p fd fd' = Ok (s', ENOMEM) /\ sys_close c s' p fd' = Uaf.
Proof.
  assert (N : match sys_dup2 c3 no_memory (at_ two_open) 1 0 1 with
              | Ok (s', r) => r = ENOMEM /\ sys_close c3 s' 1 1 = Uaf | _ => False end) by (vm_compute; auto).
  destruct (sys_dup2 c3 no_memory (at_ two_open) 1 0 1) as [[s' r] | | | | ] eqn:E; try contradiction.
  destruct N as (-> & N).
  exists c3, no_memory, (at_ two_open), 1, 0, 1, s'. split; [ at_two | ]. split; [ apply al_of_ok | ].
  split; [ vm_compute; reflexivity | ]. split; [ exact E | exact N ].
Qed.
Lemma dupfd_negative : exists c al s p fd arg,
  reach c s /\ al_ok al /\ pr s p = true /\ dupfd c al s p fd arg = Oob.
Proof.
  exists c3, memory, (at_ two_open), 1, 0, (-1). split; [ at_two | ].
  split; [ apply al_of_ok | ]. split; vm_compute; reflexivity.
Qed.
Lemma dupfd_cloexec_lost : exists c al s p fd arg s' r x,
  reach c s /\ al_ok al /\ pr s p = true /\ 0 <= arg /\ dupfd_cloexec c al s p fd arg = Ok (s', r) /\ 0 <= r /\
  ent s' p r = Some x /\ cloexec x = false.
Proof.
  assert (N : match dupfd_cloexec c3 memory (at_ two_open) 1 0 0 with
              | Ok (s', r) => r = 2 /\ ent s' 1 2 = Some (Hnd 5 0 0 0) | _ => False end) by (vm_compute; auto).
  destruct (dupfd_cloexec c3 memory (at_ two_open) 1 0 0) as [[s' r] | | | | ] eqn:E; try contradiction.
  destruct N as (-> & N).
  exists c3, memory, (at_ two_open), 1, 0, 0, s', 2, (Hnd 5 0 0 0). split; [ at_two | ].
  split; [ apply al_of_ok | ]. split; [ vm_compute; reflexivity | ]. split; [ lia | ]. split; [ exact E | ].
  split; [ lia | ]. split; [ exact N | reflexivity ].
Qed.
Lemma fork_cloexec_lost : exists c al s p q fd x s' s'' y,
  reach c s /\ al_ok al /\ pr s p = true /\ pr s q = false /\ ent s p fd = Some x /\ cloexec x = true /\
  fork c al s p q = Ok (s', q) /\ exec c s' q = Ok s'' /\ ent s'' q fd = Some y.
Proof.
  assert (N : match fork c3 memory (at_ two_open) 1 2 with
              | Ok (s', r) => r = 2 /\ match exec c3 s' 2 with
                                       | Ok s'' => ent s'' 2 1 = Some (Hnd 5 O_CLOEXEC 0 0) | _ => False end
              | _ => False end) by (vm_compute; auto).
  destruct (fork c3 memory (at_ two_open) 1 2) as [[s' r] | | | | ] eqn:E; try contradiction.
  destruct N as (-> & N). destruct (exec c3 s' 2) as [s'' | | | | ] eqn:E2; try contradiction.
  exists c3, memory, (at_ two_open), 1, 2, 1, (Hnd 5 O_CLOEXEC 1 0), s', s'', (Hnd 5 O_CLOEXEC 0 0).
  split; [ at_two | ]. split; [ apply al_of_ok | ]. split; [ vm_compute; reflexivity | ].
  split; [ vm_compute; reflexivity | ]. split; [ vm_compute; reflexivity | ]. split; [ reflexivity | ].
  split; [ exact E | ]. split; [ exact E2 | exact N ].
Qed.
Lemma fork_null : exists c al s p q,
  reach c s /\ al_ok al /\ pr s p = true /\ pr s q = false /\ fork c al s p q = Afail.
Proof.
  exists c3, no_memory, (at_ with_hole), 1, 2. split; [ at_two | ]. split; [ apply al_of_ok | ].
  split; [ vm_compute; reflexivity | ]. split; vm_compute; reflexivity.
Qed.
Lemma setfl_panic : exists c s p fd arg, reach c s /\ pr s p = true /\ setfl c s p fd arg = Panic.
Proof. exists c3, (at_ two_open), 1, 0, O_DIRECT. split; [ at_two | ]. split; vm_compute; reflexivity. Qed.
Lemma dup_position : exists c al s p fd s1 r s2 x y,
  reach c s /\ al_ok al /\ pr s p = true /\ sys_dup c al s p fd = Ok (s1, r) /\ advance c s1 p fd 7 = Ok (s2, 7) /\
  ent s2 p fd = Some x /\ ent s2 p r = Some y /\ h_pos x <> h_pos y.
Proof.
  assert (N : match sys_dup c3 memory (at_ two_open) 1 0 with
              | Ok (s', r) => r = 2 /\ match advance c3 s' 1 0 7 with
                    | Ok (s'', r) => r = 7 /\ ent s'' 1 0 = Some (Hnd 5 0 0 7) /\ ent s'' 1 2 = Some (Hnd 5 0 0 0)
                    | _ => False end
              | _ => False end) by (vm_compute; auto).
  destruct (sys_dup c3 memory (at_ two_open) 1 0) as [[s' r] | | | | ] eqn:E; try contradiction.
  destruct N as (-> & N). destruct (advance c3 s' 1 0 7) as [[s'' r] | | | | ] eqn:E2; try contradiction.
  destruct N as (-> & N1 & N2).
  exists c3, memory, (at_ two_open), 1, 0, s', 2, s'', (Hnd 5 0 0 7), (Hnd 5 0 0 0).
  split; [ at_two | ]. split; [ apply al_of_ok | ]. split; [ vm_compute; reflexivity | ]. split; [ exact E | ].
  split; [ exact E2 | ]. split; [ exact N1 | ]. split; [ exact N2 | ]. cbn. discriminate.
Qed.
Lemma dup2_same : exists c al s p fd x r, reach c s /\ al_ok al /\ pr s p = true /\ ent s p fd = Some x /\
  (bnd (s, r) <- sys_dup2 c al s p fd fd; Ok r) = Ok r /\ r <> fd.
Proof.
  exists c3, memory, (at_ two_open), 1, 0, (Hnd 5 0 0 0), EINVAL. split; [ at_two | ]. split; [ apply al_of_ok | ].
  split; [ vm_compute; reflexivity | ]. split; [ vm_compute; reflexivity | ]. split; [ vm_compute; reflexivity | discriminate ].
Qed.
