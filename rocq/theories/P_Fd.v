(** C63: file descriptors. *)
From Verif Require Import Lib Fd_Model Fd_Spec Fd_Proofs5 Fd_Refuted.

(** From every state reachable from boot, every allowed system call on descriptors ends without using a freed handle, reading outside the table, or failing an assertion. Missing: dup2 onto an open descriptor, and fork with a hole in the table, when out of memory; F_DUPFD with a negative argument; F_SETFL with O_ASYNC or O_DIRECT (refuted below). *)
Theorem C63_no_error_partial : forall c al alo s o, reach c s -> al_ok al -> alo_ok alo -> allowed al s o ->
  exists s', step c al alo s o = Ok s' /\ reach c s'.
Proof. exact reach_no_error. Qed.
Print Assumptions C63_no_error_partial.

(** The reference count of every inode, the counts of the readers and of the writers of every pipe and the reference count of every file system are the numbers of descriptors, of all processes, that refer to them. *)
Theorem C63_counts_partial : forall c s, reach c s ->
  (forall o, opens (fun x => h_o x =? o) s (rf s o)) /\
  (forall o, ok s o = OPipe ->
     opens (fun x => (h_o x =? o) && negb (wronly x)) s (rd s o) /\
     opens (fun x => (h_o x =? o) && wronly x) s (wr s o)) /\
  (forall f, opens (fun x => fs c (h_o x) =? f) s (fr s f - 1)).
Proof. exact reach_counts. Qed.
Print Assumptions C63_counts_partial.

(** A pipe has no readers (writers) left according to its counters exactly when no process has a descriptor of that end. *)
Theorem C63_pipe_ends_partial : forall c s o, reach c s -> ok s o = OPipe ->
  (rd s o = 0 <-> forall p fd x, ent s p fd = Some x -> h_o x = o -> wronly x = true) /\
  (wr s o = 0 <-> forall p fd x, ent s p fd = Some x -> h_o x = o -> wronly x = false).
Proof. exact reach_pipe_ends. Qed.
Print Assumptions C63_pipe_ends_partial.

(** No descriptor is dangling; no handle is lost or shared by two descriptors; a pipe exists only as long as somebody has a descriptor of it. *)
Theorem C63_one_to_one_partial : forall c s, reach c s ->
  (forall p fd h, tb s p fd = Some h -> pr s p = true /\ fd_ok c fd /\ exists x, hs s h = Some x /\ ok s (h_o x) <> ONone) /\
  (forall h x, hs s h = Some x -> exists p fd, tb s p fd = Some h /\
     forall p' fd', tb s p' fd' = Some h -> p' = p /\ fd' = fd) /\
  (forall o, ok s o = OPipe -> exists p fd x, ent s p fd = Some x /\ h_o x = o).
Proof. exact reach_alive. Qed.
Print Assumptions C63_one_to_one_partial.

(** When all processes are gone, so are all handles and pipes, and all counts are what they were at boot. *)
Theorem C63_no_leak_partial : forall c s, reach c s -> (forall p, pr s p = false) ->
  (forall h, hs s h = None) /\ (forall o, ok s o <> OPipe) /\ (forall o, rf s o = 0) /\ (forall f, fr s f = 1).
Proof. exact reach_no_leak. Qed.
Print Assumptions C63_no_leak_partial.

(** open returns the lowest free descriptor; a failure changes nothing. *)
Theorem C63_open : forall c al s p o flags err, reach c s -> al_ok al -> pr s p = true -> ok s o = OFile ->
  exists s' r, sys_open c al s p o flags err = Ok (s', r) /\
    ((lowest c s p 0 r /\ ent s' p r = Some (Hnd o flags (if has flags O_CLOEXEC then 1 else 0) 0) /\
      others s s' p r) \/
     (s' = s /\
      (r = EINVAL /\ has flags O_ASYNC = true \/
       r = EOPNOTSUPP /\ Z.land flags O_TMPFILE = O_TMPFILE \/
       r = EMFILE /\ all_open c s p 0 \/ r = err /\ err < 0 \/ r = ENOMEM /\ al s = None))).
Proof. exact r_open. Qed.
Print Assumptions C63_open.

(** close closes the descriptor and no other. *)
Theorem C63_close : forall c s p fd, reach c s ->
  (ent s p fd = None /\ sys_close c s p fd = Ok (s, EBADF)) \/
  (exists s' x, ent s p fd = Some x /\ sys_close c s p fd = Ok (s', 0) /\
     ent s' p fd = None /\ others s s' p fd).
Proof. exact r_close. Qed.
Print Assumptions C63_close.

(** dup returns the lowest free descriptor, a copy of the old one with FD_CLOEXEC clear. *)
Theorem C63_dup : forall c al s p fd, reach c s -> al_ok al -> pr s p = true ->
  exists s' r, sys_dup c al s p fd = Ok (s', r) /\
    ((exists x, lowest c s p 0 r /\ ent s p fd = Some x /\
        ent s' p r = Some (Hnd (h_o x) (h_fl x) 0 (h_pos x)) /\ others s s' p r) \/
     (s' = s /\ r < 0 /\ (ent s p fd = None \/ r = EMFILE /\ all_open c s p 0 \/ r = ENOMEM /\ al s = None))).
Proof. exact r_dup. Qed.
Print Assumptions C63_dup.

(** dup2 makes the new descriptor a copy of the old one, whatever it was before. Missing: an open new descriptor when out of memory. *)
Theorem C63_dup2_partial : forall c al s p fd fd', reach c s -> al_ok al -> pr s p = true ->
  (ent s p fd' = None \/ forall s', al s' <> None) ->
  exists s' r, sys_dup2 c al s p fd fd' = Ok (s', r) /\
    ((exists x, r = fd' /\ fd_ok c fd' /\ fd <> fd' /\ ent s p fd = Some x /\
        ent s' p fd' = Some (Hnd (h_o x) (h_fl x) 0 (h_pos x)) /\ others s s' p fd') \/
     (s' = s /\ (r = EBADF /\ (ent s p fd = None \/ ~ fd_ok c fd') \/ r = EINVAL /\ fd = fd' \/
                 r = ENOMEM /\ al s = None))).
Proof. exact r_dup2. Qed.
Print Assumptions C63_dup2_partial.

(** F_DUPFD returns the lowest free descriptor that is not less than the argument. Missing: a negative argument. *)
Theorem C63_dupfd_partial : forall c al s p fd arg, reach c s -> al_ok al -> pr s p = true -> 0 <= arg ->
  exists s' r, dupfd c al s p fd arg = Ok (s', r) /\
    ((exists x, lowest c s p arg r /\ ent s p fd = Some x /\
        ent s' p r = Some (Hnd (h_o x) (h_fl x) 0 (h_pos x)) /\ others s s' p r) \/
     (s' = s /\ r < 0 /\ (ent s p fd = None \/ r = EBADF /\ all_open c s p arg \/ r = ENOMEM /\ al s = None))).
Proof. exact r_dupfd. Qed.
Print Assumptions C63_dupfd_partial.

(** F_DUPFD_CLOEXEC returns the same one, but with FD_CLOEXEC only if it is descriptor 0 (see the refutation). *)
Theorem C63_dupfd_cloexec_partial : forall c al s p fd arg, reach c s -> al_ok al -> pr s p = true -> 0 <= arg ->
  exists s' r, dupfd_cloexec c al s p fd arg = Ok (s', r) /\
    ((exists x, lowest c s p arg r /\ ent s p fd = Some x /\
        ent s' p r = Some (Hnd (h_o x) (h_fl x) (if r =? 0 then 1 else 0) (h_pos x)) /\ others s s' p r) \/
     (s' = s /\ r < 0 /\ (ent s p fd = None \/ r = EBADF /\ all_open c s p arg \/ r = ENOMEM /\ al s = None))).
Proof. exact r_dupfd_cloexec. Qed.
Print Assumptions C63_dupfd_cloexec_partial.

(** F_GETFD, F_GETFL, F_SETFD and F_SETFL return and set the flags of the descriptor, F_SETFL exactly the five changeable ones (O_APPEND, O_NONBLOCK, O_ASYNC, O_DIRECT, O_NOATIME); reading and writing move its position and no other. Missing: F_SETFL with O_ASYNC or O_DIRECT. *)
Theorem C63_fcntl_partial : forall c s p fd x arg, reach c s -> ent s p fd = Some x ->
  getfd c s p fd = Ok (h_fd x) /\ getfl c s p fd = Ok (h_fl x) /\
  (exists s', setfd c s p fd arg = Ok (s', 0) /\
     ent s' p fd = Some (Hnd (h_o x) (h_fl x) (Z.land arg 65535) (h_pos x)) /\ others s s' p fd) /\
  (has arg (Z.lor O_ASYNC O_DIRECT) = false -> exists s' fl, setfl c s p fd arg = Ok (s', 0) /\
     ent s' p fd = Some (Hnd (h_o x) fl (h_fd x) (h_pos x)) /\ others s s' p fd /\
     forall b, Z.testbit fl b =
       if existsb (Z.eqb b) [10; 11; 13; 14; 18] then Z.testbit arg b else Z.testbit (h_fl x) b) /\
  (exists s', advance c s p fd arg = Ok (s', arg) /\
     ent s' p fd = Some (Hnd (h_o x) (h_fl x) (h_fd x) (h_pos x + arg)) /\ others s s' p fd).
Proof. exact r_flags. Qed.
Print Assumptions C63_fcntl_partial.

(** pipe2 returns the two lowest free descriptors, of the two ends of a new pipe; a failure, however late, leaves nothing behind. *)
Theorem C63_pipe2 : forall c al alo s p flags fault, reach c s -> al_ok al -> alo_ok alo -> pr s p = true ->
  exists s' e, sys_pipe2 c al alo s p flags fault = Ok (s', e) /\
    ((e = 0 /\ exists o r w, ok s o = ONone /\ ok s' o = OPipe /\ lowest c s p 0 r /\ r < w /\
        w < maxh c /\ ent s p w = None /\ (forall i, r < i < w -> ent s p i <> None) /\
        (let cx := if has flags O_CLOEXEC then 1 else 0 in
         ent s' p r = Some (Hnd o 0 cx 0) /\ ent s' p w = Some (Hnd o 1 cx 0)) /\
        forall a i, a <> p \/ i <> r /\ i <> w -> ent s' a i = ent s a i) \/
     (e < 0 /\ same_ents s s' /\ (forall h, hs s' h = hs s h) /\ (forall o, ok s' o = ok s o) /\
      (forall o, rf s' o = rf s o) /\ (forall f, fr s' f = fr s f))).
Proof. exact r_pipe2. Qed.
Print Assumptions C63_pipe2.

(** exec closes exactly the descriptors with FD_CLOEXEC, of that process only. *)
Theorem C63_exec : forall c s p, reach c s ->
  exists s', exec c s p = Ok s' /\
    (forall i, ent s' p i = match ent s p i with
                            | Some x => if cloexec x then None else Some x
                            | None => None
                            end) /\
    (forall a i, a <> p -> ent s' a i = ent s a i).
Proof. exact r_exec. Qed.
Print Assumptions C63_exec.

(** A child has its parent's descriptors (with FD_CLOEXEC clear); a fork without memory leaves nothing behind. Missing: a hole in the table when out of memory. *)
Theorem C63_fork_partial : forall c al s p q, reach c s -> al_ok al -> pr s p = true -> pr s q = false ->
  (dense s p \/ forall s0, al s0 <> None) ->
  exists s' r, fork c al s p q = Ok (s', r) /\
    (forall a i, a <> q -> ent s' a i = ent s a i) /\
    ((r = q /\ forall i, ent s' q i = match ent s p i with
                                      | Some x => Some (Hnd (h_o x) (h_fl x) 0 (h_pos x))
                                      | None => None
                                      end) \/
     (r = ENOMEM /\ (exists s0, al s0 = None) /\ forall i, ent s' q i = None)).
Proof. exact r_fork. Qed.
Print Assumptions C63_fork_partial.

(** exit closes all descriptors of the process, and no other. *)
Theorem C63_exit : forall c s p, reach c s ->
  exists s', exit c s p = Ok s' /\ (forall i, ent s' p i = None) /\ (forall a i, a <> p -> ent s' a i = ent s a i).
Proof. exact r_exit. Qed.
Print Assumptions C63_exit.

(* a pipe: the writer forks, both ends are counted, and the pipe is gone with the last descriptor *)
Definition h_pipe : list op := [OPipe2 1 0 false; OOpen 1 5 0 0].
Example C63_reached : reach c3 (at_ h_pipe).
Proof. apply mays_reach. vm_compute. reflexivity. Qed.
Example C63_pipe_counts :
  map (ent (at_ h_pipe) 1) [0; 1; 2] = [Some (Hnd 10 0 0 0); Some (Hnd 10 1 0 0); Some (Hnd 5 0 0 0)] /\
  (rf (at_ h_pipe) 10, rd (at_ h_pipe) 10, wr (at_ h_pipe) 10, fr (at_ h_pipe) 1, fr (at_ h_pipe) 0) = (2, 1, 1, 3, 2) /\
  match fork c3 memory (at_ h_pipe) 1 2 with
  | Ok (s, r) => r = 2 /\ (rf s 10, rd s 10, wr s 10, fr s 1, fr s 0) = (4, 2, 2, 5, 3) /\
      match exit c3 s 1 with
      | Ok s => (rf s 10, rd s 10, wr s 10, fr s 1, fr s 0) = (2, 1, 1, 3, 2) /\ ok s 10 = OPipe /\
                match exit c3 s 2 with
                | Ok s => (rf s 10, fr s 1, fr s 0) = (0, 1, 1) /\ ok s 10 = ONone
                | _ => False end
      | _ => False end
  | _ => False end.
Proof. vm_compute. auto 12. Qed.
Example C63_lowest_hole :
  (match sys_dup c3 memory (at_ with_hole) 1 1 with Ok (s, r) => r = 0 /\ ent s 1 0 = Some (Hnd 5 O_CLOEXEC 0 0) | _ => False end) /\
  (match exec c3 (at_ with_hole) 1 with Ok s => ent s 1 1 = None | _ => False end) /\
  (match sys_pipe2 c3 memory pipe_memory (at_ with_hole) 1 O_CLOEXEC false with
   | Ok (s, r) => r = 0 /\ map (ent s 1) [0; 1; 2] = [Some (Hnd 10 0 1 0); Some (Hnd 5 O_CLOEXEC 1 0); Some (Hnd 10 1 1 0)]
   | _ => False end).
Proof. vm_compute. auto. Qed.

(** dup2 onto an open descriptor without memory: the old handle is freed and stays in the table; the next use of the descriptor is a use after free. *)
Theorem C63_dup2_dangling_refuted : exists c al s p fd fd' s',
  reach c s /\ al_ok al /\ pr s p = true /\ sys_dup2 c al s p fd fd' = Ok (s', ENOMEM) /\ sys_close c s' p fd' = Uaf.
Proof. exact dup2_dangling. Qed.
Print Assumptions C63_dup2_dangling_refuted.

(** F_DUPFD with a negative argument reads the process structure before the table. *)
Theorem C63_dupfd_negative_refuted : exists c al s p fd arg,
  reach c s /\ al_ok al /\ pr s p = true /\ dupfd c al s p fd arg = Oob.
Proof. exact dupfd_negative. Qed.
Print Assumptions C63_dupfd_negative_refuted.

(** F_DUPFD_CLOEXEC does not set FD_CLOEXEC. *)
Theorem C63_dupfd_cloexec_refuted : exists c al s p fd arg s' r x,
  reach c s /\ al_ok al /\ pr s p = true /\ 0 <= arg /\ dupfd_cloexec c al s p fd arg = Ok (s', r) /\ 0 <= r /\
  ent s' p r = Some x /\ cloexec x = false.
Proof. exact dupfd_cloexec_lost. Qed.
Print Assumptions C63_dupfd_cloexec_refuted.

(** A descriptor with FD_CLOEXEC survives fork and exec: fork clears the flag. *)
Theorem C63_fork_cloexec_refuted : exists c al s p q fd x s' s'' y,
  reach c s /\ al_ok al /\ pr s p = true /\ pr s q = false /\ ent s p fd = Some x /\ cloexec x = true /\
  fork c al s p q = Ok (s', q) /\ exec c s' q = Ok s'' /\ ent s'' q fd = Some y.
Proof. exact fork_cloexec_lost. Qed.
Print Assumptions C63_fork_cloexec_refuted.

(** fork without memory and with a hole in the table closes a null handle. *)
Theorem C63_fork_null_refuted : exists c al s p q,
  reach c s /\ al_ok al /\ pr s p = true /\ pr s q = false /\ fork c al s p q = Afail.
Proof. exact fork_null. Qed.
Print Assumptions C63_fork_null_refuted.

(** fcntl(F_SETFL, O_DIRECT) is a kernel panic, for every program. *)
Theorem C63_setfl_panic_refuted : exists c s p fd arg, reach c s /\ pr s p = true /\ setfl c s p fd arg = Panic.
Proof. exact setfl_panic. Qed.
Print Assumptions C63_setfl_panic_refuted.

(** The two descriptors of a dup do not share their position. *)
Theorem C63_position_refuted : exists c al s p fd s1 r s2 x y,
  reach c s /\ al_ok al /\ pr s p = true /\ sys_dup c al s p fd = Ok (s1, r) /\ advance c s1 p fd 7 = Ok (s2, 7) /\
  ent s2 p fd = Some x /\ ent s2 p r = Some y /\ h_pos x <> h_pos y.
Proof. exact dup_position. Qed.
Print Assumptions C63_position_refuted.

(** dup2 of a descriptor onto itself fails. *)
Theorem C63_dup2_same_refuted : exists c al s p fd x r, reach c s /\ al_ok al /\ pr s p = true /\ ent s p fd = Some x /\
  (bnd (s, r) <- sys_dup2 c al s p fd fd; Ok r) = Ok r /\ r <> fd.
Proof. exact dup2_same. Qed.
Print Assumptions C63_dup2_same_refuted.

