(** C61 and C62: memory of the processes — page tables, copy-on-write, and the reference counts of page frames. *)
From Verif Require Import Lib Paging_Model Paging_Spec Paging_Proofs8 Paging_Refuted.

(** From every state a machine can get to, every way the kernel uses these functions ends well: no assertion fails, no freed page table or page directory is used, nothing is freed that is not the heap's. Missing: a fork that runs out of memory half-way and a mapped framebuffer (both refuted below). *)
Theorem C61_no_error_partial : forall c kp al s o, reach c kp s -> al_ok c al -> allowed c kp al s o -> exists s', step c al s o = Ok s'.
Proof. exact t_safe. Qed.
Print Assumptions C61_no_error_partial.

(** A store changes the byte of the page written to, for the writer and for everybody who maps the same shared page, and nothing else for anybody; it faults exactly when the process may not write there; out of memory changes nothing. Missing: what the page-fault handler does afterwards. *)
Theorem C61_write_partial : forall c kp al s pd v off y, reach c kp s -> al_ok c al -> proc kp s pd ->
  exists s' r, write c al s pd v off y = Ok (s', r) /\
    match r with
    | WDone => (exists sh z, see s pd v off = Some (true, sh, z)) /\ written s s' pd v off y
    | WFault => s' = s /\ forall o sh z, see s pd v o <> Some (true, sh, z)
    | WNoMem => s' = s /\ exists sh z, see s pd v off = Some (true, sh, z)
    end.
Proof. exact t_write. Qed.
Print Assumptions C61_write_partial.

(** A child sees what its parent sees; nobody sees any change. *)
Theorem C61_fork : forall c kp al s pd s' new, reach c kp s -> al_ok c al -> clone c al s pd = Ok (s', Some new) ->
  kd s pd = KPd /\ kd s new = KFree /\ kd s' new = KPd /\
  (forall v off, see s' new v off = see s pd v off) /\
  (forall a v off, kd s a = KPd -> kd s' a = KPd /\ see s' a v off = see s a v off).
Proof. exact t_fork. Qed.
Print Assumptions C61_fork.

(** Whatever the others do, and whatever the process itself does to its other pages: a private page keeps its contents, an absent one stays absent, a shared one stays mapped with the same rights. Missing: histories with a fork that runs out of memory half-way, and pages that are not RAM (refuted). *)
Theorem C61_isolated_partial : forall c kp l s s' pd v, reach c kp s -> runs c kp l s s' -> kd s pd = KPd ->
  ~ In (OExit pd) l -> (forall o, In o l -> ~ touches o pd v) ->
  kd s' pd = KPd /\
  forall off, match see s pd v off with
              | None => see s' pd v off = None
              | Some (w, sh, z) => exists z', see s' pd v off = Some (w, sh, z') /\ (sh = None -> z' = z)
              end.
Proof. exact t_isolated. Qed.
Print Assumptions C61_isolated_partial.

(** After a fork, a page that the child does not change itself is for ever what it was in the parent at the time of the fork, and the other way round — also when the other one has written to it, forked again, or exited. Missing: histories with a fork that runs out of memory half-way, and pages that are not RAM (refuted). *)
Theorem C61_snapshot_partial : forall c kp al s pd s1 new l s2 v off w z, reach c kp s -> al_ok c al ->
  clone c al s pd = Ok (s1, Some new) -> runs c kp l s1 s2 -> see s pd v off = Some (w, None, z) ->
  (~ In (OExit new) l -> (forall o, In o l -> ~ touches o new v) ->
   see s2 new v off = Some (w, None, z)) /\
  (~ In (OExit pd) l -> (forall o, In o l -> ~ touches o pd v) ->
   see s2 pd v off = Some (w, None, z)).
Proof. exact t_snapshot. Qed.
Print Assumptions C61_snapshot_partial.

(** A new page: zeroed when asked for, and nobody else sees a change; a failure changes nothing for anybody. *)
Theorem C61_new_page : forall c kp al s pd v rw sh zero, reach c kp s -> al_ok c al -> proc kp s pd -> user v ->
  exists s' r, map_new c al s pd v rw sh zero = Ok (s', r) /\
    (forall a b off, kd s a = KPd -> a <> pd \/ b <> v \/ r <> 0 -> see s' a b off = see s a b off) /\
    (r = 0 /\ pte_at s pd v = None /\
     (exists f, kd s f = KFree /\ kd s' f = KPage /\
        forall off, exists z, see s' pd v off = Some (rw, if (sh : bool) then Some f else None, z) /\
                              (zero = true -> z = 0))
     \/ r = EADDRINUSE /\ pte_at s pd v <> None \/ r = ENOMEM).
Proof. exact t_map_new. Qed.
Print Assumptions C61_new_page.

(** A page of zeros, without a page frame of its own until it is written to. *)
Theorem C61_zero_page : forall c kp al s pd v rw, reach c kp s -> al_ok c al -> proc kp s pd -> user v ->
  exists s' r, map_zero c al s pd v rw = Ok (s', r) /\
    (forall a b off, kd s a = KPd -> a <> pd \/ b <> v \/ r <> 0 -> see s' a b off = see s a b off) /\
    (r = 0 /\ pte_at s pd v = None /\ (forall off, see s' pd v off = Some (rw, None, 0))
     \/ r = EADDRINUSE /\ pte_at s pd v <> None \/ r = ENOMEM /\ pte_at s pd v = None).
Proof. exact t_map_zero. Qed.
Print Assumptions C61_zero_page.

(** A block of a file, shared. *)
Theorem C61_file_page : forall c kp al s pd v f rw, reach c kp s -> al_ok c al -> proc kp s pd -> user v ->
  kd s f = KExt -> f <> zf c ->
  exists s' r, map_ext c al s pd v f rw = Ok (s', r) /\
    (forall a b off, kd s a = KPd -> a <> pd \/ b <> v \/ r <> 0 -> see s' a b off = see s a b off) /\
    (r = 0 /\ pte_at s pd v = None /\ (forall off, see s' pd v off = Some (rw, Some f, dt s f off))
     \/ r = EADDRINUSE /\ pte_at s pd v <> None \/ r = ENOMEM /\ pte_at s pd v = None).
Proof. exact t_map_ext. Qed.
Print Assumptions C61_file_page.

(** Unmapping removes that page of that process. *)
Theorem C61_unmap : forall c kp s pd v fr perm, reach c kp s -> proc kp s pd ->
  (perm = true \/ pte_at s pd v <> None) ->
  (fr = true \/ forall e, pte_at s pd v = Some e -> kd s (p_f e) = KExt) ->
  exists s' r, unmap c s pd v fr perm = Ok (s', r) /\
    (r = if pte_at s pd v then 0 else EINVAL) /\
    (forall off, see s' pd v off = None) /\
    (forall a b off, kd s a = KPd -> a <> pd \/ b <> v -> see s' a b off = see s a b off).
Proof. exact t_unmap. Qed.
Print Assumptions C61_unmap.

(** The end of a process changes nothing for the others. *)
Theorem C61_exit : forall c kp s pd, reach c kp s -> proc kp s pd ->
  exists s', destroy c s pd = Ok s' /\ kd s' pd = KFree /\
    (forall a b off, kd s a = KPd -> a <> pd -> kd s' a = KPd /\ see s' a b off = see s a b off).
Proof. exact t_exit. Qed.
Print Assumptions C61_exit.

(** The page of zeros everybody maps is never written to. *)
Theorem C61_zero_stays_zero : forall c kp s o, reach c kp s -> dt s (zf c) o = 0.
Proof. exact t_zero. Qed.
Print Assumptions C61_zero_stays_zero.

(** A page somebody can write to without a fault, and which is not a shared one, is mapped there only. *)
Theorem C61_private : forall c kp s pd v e, reach c kp s -> pte_at s pd v = Some e -> p_rw e = true -> p_sh e = false ->
  kd s (p_f e) = KPage /\
  forall pd' v' e', pte_at s pd' v' = Some e' -> p_f e' = p_f e -> pd' = pd /\ v' = v.
Proof. exact t_private. Qed.
Print Assumptions C61_private.

(** paging.c:632-635 gives back the page tables of the parent instead of those made for the child: the parent goes on with freed page tables. *)
Theorem C61_fork_out_of_memory_refuted : exists s', reach c0 2 (after h_two) /\ proc 2 (after h_two) 3 /\
  see (after h_two) 3 5 0 = Some (true, None, 0) /\
  clone c0 (al_to 10) (after h_two) 3 = Ok (s', None) /\
  write c0 (al_to 16) s' 3 5 0 1 = Uaf /\ destroy c0 s' 3 = Uaf.
Proof. exact r_fork_oom. Qed.
Print Assumptions C61_fork_out_of_memory_refuted.

(** With the framebuffer (page frame 20, beyond the 16 of RAM) mapped, a fork fails an assertion (paging.c:664), and a page directory that still maps it cannot be destroyed: the framebuffer would be given to the heap. *)
Theorem C61_framebuffer_refuted : exists s', reach c0 2 (after h_fb) /\ proc 2 (after h_fb) 3 /\
  map_ext c0 (al_to 16) (after h_fb) 3 7 20 true = Ok (s', 0) /\
  clone c0 (al_to 16) s' 3 = Afail /\
  unmap c0 s' 3 7 true true = Bfree /\ destroy c0 s' 3 = Bfree /\
  exists s'', unmap c0 s' 3 7 false true = Ok (s'', 0).
Proof. exact r_framebuffer. Qed.
Print Assumptions C61_framebuffer_refuted.

(* a program with a page of its own (5), a page of zeros (6) and a page of a file (7) forks: the
   parent is page directory 3, the child 6; each writes to all three *)
Definition h_ex : list op :=
  [OFork 2; OMapNew 3 5 true false true; OWrite 3 5 0 11; OMapZero 3 6 true; OMapExt 3 7 12 true;
   OFork 3; OWrite 3 5 0 21; OWrite 6 5 1 31; OWrite 3 6 0 22; OWrite 6 6 1 32; OWrite 3 7 0 23;
   OWrite 6 7 1 33].
Example C61_reached : reach c0 2 (after h_ex).
Proof. apply mays_reach. vm_compute. reflexivity. Qed.
Example C61_seen :
  map (fun p => see (after h_ex) (fst (fst p)) (snd (fst p)) (snd p))
    [(3,5,0); (3,5,1); (6,5,0); (6,5,1); (3,6,0); (3,6,1); (6,6,0); (6,6,1);
     (3,7,0); (3,7,1); (6,7,0); (6,7,1)] =
  [Some (true, None, 21); Some (true, None, 0); Some (true, None, 11); Some (true, None, 31);
   Some (true, None, 22); Some (true, None, 0); Some (true, None, 0); Some (true, None, 32);
   Some (true, Some 12, 23); Some (true, Some 12, 33); Some (true, Some 12, 23); Some (true, Some 12, 33)].
Proof. vm_compute. reflexivity. Qed.

(** The count of a page frame is the number of places where it is mapped, and one more when it has an owner outside the page tables (the zero page, a block of a file, the ramdisk). Missing: histories with a fork that runs out of memory half-way, and pages that are not RAM (refuted). *)
Theorem C62_counts_partial : forall c kp s f, reach c kp s ->
  exists L, places s f L /\ rc s f = zlen L + match kd s f with KExt => 1 | _ => 0 end.
Proof. exact t_counts. Qed.
Print Assumptions C62_counts_partial.

(** A page is allocated as long as some process maps it, and no longer; what is mapped is a page of memory, the zero page, or a shared page with an owner. Missing: histories with a fork that runs out of memory half-way, and pages that are not RAM (refuted). *)
Theorem C62_pages_partial : forall c kp s f, reach c kp s ->
  (kd s f = KPage -> exists pd v e, proc kp s pd /\ pte_at s pd v = Some e /\ p_f e = f) /\
  (forall pd v e, pte_at s pd v = Some e -> p_f e = f ->
     kd s f = KPage \/ kd s f = KExt /\ p_sh e = negb (f =? zf c)).
Proof. exact t_pages. Qed.
Print Assumptions C62_pages_partial.

(** A page table belongs to one entry of one page directory. Missing: histories with a fork that runs out of memory half-way, and pages that are not RAM (refuted). *)
Theorem C62_tables_partial : forall c kp s p, reach c kp s -> kd s p = KPt ->
  exists pd i, proc kp s pd /\ 0 <= i < NPD /\ de s pd i = Some p /\
    forall pd' i', kd s pd' = KPd -> de s pd' i' = Some p -> pd' = pd /\ i' = i.
Proof. exact t_tables. Qed.
Print Assumptions C62_tables_partial.

(** Free memory, and page tables and page directories, are not mapped and have no count. *)
Theorem C62_free : forall c kp s f, reach c kp s -> kd s f = KFree \/ kd s f = KPt \/ kd s f = KPd ->
  rc s f = 0 /\ forall pd v e, pte_at s pd v = Some e -> p_f e <> f.
Proof. exact t_freed. Qed.
Print Assumptions C62_free.

(** When all processes are gone everything has been given back. Missing: histories with a fork that runs out of memory half-way, and pages that are not RAM (refuted). *)
Theorem C62_no_leak_partial : forall c kp s, reach c kp s -> (forall pd, kd s pd = KPd -> pd = kp) ->
  forall f, (f = kp \/ kd s f = KFree \/ kd s f = KExt) /\
            rc s f = match kd s f with KExt => 1 | _ => 0 end.
Proof. exact t_no_leak. Qed.
Print Assumptions C62_no_leak_partial.

Example C62_counted : map (rc (after h_ex)) [1; 4; 12] = [1; 1; 3] /\
  map (rc (after (firstn 6 h_ex))) [1; 4; 12] = [3; 2; 3].
Proof. vm_compute. auto. Qed.
Example C62_all_gone : mays (h_ex ++ [OExit 3; OExit 6]) s0 = true /\
  map (kd (after (h_ex ++ [OExit 3; OExit 6]))) (idx 16) = map (kd s0) (idx 16).
Proof. vm_compute. auto. Qed.

