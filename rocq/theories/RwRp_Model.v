(** Model of the reader-preferring rwlock, kernel/rwlock.c:6-57.  The mutex
    readers_lock and the semaphore writers_sem are used through what C10 and C12
    establish: the mutex has at most one owner, and a semaphore wait of one
    unit passes only by taking a unit.  Which waiting task gets them is left
    open (any may), so every schedule of the real primitives is covered.
    Each access to shared state is a separate step. *)
From Verif Require Import Lib.

Inductive op := ShLock | ShUnlock.

Inductive pc :=
| Out                  (* outside the lock's code *)
| WantM (o : op)       (* in kmutex_lock(&r->readers_lock) *)
| Inc                  (* owns readers_lock, before ++readers_count *)
| RSem                 (* owns readers_lock, in ksem_wait(&r->writers_sem) *)
| RelSh                (* owns readers_lock, before kmutex_unlock of shlock *)
| Dec                  (* owns readers_lock, before --readers_count *)
| RPost                (* owns readers_lock, before ksem_signal *)
| RelShu               (* owns readers_lock, before kmutex_unlock of shunlock *)
| WSem                 (* in ksem_wait of exlock *)
| WSet                 (* after it, before ex_owner is set *)
| WPost.               (* in exunlock, before ksem_signal *)

(** struct rwlock_rp, include/tilck/kernel/rwlock.h:10-20 *)
Record rw := mk_rw {
  readers_lock : option Z;
  sem : Z;                 (* writers_sem.counter, maximum 1 *)
  rcount : Z;              (* int readers_count *)
  ex_owner : option Z;
  rpc : Z -> pc
}.

(** rwlock_rp_init, kernel/rwlock.c:6-12 *)
Definition rw_init : rw := mk_rw None 1 0 None (fun _ => Out).

Inductive action :=
| CallShLock (t : Z) | CallShUnlock (t : Z) | CallExLock (t : Z) | CallExUnlock (t : Z)
| Go (t : Z).

Inductive event := ERead (t : Z) | EReadEnd (t : Z) | EWrite (t : Z) | EWriteEnd (t : Z).

Inductive outcome := Disabled | AssertFail | Ok (s : rw) (evs : list event).

Definition set_pc (s : rw) (t : Z) (p : pc) : rw :=
  mk_rw (readers_lock s) (sem s) (rcount s) (ex_owner s) (fupd (rpc s) t p).

(** ksem_signal of one unit on a semaphore with maximum 1: -EDQUOT is ignored *)
Definition post (s : rw) : Z := if sem s >? 0 then sem s else sem s + 1.

Definition step (s : rw) (a : action) : outcome :=
  match a with
  | CallShLock t => match rpc s t with Out => Ok (set_pc s t (WantM ShLock)) [] | _ => Disabled end
  | CallShUnlock t => match rpc s t with Out => Ok (set_pc s t (WantM ShUnlock)) [EReadEnd t] | _ => Disabled end
  | CallExLock t => match rpc s t with Out => Ok (set_pc s t WSem) [] | _ => Disabled end
  | CallExUnlock t =>     (* kernel/rwlock.c:50-56 *)
      match rpc s t with
      | Out => match ex_owner s with
               | Some o => if o =? t
                           then Ok (mk_rw (readers_lock s) (sem s) (rcount s) None (fupd (rpc s) t WPost)) [EWriteEnd t]
                           else AssertFail
               | None => AssertFail
               end
      | _ => Disabled
      end
  | Go t =>
      match rpc s t with
      | Out => Disabled
      | WantM o =>
          match readers_lock s with
          | None => Ok (mk_rw (Some t) (sem s) (rcount s) (ex_owner s)
                              (fupd (rpc s) t (match o with ShLock => Inc | ShUnlock => Dec end))) []
          | Some _ => Disabled
          end
      | Inc =>            (* kernel/rwlock.c:26 *)
          let c := s32 (rcount s + 1) in
          Ok (mk_rw (readers_lock s) (sem s) c (ex_owner s)
                    (fupd (rpc s) t (if c =? 1 then RSem else RelSh))) []
      | RSem =>           (* kernel/rwlock.c:27 *)
          if 1 <=? sem s then Ok (mk_rw (readers_lock s) (sem s - 1) (rcount s) (ex_owner s) (fupd (rpc s) t RelSh)) []
          else Disabled
      | RelSh => Ok (mk_rw None (sem s) (rcount s) (ex_owner s) (fupd (rpc s) t Out)) [ERead t]
      | Dec =>            (* kernel/rwlock.c:36 *)
          let c := s32 (rcount s - 1) in
          Ok (mk_rw (readers_lock s) (sem s) c (ex_owner s)
                    (fupd (rpc s) t (if c =? 0 then RPost else RelShu))) []
      | RPost =>          (* kernel/rwlock.c:37 *)
          Ok (mk_rw (readers_lock s) (post s) (rcount s) (ex_owner s) (fupd (rpc s) t RelShu)) []
      | RelShu => Ok (mk_rw None (sem s) (rcount s) (ex_owner s) (fupd (rpc s) t Out)) []
      | WSem =>           (* kernel/rwlock.c:44 *)
          if 1 <=? sem s then Ok (mk_rw (readers_lock s) (sem s - 1) (rcount s) (ex_owner s) (fupd (rpc s) t WSet)) []
          else Disabled
      | WSet =>           (* kernel/rwlock.c:46-47 *)
          match ex_owner s with
          | None => Ok (mk_rw (readers_lock s) (sem s) (rcount s) (Some t) (fupd (rpc s) t Out)) [EWrite t]
          | Some _ => AssertFail
          end
      | WPost =>          (* kernel/rwlock.c:55 *)
          Ok (mk_rw (readers_lock s) (post s) (rcount s) (ex_owner s) (fupd (rpc s) t Out)) []
      end
  end.
