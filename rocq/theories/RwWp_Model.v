(** Model of the writer-preferring rwlock, kernel/rwlock.c:82-213.  Every access
    to the lock's fields happens with rw->m held, so each stretch of code
    between acquiring m and releasing it (at the end, or inside kcond_wait) is
    one step; the mutex and the two condition variables are used through what
    C10 and C14 establish: one owner at a time, a waiter is on the condition's
    list before m is released, signalling wakes the oldest / all sleeping
    waiters (the waits have no timeout, so no expired waiter is ever linked).
    Which runnable task gets m next is left open.  [Interrupt t] is a POSIX
    signal for a task sleeping in kcond_wait: it is unlinked and woken. *)
From Verif Require Import Lib.

Inductive op := RL | RU | WL | WL2 | WU.   (* WL2: writer already registered *)

Inductive pc :=
| Out                (* outside the lock's code *)
| Want (o : op)      (* runnable or waiting for m, then continues with [o] *)
| RWait              (* on readers_cv *)
| WWait.             (* on writers_cv *)

(** struct rwlock_wp, include/tilck/kernel/rwlock.h:46-56 *)
Record wp := mk_wp {
  rec : bool;
  exo : option Z;
  nr : Z;              (* int r *)
  wq : Z;              (* int wq *)
  rc : Z;              (* u16 rc *)
  rcv : list Z;        (* readers_cv.wait_list *)
  wcv : list Z;        (* writers_cv.wait_list *)
  wpc : Z -> pc
}.

(** rwlock_wp_init, kernel/rwlock.c:82-92 *)
Definition wp_init (recursive : bool) : wp := mk_wp recursive None 0 0 0 [] [] (fun _ => Out).

Inductive action := Call (t : Z) (o : op) | Go (t : Z) | Interrupt (t : Z).

Inductive event :=
| ERead (t : Z) | EReadEnd (t : Z)
| EReg (t : Z)                        (* a writer enters the writer queue *)
| EWrite (t : Z) | EWriteEnd (t : Z).

Inductive outcome := Disabled | AssertFail | Ok (s : wp) (evs : list event).

Definition unlink (t : Z) (l : list Z) : list Z := filter (fun x => negb (x =? t)) l.
Definition u16 (x : Z) : Z := x mod 65536.
Definition is_owner (s : wp) (t : Z) : bool := match exo s with Some o => o =? t | None => false end.
Definition set_pc (s : wp) (t : Z) (p : pc) : wp :=
  mk_wp (rec s) (exo s) (nr s) (wq s) (rc s) (rcv s) (wcv s) (fupd (wpc s) t p).

(** kcond_signal_one(&rw->writers_cv) *)
Definition signal_writer (s : wp) : wp :=
  match wcv s with
  | [] => s
  | t :: l => mk_wp (rec s) (exo s) (nr s) (wq s) (rc s) (rcv s) l (fupd (wpc s) t (Want WL2))
  end.

(** kcond_signal_all(&rw->readers_cv) *)
Definition signal_readers (s : wp) : wp :=
  mk_wp (rec s) (exo s) (nr s) (wq s) (rc s) [] (wcv s)
        (fold_left (fun f t => fupd f t (Want RL)) (rcv s) (wpc s)).

(** rwlock_wp_shlock, kernel/rwlock.c:105-119: one turn of the while loop *)
Definition shlock (s : wp) (t : Z) : outcome :=
  if wq s >? 0
  then Ok (mk_wp (rec s) (exo s) (nr s) (wq s) (rc s) (rcv s ++ [t]) (wcv s) (fupd (wpc s) t RWait)) []
  else Ok (mk_wp (rec s) (exo s) (s32 (nr s + 1)) (wq s) (rc s) (rcv s) (wcv s) (fupd (wpc s) t Out)) [ERead t].

(** rwlock_wp_shunlock, kernel/rwlock.c:121-135 *)
Definition shunlock (s : wp) (t : Z) : outcome :=
  let r' := s32 (nr s - 1) in
  let s1 := mk_wp (rec s) (exo s) r' (wq s) (rc s) (rcv s) (wcv s) (fupd (wpc s) t Out) in
  if (r' =? 0) && (wq s >? 0) then Ok (signal_writer s1) [] else Ok s1 [].

(** The waiting loop and the end of rwlock_wp_exlock_int, kernel/rwlock.c:163-175 *)
Definition exlock_wait (s : wp) (t : Z) (evs : list event) : outcome :=
  if match exo s with Some _ => true | None => nr s >? 0 end
  then Ok (mk_wp (rec s) (exo s) (nr s) (wq s) (rc s) (rcv s) (wcv s ++ [t]) (fupd (wpc s) t WWait)) evs
  else if rec s then
         if rc s =? 0
         then Ok (mk_wp (rec s) (Some t) (nr s) (wq s) 1 (rcv s) (wcv s) (fupd (wpc s) t Out)) (evs ++ [EWrite t])
         else AssertFail
       else Ok (mk_wp (rec s) (Some t) (nr s) (wq s) (rc s) (rcv s) (wcv s) (fupd (wpc s) t Out)) (evs ++ [EWrite t]).

(** rwlock_wp_exlock_int from its start, kernel/rwlock.c:137-175 *)
Definition exlock (s : wp) (t : Z) : outcome :=
  if rec s && is_owner s t then
    if (wq s <? 1) || (rc s <? 1) then AssertFail
    else Ok (mk_wp (rec s) (exo s) (nr s) (wq s) (u16 (rc s + 1)) (rcv s) (wcv s) (fupd (wpc s) t Out)) [EWrite t]
  else
    exlock_wait (mk_wp (rec s) (exo s) (nr s) (s32 (wq s + 1)) (rc s) (rcv s) (wcv s) (wpc s)) t [EReg t].

(** rwlock_wp_exunlock_int after the recursion test, kernel/rwlock.c:197-212 *)
Definition release (s : wp) (t : Z) : outcome :=
  let w' := s32 (wq s - 1) in
  let s1 := mk_wp (rec s) None (nr s) w' (rc s) (rcv s) (wcv s) (fupd (wpc s) t Out) in
  Ok (if w' >? 0 then signal_writer s1 else signal_readers s1) [].

(** rwlock_wp_exunlock_int, kernel/rwlock.c:186-213 *)
Definition exunlock (s : wp) (t : Z) : outcome :=
  if negb (is_owner s t) || (wq s <? 1) then AssertFail
  else if rec s then
    if rc s <=? 0 then AssertFail
    else let c := u16 (rc s - 1) in
         let s1 := mk_wp (rec s) (exo s) (nr s) (wq s) c (rcv s) (wcv s) (wpc s) in
         if c >? 0 then Ok (set_pc s1 t Out) [] else release s1 t
  else release s t.

Definition step (s : wp) (a : action) : outcome :=
  match a with
  | Call t o =>
      match wpc s t, o with
      | Out, RL => Ok (set_pc s t (Want RL)) []
      | Out, RU => Ok (set_pc s t (Want RU)) [EReadEnd t]
      | Out, WL => Ok (set_pc s t (Want WL)) []
      | Out, WU => Ok (set_pc s t (Want WU)) [EWriteEnd t]
      | _, _ => Disabled
      end
  | Go t =>
      match wpc s t with
      | Want RL => shlock s t
      | Want RU => shunlock s t
      | Want WL => exlock s t
      | Want WL2 => exlock_wait s t []
      | Want WU => exunlock s t
      | _ => Disabled
      end
  | Interrupt t =>
      match wpc s t with
      | RWait => Ok (mk_wp (rec s) (exo s) (nr s) (wq s) (rc s) (unlink t (rcv s)) (wcv s) (fupd (wpc s) t (Want RL))) []
      | WWait => Ok (mk_wp (rec s) (exo s) (nr s) (wq s) (rc s) (rcv s) (unlink t (wcv s)) (fupd (wpc s) t (Want WL2))) []
      | _ => Disabled
      end
  end.
