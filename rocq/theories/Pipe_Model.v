(** Model of kernel/pipe.c: one pipe, any number of tasks reading, writing,
    polling, closing and duplicating ends.  The buffer is the ring buffer model
    of C01/C02.  Everything pipe_read, pipe_write and pipe_on_handle_close do
    between acquiring p->mutex and releasing it (at the end or inside kcond_wait)
    is one step; the mutex and the conditions are used through what C10 and C14
    establish.  Waits have no timeout.  A poll/select waiter is a wait object on
    the same condition (kernel/poll.c:157-260, kernel/wobj.c:247-330).  Not
    modelled: err_cond (nobody but pollers waits on it and it is signalled
    together with the other two), the debug history, stop signals. *)
From Verif Require Import Lib Ringbuf_Model.

Inductive pc :=
| Out
| RGo (size : Z) (nb again : bool)      (* pipe_read, wants the mutex; [again]: after kcond_wait *)
| RWait (size : Z) (nb : bool)          (* on not_empty_cond *)
| WGo (data : list Z) (nb again : bool) (* pipe_write *)
| WWait (data : list Z) (nb : bool)     (* on not_full_cond *)
| CGo (w : bool)                        (* pipe_on_handle_close; w: write end *)
| PGo (w : bool)                        (* poller about to check readiness *)
| PChk (w : bool)                       (* found not ready, before the sleep section *)
| PWait (w : bool)                      (* asleep *)
| PWake (w : bool)                      (* woken by a signal, before re-arming *)
| PInt (w : bool).                      (* woken by timeout or interrupted *)

(** struct pipe, kernel/pipe.c:43-65 *)
Record pipe := mk_pipe {
  rb : ringbuf;
  rh : Z;                (* read_handles *)
  wh : Z;                (* write_handles *)
  neq : list Z;          (* not_empty_cond.wait_list *)
  nfq : list Z;          (* not_full_cond.wait_list *)
  ppc : Z -> pc
}.

(** create_pipe and one handle per end, kernel/pipe.c:480-550; N = PIPE_BUF_SIZE *)
Definition pipe_init (N : Z) (buf : list Z) : pipe :=
  mk_pipe (ringbuf_init N 1 buf) 1 1 [] [] (fun _ => Out).

Inductive action :=
| Read (t size : Z) (nb : bool) | Write (t : Z) (data : list Z) (nb : bool)
| Close (t : Z) (w : bool) | Dup (w : bool) | Poll (t : Z) (w : bool)
| Go (t : Z) (sig : bool)               (* sig: pending_signals() at that moment *)
| Interrupt (t : Z).                    (* signal, or timeout of a poller *)

Inductive event :=
| ERead (t : Z) (bytes : list Z) | EEof (t : Z)
| EWrite (t : Z) (bytes : list Z) | EPipe (t : Z)    (* EPIPE and SIGPIPE *)
| EAgain (t : Z) | EIntr (t : Z)
| EDup (w : bool) | EClose (w : bool)
| EPoll (t : Z) (w : bool) | EPollReady (t : Z) (w : bool) | EPollEnd (t : Z).

Inductive outcome := Disabled | AssertFail | Ok (s : pipe) (evs : list event).

Definition set_pc (s : pipe) (t : Z) (p : pc) : pipe :=
  mk_pipe (rb s) (rh s) (wh s) (neq s) (nfq s) (fupd (ppc s) t p).
Definition unlink (t : Z) (l : list Z) : list Z := filter (fun x => negb (x =? t)) l.
Definition linked (t : Z) (l : list Z) : bool := existsb (Z.eqb t) l.

(** kcond_signal_int on an unlinked wait object: what the task does next,
    kernel/kcond.c:113-176.  A poller that is not asleep only records it. *)
Definition woken (p : pc) : pc :=
  match p with
  | RWait size nb => RGo size nb true
  | WWait data nb => WGo data nb true
  | PWait w => PWake w
  | _ => p
  end.

(** kcond_signal_one on the two conditions, kernel/kcond.c:178-192 *)
Definition signal_ne (s : pipe) : pipe :=
  match neq s with
  | [] => s
  | t :: l => mk_pipe (rb s) (rh s) (wh s) l (nfq s) (fupd (ppc s) t (woken (ppc s t)))
  end.
Definition signal_nf (s : pipe) : pipe :=
  match nfq s with
  | [] => s
  | t :: l => mk_pipe (rb s) (rh s) (wh s) (neq s) l (fupd (ppc s) t (woken (ppc s t)))
  end.

(** kcond_signal_all on both, kernel/pipe.c:441-442 *)
Definition signal_all (s : pipe) : pipe :=
  mk_pipe (rb s) (rh s) (wh s) [] []
    (fun t => if linked t (nfq s) || linked t (neq s) then woken (ppc s t) else ppc s t).

(** The end of pipe_read, kernel/pipe.c:152-157 *)
Definition read_exit (s : pipe) : pipe :=
  let s1 := signal_nf s in
  if rb_is_empty (rb s1) then s1 else signal_ne s1.

(** The end of pipe_write, kernel/pipe.c:212-217 *)
Definition write_exit (s : pipe) : pipe :=
  let s1 := signal_ne s in
  if rb_is_full (rb s1) then s1 else signal_nf s1.

(** pipe_read with the mutex held, kernel/pipe.c:114-163 *)
Definition read_body (s : pipe) (t size : Z) (nb again sig : bool) : outcome :=
  let done s1 evs := Ok (read_exit (set_pc s1 t Out)) evs in
  if again && sig then done s [EIntr t]
  else
    match rb_read_bytes (rb s) size with
    | None => AssertFail
    | Some (r', out) =>
        let s1 := mk_pipe r' (rh s) (wh s) (neq s) (nfq s) (ppc s) in
        match out with
        | _ :: _ => done s1 [ERead t out]
        | [] =>
            if wh s =? 0 then done s1 [EEof t]
            else if nb then done s1 [EAgain t]
            else Ok (mk_pipe r' (rh s) (wh s) (neq s ++ [t]) (nfq s) (fupd (ppc s) t (RWait size nb))) []
        end
    end.

(** pipe_write with the mutex held, kernel/pipe.c:179-223 *)
Definition write_body (s : pipe) (t : Z) (data : list Z) (nb again sig : bool) : outcome :=
  let done s1 evs := Ok (write_exit (set_pc s1 t Out)) evs in
  if again && sig then done s [EIntr t]
  else if rh s =? 0 then done s [EPipe t]
  else
    match rb_write_bytes (rb s) data with
    | None => AssertFail
    | Some (r', n) =>
        let s1 := mk_pipe r' (rh s) (wh s) (neq s) (nfq s) (ppc s) in
        if negb (n =? 0) then done s1 [EWrite t (firstn (Z.to_nat n) data)]
        else if nb then done s1 [EAgain t]
        else Ok (mk_pipe r' (rh s) (wh s) (neq s) (nfq s ++ [t]) (fupd (ppc s) t (WWait data nb))) []
    end.

(** pipe_on_handle_close with the mutex held, kernel/pipe.c:426-446 *)
Definition close_body (s : pipe) (t : Z) (w : bool) : outcome :=
  let old := if w then wh s else rh s in
  if old <=? 0 then AssertFail
  else
    let s1 := mk_pipe (rb s) (if w then rh s else rh s - 1) (if w then wh s - 1 else wh s)
                      (neq s) (nfq s) (fupd (ppc s) t Out) in
    Ok (if old =? 1 then signal_all s1 else s1) [].

(** pipe_read_ready, pipe_write_ready, kernel/pipe.c:226-269 *)
Definition ready (s : pipe) (w : bool) : bool :=
  if w then negb (rb_is_full (rb s)) || (rh s =? 0) else negb (rb_is_empty (rb s)) || (wh s =? 0).

Definition pq (s : pipe) (w : bool) : list Z := if w then nfq s else neq s.
Definition set_pq (s : pipe) (w : bool) (l : list Z) : pipe :=
  if w then mk_pipe (rb s) (rh s) (wh s) (neq s) l (ppc s) else mk_pipe (rb s) (rh s) (wh s) l (nfq s) (ppc s).

(** mobj_waiter_rearm_signaled, kernel/wobj.c:300-330: back on the list if signalled *)
Definition rearm (s : pipe) (t : Z) (w : bool) : pipe :=
  if linked t (pq s w) then s else set_pq s w (pq s w ++ [t]).

Definition step (s : pipe) (a : action) : outcome :=
  match a with
  | Read t size nb =>
      match ppc s t with Out => if size <=? 0 then Disabled else Ok (set_pc s t (RGo size nb false)) [] | _ => Disabled end
  | Write t data nb =>
      match ppc s t, data with Out, _ :: _ => Ok (set_pc s t (WGo data nb false)) [] | _, _ => Disabled end
  | Close t w => match ppc s t with Out => Ok (set_pc s t (CGo w)) [EClose w] | _ => Disabled end
  | Dup w =>      (* pipe_on_handle_dup, kernel/pipe.c:449-478: no mutex *)
      Ok (mk_pipe (rb s) (if w then rh s else rh s + 1) (if w then wh s + 1 else wh s) (neq s) (nfq s) (ppc s)) [EDup w]
  | Poll t w =>   (* poll_set_conds, kernel/poll.c:53-102 *)
      match ppc s t with
      | Out => Ok (set_pc (set_pq s w (pq s w ++ [t])) t (PGo w)) [EPoll t w]
      | _ => Disabled
      end
  | Go t sig =>
      match ppc s t with
      | RGo size nb again => read_body s t size nb again sig
      | WGo data nb again => write_body s t data nb again sig
      | CGo w => close_body s t w
      | PGo w =>      (* kernel/poll.c:188-190, 245 *)
          if ready s w then Ok (set_pc (set_pq s w (unlink t (pq s w))) t Out) [EPollReady t w]
          else Ok (set_pc s t (PChk w)) []
      | PChk w =>     (* kernel/poll.c:202-230, preemption disabled *)
          if linked t (pq s w) then Ok (set_pc s t (PWait w)) []
          else Ok (set_pc (rearm s t w) t (PGo w)) []
      | PWake w =>    (* kernel/poll.c:231-252 *)
          if sig then Ok (set_pc (set_pq s w (unlink t (pq s w))) t Out) [EPollEnd t]
          else Ok (set_pc (rearm s t w) t (PGo w)) []
      | PInt w => Ok (set_pc (set_pq s w (unlink t (pq s w))) t Out) [EPollEnd t]
      | _ => Disabled
      end
  | Interrupt t =>   (* wake_up unlinks a single-object waiter; a poller stays linked *)
      match ppc s t with
      | RWait size nb => Ok (mk_pipe (rb s) (rh s) (wh s) (unlink t (neq s)) (nfq s) (fupd (ppc s) t (RGo size nb true))) []
      | WWait data nb => Ok (mk_pipe (rb s) (rh s) (wh s) (neq s) (unlink t (nfq s)) (fupd (ppc s) t (WGo data nb true))) []
      | PWait w => Ok (set_pc s t (PInt w)) []
      | _ => Disabled
      end
  end.
