(** Model of kernel/safe_ringbuf.cpp: the ring buffer between interrupt handlers and tasks.

    Any number of calls of __safe_ringbuf_write can be in progress, each interrupted by
    others at any point; there is one reader.  Every load and store of the shared word
    rb->s (struct generic_safe_ringbuf_stat, safe_ringbuf.h:59-74) is one step, also the two
    loads at the start of the loops, which the compiler need not merge.  The word is the
    record [stat]; avail_bit is always 0.  The copy of an element is one step: that nobody
    else uses the slot meanwhile is part of the theorems.  A weak compare-and-swap may fail
    without reason.  An element is a number.  The fields after the empty line of [st] are
    not in the code. *)
From Verif Require Import Lib.

(** read_pos : 15, write_pos : 15, full : 1 *)
Record stat := Stat { rp : Z; wp : Z; full : bool }.
Definition stat_eqb (a b : stat) : bool := (rp a =? rp b) && (wp a =? wp b) && Bool.eqb (full a) (full b).
(** rb_stat_is_empty, lines 19-23 *)
Definition stat_empty (s : stat) : bool := (rp s =? wp s) && negb (full s).

Inductive ppc :=
  | PIdle
  | P0 (e : Z)                          (* before line 114 *)
  | P1 (e : Z) (cs : stat)              (* before line 115 *)
  | P2 (e : Z) (cs ns : stat)           (* before the compare-and-swap *)
  | PCopy (e : Z) (cs : stat) (k : Z).  (* before the copy; k is not in the code *)
Inductive cpc :=
  | CIdle
  | C0
  | C1 (cs : stat) (em : bool)          (* em is not in the code *)
  | C2 (cs ns : stat)
  | C3 (cs ns : stat) (v : Z).
(** results of writes: success, with *was_empty; the buffer is full *)
Inductive wres := WOk (e k : Z) (was_empty really : bool) | WFull (really : bool).
Inductive rres := ROk (v : Z) | REmpty (really : bool).
Record st := St {
  cur : stat; buf : Z -> Z; prod : Z -> ppc; cons : cpc;

  hist : list Z;   (* the elements, in the order in which their slots were claimed *)
  got : list Z;    (* the elements read *)
  wlog : list wres; rlog : list rres }.

Section Max.
Variable max : Z.

(** safe_ringbuf_init, lines 78-91 *)
Definition init (b : Z -> Z) : st := St (Stat 0 0 false) b (fun _ => PIdle) CIdle [] [] [] [].
(** safe_ringbuf_is_empty, lines 25-36; safe_ringbuf_is_full, lines 38-43 *)
Definition is_empty (s : st) : bool := stat_empty (cur s).
Definition is_full (s : st) : bool := full (cur s).

(** __safe_ringbuf_write, lines 123-126 *)
Definition claim (ns : stat) : stat :=
  let w := ((wp ns + 1) mod max) mod 2 ^ 15 in
  Stat (rp ns) w (if w =? rp ns then true else full ns).
(** __safe_ringbuf_read, lines 173-174 *)
Definition consume (ns : stat) : stat := Stat (((rp ns + 1) mod max) mod 2 ^ 15) (wp ns) false.

Definition set_prod (s : st) (p : Z) (x : ppc) : st := St (cur s) (buf s) (fupd (prod s) p x) (cons s) (hist s) (got s) (wlog s) (rlog s).
Definition set_cons (s : st) (x : cpc) : st := St (cur s) (buf s) (prod s) x (hist s) (got s) (wlog s) (rlog s).
Definition log_w (s : st) (r : wres) : st := St (cur s) (buf s) (prod s) (cons s) (hist s) (got s) (wlog s ++ [r]) (rlog s).
Definition log_r (s : st) (r : rres) : st := St (cur s) (buf s) (prod s) (cons s) (hist s) (got s) (wlog s) (rlog s ++ [r]).

(** one step of the call p of __safe_ringbuf_write, lines 102-142 *)
Definition pstep (s : st) (p : Z) (spurious : bool) : st :=
  match prod s p with
  | PIdle => s
  | P0 e => set_prod s p (P1 e (cur s))
  | P1 e cs =>
      if full cs then log_w (set_prod s p PIdle) (WFull (zlen (hist s) - zlen (got s) =? max))
      else set_prod s p (P2 e cs (claim (cur s)))
  | P2 e cs ns =>
      if negb spurious && stat_eqb (cur s) cs
      then St ns (buf s) (fupd (prod s) p (PCopy e cs (zlen (hist s)))) (cons s) (hist s ++ [e]) (got s) (wlog s) (rlog s)
      else set_prod s p (P0 e)
  | PCopy e cs k =>
      log_w (set_prod (St (cur s) (fupd (buf s) (wp cs) e) (prod s) (cons s) (hist s) (got s) (wlog s) (rlog s)) p PIdle)
            (WOk e k (stat_empty cs) (k =? zlen (got s)))
  end.
(** one step of __safe_ringbuf_read, lines 144-183 *)
Definition cstep (s : st) (spurious : bool) : st :=
  match cons s with
  | CIdle => s
  | C0 => set_cons s (C1 (cur s) (zlen (hist s) =? zlen (got s)))
  | C1 cs em =>
      if stat_empty cs then log_r (set_cons s CIdle) (REmpty em)
      else set_cons s (C2 cs (cur s))
  | C2 cs ns => set_cons s (C3 cs (consume ns) (buf s (rp cs)))
  | C3 cs ns v =>
      if negb spurious && stat_eqb (cur s) cs
      then log_r (St ns (buf s) (prod s) CIdle (hist s) (got s ++ [v]) (wlog s) (rlog s)) (ROk v)
      else set_cons s C0
  end.

Inductive action := Write (p e : Z) | Prod (p : Z) (spurious : bool) | Read | Cons (spurious : bool).
Definition step (s : st) (a : action) : option st :=
  match a with
  | Write p e => match prod s p with PIdle => Some (set_prod s p (P0 e)) | _ => None end
  | Prod p b => match prod s p with PIdle => None | _ => Some (pstep s p b) end
  | Read => match cons s with CIdle => Some (set_cons s C0) | _ => None end
  | Cons b => match cons s with CIdle => None | _ => Some (cstep s b) end
  end.
End Max.
