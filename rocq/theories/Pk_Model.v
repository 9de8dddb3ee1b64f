(** printk from tasks and interrupt handlers: kernel/printk.c.

    Modelled: __tilck_vprintk from try_set_first_printk_on_stack on, printk_append_to_ringbuf, __printk_flush_ringbuf,
    with interrupts at every step and tasks preempted where the code allows it.  The terminal is initialised and there is
    no panic.  A loop around atomic_cas_weak is one step: the round that succeeds found the word unchanged
    (the same word after exactly N more bytes is ignored).  Left out: formatting (C54), colours, tracing, the early path.
    A call comes with its prefix and its text; printk_direct_flush is one step. *)
From Verif Require Import Lib.

(** [pre]: "[time] " or nothing; [body]: the text; [bsz]: size of buf on the stack (224 or 64) *)
Record call := Call { pre : list Z; body : list Z; bsz : Z }.
(** Where a call of printk is; [irq]: called by an interrupt handler *)
Inductive pc :=
| Fmt (c : call)                                             (** before line 397 *)
| Got (old : bool) (ps : list (list Z)) (b : Z)              (** 397-430: preemption still enabled *)
| First (ps : list (list Z)) (b : Z)                         (** 433-443: to print, then the loop of the flush *)
| Out (c : list Z) (b : Z)                                   (** 242: read from the ring, not yet printed *)
| App (ps : list (list Z))                                   (** 459-460: to append *)
| Copy (pos i : Z) (p : list Z) (ps : list (list Z)).        (** 296: place reserved, i bytes copied *)
Record frame := Frame { irq : bool; at_ : pc }.
Inductive event := EDirect (p : list Z) | ERing (p : list Z).
(** printk_rbuf, printk_rbuf_stat; [stack]: the current task's call below the interrupts', top first; [parked]: preempted calls.
    Not in the code: [shown]: printed so far; [logged]: pieces with a place in the ring; [due]: pieces of calls past 397. *)
Record st := St { ring : list Z; rp : Z; wp : Z; full : bool; first : bool; nl : bool;
                  stack : list frame; parked : list frame; shown : list event; logged : list (list Z); due : list (list Z) }.

Definition N (s : st) : Z := zlen (ring s).
(** printk_calc_used, 89-98 *)
Definition used (s : st) : Z :=
  let u := (wp s - rp s) mod N s in if u =? 0 then if full s then N s else 0 else u.
Definition nonempty (p : list Z) : bool := match p with [] => false | _ => true end.
Definition has_nl (p : list Z) : bool := existsb (Z.eqb 10) p.
Definition set_top (s : st) (t : list frame) : st :=
  St (ring s) (rp s) (wp s) (full s) (first s) (nl s) t (parked s) (shown s) (logged s) (due s).
Definition show (s : st) (e : event) : st :=
  St (ring s) (rp s) (wp s) (full s) (first s) (nl s) (stack s) (parked s) (shown s ++ [e]) (logged s) (due s).
(** 223-224 *)
Definition read_ring (s : st) (n : Z) : list Z := map (fun i => znth 0 (ring s) ((rp s + Z.of_nat i) mod N s)) (seq 0 (Z.to_nat n)).

(** One step of the call on top.  [None]: outside the ring *)
Definition run (s : st) : option st :=
  match stack s with
  | [] => Some s
  | f :: t =>
      let go p := set_top s (Frame (irq f) p :: t) in
      match at_ f with
      | Fmt c =>
          let ps := filter nonempty ((if nl s then [pre c] else []) ++ [body c]) in
          Some (St (ring s) (rp s) (wp s) (full s) true (has_nl (body c)) (Frame (irq f) (Got (first s) ps (bsz c)) :: t)
                   (parked s) (shown s) (logged s) (due s ++ ps))
      | Got old ps b => Some (go (if old then App ps else First ps b))
      | First (p :: ps) b => Some (show (go (First ps b)) (EDirect p))
      | First [] b =>
          let n := Z.min b (used s) in
          if n =? 0
          then Some (St (ring s) (rp s) (wp s) (full s) false (nl s) t (parked s) (shown s) (logged s) (due s))
          else Some (St (ring s) ((rp s + n) mod N s) (wp s) (full s) (first s) (nl s) (Frame (irq f) (Out (read_ring s n) b) :: t)
                        (parked s) (shown s) (logged s) (due s))
      | Out c b => Some (show (go (First [] b)) (ERing c))
      | App [] => Some (set_top s t)
      | App (p :: ps) =>
          if N s <=? used s + zlen p then Some (show (go (App ps)) (EDirect p))
          else
            let w := (wp s + zlen p) mod N s in
            Some (St (ring s) (rp s) w (full s || (w =? rp s)) (first s) (nl s) (Frame (irq f) (Copy (wp s) 0 p ps) :: t)
                     (parked s) (shown s) (logged s ++ [p]) (due s))
      | Copy pos i p ps =>
          if i <? zlen p then
            match aset (ring s) ((pos + i) mod N s) (znth 0 p i) with
            | None => None
            | Some r => Some (St r (rp s) (wp s) (full s) (first s) (nl s) (Frame (irq f) (Copy pos (i + 1) p ps) :: t)
                                 (parked s) (shown s) (logged s) (due s))
            end
          else Some (go (App ps))
      end
  end.
(** A task calls printk, an interrupt handler does, the call on top makes a step; a task is preempted in printk, continues *)
Inductive op := OCall (c : call) | OIrq (c : call) | ORun | OPark | OResume (i : nat).
Definition preemptible (f : frame) : bool := negb (irq f) && match at_ f with Fmt _ | Got _ _ _ => true | _ => false end.
Definition set_parked (s : st) (t pk : list frame) : st :=
  St (ring s) (rp s) (wp s) (full s) (first s) (nl s) t pk (shown s) (logged s) (due s).
Definition step (s : st) (o : op) : option st :=
  match o with
  | OCall c => Some (match stack s with [] => set_top s [Frame false (Fmt c)] | _ => s end)
  | OIrq c => Some (set_top s (Frame true (Fmt c) :: stack s))
  | ORun => run s
  | OPark => Some (match stack s with [f] => if preemptible f then set_parked s [] (parked s ++ [f]) else s | _ => s end)
  | OResume i =>
      Some (match stack s, nth_error (parked s) i with
            | [], Some f => set_parked s [f] (firstn i (parked s) ++ skipn (S i) (parked s))
            | _, _ => s
            end)
  end.
Fixpoint steps (s : st) (l : list op) : option st :=
  match l with [] => Some s | o :: t => match step s o with None => None | Some s => steps s t end end.
(** 55-62; the ring is zero at first, any content does *)
Definition init (r : list Z) : st := St r 0 0 false false true [] [] [] [] [].
