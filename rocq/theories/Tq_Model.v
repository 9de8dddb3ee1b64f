(** Model of the queue of terminal actions: include/tilck/kernel/term_aux.h:41-105 and
    kernel/term_aux.c, used by the serial and the video terminal.

    An action is the pointer to the text (struct term_action keeps buf and len); [mem] is what is
    there, as one value.  The ring buffer (C03) is a list of at most [cap] elements, the mutex (C10)
    is free or held.  Execution takes time: it reads the text when it starts and may be interrupted.
    Code with preemption disabled runs the whole call in one step.  Panic is an outcome. *)
From Verif Require Import Lib.

(** where a task is: outside; line 86, ring full; term_aux.c:47-50 with the lock; line 99 waiting
    for the lock; in the loop of term_exec_everything; executing *)
Inductive pc := Out | Full (a : Z) | Retry (a : Z) | Wait | Loop | Exec.
(** [enq], [exd]: ghosts, pointers enqueued and executed in order; [want]: the texts at the time of
    the enqueueing; [shown]: the texts executed *)
Record tq := Tq { q : list Z; lk : option Z; pcs : Z -> pc; mem : Z -> Z; enq : list Z; exd : list Z; want : list Z; shown : list Z }.
Definition tq0 (m : Z -> Z) : tq := Tq [] None (fun _ => Out) m [] [] [] [].
Inductive op :=
| Call (a : Z)      (** a task writes *)
| Irq (a : Z)       (** code with preemption disabled writes *)
| Lock | Redo | Read | Done
| Store (p v : Z).  (** somebody changes the memory *)

Section Queue.
Variable cap : Z.
Definition at_pc (s : tq) (i : Z) (x : pc) (l : option Z) : tq := Tq (q s) l (fupd (pcs s) i x) (mem s) (enq s) (exd s) (want s) (shown s).
(** safe_ringbuf_write_elem; only with room *)
Definition push (s : tq) (a : Z) : tq := Tq (q s ++ [a]) (lk s) (pcs s) (mem s) (enq s ++ [a]) (exd s) (want s ++ [mem s a]) (shown s).
Definition room (s : tq) : bool := zlen (q s) <? cap.
Definition empty (s : tq) : bool := match q s with [] => true | _ => false end.
(** exec(t, a) of the first element *)
Definition pop (s : tq) (a : Z) (l : list Z) : tq := Tq l (lk s) (pcs s) (mem s) (enq s) (exd s ++ [a]) (want s) (shown s ++ [mem s a]).
(** None: not possible, or panic (Irq with a full ring) *)
Definition step (i : Z) (o : op) (s : tq) : option tq :=
  match o, pcs s i with
  | Call a, Out =>
      if room s then Some (at_pc (push s a) i (if empty s then Wait else Out) (lk s))
      else Some (at_pc s i (Full a) (lk s))
  | Irq a, _ =>
      if room s then
        (if empty s then Some (pop (push s a) a []) else Some (push s a))
      else None
  | Lock, Wait => match lk s with None => Some (at_pc s i Loop (Some i)) | Some _ => None end
  | Lock, Full a => match lk s with None => Some (at_pc s i (Retry a) (Some i)) | Some _ => None end
  | Redo, Retry a =>
      if room s then Some (at_pc (push s a) i (if empty s then Wait else Out) None)
      else Some (at_pc s i (Full a) None)
  | Read, Loop =>
      match q s with
      | [] => Some (at_pc s i Out None)
      | a :: l => Some (at_pc (pop s a l) i Exec (lk s))
      end
  | Done, Exec => Some (at_pc s i Loop (lk s))
  | Store p v, _ => Some (Tq (q s) (lk s) (pcs s) (fupd (mem s) p v) (enq s) (exd s) (want s) (shown s))
  | _, _ => None
  end.
Fixpoint run (l : list (Z * op)) (s : tq) : option tq :=
  match l with [] => Some s | (i, o) :: l => match step i o s with None => None | Some s => run l s end end.
End Queue.
