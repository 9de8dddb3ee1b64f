(** Model of kernel/select.c.

    [handle fd]: the open file of [fd] and whether it has a condition for reading (0),
    writing (1) and exceptions (2); it does not change during the call (a process is one
    task).  [rdy t fd i]: what the [t]-th question "is fd ready for i" gives; any two
    questions may be answered differently.  An fd_set is a function.  The list [its] says
    what happens in each round of the loop of select_wait_on_cond; the sleeping itself is
    the one of poll (C53).  Faults of the user memory and failed allocations are left out. *)
From Verif Require Import Lib Poll_Model.

Definition fdset := Z -> bool.
Definition sets3 := Z -> option fdset.
Inductive wake := ByCond | ByTimer | BySignal.
(** ticks since start_ticks at the readiness check and at line 294; signalled meanwhile; what ends the sleep *)
Record it := It { el1 : Z; missed : bool; el2 : Z; woken : wake }.
Definition tval := (Z * Z)%type.
Record ctx := Ctx { ss : sets3; us : sets3; tv : option tval; utv : option tval; qs : nat }.

Section Select.
Variable handle : Z -> option (Z -> bool).
Variable rdy : nat -> Z -> Z -> bool.
Variable nfds : Z.
Definition fds : list Z := map Z.of_nat (seq 0 (Z.to_nat nfds)).

(** select_count_cond_per_set, lines 34-57; None: EBADF *)
Fixpoint count_cond (i : Z) (set : fdset) (l : list Z) : option Z :=
  match l with
  | [] => Some 0
  | fd :: l =>
      if set fd then
        match handle fd with
        | None => None
        | Some c => option_map (fun n => (if c i then 1 else 0) + n) (count_cond i set l)
        end
      else count_cond i set l
  end.
(** select_compute_cond_cnt, lines 195-208; the condition on line 200 is always true (C53_select_ticks) *)
Definition cond_of (s : sets3) (i : Z) : option Z := match s i with None => Some 0 | Some set => count_cond i set fds end.
Definition cond_cnt (s : sets3) : option Z :=
  match cond_of s 0, cond_of s 1, cond_of s 2 with Some a, Some b, Some c => Some (a + b + c) | _, _, _ => None end.

(** count_ready_streams_per_set, lines 112-133, and count_ready_streams, lines 135-145 *)
Fixpoint count_set (i : Z) (set : fdset) (l : list Z) (t : nat) : Z * nat :=
  match l with
  | [] => (0, t)
  | fd :: l =>
      if set fd then
        match handle fd with
        | None => count_set i set l t
        | Some _ => let '(n, t') := count_set i set l (S t) in ((if rdy t fd i then 1 else 0) + n, t')
        end
      else count_set i set l t
  end.
Definition count_of (s : sets3) (i : Z) (t : nat) : Z * nat := match s i with None => (0, t) | Some set => count_set i set fds t end.
Definition count_ready (s : sets3) (t : nat) : Z * nat :=
  let '(a, t) := count_of s 0 t in let '(b, t) := count_of s 1 t in let '(c, t) := count_of s 2 t in (a + b + c, t).

(** select_set_ready, lines 87-110 *)
Fixpoint set_ready_l (i : Z) (l : list Z) (set : fdset) (t : nat) : Z * fdset * nat :=
  match l with
  | [] => (0, set, t)
  | fd :: l =>
      if set fd then
        match handle fd with
        | None => set_ready_l i l (fupd set fd false) t
        | Some _ =>
            if rdy t fd i then let '(n, set, t) := set_ready_l i l set (S t) in (1 + n, set, t)
            else set_ready_l i l (fupd set fd false) (S t)
        end
      else set_ready_l i l set t
  end.
Definition set_of (s : sets3) (i : Z) (t : nat) : Z * option fdset * nat :=
  match s i with None => (0, None, t) | Some set => let '(n, set, t) := set_ready_l i fds set t in (n, Some set, t) end.
(** select_write_user_sets, lines 210-237 *)
Definition write_user (c : ctx) : Z * ctx :=
  let '(a, s0, t) := set_of (ss c) 0 (qs c) in
  let '(b, s1, t) := set_of (ss c) 1 t in
  let '(d, s2, t) := set_of (ss c) 2 t in
  let s := fun i => if i =? 0 then s0 else if i =? 1 then s1 else if i =? 2 then s2 else None in
  (a + b + d, Ctx s s (tv c) (tv c) t).
Definition set_tv (c : ctx) (v : tval) : ctx := Ctx (ss c) (us c) (match tv c with Some _ => Some v | None => None end) (utv c) (qs c).
Definition set_qs (c : ctx) (t : nat) : ctx := Ctx (ss c) (us c) (tv c) (utv c) t.

(** the remaining time, lines 267-275; KRN_TIMER_HZ = 250 *)
Definition remaining (ticks el : Z) : tval :=
  let rem := if el <? ticks then u32 (ticks - el) else 0 in (rem / 250, (rem mod 250) * 4000).
(** select_wait_on_cond, lines 239-342, after the registration; [pend]: pending_signals() at
    line 338; None: not returned within [its] *)
Fixpoint wait (ticks : Z) (pend : bool) (its : list it) (c : ctx) : option (Z * ctx) :=
  match its with
  | [] => None
  | x :: its =>
      let '(n, t) := count_ready (ss c) (qs c) in
      let c := set_qs c t in
      let out (p : bool) (rc : Z) (c : ctx) := Some (if p then -4 else rc, c) in
      if 0 <? n then
        let '(rc, c) := write_user (set_tv c (remaining ticks (el1 x))) in out pend rc c
      else if missed x then wait ticks pend its c
      else
        match tv c with
        | None => match woken x with BySignal => out true 0 c | _ => wait ticks pend its c end
        | Some _ =>
            if ticks <=? el2 x then out pend 0 (set_tv c (0, 0))
            else match woken x with
                 | BySignal => out true 0 c
                 | ByTimer => out pend 0 (set_tv c (0, 0))
                 | ByCond => wait ticks pend its c
                 end
        end
  end.

(** sys_select, lines 344-410 *)
Variable max_handles : Z.
Definition select (asked : sets3) (timeout : option tval) (pend : bool) (its : list it) : option (Z * ctx) :=
  let c := Ctx asked asked timeout timeout 0 in
  if (nfds <? 0) || (max_handles <? nfds) then Some (-22, c)
  else
    let ticks := match timeout with Some (sec, usec) => select_ticks sec usec | None => 0 end in
    let '(n, t) := count_ready asked 0 in
    let c := set_qs c t in
    if 0 <? n then Some (write_user c)
    else
      match cond_cnt asked with
      | None => Some (-9, c)
      | Some k =>
          if (0 <? k) && (match timeout with None => true | Some _ => 0 <? ticks end) then
            match wait ticks pend its c with
            | None => None
            | Some (rc, c) => if rc =? 0 then Some (write_user c) else Some (rc, c)
            end
          else if (0 <? ticks) && pend then Some (-4, c)
          else Some (write_user c)
      end.
End Select.

(** sys_pselect6, lines 438-466.  The memory at u_timeout as machine words: tv_sec, tv_nsec
    with 64 bits, low and high word of tv_sec, tv_nsec with 32.  [sel]: sys_select on the
    first two words as a struct k_timeval, giving them back. *)
Definition div1000 (x : Z) : Z := Z.quot x 1000.
Definition pselect (bits64 : bool) (ws : Z * Z * Z) (sel : tval -> Z * tval) : Z * (Z * Z * Z) :=
  let '(w0, w1, w2) := ws in
  if bits64 then
    let '(rc, (a, b)) := sel (w0, div1000 w1) in (rc, (a, b * 1000, w2))
  else
    let '(rc, (a, b)) := sel (w0, w1) in (rc, (a, b, div1000 w2 * 1000)).
