(** Model of the kernel timers, kernel/timer.c.  Every section with interrupts
    disabled is one step.  Timers are identified by their address.  The tree is
    the one of Avl_Model.v, its keys being read from the timers' current
    wakeup_at_tick. *)
From Verif Require Import Lib Avl_Model.

(** struct ktimer's wakeup_at_tick and the globals, kernel/timer.c:52-54 *)
Record st := mk {
  now : Z;                              (* __ticks *)
  root : @tree Z;                       (* timer_tree_root *)
  early : option Z;                     (* earliest_timer *)
  wake : Z -> Z;
  dl : list Z;                          (* deferred_fire_list *)
  ticking : bool                        (* inside tick_all_timers() *)
}.
Definition st_init : st := mk 0 E None (fun _ => 0) [] false.

(** ktimer_cmp, kernel/timer.c:73-93, on (wakeup_at_tick, address) *)
Definition ktimer_cmp (a b : Z * Z) : Z :=
  if negb (fst a =? fst b) then (if fst a <? fst b then -1 else 1)
  else if negb (snd a =? snd b) then (if snd a <? snd b then -1 else 1) else 0.
Definition key (w : Z -> Z) (t : Z) : Z * Z := (w t, t).

(** bintree_remove and bintree_insert; their results are ignored by the callers *)
Definition tree_remove (w : Z -> Z) (r : @tree Z) (t : Z) : option (@tree Z) :=
  match remove (key w) ktimer_cmp r (key w t) with Some (r', _) => Some r' | None => None end.
Definition tree_insert (w : Z -> Z) (r : @tree Z) (t : Z) : option (@tree Z) :=
  match insert (key w) ktimer_cmp r t with Some (r', _) => Some r' | None => None end.

(** list_is_node_in_list *)
Definition in_dl (s : st) (t : Z) : bool := existsb (Z.eqb t) (dl s).

Inductive action :=
| Arm (t ticks : Z)
| ArmIfArmed (t ticks : Z)
| Cancel (t : Z)
| IsArmed (t : Z)
| Tick                                  (* the start of timer_irq_handler *)
| TickLoop                              (* one iteration of tick_all_timers *)
| RunPending.                           (* one iteration of run_pending_ktimers *)

Inductive event :=
| EArm (t ticks : Z)
| EArmIf (t ticks : Z) (rearmed : bool)
| ECancel (t : Z) (res : bool)
| EIsArmed (t : Z) (res : bool)
| ETick
| ETickEnd
| EFire (t : Z)                         (* the callback is called *)
| EDefer (t : Z)                        (* expired, queued for the worker thread *)
| ENop.

Inductive outcome := Fail | Ok (s : st) (e : event).

Section M.
  Variable deferred : Z -> bool.        (* mode == KTIMER_MODE_DEFERRED *)

  (** Common part of ktimer_arm and ktimer_arm_if_armed *)
  Definition rearm (s : st) (r : @tree Z) (t ticks : Z) (e : event) : outcome :=
    let w := fupd (wake s) t (u64 (now s + ticks)) in
    match tree_insert w r t with
    | None => Fail
    | Some r' => Ok (mk (now s) r' (get_first r') w (dl s) (ticking s)) e
    end.

  (** ktimer_arm, kernel/timer.c:122-151 *)
  Definition ktimer_arm (s : st) (t ticks : Z) : outcome :=
    if ticks <=? 0 then Fail
    else if wake s t >? 0 then
      match tree_remove (wake s) (root s) t with
      | None => Fail
      | Some r => rearm s r t ticks (EArm t ticks)
      end
    else rearm s (root s) t ticks (EArm t ticks).

  (** ktimer_arm_if_armed, kernel/timer.c:153-186 *)
  Definition ktimer_arm_if_armed (s : st) (t ticks : Z) : outcome :=
    if ticks <=? 0 then Fail
    else if wake s t >? 0 then
      match tree_remove (wake s) (root s) t with
      | None => Fail
      | Some r => rearm s r t ticks (EArmIf t ticks true)
      end
    else Ok s (EArmIf t ticks false).

  (** ktimer_cancel, kernel/timer.c:188-226 *)
  Definition ktimer_cancel (s : st) (t : Z) : outcome :=
    if wake s t >? 0 then
      match tree_remove (wake s) (root s) t with
      | None => Fail
      | Some r =>
          let e := match early s with Some x => if x =? t then get_first r else early s | None => None end in
          Ok (mk (now s) r e (fupd (wake s) t 0) (dl s) (ticking s)) (ECancel t true)
      end
    else if deferred t && in_dl s t then
      Ok (mk (now s) (root s) (early s) (wake s) (filter (fun x => negb (x =? t)) (dl s)) (ticking s)) (ECancel t true)
    else Ok s (ECancel t false).

  (** ktimer_is_armed, kernel/timer.c:107-120 *)
  Definition ktimer_is_armed (s : st) (t : Z) : outcome :=
    Ok s (EIsArmed t ((wake s t >? 0) || (deferred t && in_dl s t))).

  (** timer_irq_handler up to tick_all_timers, kernel/timer.c:438-483 *)
  Definition tick (s : st) : outcome :=
    Ok (mk (u64 (now s + 1)) (root s) (early s) (wake s) (dl s) true) ETick.

  (** One iteration of the loop of tick_all_timers, kernel/timer.c:297-330; the
      test before the loop (line 293) is the same as in the first iteration.
      list_add_tail on a linked node corrupts the list: [Fail]. *)
  Definition tick_loop (s : st) : outcome :=
    let stop := Ok (mk (now s) (root s) (early s) (wake s) (dl s) false) ETickEnd in
    match early s with
    | None => stop
    | Some t =>
        if wake s t >? now s then stop
        else
          match tree_remove (wake s) (root s) t with
          | None => Fail
          | Some r =>
              let w := fupd (wake s) t 0 in
              if deferred t then
                if in_dl s t then Fail
                else Ok (mk (now s) r (get_first r) w (dl s ++ [t]) true) (EDefer t)
              else Ok (mk (now s) r (get_first r) w (dl s) true) (EFire t)
          end
    end.

  (** One iteration of run_pending_ktimers, kernel/timer.c:353-383 *)
  Definition run_pending (s : st) : outcome :=
    match dl s with
    | [] => Ok s ENop
    | t :: l => Ok (mk (now s) (root s) (early s) (wake s) l (ticking s)) (EFire t)
    end.

  Definition step (s : st) (a : action) : outcome :=
    match a with
    | Arm t n => ktimer_arm s t n
    | ArmIfArmed t n => ktimer_arm_if_armed s t n
    | Cancel t => ktimer_cancel s t
    | IsArmed t => ktimer_is_armed s t
    | Tick => tick s
    | TickLoop => tick_loop s
    | RunPending => run_pending s
    end.
End M.
