(** Model of the id allocators of kernel/sched.c:267-475 and of the operations that
    change the table of tasks (tree_by_tid_root).  The table is the list visited by
    iterate_over_tasks, in order of tid (the in-order visit is C06). *)
From Verif Require Import Lib.

(** config/config_global.h:95, include/tilck/kernel/sched.h:248-249 *)
Definition max_pid := 8191.
Definition ktid_start := 10000.
Definition max_ktid := 1024.

(** struct task and struct process; [kern]: is_kernel_thread, [main]: is_main_thread *)
Record task := Task { tid : Z; kern : bool; main : bool; pgid : Z; sid : Z }.

(** struct create_pid_visit_ctx: lowest_available, lowest_after_current_max,
    lowest_avail_invalid *)
Record ctx := Ctx { low : Z; after : Z; inval : bool }.

(** inc_candicate_if_matches, kernel/sched.c:283-323 *)
Definition inc_if (cand id val : Z) : Z * Z :=
  if negb (cand =? val) then (cand, 0)
  else if cand =? id then (cand, 0)
  else (cand + 1, 1).

(** The end of create_new_pid_visit_cb, lines 372-395 *)
Definition bump (t : Z) (c : ctx) : ctx :=
  let c := if low c =? t then Ctx (low c + 1) (after c) (inval c) else c in
  if after c =? t then Ctx (low c) (after c + 1) (inval c) else c.

(** create_new_pid_visit_cb, kernel/sched.c:325-398; [None]: ASSERT(tid >= 0) fails *)
Definition visit_user (c : ctx) (t : task) : option ctx :=
  if negb (main t) then Some c
  else if negb (tid t >=? 0) then None
  else if tid t <? low c then Some c
  else
    let '(l1, r1) := inc_if (low c) (tid t) (pgid t) in
    let '(l2, r2) := inc_if l1 (tid t) (sid t) in
    let '(a1, r3) := inc_if (after c) (tid t) (pgid t) in
    let '(a2, r4) := inc_if a1 (tid t) (sid t) in
    Some (bump (tid t) (Ctx l2 a2 (if r1 + r2 + r3 + r4 =? 0 then inval c else true))).

Definition visit_kern (c : ctx) (t : task) : option ctx :=
  if negb (kern t) then Some c
  else if negb (tid t - ktid_start >=? 0) then None
  else Some (bump (tid t - ktid_start) c).

(** iterate_over_tasks, kernel/sched.c:477-487 *)
Fixpoint iterate (visit : ctx -> task -> option ctx) (l : list task) (c : ctx) : option ctx :=
  match l with
  | [] => Some c
  | t :: l => match visit c t with Some c' => iterate visit l c' | None => None end
  end.

(** create_id_common, kernel/sched.c:400-434; [None]: an ASSERT failed, or the loop did
    not end within [fuel] passes *)
Fixpoint create_id (visit : ctx -> task -> option ctx) (l : list task) (max_id : Z) (fuel : nat) (c : ctx) : option Z :=
  match fuel with
  | O => None
  | S fuel =>
      match iterate visit l (Ctx (low c) (after c) false) with
      | None => None
      | Some c =>
          let r := if after c <=? max_id then after c else if low c <=? max_id then low c else -1 in
          if (r =? low c) && inval c then create_id visit l max_id fuel c else Some r
      end
  end.

Record st := mk { tasks : list task; cmax : Z; ckmax : Z }.

(** create_new_pid, kernel/sched.c:436-455; the fuel is enough, see the proofs *)
Definition fuel_for (s : st) : nat := S (4 * length (tasks s)).
Definition new_pid (s : st) : option Z :=
  create_id visit_user (tasks s) max_pid (fuel_for s) (Ctx 0 (cmax s + 1) false).
(** create_new_kernel_tid, kernel/sched.c:457-475 *)
Definition new_ktid (s : st) : option Z :=
  create_id visit_kern (tasks s) max_ktid (fuel_for s) (Ctx 0 (ckmax s + 1) false).

(** add_task: bintree_insert_ptr by tid, kernel/sched.c:858.  The result of the
    insertion is not checked by the code; [None]: there is a task with this tid *)
Fixpoint add (l : list task) (t : task) : option (list task) :=
  match l with
  | [] => Some [t]
  | x :: l' =>
      if tid t =? tid x then None
      else if tid t <? tid x then Some (t :: l)
      else match add l' t with Some l'' => Some (x :: l'') | None => None end
  end.

Definition find (l : list task) (i : Z) : option task := List.find (fun t => tid t =? i) l.
Definition set_task (l : list task) (i : Z) (f : task -> task) : list task := map (fun t => if tid t =? i then f t else t) l.

Inductive action :=
| Fork (parent : Z) (oom : bool)      (* the memory allocations may fail after create_new_pid *)
| Kthread (oom : bool)
| Remove (t : Z)                      (* remove_task *)
| SetPgid (t pg : Z)
| SetSid (t : Z).
Inductive result := Ok (s : st) (r : Z) | Fail.

Definition count_group (l : list task) (pg : Z) : Z := zlen (filter (fun t => pgid t =? pg) l).
Definition session_of (l : list task) (pg : Z) : option Z :=
  match List.find (fun t => pgid t =? pg) l with Some t => Some (sid t) | None => None end.

Definition step (s : st) (a : action) : result :=
  match a with
  (* kernel/fork.c:58-185: the child inherits pgid and sid *)
  | Fork p oom =>
      match find (tasks s) p, new_pid s with
      | Some pt, Some r =>
          if r <? 0 then Ok s (-1)
          else
            let s := mk (tasks s) r (ckmax s) in
            if oom then Ok s (-1)
            else match add (tasks s) (Task r false true (pgid pt) (sid pt)) with
                 | Some l => Ok (mk l (cmax s) (ckmax s)) r
                 | None => Fail
                 end
      | _, _ => Fail
      end
  (* kthread_create2, kernel/process.c:885-960 *)
  | Kthread oom =>
      match new_ktid s with
      | Some r =>
          if r <? 0 then Ok s (-1)
          else
            let s := mk (tasks s) (cmax s) r in
            if oom then Ok s (-1)
            else match add (tasks s) (Task (r + ktid_start) true false 0 0) with
                 | Some l => Ok (mk l (cmax s) (ckmax s)) (r + ktid_start)
                 | None => Fail
                 end
      | None => Fail
      end
  (* remove_task, kernel/sched.c:865-882 *)
  | Remove t => Ok (mk (filter (fun x => negb (tid x =? t)) (tasks s)) (cmax s) (ckmax s)) 0
  (* the end of sys_setpgid, kernel/process.c:645-668, for process [t] *)
  | SetPgid t pg =>
      match find (tasks s) t with
      | None => Ok s (-1)
      | Some x =>
          let pg' := if pg =? 0 then tid x else pg in
          if (0 <? pg) && match session_of (tasks s) pg with Some i => negb (i =? sid x) | None => false end then Ok s (-1)
          else Ok (mk (set_task (tasks s) t (fun x => Task (tid x) (kern x) (main x) pg' (sid x))) (cmax s) (ckmax s)) 0
      end
  (* sys_setsid, kernel/process.c:587-603, for process [t] *)
  | SetSid t =>
      match find (tasks s) t with
      | None => Fail
      | Some x =>
          if count_group (tasks s) t =? 0
          then Ok (mk (set_task (tasks s) t (fun x => Task (tid x) (kern x) (main x) t t)) (cmax s) (ckmax s)) t
          else Ok s (-1)
      end
  end.

(** After the boot: kernel_process (kernel/sched.c:529-568) and init
    (kernel/process.c:717-742); the other kernel threads come by [Kthread] *)
Definition st_init : st := mk [Task 1 false true 1 1; Task ktid_start true true 0 0] 1 0.
