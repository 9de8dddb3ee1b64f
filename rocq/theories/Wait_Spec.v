From Verif Require Import Lib Wait_Model.

(** [c] is a child of [p] *)
Definition child (s : st) (p c : Z) : Prop := liv s c = true /\ ppid (pr s c) = p.
(** [c] is one of the children wait4(tid) of [p] is about (wait4(2)) *)
Definition matches (s : st) (p tid c : Z) : Prop :=
  child s p c /\
  (0 < tid -> c = tid) /\ (tid = 0 -> pgid (pr s c) = pgid (pr s p)) /\ (tid < -1 -> pgid (pr s c) = - tid).
Definition running (s : st) (p : Z) : Prop := liv s p = true /\ stt (pr s p) = Run.

(** Who can do what, when.  Init does not exit and is not stopped (the code guarantees
    the latter); only tasks that run make system calls; the id of a new process is free.
    [StopSig], [ContSig], [SigWake]: signals sent to a task that is not a zombie.
    [WakeUp]: the end of a sleep that is not a wait *)
Definition allowed (s : st) (a : action) : Prop :=
  match a with
  | Fork p c v => running s p /\ liv s c = false /\ 1 < c
  | Exec p => running s p
  | Exit p _ _ => running s p /\ p <> 1
  | Wait p _ _ _ => running s p
  | StopSig t _ => liv s t = true /\ stt (pr s t) <> Zomb /\ t <> 1
  | ContSig t => liv s t = true /\ stt (pr s t) <> Zomb
  | SigWake t b => liv s t = true /\ stt (pr s t) <> Zomb /\ (wo (pr s t) <> None -> b = true)
  | SleepOn p => running s p
  | WakeUp p => liv s p = true /\ stt (pr s p) = Sleep /\ wo (pr s p) = None
  | SetPgid t g => liv s t = true /\ 0 < g
  | SetIgn p _ => running s p
  end.
Inductive reach : st -> Prop :=
| r_init : reach st_init
| r_step : forall s a s' r, reach s -> allowed s a -> step s a = Ok s' r -> reach s'.

(** setpgid of a zombie excluded *)
Definition no_zombie_pgid (s : st) (a : action) : Prop :=
  match a with SetPgid t _ => stt (pr s t) <> Zomb | _ => True end.
Inductive reach_z : st -> Prop :=
| z_init : reach_z st_init
| z_step : forall s a s' r, reach_z s -> allowed s a -> no_zombie_pgid s a -> step s a = Ok s' r -> reach_z s'.

(** The life of the process ids [c], from the history: an automaton *)
Inductive phase := Absent | Alive (parent : Z) | Dead (parent status : Z).
Definition advance (c : Z) (e : event) (ph : phase) : option phase :=
  match e with
  | EFork p x => if x =? c then match ph with Absent => Some (Alive p) | _ => None end else Some ph
  | EExit x w => if x =? c then match ph with Alive p => Some (Dead p w) | _ => None end else Some ph
  (* collected by the process that forked it, or by init, with the status of its exit *)
  | EReaped q x w => if x =? c then match ph with Dead p w' => if ((q =? p) || (q =? 1)) && (w =? w') then Some Absent else None | _ => None end else Some ph
  | ELost q x => if x =? c then match ph with Dead p _ => if (q =? p) || (q =? 1) then Some Absent else None | _ => None end else Some ph
  | EAuto x => if x =? c then match ph with Dead _ _ => Some Absent | _ => None end else Some ph
  | EChange q x _ => if x =? c then match ph with Alive p => if (q =? p) || (q =? 1) then Some ph else None | _ => None end else Some ph
  end.
Fixpoint life (c : Z) (h : list event) : option phase :=
  match h with
  | [] => Some Absent
  | e :: h => match life c h with Some ph => advance c e ph | None => None end
  end.
(** The phase in which [c] is in state [s] *)
Definition in_phase (s : st) (c : Z) (ph : phase) : Prop :=
  match ph with
  | Absent => liv s c = false
  | Alive p => liv s c = true /\ stt (pr s c) <> Zomb /\ (ppid (pr s c) = p \/ ppid (pr s c) = 1)
  | Dead p w => liv s c = true /\ stt (pr s c) = Zomb /\ wst (pr s c) = w /\ (ppid (pr s c) = p \/ ppid (pr s c) = 1)
  end.

(** A child a wait with options [o] returns: dead; or stopped and not yet reported as such;
    or running again after having been reported as stopped *)
Definition stopped_now (q : proc) : Prop := stt q = Stop \/ (stt q = Sleep /\ spend q = true).
Definition reportable (q : proc) (o : opts) : Prop :=
  stt q = Zomb \/
  (untraced o = true /\ stopped_now q /\ srep q = false) \/
  (continued o = true /\ stt q <> Zomb /\ ~ stopped_now q /\ srep q = true).

(** The results of one iteration of wait4 *)
Definition wait_ok (s : st) (p tid : Z) (o : opts) (fault : bool) (s' : st) (r : wres) : Prop :=
  (exists c, matches s p tid c /\ reportable (pr s c) o /\ r = Returns (if fault then EFAULT else c) /\
     (stt (pr s c) = Zomb -> liv s' c = false /\ (forall t, t <> c -> liv s' t = liv s t) /\
        hist s' = (if fault then ELost p c else EReaped p c (wst (pr s c))) :: hist s) /\
     (stt (pr s c) <> Zomb -> liv s' = liv s /\ hist s' = EChange p c (wst (pr s c)) :: hist s /\
        (srep (pr s' c) = true <-> stopped_now (pr s c)))) \/
  (r = Returns ECHILD /\ s' = s /\ forall c, ~ matches s p tid c) \/
  (r = Returns 0 /\ s' = s /\ nohang o = true /\ (exists c, matches s p tid c) /\ forall c, matches s p tid c -> ~ reportable (pr s c) o) \/
  (r = Sleeps /\ nohang o = false /\ (exists c, matches s p tid c) /\ (forall c, matches s p tid c -> ~ reportable (pr s c) o) /\
     stt (pr s' p) = Sleep /\ wo (pr s' p) = Some (tid, o) /\ liv s' = liv s /\ hist s' = hist s).

(** how a user program reads a status: WEXITSTATUS, WTERMSIG, WIFEXITED *)
Definition WEXITSTATUS (w : Z) : Z := w / 256 mod 256.
Definition WTERMSIG (w : Z) : Z := w mod 128.
Definition WIFEXITED (w : Z) : Prop := WTERMSIG w = 0.

(** options: none; WNOHANG|WUNTRACED; WNOHANG|WCONTINUED; WCONTINUED *)
Definition wnone := Opts false false false.
Definition wunt := Opts true true false.
Definition wcon := Opts true false true.
Definition wconb := Opts false false true.
