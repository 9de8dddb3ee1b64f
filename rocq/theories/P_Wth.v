(** C52: worker threads. *)
From Verif Require Import Lib Wth_Model Wth_Spec Wth_Proofs.

(** The jobs started, followed by those in the queue, are exactly those accepted, in order; likewise for the deferred timers of worker 0 *)
Theorem C52_fifo_exactly_once : forall top size s, reach top size s -> accepted s = ran s ++ queue s /\ expired s = fired s ++ deferred s /\ zlen (queue s) <= Z.max 0 size.
Proof. exact jobs_fifo. Qed.
Print Assumptions C52_fifo_exactly_once.

(** If the worker sleeps although there is something to do, it waits inside a job, or a call in progress is about to wake it *)
Theorem C52_not_stranded : forall top size s, reach top size s -> state s = Sleeping -> work_left top s -> in_job_wait s \/ wake_coming s.
Proof. exact not_stranded. Qed.
Print Assumptions C52_not_stranded.

(** Once no call is in progress, the worker, given the CPU whenever it is runnable, runs everything and then sleeps (if no job blocks) *)
Theorem C52_everything_runs : forall top size s, reach top size s -> quiet s -> ~ in_job_wait s ->
  exists n, let s' := times n (alone top) s in
  state s' = Sleeping /\ queue s' = [] /\ deferred s' = [] /\ ran s' = accepted s /\ fired s' = expired s /\ accepted s' = accepted s.
Proof. exact progress. Qed.
Print Assumptions C52_everything_runs.

(** Wherever it is on the CPU outside the end of the loop, the worker is in state RUNNING *)
Theorem C52_running_when_current : forall top size s, reach top size s -> on_cpu s = true -> match pc s with WLook | WSched | WNormal => True | _ => state s = Running end.
Proof. exact running. Qed.
Print Assumptions C52_running_when_current.

(** A job of a worker other than worker 0 which waits for an object is woken by its owner only. What is missing: worker 0, see the refutation *)
Theorem C52_blocking_jobs_partial : forall top size s, reach top size s -> top = false -> broken s = false /\ (in_job_wait s -> granted s = false -> state s = Sleeping).
Proof. exact job_undisturbed. Qed.
Print Assumptions C52_blocking_jobs_partial.

(** A deferred timer which expires while a job of worker 0 waits, for a mutex say, wakes it: wth_wakeup_top does not look at waiting_for_jobs, and the job goes on without the mutex *)
Theorem C52_blocking_job_of_worker_0_refuted : exists s, reach true 4 s /\ broken s = true.
Proof. exact top_job_broken. Qed.
Print Assumptions C52_blocking_job_of_worker_0_refuted.

(** The scheduler gets the first of the runnable workers of highest priority *)
Theorem C52_highest_priority_runs : forall l, match get_runnable_thread l with
  | Some t => exists a b, l = a ++ t :: b /\ runnable t = true /\ (forall x, In x a -> runnable x = true -> prio t < prio x) /\ (forall x, In x b -> runnable x = true -> prio t <= prio x)
  | None => forall x, In x l -> runnable x = false
  end.
Proof. exact runnable_pick. Qed.
Print Assumptions C52_highest_priority_runs.

(** With worker 0 in its place, wth_enqueue_anywhere gives the job to the last of the eligible workers which has space, and fails only if none has *)
Theorem C52_enqueue_anywhere : forall ws lowest space, ws <> [] -> named (nth 0 ws (Wk true 0 false)) = false -> prio (nth 0 ws (Wk true 0 false)) = 0 ->
  (forall j, (0 < j < length ws)%nat -> 0 < prio (nth j ws (Wk true 0 false))) -> 0 <= lowest ->
  match enqueue_anywhere ws lowest space with
  | Some k => (k < length ws)%nat /\ eligible lowest (nth k ws (Wk true 0 false)) /\ space k = true /\ forall j, (k < j < length ws)%nat -> eligible lowest (nth j ws (Wk true 0 false)) -> space j = false
  | None => forall j, (j < length ws)%nat -> eligible lowest (nth j ws (Wk true 0 false)) -> space j = false
  end.
Proof. exact anywhere_ok. Qed.
Print Assumptions C52_enqueue_anywhere.

(** wth_find_worker returns an eligible worker *)
Theorem C52_find_worker : forall ws lowest, ws <> [] -> named (nth 0 ws (Wk true 0 false)) = false -> prio (nth 0 ws (Wk true 0 false)) = 0 -> 0 <= lowest ->
  (find_worker ws lowest < length ws)%nat /\ eligible lowest (nth (find_worker ws lowest) ws (Wk true 0 false)).
Proof. exact find_ok. Qed.
Print Assumptions C52_find_worker.

(** Concrete case: a job arrives by interrupt just after the worker decided to sleep; the worker notices, runs it and sleeps *)
Example C52_nontrivial :
  match crun [Resume; Work; Work; Work; Work; Enqueue 1 5; Prod 1; Prod 1; Prod 1; Work] init with
  | Some s => state s = Runnable /\ pc s = WNormal /\ queue s = [5] /\
      let s' := times 8 (alone true) s in state s' = Sleeping /\ ran s' = [5] /\ queue s' = []
  | None => False
  end.
Proof. vm_compute. auto 8. Qed.

