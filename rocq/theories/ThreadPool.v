(** thread_pool/thread_pool.hpp: workers with their own queues, stealing, helping waits and the run loop,
    on top of the task counters of Task.v.  Any number of workers take steps in any order.
    Simplifications: an operation of a work_stealing_queue is one step (C39 proves the queue linearizable),
    with the owner's end at the end of the list; task objects are never reused (slots are C47); a task
    function is a finite program that submits tasks, waits for tasks and makes actions, each of which is one step; every load and store is sequentially consistent; the release at the end of an iteration of wait (line 91)
    is made together with the get_task at its begin, as the count of the semaphore only shortens a timed wait. *)
From Verif Require Import Base Task.
Local Open Scope nat_scope.

(** The function of a task, or the main program.  [PSubmit c p k] submits a task with function [c] and parent
    [p] (thread_pool.hpp:276-278) and goes on with [k] of the new task; [PWait] is wait (282-284);
    [PStop] is the stop loop of the destructor (244-246); [PAct a k] does something that does not concern the pool,
    such as applying the function of parallel_for to an element.  Tasks are referred to by their number, in order of
    construction. *)
Inductive prog :=
  | PDone
  | PSubmit (c : prog) (parent : option nat) (k : nat → prog)
  | PWait (t : nat) (k : prog)
  | PStop (k : prog)
  | PAct (a : nat) (k : prog).

(** A position in a function call on a worker's call stack: in the task's function, or in finish
    (task.hpp:44-50) of the task or one of its ancestors, before the fetch_sub or before the test. *)
Inductive fpc := FRun (p : prog) | FSub (t : nat) | FCheck (t : nat).

(** [f_task] is None for the main program. *)
Record frame := Frame { f_task : option nat; f_pc : fpc }.

(** The run loop (thread_pool.hpp:108-128) of a background worker with an empty call stack: before get_task,
    before the test of _active after a failed get_task, or left.  The main worker has no loop. *)
Inductive base := BGet | BCheck | BExit.

(** thread_pool.hpp:204-208; [w_queue] in order of submission, [w_stack] innermost call first (wait executes
    tasks inside a task's function, lines 81-93). *)
Record worker := Worker { w_queue : list nat; w_stack : list frame; w_base : base; w_active : bool }.

(** thread_pool.hpp:337-338.  [p_tasks] and [p_progs] are the tasks constructed so far with their functions;
    [p_sem] is the count of the semaphore; [p_started] is a ghost list of the tasks whose execution has begun. *)
Record tpool := TPool {
  p_tasks : list task;
  p_progs : list prog;
  p_workers : list worker;
  p_sem : N;
  p_started : list nat }.

(** thread_pool.hpp:217-239. *)
Definition pool_start (n : nat) (main : prog) : tpool :=
  TPool [] [] (Worker [] [Frame None (FRun main)] BExit true :: replicate (n - 1) (Worker [] [] BGet true)) 0 [].

Definition set_stack (st : list frame) (w : worker) : worker := Worker (w_queue w) st (w_base w) (w_active w).
Definition set_queue (q : list nat) (w : worker) : worker := Worker q (w_stack w) (w_base w) (w_active w).
Definition set_base (b : base) (w : worker) : worker := Worker (w_queue w) (w_stack w) b (w_active w).
Definition set_active (b : bool) (w : worker) : worker := Worker (w_queue w) (w_stack w) (w_base w) b.

Definition p_set_tasks (s : tpool) (ts : list task) : tpool :=
  TPool ts (p_progs s) (p_workers s) (p_sem s) (p_started s).
Definition upd_worker (f : worker → worker) (w : nat) (s : tpool) : tpool :=
  TPool (p_tasks s) (p_progs s) (alter f w (p_workers s)) (p_sem s) (p_started s).

(** thread_pool.hpp:325-327. *)
Definition wake_worker (s : tpool) : tpool :=
  TPool (p_tasks s) (p_progs s) (p_workers s) (p_sem s + 1) (p_started s).
(** thread_pool.hpp:329-332: with or without a timeout. *)
Definition sem_wait (s : tpool) : tpool :=
  TPool (p_tasks s) (p_progs s) (p_workers s) (p_sem s - 1) (p_started s).

(** thread_pool.hpp:66-77 with task.hpp:18-23, on worker [w]. *)
Definition wk_submit (s : tpool) (w : nat) (c : prog) (parent : option nat) : tpool :=
  let ts := match parent with Some p => alter (upd_ctr inc16) p (p_tasks s) | None => p_tasks s end in
  wake_worker
    (TPool (ts ++ [Task parent 1 false]) (p_progs s ++ [c])
       (alter (λ x, set_queue (w_queue x ++ [length (p_tasks s)]) x) w (p_workers s)) (p_sem s) (p_started s)).

(** The begin of execute (thread_pool.hpp:183-188, task.hpp:26-27): the call of the task's function. *)
Definition wk_execute (s : tpool) (w t : nat) : option tpool :=
  c ← p_progs s !! t;
  let s' := upd_worker (λ x, set_stack (Frame (Some t) (FRun c) :: w_stack x) x) w s in
  Some (TPool (p_tasks s') (p_progs s') (p_workers s') (p_sem s') (p_started s' ++ [t])).

(** thread_pool.hpp:148-171: the worker's own queue first (its newest task), otherwise the oldest task of the
    victim [v], which stands for the main worker or the randomly chosen one; a steal may always fail (a lost race
    or an unlucky choice). *)
Definition get_task (s : tpool) (w : nat) (v : option nat) : option (option nat * tpool) :=
  x ← p_workers s !! w;
  match last (w_queue x) with
  | Some t => Some (Some t, upd_worker (set_queue (pop_back (w_queue x))) w s)
  | None =>
    match v with
    | None => Some (None, s)
    | Some j =>
      if decide (j = w) then None
      else
        y ← p_workers s !! j;
        match w_queue y with
        | [] => Some (None, s)
        | t :: q => Some (Some t, upd_worker (set_queue q) j s)
        end
    end
  end.

(** One step of worker [w] whose innermost call is at [fr]; [st] are the calls below it. *)
Definition frame_step (s : tpool) (w : nat) (v : option nat) (fr : frame) (st : list frame) : option tpool :=
  let goto pc := upd_worker (set_stack (Frame (f_task fr) pc :: st)) w in
  match f_pc fr with
  | FRun PDone =>                                                      (* the function returns *)
    match f_task fr with
    | Some t => Some (goto (FSub t) (p_set_tasks s (alter set_done t (p_tasks s))))
    | None => Some (upd_worker (set_stack st) w s)
    end
  | FRun (PSubmit c p k) => Some (goto (FRun (k (length (p_tasks s)))) (wk_submit s w c p))
  | FRun (PStop k) =>                                                  (* thread_pool.hpp:244-246 *)
    Some (goto (FRun k) (TPool (p_tasks s) (p_progs s)
            (imap (λ i x, if decide (i = 0) then x else set_active false x) (p_workers s)) (p_sem s) (p_started s)))
  | FRun (PAct _ k) => Some (goto (FRun k) s)
  | FRun (PWait t k) =>                                                (* thread_pool.hpp:81-93 *)
    x ← p_tasks s !! t;
    if bool_decide (t_ctr x = 0%N) then Some (goto (FRun k) s)
    else
      r ← get_task s w v;
      match r.1 with
      | Some u => wk_execute (wake_worker r.2) w u
      | None => Some (wake_worker r.2)
      end
  | FSub t => Some (goto (FCheck t) (p_set_tasks s (alter (upd_ctr dec16) t (p_tasks s)))) (* task.hpp:45 *)
  | FCheck t =>                                                        (* task.hpp:47-49 *)
    x ← p_tasks s !! t;
    match (if bool_decide (t_ctr x = 0%N) then t_parent x else None) with
    | Some p => Some (goto (FSub p) s)
    | None => Some (upd_worker (set_stack st) w s)
    end
  end.

(** One step of worker [w]; [v] is the choice made in get_task. *)
Definition pool_step (s : tpool) (w : nat) (v : option nat) : option tpool :=
  x ← p_workers s !! w;
  match w_stack x with
  | fr :: st => frame_step s w v fr st
  | [] =>
    match w_base x with
    | BGet =>                                                          (* thread_pool.hpp:115-121 *)
      r ← get_task s w v;
      match r.1 with
      | Some u => wk_execute r.2 w u
      | None => Some (upd_worker (set_base BCheck) w (sem_wait r.2))
      end
    | BCheck =>                                                        (* thread_pool.hpp:124-126 *)
      Some (upd_worker (set_base (if w_active x then BGet else BExit)) w s)
    | BExit => None
    end
  end.

Inductive pool_reach (n : nat) (main : prog) : tpool → Prop :=
  | pr_init : pool_reach n main (pool_start n main)
  | pr_step s w v s' : pool_reach n main s → pool_step s w v = Some s' → pool_reach n main s'.

(** [p] and then [q], inside one function. *)
Fixpoint seq_prog (p q : prog) : prog :=
  match p with
  | PDone => q
  | PSubmit c o k => PSubmit c o (λ n, seq_prog (k n) q)
  | PWait t k => PWait t (seq_prog k q)
  | PStop k => PStop (seq_prog k q)
  | PAct a k => PAct a (seq_prog k q)
  end.

(** parallel_for.hpp:42-48 and stage.hpp:165-173: the first task is the parent of the others. *)
Fixpoint submit_all (parent : option nat) (bodies : list prog) (k : option nat → prog) : prog :=
  match bodies with
  | [] => k parent
  | b :: bs => PSubmit b parent (λ t, submit_all (Some (default t parent)) bs k)
  end.
(** stage.hpp:180-182; parallel_for.hpp:49 waits for a task that exists as there is at least one batch. *)
Definition wait_parent (parent : option nat) : prog :=
  match parent with Some t => PWait t PDone | None => PDone end.
(** The tasks of one parallel_for (parallel_for.hpp:40-50); [bodies] are what the batches do. *)
Definition pf_call (bodies : list prog) : prog := submit_all None bodies wait_parent.
(** stage.hpp:164-183: [bodies] are the systems of the batch, [mains] the main thread systems. *)
Definition batch_call (bodies mains : list prog) : prog :=
  submit_all None bodies (λ p, foldr seq_prog (wait_parent p) mains).
(** stage.hpp:152-156. *)
Definition stage_run (batches : list (list prog)) (mains : list prog) : prog :=
  foldr (λ b, seq_prog (batch_call b mains)) PDone batches.
