(** thread_pool.hpp:24-43, 86-90, 95-101, 173-198: the statistics of workers, on top of the steps of ThreadPool.v (built with CO_ECS_WORKER_STATS).
    Simplification: the counters do not wrap around at 2^64. *)
From Verif Require Import Base Task ThreadPool.

(** thread_pool.hpp:26-29. *)
Record wstat := WStat { ws_task : nat; ws_steal : nat; ws_idle : nat }.
(** thread_pool.hpp:31-41. *)
Inductive inc := ITask | ISteal | IIdle.
Global Instance inc_dec : EqDecision inc.
Proof. solve_decision. Defined.
Definition add_inc (i : inc) (x : wstat) : wstat :=
  match i with
  | ITask => WStat (S (ws_task x)) (ws_steal x) (ws_idle x)
  | ISteal => WStat (ws_task x) (S (ws_steal x)) (ws_idle x)
  | IIdle => WStat (ws_task x) (ws_steal x) (S (ws_idle x))
  end.

(** [sp_pend]: the increments a worker makes next, before its next step.  Ghosts: [sp_log], the results of all calls of get_task,
    each with the worker; [sp_by], which worker submitted each task. *)
Record spool := SPool {
  sp_pool : tpool;
  sp_stats : list wstat;
  sp_pend : list (list inc);
  sp_log : list (nat * option nat);
  sp_by : list nat }.
Definition stat_start (n : nat) (main : prog) : spool :=
  let s := pool_start n main in
  SPool s ((λ _, WStat 0 0 0) <$> p_workers s) ((λ _, []) <$> p_workers s) [] [].

(** What a step of worker [w] has to count.  thread_pool.hpp:148-171 with 173-181, 86-90 and 190-196: get_task stole a task, or there was none;
    183-188: execute counts the task when its function and finish have returned. *)
Definition get_events (s : tpool) (w : nat) (v : option nat) (x : worker) : option (list inc * list (nat * option nat)) :=
  r ← get_task s w v;
  Some (match r.1 with
        | Some u => (if decide (w_queue x = []) then [ISteal] else [], [(w, Some u)])
        | None => ([IIdle], [(w, None)])
        end).
Definition st_events (s : tpool) (w : nat) (v : option nat) : option (list inc * list (nat * option nat)) :=
  x ← p_workers s !! w;
  match w_stack x with
  | [] => match w_base x with BGet => get_events s w v x | _ => Some ([], []) end
  | fr :: _ =>
    match f_pc fr with
    | FRun (PWait t _) => y ← p_tasks s !! t; if bool_decide (t_ctr y = 0%N) then Some ([], []) else get_events s w v x
    | FCheck t =>
      y ← p_tasks s !! t;
      match (if bool_decide (t_ctr y = 0%N) then t_parent y else None), f_task fr with
      | None, Some _ => Some ([ITask], [])
      | _, _ => Some ([], [])
      end
    | _ => Some ([], [])
    end
  end.

(** One step of worker [w]: the increment that is due, or a step of the pool. *)
Definition stat_step (s : spool) (w : nat) (v : option nat) : option spool :=
  pe ← sp_pend s !! w;
  match pe with
  | i :: pe => Some (SPool (sp_pool s) (alter (add_inc i) w (sp_stats s)) (<[w := pe]> (sp_pend s)) (sp_log s) (sp_by s))
  | [] =>
    s' ← pool_step (sp_pool s) w v;
    e ← st_events (sp_pool s) w v;
    Some (SPool s' (sp_stats s) (<[w := e.1]> (sp_pend s)) (sp_log s ++ e.2)
            (sp_by s ++ replicate (length (p_tasks s') - length (p_tasks (sp_pool s))) w))
  end.
Inductive stat_reach (n : nat) (main : prog) : spool → Prop :=
  | sr_init : stat_reach n main (stat_start n main)
  | sr_step s w v s' : stat_reach n main s → stat_step s w v = Some s' → stat_reach n main s'.

(** * Specification *)

(** The executions of tasks that worker [w] has begun, those of tasks which another worker submitted, its calls of get_task without result. *)
Definition begun (s : spool) (w : nat) : list nat := omap (λ e, if decide (e.1 = w) then e.2 else None) (sp_log s).
Definition stolen (s : spool) (w : nat) : list nat := filter (λ t, sp_by s !! t ≠ Some w) (begun s w).
Definition in_vain (s : spool) (w : nat) : nat := length (filter (λ e, e = (w, None)) (sp_log s)).
(** The tasks that are on the call stack of a worker. *)
Definition on_stack (x : worker) : list nat := omap f_task (w_stack x).
(** The worker is in no task, and has nothing to count. *)
Definition at_rest (s : spool) (w : nat) : Prop :=
  (∃ x, p_workers (sp_pool s) !! w = Some x ∧ on_stack x = []) ∧ sp_pend s !! w = Some [].
