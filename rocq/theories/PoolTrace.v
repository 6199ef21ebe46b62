(** The actions of a run of the thread pool, and what they should be for code that forks and joins. *)
From Verif Require Import Base Task ParallelFor ThreadPool.
Local Open Scope nat_scope.

(** The action that the next step of worker [w] makes, if it makes one: the functions of the tasks run inside task.hpp:26-27, the
    main program on worker 0; an action is one step (ThreadPool.v). *)
Definition act_of (s : tpool) (w : nat) : option nat :=
  match p_workers s !! w with
  | Some x => match w_stack x with Frame _ (FRun (PAct a _)) :: _ => Some a | _ => None end
  | None => None
  end.

(** A run from one state to another, with its actions in the order in which they happen. *)
Inductive pool_run : tpool → list nat → tpool → Prop :=
  | run_nil s : pool_run s [] s
  | run_step s w v s1 tr s' :
      pool_step s w v = Some s1 → pool_run s1 tr s' → pool_run s (option_list (act_of s w) ++ tr) s'.

(** Code as a user sees it: actions, and places where the pieces [cs] run in parallel with each other and with the pieces [ms],
    which the calling thread runs one after the other.  A call of parallel_for is a [CFork] with empty [ms]; a batch of a
    stage is a [CFork] of its systems with the main thread systems as [ms]. *)
Inductive code := CDone | CAct (a : nat) (k : code) | CFork (cs ms : list code) (k : code).

(** What the thread that executes the code does (stage.hpp:164-183, parallel_for.hpp:40-50). *)
Fixpoint comp (c : code) : prog :=
  match c with
  | CDone => PDone
  | CAct a k => PAct a (comp k)
  | CFork cs ms k => seq_prog (batch_call (comp <$> cs) (comp <$> ms)) (comp k)
  end.

(** * Specification *)

(** The orders in which the actions of the code may happen, without any reference to tasks, workers and queues: what is
    written behind a fork happens behind everything in the fork, the pieces of a fork in any interleaving. *)
Inductive order : code → list nat → Prop :=
  | order_done : order CDone []
  | order_act a k t : order k t → order (CAct a k) (a :: t)
  | order_fork cs ms k tcs tms t t' :
      Forall2 order cs tcs → Forall2 order ms tms → interleave (concat tms :: tcs) t → order k t' →
      order (CFork cs ms k) (t ++ t').
