(** Which slots the tasks of a run of the thread pool take. *)
From Verif Require Import Base Task ThreadPool PoolTrace.
Local Open Scope nat_scope.

(** A run in which [Q] holds all the time, with the worker that allocated each task: a task is allocated by the worker that
    submits it (thread_pool.hpp:66-77), from the array and the counter of its thread (task.hpp:76-77). *)
Inductive slotted (Q : tpool → Prop) (n : nat) (main : prog) : tpool → list nat → Prop :=
  | sl_init : Q (pool_start n main) → slotted Q n main (pool_start n main) []
  | sl_step s al w v s' : slotted Q n main s al → pool_step s w v = Some s' → Q s' →
      slotted Q n main s' (al ++ replicate (length (p_tasks s') - length (p_tasks s)) w).

(** The slot of task [t], when the counter of the thread of worker [w] was [c0 w] at the start of the pool (task.hpp:67-73);
    the counter is not modelled as wrapping around, as 4096 divides 2^64. *)
Definition slot_of (c0 : nat → N) (al : list nat) (t : nat) : option (nat * N) :=
  w ← al !! t; Some (w, task_slot (c0 w + N.of_nat (length (filter (eq w) (take t al))))).

(** * Specification *)

(** The function of the task or one of its children has not returned, or the task does not count as completed yet. *)
Definition unfinished (x : task) : Prop := t_done x = false ∨ t_ctr x ≠ 0%N.
#[global] Instance unfinished_dec x : Decision (unfinished x).
Proof. unfold unfinished. apply _. Defined.
Definition unfinished_tasks (s : tpool) : nat := length (filter unfinished (p_tasks s)).

(** [m] calls of parallel_for one after the other, each with one batch. *)
Definition calls_of_one (m : nat) : code := Nat.iter m (CFork [CDone] []) CDone.
