(** Model of system/stage.hpp and system/schedule.hpp. *)
From Verif Require Import Base Access ParallelFor.

Section stage.
(** A system with its access pattern ([executor->access_pattern()], stage.hpp:82-83).  Simplification:
    [create_executor] of a system has no effect besides producing an executor for that system. *)
Context {A : Type} (pat : A → pattern).

(** stage.hpp:81-93: one pass over the remaining systems, building one batch; [i], [acc], [batch] and
    [ss] are the loop's index, access_pattern, executor_set and _systems.  Returns the batch and the
    remaining systems; [None] is out of fuel (or undefined behaviour in the access check). *)
Fixpoint stage_pass (fuel i : nat) (acc : pattern) (batch ss : list A) : option (list A * list A) :=
  match ss !! i with
  | None => Some (batch, ss)
  | Some s =>
    match fuel with
    | 0 => None
    | S fuel =>
      ok ← ap_allows acc (pat s);
      if (ok : bool) then
        acc' ← ap_and acc (pat s); stage_pass fuel i acc' (batch ++ [s]) (delete i ss)
      else stage_pass fuel (S i) acc batch ss
    end
  end.

(** stage.hpp:77-94. *)
Fixpoint stage_batches (fuel : nat) (ss : list A) : option (list (list A)) :=
  match ss with
  | [] => Some []
  | _ =>
    match fuel with
    | 0 => None
    | S fuel =>
      r ← stage_pass (length ss) 0 ap_empty [] ss;
      bs ← stage_batches fuel r.2; Some (r.1 :: bs)
    end
  end.

(** stage.hpp:131-132 and 187-188. *)
Record stage := Stage { st_systems : list A; st_main : list A }.
Record stage_exec := StageExec { se_batches : list (list A); se_main : list A }.

(** stage.hpp:74-103: the executor and what is left of the stage. *)
Definition stage_create (s : stage) : option (stage_exec * stage) :=
  bs ← stage_batches (length (st_systems s)) (st_systems s);
  Some (StageExec bs (st_main s), Stage [] (st_main s)).

(** stage.hpp:164-184: the systems of a batch run as tasks while the main-thread systems run one after
    another on the calling thread; the wait ends when all tasks are complete (C37).  A trace lists
    complete system runs; the runs of different systems may be seen in any order. *)
Definition batch_trace (main batch tr : list A) : Prop :=
  interleave (main :: ((λ s, [s]) <$> batch)) tr.

(** stage.hpp:153-157. *)
Inductive run_trace (main : list A) : list (list A) → list A → Prop :=
  | rt_nil : run_trace main [] []
  | rt_cons b bs t1 t2 : batch_trace main b t1 → run_trace main bs t2 → run_trace main (b :: bs) (t1 ++ t2).
Definition stage_trace (e : stage_exec) (tr : list A) : Prop := run_trace (se_main e) (se_batches e) tr.

(** schedule.hpp:60-61 and 100-102. *)
Record schedule := Schedule { sc_init : stage; sc_stages : list stage }.
Record sched_exec := SchedExec { xe_stages : list stage_exec; xe_init : stage_exec }.

(** schedule.hpp:49-57: the stages first, then the initial stage. *)
Definition sched_create (s : schedule) : option (sched_exec * schedule) :=
  es ← mapM stage_create (sc_stages s);
  i ← stage_create (sc_init s);
  Some (SchedExec es.*1 i.1, Schedule i.2 es.*2).

(** Events of a schedule: a system run, or command_buffer::flush. *)
Inductive sched_event := Run (s : A) | Flush.

Inductive stages_trace : list stage_exec → list A → Prop :=
  | sst_nil : stages_trace [] []
  | sst_cons e es t1 t2 : stage_trace e t1 → stages_trace es t2 → stages_trace (e :: es) (t1 ++ t2).

(** schedule.hpp:90-97. *)
Definition run_once_trace (x : sched_exec) (tr : list sched_event) : Prop :=
  ∃ t, stages_trace (xe_stages x) t ∧ tr = (Run <$> t) ++ [Flush].

(** schedule.hpp:76-85 (the constructor) followed by [n] calls of run_once. *)
Inductive sched_trace (x : sched_exec) : nat → list sched_event → Prop :=
  | sct_ctor t : stage_trace (xe_init x) t → sched_trace x 0 ((Run <$> t) ++ [Flush])
  | sct_run n tr t : sched_trace x n tr → run_once_trace x t → sched_trace x (S n) (tr ++ t).
End stage.
Arguments stage : clear implicits.
Arguments stage_exec : clear implicits.
Arguments schedule : clear implicits.
Arguments sched_exec : clear implicits.
Arguments sched_event : clear implicits.
