(** thread_pool/task.hpp: tasks with a completion counter, and the slots they live in.
    Tasks are numbered in the order of their construction.  Every atomic operation on a counter is one
    step; the user function of a task is one step.  The queue order is abstracted: a queued task may run
    at any time, on any worker. *)
From Verif Require Import Base.
Local Open Scope N_scope.

(** task.hpp 54: [std::atomic<uint16_t>]. *)
Definition ctr_mod : N := 2 ^ 16.

(** task.hpp 52–54 (members); [t_done] records that the function returned. *)
Record task := Task { t_parent : option nat; t_ctr : N; t_done : bool }.

(** What the workers still have to do: run a task's function (then call [finish]), perform the
    [fetch_sub] of [finish] on a task, perform the test behind it. *)
Inductive act := ARun (t : nat) | ASub (t : nat) | ACheck (t : nat).
Global Instance act_eq_dec : EqDecision act.
Proof. solve_decision. Defined.

Record tstate := TS { ts_tasks : list task; ts_acts : list act }.
Definition ts_init : tstate := TS [] [].

Definition inc16 (n : N) : N := (n + 1) mod ctr_mod.
Definition dec16 (n : N) : N := (n + (ctr_mod - 1)) mod ctr_mod.

Definition upd_ctr (f : N → N) (x : task) : task := Task (t_parent x) (f (t_ctr x)) (t_done x).
Definition set_done (x : task) : task := Task (t_parent x) (t_ctr x) true.

(** task.hpp 18–23 and thread_pool.hpp 66–77 (submit): construct a task, count it in its parent
    and queue it. *)
Definition task_submit (s : tstate) (parent : option nat) : tstate :=
  let ts := match parent with Some p => alter (upd_ctr inc16) p (ts_tasks s) | None => ts_tasks s end in
  TS (ts ++ [Task parent 1 false]) (ARun (length (ts_tasks s)) :: ts_acts s).

(** task.hpp 33–35. *)
Definition is_completed (s : tstate) (t : nat) : bool :=
  match ts_tasks s !! t with Some x => bool_decide (t_ctr x = 0) | None => false end.

(** One step of a worker on the work item [a]; the result replaces the item. *)
Definition act_step (ts : list task) (a : act) : list task * option act :=
  match a with
  | ARun t => (alter set_done t ts, Some (ASub t))                     (* task.hpp 27 *)
  | ASub t => (alter (upd_ctr dec16) t ts, Some (ACheck t))            (* task.hpp 45 *)
  | ACheck t =>                                                        (* task.hpp 47–49 *)
    match ts !! t with
    | Some x => (ts, if bool_decide (t_ctr x = 0) then ASub <$> t_parent x else None)
    | None => (ts, None)
    end
  end.

(** task.hpp 44–50: the whole of [finish] without interference; [fuel] bounds the chain of parents. *)
Fixpoint finish (fuel : nat) (ts : list task) (t : nat) : list task :=
  match fuel with
  | 0%nat => ts
  | S fuel =>
    let ts := alter (upd_ctr dec16) t ts in
    match ts !! t with
    | Some x =>
      if bool_decide (t_ctr x = 0) then
        match t_parent x with Some p => finish fuel ts p | None => ts end
      else ts
    | None => ts
    end
  end.

(** task.hpp 26–29: [execute] without interference. *)
Definition execute (ts : list task) (t : nat) : list task :=
  finish (S t) (alter set_done t ts) t.

(** task.hpp 62: tasks per worker; 68–73: the slot of the [n]-th allocation of a worker. *)
Definition max_tasks : N := 4096.
Definition task_slot (n : N) : N := N.land n (max_tasks - 1).
