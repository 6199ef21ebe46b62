(** Systems that throw: stage_executor::run (system/stage.hpp:153-184) and schedule_executor::run_once
    (system/schedule.hpp:90-97) on the pool of thread_pool.hpp.  Workers take steps in any order, as in PoolThrow.v
    and with its simplifications. *)
From Verif Require Import Base Task.
Local Open Scope nat_scope.

(** A system that is run: a number, and whether it throws this time.  Simplifications: what a system does is one step; it
    does not wait for tasks (parallel_for in a callback is PoolThrow.v). *)
Record sysrun := SysRun { y_id : nat; y_throws : bool }.
(** One call of execute_batch: the systems of the batch and those of the main thread. *)
Record batchrun := BatchRun { b_systems : list sysrun; b_main : list sysrun }.

(** What the main program does: call run_once (the batches of all stages in turn, then the flush) in a try block that
    catches everything; destroy the executor and create a new one. *)
Inductive mact := MRun (bs : list batchrun) | MDestroy.

(** [ERan y] a system was run, [EThrew y] the same and it threw; [EFlush]; run_once returned or was left by an exception. *)
Inductive zevent := ERan (i : nat) | EThrew (i : nat) | EFlush | EReturned | ECaught.

(** What the main program still has to do, in order. *)
Inductive zseg :=
  | ZAct (a : mact)
  | ZBatch (b : batchrun)                                              (* stage.hpp:154-156 *)
  | ZSubmit (todo main : list sysrun) (parent : option nat)            (* stage.hpp:168-173 *)
  | ZMain (todo : list sysrun) (parent : option nat)                   (* stage.hpp:176-178 *)
  | ZWait (parent : option nat)                                        (* stage.hpp:180-182 *)
  | ZFlush                                                             (* schedule.hpp:96 *)
  | ZTry.                                                              (* the end of the try block *)

(** task.hpp:26-29 and 44-50: the task's function is still to be called; fetch_sub; the test behind it. *)
Inductive zpc := ZRun (t : nat) | ZSub (t : nat) | ZCheck (t : nat).
Record zworker := ZWorker { zw_queue : list nat; zw_cur : option zpc }.
Record ztask := ZTask { zt_task : task; zt_sys : sysrun }.

(** std::terminate, or the function of a task used an executor that does not exist any more. *)
Inductive zend := ZTerminated | ZDangling.

(** [z_dead]: the tasks before this one refer to executors that were destroyed (stage.hpp:169 captures a reference to an
    element of _executor_set). *)
Record zpool := ZPool {
  z_tasks : list ztask;
  z_workers : list zworker;
  z_code : list zseg;
  z_dead : nat;
  z_events : list zevent;
  z_end : option zend }.

Definition z_start (n : nat) (p : list mact) : zpool :=
  ZPool [] (replicate n (ZWorker [] None)) (ZAct <$> p) 0 [] None.

Definition z_set_tasks ts s := ZPool ts (z_workers s) (z_code s) (z_dead s) (z_events s) (z_end s).
Definition z_set_workers ws s := ZPool (z_tasks s) ws (z_code s) (z_dead s) (z_events s) (z_end s).
Definition z_set_code l s := ZPool (z_tasks s) (z_workers s) l (z_dead s) (z_events s) (z_end s).
Definition z_set_dead d s := ZPool (z_tasks s) (z_workers s) (z_code s) d (z_events s) (z_end s).
Definition z_log e s := ZPool (z_tasks s) (z_workers s) (z_code s) (z_dead s) (z_events s ++ [e]) (z_end s).
Definition z_set_end e s := ZPool (z_tasks s) (z_workers s) (z_code s) (z_dead s) (z_events s) (Some e).
Definition z_upd (f : zworker → zworker) (w : nat) (s : zpool) : zpool := z_set_workers (alter f w (z_workers s)) s.
Definition zw_set_queue q w := ZWorker q (zw_cur w).
Definition zw_set_cur c w := ZWorker (zw_queue w) c.
Definition zt_upd (f : task → task) (x : ztask) : ztask := ZTask (f (zt_task x)) (zt_sys x).

(** thread_pool.hpp:66-77 with task.hpp:18-23, on worker 0. *)
Definition z_submit (y : sysrun) (parent : option nat) (s : zpool) : zpool :=
  let ts := match parent with Some p => alter (zt_upd (upd_ctr inc16)) p (z_tasks s) | None => z_tasks s end in
  z_upd (λ x, zw_set_queue (zw_queue x ++ [length (z_tasks s)]) x) 0 (z_set_tasks (ts ++ [ZTask (Task parent 1 false) y]) s).

(** thread_pool.hpp:148-171, as [x_get_task] of PoolThrow.v; the task is then executed. *)
Definition z_get_task (w : nat) (v : option nat) (s : zpool) : option zpool :=
  x ← z_workers s !! w;
  match last (zw_queue x) with
  | Some t => Some (z_upd (zw_set_cur (Some (ZRun t))) w (z_upd (zw_set_queue (take (length (zw_queue x) - 1) (zw_queue x))) w s))
  | None =>
    match v with
    | None => Some s
    | Some j =>
      if decide (j = w) then None
      else
        y ← z_workers s !! j;
        match zw_queue y with
        | [] => Some s
        | t :: q => Some (z_upd (zw_set_cur (Some (ZRun t))) w (z_upd (zw_set_queue q) j s))
        end
    end
  end.

(** An exception in the main program goes to the end of the try block. *)
Fixpoint z_unwind (l : list zseg) : option (list zseg) :=
  match l with
  | [] => None
  | ZTry :: l => Some l
  | _ :: l => z_unwind l
  end.
Definition z_throw (w : nat) (s : zpool) : zpool :=
  match w with
  | 0 => match z_unwind (z_code s) with Some l => z_log ECaught (z_set_code l (z_upd (zw_set_cur None) 0 s)) | None => z_set_end ZTerminated s end
  | _ => z_set_end ZTerminated s                                       (* thread_pool.hpp:131 *)
  end.

(** A step of the main program. *)
Definition z_main (v : option nat) (s : zpool) : option zpool :=
  match z_code s with
  | [] => None
  | ZAct (MRun bs) :: l => Some (z_set_code ((ZBatch <$> bs) ++ ZFlush :: ZTry :: l) s)
  | ZAct MDestroy :: l => Some (z_set_dead (length (z_tasks s)) (z_set_code l s))
  | ZBatch b :: l => Some (z_set_code (ZSubmit (b_systems b) (b_main b) None :: l) s)
  | ZSubmit [] ms p :: l => Some (z_set_code (ZMain ms p :: l) s)
  | ZSubmit (y :: ys) ms p :: l => Some (z_set_code (ZSubmit ys ms (Some (default (length (z_tasks s)) p)) :: l) (z_submit y p s))
  | ZMain [] p :: l => Some (z_set_code (ZWait p :: l) s)
  | ZMain (y :: ys) p :: l =>
    Some (if y_throws y then z_throw 0 (z_log (EThrew (y_id y)) s) else z_log (ERan (y_id y)) (z_set_code (ZMain ys p :: l) s))
  | ZWait None :: l => Some (z_set_code l s)
  | ZWait (Some t) :: l =>                                             (* thread_pool.hpp:81-93 *)
    x ← z_tasks s !! t;
    if bool_decide (t_ctr (zt_task x) = 0%N) then Some (z_set_code l s) else z_get_task 0 v s
  | ZFlush :: l => Some (z_log EFlush (z_set_code l s))
  | ZTry :: l => Some (z_log EReturned (z_set_code l s))
  end.

(** One step of worker [w]; [v] is the choice made in get_task. *)
Definition z_step (w : nat) (v : option nat) (s : zpool) : option zpool :=
  match z_end s with
  | Some _ => None
  | None =>
    x ← z_workers s !! w;
    match zw_cur x with
    | Some (ZRun t) =>                                                 (* task.hpp:27, stage.hpp:169 *)
      x ← z_tasks s !! t;
      Some (if decide (t < z_dead s) then z_set_end ZDangling s
            else if y_throws (zt_sys x) then z_throw w (z_log (EThrew (y_id (zt_sys x))) s)
            else z_log (ERan (y_id (zt_sys x))) (z_upd (zw_set_cur (Some (ZSub t))) w (z_set_tasks (alter (zt_upd set_done) t (z_tasks s)) s)))
    | Some (ZSub t) =>                                                 (* task.hpp:45 *)
      Some (z_upd (zw_set_cur (Some (ZCheck t))) w (z_set_tasks (alter (zt_upd (upd_ctr dec16)) t (z_tasks s)) s))
    | Some (ZCheck t) =>                                               (* task.hpp:47-49 *)
      x ← z_tasks s !! t;
      Some (z_upd (zw_set_cur (if bool_decide (t_ctr (zt_task x) = 0%N) then ZSub <$> t_parent (zt_task x) else None)) w s)
    | None =>
      match w with
      | 0 => z_main v s
      | _ => z_get_task w v s                                          (* thread_pool.hpp:115-121 *)
      end
    end
  end.

Inductive z_reach (n : nat) (p : list mact) : zpool → Prop :=
  | zr_init : z_reach n p (z_start n p)
  | zr_step s w v s' : z_reach n p s → z_step w v s = Some s' → z_reach n p s'.

(** * What the program should do *)

(** Systems one after another until one throws. *)
Fixpoint ev_systems (ys : list sysrun) : list zevent * bool :=
  match ys with
  | [] => ([], false)
  | y :: ys => if y_throws y then ([EThrew (y_id y)], true) else let r := ev_systems ys in (ERan (y_id y) :: r.1, r.2)
  end.
(** The batches one after another; in each the systems of the main thread first, then the others, the last one first. *)
Definition ev_batch (b : batchrun) : list sysrun := b_main b ++ rev (b_systems b).
Definition ev_run (bs : list batchrun) : list zevent :=
  let r := ev_systems (concat (ev_batch <$> bs)) in
  r.1 ++ if r.2 then [ECaught] else [EFlush; EReturned].
Definition ev_act (a : mact) : list zevent := match a with MRun bs => ev_run bs | MDestroy => [] end.

(** Fewer than 2^16 systems in a batch. *)
Definition act_ok (a : mact) : Prop :=
  match a with MRun bs => Forall (λ b, (N.of_nat (length (b_systems b)) < 65536)%N) bs | MDestroy => True end.

(** The events of a program in which no system throws, whatever the threads do: batch after batch every system once. *)
Definition perm_batch (b : batchrun) (es : list zevent) : Prop :=
  es ≡ₚ (λ y, ERan (y_id y)) <$> (b_systems b ++ b_main b).
Definition perm_run (bs : list batchrun) (es : list zevent) : Prop :=
  ∃ ess, Forall2 perm_batch bs ess ∧ es = concat ess ++ [EFlush; EReturned].
Definition perm_act (a : mact) (es : list zevent) : Prop :=
  match a with MRun bs => perm_run bs es | MDestroy => es = [] end.
Definition perm_prog (p : list mact) (es : list zevent) : Prop :=
  ∃ ess, Forall2 perm_act p ess ∧ es = concat ess.

Definition calm_act (a : mact) : Prop :=
  match a with MRun bs => Forall (λ b, Forall (λ y, y_throws y = false) (b_systems b ++ b_main b)) bs | MDestroy => True end.
