(** Exceptions in the callback of parallel_for (thread_pool/parallel_for.hpp) on the pool of thread_pool.hpp.
    Any number of workers take steps in any order, as in ThreadPool.v and with its simplifications; moreover workers
    are not stopped, and the semaphore, which only shortens a timed wait, is left out.
    A scope is one call of parallel_for that has submitted batches: the variables [batches] and [func] to which the
    tasks' functions refer (parallel_for.hpp:27, 44) exist until that call returns or is left by an exception. *)
From Verif Require Import Base Task ParallelFor.
Local Open Scope nat_scope.

(** A program: the main program, or what the callback does for one element.  [XMark] is something visible that uses the
    callback's captures; [XEach elems k] is parallel_for (parallel_for.hpp:14-51) over a range for whose elements the
    callback is [elems], then [k]; [XTry p h k] is a try block with a handler for everything, then [k]. *)
Inductive xprog :=
  | XDone
  | XMark (m : nat) (k : xprog)
  | XThrow
  | XEach (elems : list xprog) (k : xprog)
  | XTry (p h k : xprog).

(** What a function still has to do, innermost first: code; a parallel_for that still submits (lines 40-48), with its
    scope; one that waits (line 49); the end of a try block. *)
Inductive seg :=
  | SRun (p : xprog)
  | SSubmit (sc : nat) (bodies : list (list xprog)) (parent : option nat)
  | SWait (sc t : nat)
  | STry (h : xprog).

(** As [fpc] and [frame] of ThreadPool.v. *)
Inductive xpc := XCode (l : list seg) | XSub (t : nat) | XCheck (t : nat).
Record xframe := XFrame { xf_task : option nat; xf_pc : xpc }.
Record xworker := XWorker { xw_queue : list nat; xw_stack : list xframe }.
(** task.hpp:52-54 with the scope to which the function refers; the function is a for_each over the batch
    (parallel_for.hpp:44). *)
Record xtask := XTask { xt_task : task; xt_scope : nat; xt_body : list xprog }.

(** The program was terminated (std::terminate), or a function used variables that do not exist any more. *)
Inductive xend := Terminated | Dangling.

(** [x_dead] are the scopes left so far, [x_next] the number of scopes so far, [x_trace] the marks so far,
    [x_threw] whether something was thrown so far. *)
Record xpool := XPool {
  x_tasks : list xtask;
  x_workers : list xworker;
  x_dead : list nat;
  x_next : nat;
  x_trace : list nat;
  x_threw : bool;
  x_end : option xend }.

(** thread_pool.hpp:217-239. *)
Definition x_start (n : nat) (p : xprog) : xpool :=
  XPool [] (XWorker [] [XFrame None (XCode [SRun p])] :: replicate (n - 1) (XWorker [] [])) [] 0 [] false None.

Definition x_set_tasks (ts : list xtask) (s : xpool) : xpool :=
  XPool ts (x_workers s) (x_dead s) (x_next s) (x_trace s) (x_threw s) (x_end s).
Definition x_set_workers (ws : list xworker) (s : xpool) : xpool :=
  XPool (x_tasks s) ws (x_dead s) (x_next s) (x_trace s) (x_threw s) (x_end s).
Definition x_set_dead (d : list nat) (s : xpool) : xpool :=
  XPool (x_tasks s) (x_workers s) d (x_next s) (x_trace s) (x_threw s) (x_end s).
Definition x_set_next (m : nat) (s : xpool) : xpool :=
  XPool (x_tasks s) (x_workers s) (x_dead s) m (x_trace s) (x_threw s) (x_end s).
Definition x_set_trace (l : list nat) (s : xpool) : xpool :=
  XPool (x_tasks s) (x_workers s) (x_dead s) (x_next s) l (x_threw s) (x_end s).
Definition x_set_threw (s : xpool) : xpool :=
  XPool (x_tasks s) (x_workers s) (x_dead s) (x_next s) (x_trace s) true (x_end s).
Definition x_set_end (e : xend) (s : xpool) : xpool :=
  XPool (x_tasks s) (x_workers s) (x_dead s) (x_next s) (x_trace s) (x_threw s) (Some e).
Definition xw_set_stack (st : list xframe) (w : xworker) : xworker := XWorker (xw_queue w) st.
Definition xw_set_queue (q : list nat) (w : xworker) : xworker := XWorker q (xw_stack w).
Definition x_upd (f : xworker → xworker) (w : nat) (s : xpool) : xpool := x_set_workers (alter f w (x_workers s)) s.
Definition xt_upd (f : task → task) (x : xtask) : xtask := XTask (f (xt_task x)) (xt_scope x) (xt_body x).

(** The variables to which the function of task [o] refers exist; the main program has no such. *)
Definition x_lives (s : xpool) (o : option nat) : bool :=
  match o with
  | None => true
  | Some t => match x_tasks s !! t with Some x => bool_decide (xt_scope x ∉ x_dead s) | None => true end
  end.

(** thread_pool.hpp:66-77 with task.hpp:18-23. *)
Definition x_submit (w sc : nat) (b : list xprog) (parent : option nat) (s : xpool) : xpool :=
  let ts := match parent with Some p => alter (xt_upd (upd_ctr inc16)) p (x_tasks s) | None => x_tasks s end in
  x_upd (λ x, xw_set_queue (xw_queue x ++ [length (x_tasks s)]) x) w (x_set_tasks (ts ++ [XTask (Task parent 1 false) sc b]) s).

(** thread_pool.hpp:183-188, task.hpp:26-27, parallel_for.hpp:44: the task's function begins with the batch it refers to. *)
Definition x_execute (w t : nat) (s : xpool) : option xpool :=
  x ← x_tasks s !! t;
  Some (if x_lives s (Some t) then x_upd (λ y, xw_set_stack (XFrame (Some t) (XCode (SRun <$> xt_body x)) :: xw_stack y) y) w s
        else x_set_end Dangling s).

(** thread_pool.hpp:148-171, as [get_task] of ThreadPool.v. *)
Definition x_get_task (w : nat) (v : option nat) (s : xpool) : option (option nat * xpool) :=
  x ← x_workers s !! w;
  match last (xw_queue x) with
  | Some t => Some (Some t, x_upd (xw_set_queue (pop_back (xw_queue x))) w s)
  | None =>
    match v with
    | None => Some (None, s)
    | Some j =>
      if decide (j = w) then None
      else
        y ← x_workers s !! j;
        match xw_queue y with
        | [] => Some (None, s)
        | t :: q => Some (Some t, x_upd (xw_set_queue q) j s)
        end
    end
  end.

(** An exception leaves the code of a function up to the innermost try block, with the scopes it leaves; [None] if it
    leaves the function. *)
Fixpoint unwind_code (l : list seg) : list nat * option (list seg) :=
  match l with
  | [] => ([], None)
  | SRun _ :: l => unwind_code l
  | (SSubmit sc _ _ | SWait sc _) :: l => let '(ds, r) := unwind_code l in (sc :: ds, r)
  | STry h :: l => ([], Some (SRun h :: l))
  end.
(** It leaves execute (task.hpp:26-29) without finish, and the wait (thread_pool.hpp:81-93) that called it. *)
Fixpoint unwind (st : list xframe) : list nat * list xframe :=
  match st with
  | [] => ([], [])
  | XFrame o (XCode l) :: st =>
    match unwind_code l with
    | (ds, Some l) => (ds, XFrame o (XCode l) :: st)
    | (ds, None) => let '(ds', st') := unwind st in (ds ++ ds', st')
    end
  | _ :: st => unwind st
  end.
(** A throw on worker [w] with the calls [st]: if no handler is found, it leaves main or the function of a thread
    (thread_pool.hpp:131), and the program is terminated. *)
Definition x_throw (w : nat) (st : list xframe) (s : xpool) : xpool :=
  let '(ds, st') := unwind st in
  let s := x_set_threw (x_set_dead (x_dead s ++ ds) s) in
  match st' with
  | [] => x_set_end Terminated s
  | _ => x_upd (xw_set_stack st') w s
  end.

(** One step of worker [w] whose innermost call is the code [l] of the function of task [o]. *)
Definition x_code (w : nat) (v o : option nat) (l : list seg) (st : list xframe) (s : xpool) : option xpool :=
  let goto l := x_upd (xw_set_stack (XFrame o (XCode l) :: st)) w in
  match l with
  | [] =>                                                              (* the function returns *)
    match o with
    | Some t => Some (x_upd (xw_set_stack (XFrame o (XSub t) :: st)) w (x_set_tasks (alter (xt_upd set_done) t (x_tasks s)) s))
    | None => Some (x_upd (xw_set_stack st) w s)
    end
  | SRun XDone :: l => Some (goto l s)
  | SRun (XMark m k) :: l =>
    Some (if x_lives s o then goto (SRun k :: l) (x_set_trace (x_trace s ++ [m]) s) else x_set_end Dangling s)
  | SRun XThrow :: l => Some (x_throw w (XFrame o (XCode l) :: st) s)
  | SRun (XEach elems k) :: l =>
    match pf_batches (length (x_workers s)) (length elems) with
    | None => Some (goto ((SRun <$> elems) ++ SRun k :: l) s)          (* parallel_for.hpp:19-21 *)
    | Some bs => Some (goto (SSubmit (x_next s) (subrange elems <$> bs) None :: SRun k :: l) (x_set_next (S (x_next s)) s))
    end
  | SRun (XTry p h k) :: l => Some (goto (SRun p :: STry h :: SRun k :: l) s)
  | STry _ :: l => Some (goto l s)
  | SSubmit sc (b :: bs) parent :: l =>                                (* parallel_for.hpp:43-48 *)
    Some (goto (SSubmit sc bs (Some (default (length (x_tasks s)) parent)) :: l) (x_submit w sc b parent s))
  | SSubmit sc [] (Some t) :: l => Some (goto (SWait sc t :: l) s)
  | SSubmit _ [] None :: l => Some (goto l s)
  | SWait sc t :: l =>                                                 (* thread_pool.hpp:81-93 *)
    x ← x_tasks s !! t;
    if bool_decide (t_ctr (xt_task x) = 0%N) then Some (goto l (x_set_dead (x_dead s ++ [sc]) s))
    else
      r ← x_get_task w v s;
      match r.1 with
      | Some u => x_execute w u r.2
      | None => Some r.2
      end
  end.

(** One step of worker [w]; [v] is the choice made in get_task. *)
Definition x_step (w : nat) (v : option nat) (s : xpool) : option xpool :=
  match x_end s with
  | Some _ => None
  | None =>
    x ← x_workers s !! w;
    match xw_stack x with
    | XFrame o (XCode l) :: st => x_code w v o l st s
    | XFrame o (XSub t) :: st =>                                       (* task.hpp:45 *)
      Some (x_upd (xw_set_stack (XFrame o (XCheck t) :: st)) w (x_set_tasks (alter (xt_upd (upd_ctr dec16)) t (x_tasks s)) s))
    | XFrame o (XCheck t) :: st =>                                     (* task.hpp:47-49 *)
      x ← x_tasks s !! t;
      match (if bool_decide (t_ctr (xt_task x) = 0%N) then t_parent (xt_task x) else None) with
      | Some p => Some (x_upd (xw_set_stack (XFrame o (XSub p) :: st)) w s)
      | None => Some (x_upd (xw_set_stack st) w s)
      end
    | [] =>
      match w with
      | 0 => None                                                      (* main has returned *)
      | _ =>                                                           (* thread_pool.hpp:115-121 *)
        r ← x_get_task w v s;
        match r.1 with
        | Some u => x_execute w u r.2
        | None => Some r.2
        end
      end
    end
  end.

Inductive x_reach (n : nat) (p : xprog) : xpool → Prop :=
  | xr_init : x_reach n p (x_start n p)
  | xr_step s w v s' : x_reach n p s → x_step w v s = Some s' → x_reach n p s'.

(** * What the program means without threads *)

(** [r] after [t] unless [t] threw. *)
Definition x_then (t r : list nat * bool) : list nat * bool := if t.2 then t else (t.1 ++ r.1, r.2).
(** The marks, and whether the program ends with an exception. *)
Fixpoint x_eval (p : xprog) : list nat * bool :=
  match p with
  | XDone => ([], false)
  | XMark m k => x_then ([m], false) (x_eval k)
  | XThrow => ([], true)
  | XEach elems k => x_then ((fix go l := match l with [] => ([], false) | e :: l => x_then (x_eval e) (go l) end) elems) (x_eval k)
  | XTry p h k =>
    let r := x_eval p in
    x_then (if r.2 then x_then (r.1, false) (x_eval h) else r) (x_eval k)
  end.

(** Every range is shorter than the number of workers, or there is only one worker. *)
Fixpoint x_small (n : nat) (p : xprog) : Prop :=
  match p with
  | XDone | XThrow => True
  | XMark _ k => x_small n k
  | XEach elems k => (n = 1 ∨ length elems < n) ∧ (fix go l := match l with [] => True | e :: l => x_small n e ∧ go l end) elems ∧ x_small n k
  | XTry p h k => x_small n p ∧ x_small n h ∧ x_small n k
  end.
