(** The bodies of systems that go over their views, and the concurrent execution of the systems of a batch
    (system/stage.hpp:164-184) on the registry. *)
From Verif Require Import Base Bits Layout HandlePool SparseMap HashTable Bitset ComponentSet Chunk Archetype Registry View
  ParEach Command CommandSpec SysCommand.

(** The body of a system: it returns, or calls each(func), single() or par_each(func) of a view parameter
    (view.hpp:106-113, 63-71, 132-151) and goes on depending on what it saw.  Callbacks of each are as in View.v:
    what one assigns may depend on the earlier calls of the same loop, and through the continuation on all earlier
    loops.  Between these calls
    it may call its command_writer (SysCommand.v); here these calls are only listed, SysFrame.v has their
    effect.  Simplifications: a body is deterministic, ends, does not throw, uses no other parameters than its
    views and a command_writer, the callback of par_each only uses its own arguments ([pcallback] in ParEach.v;
    [nw] is num_workers() at the call), and makes no such calls inside of a callback (a body whose callback does so
    corresponds to one that makes them behind the loop: the loop's calls see no effect of them); what single()
    returns is read at once and not written through; the user's code is not part of the library. *)
Inductive sprog :=
| PRet
| PEach (rq : list vreq) (f : callback) (k : vlog → sprog)
| PSingle (rq : list vreq) (k : option (list cell) → sprog)
| PPar (nw : nat) (rq : list vreq) (f : pcallback) (k : sprog)
| PCmd (c : scmd) (k : sprog).

(** A task running a body: between two calls, inside of each with the loop's state and the arguments of
    the loop's calls so far, or inside of par_each with the tasks it submitted; [out]: its calls of the
    command_writer so far. *)
Inductive sthread :=
| TAt (p : sprog) (out : list scmd)
| TIn (rq : list vreq) (f : callback) (k : vlog → sprog) (t : ptask) (log : vlog) (out : list scmd)
| TPar (rq : list vreq) (f : pcallback) (k : sprog) (ts : list ptask) (out : list scmd).

Section run.
Variable U : universe.

(** The body alone, with par_each as each; the result are the calls of the command_writer. *)
Fixpoint run_prog (p : sprog) (out : list scmd) : M registry (list scmd) :=
  match p with
  | PRet => ret out
  | PEach rq f k => let! log := rg_each U rq f in run_prog (k log) out
  | PSingle rq k => let! x := rg_single U rq in run_prog (k x) out
  | PPar _ rq f k => let! _ := rg_each U rq (λ _, f) in run_prog k out
  | PCmd c k => run_prog k (out ++ [c])
  end.
(** The bodies one after another. *)
Fixpoint run_progs (ps : list sprog) : M registry (list (list scmd)) :=
  match ps with
  | [] => ret []
  | p :: ps => let! out := run_prog p [] in let! outs := run_progs ps in ret (out :: outs)
  end.

(** One step of a task: beginning or ending a loop, entering or leaving a chunk, one call of the callback (as
    [pe_step] in ParEach.v: view.hpp:106-113, chunk.hpp:397-426, 449-458), single(), or a call of the
    command_writer; inside of par_each a step of the submitted task number [a], and the return when all of them have
    returned (parallel_for.hpp:49, C55).  [None]: the task, or the submitted task, has returned.
    Simplifications: a call of the callback is one step and so is single() (C64_no_race shows that
    concurrent steps touch no common object that one of them writes); the elements of the lazy range of chunks
    are computed when the loop starts. *)
Definition th_step (a : nat) (x : sthread) : option (M registry sthread) :=
  match x with
  | TAt PRet _ => None
  | TAt (PEach rq f k) out =>
      Some (let! r := get in
            let! cs := pe_chunks U rq (ht_iter (rg_table r)) in
            ret (TIn rq f k (PTask cs None) [] out))
  | TAt (PSingle rq k) out => Some (let! x := rg_single U rq in ret (TAt (k x) out))
  | TAt (PPar nw rq f k) out => Some (let! ts := pe_start U rq nw in ret (TPar rq f k ts out))
  | TAt (PCmd c k) out => Some (ret (TAt k (out ++ [c])))
  | TIn rq f k t log out =>
      match pe_step U rq (f log) t with
      | Some m => Some (let! x := m in ret (TIn rq f k x.1 (log ++ x.2) out))
      | None => Some (ret (TAt (k log) out))
      end
  | TPar rq f k ts out =>
      match ts !! a ≫= pe_step U rq f with
      | Some m => Some (let! x := m in ret (TPar rq f k (<[a := x.1]> ts) out))
      | None => if forallb (λ t, match t with PTask [] None => true | _ => false end) ts then Some (ret (TAt k out)) else None
      end
  end.

(** stage.hpp:170-176: the tasks of a batch and the registry; any task may make the next step. *)
Record bconf := BConf { bc_tasks : list sthread; bc_reg : registry }.

Inductive b_run : bconf → bconf → Prop :=
  | BRun c i a x m r' x' : bc_tasks c !! i = Some x → th_step a x = Some m → m (bc_reg c) = (r', Ok x') →
      b_run c (BConf (<[i := x']> (bc_tasks c)) r').

(** stage.hpp:182-183: the wait ends when all tasks have returned (C37). *)
Definition b_done (c : bconf) : Prop := Forall (λ x, ∃ out, x = TAt PRet out) (bc_tasks c).
Definition b_start (ps : list sprog) (r : registry) : bconf := BConf ((λ p, TAt p []) <$> ps) r.
Definition out_of (x : sthread) : list scmd := match x with TAt _ out | TIn _ _ _ _ _ out | TPar _ _ _ _ out => out end.

(** stage.hpp:153-157 without main-thread systems: the batches one after another, each ending in any of its
    final states; with the systems' calls of the command_writer. *)
Inductive stage_run : list (list sprog) → registry → list (list scmd) → registry → Prop :=
  | SRnil r : stage_run [] r [] r
  | SRcons ps pss r c outs r' : rtc b_run (b_start ps r) c → b_done c → stage_run pss (bc_reg c) outs r' →
      stage_run (ps :: pss) r ((out_of <$> bc_tasks c) ++ outs) r'.
End run.
