(** Model of the life of thread pools and of the thread-local pointer to the current worker
    (thread_pool.hpp:57-61, 106-109, 215-284, 335). *)
From Verif Require Import Base.

(** A thread: one of the program's own, or the thread of worker [i] of pool [p]. *)
Notation thread := (nat + nat * nat)%type.
Definition own (k : nat) : thread := inl k.
Definition worker (p i : nat) : thread := inr (p, i).

(** Pools are numbered in the order of construction.  [pl_live]: not yet destroyed.  Simplification: tasks are
    modelled in ThreadPool.v, not here. *)
Record poolobj := PoolObj { pl_maker : thread; pl_size : nat; pl_live : bool }.

(** thread_pool.hpp:335 _instance, the objects, the object that is the local static of get() once that was initialised
    (line 266), and the thread_local current_worker of every thread (line 106): a worker of a pool, or null. *)
Record pctx := PCtx {
  px_instance : option nat;
  px_pools : list poolobj;
  px_static : option nat;
  px_current : gmap (nat + nat * nat) (nat * nat) }.
Definition pctx_init : pctx := PCtx None [] None ∅.

(** Calls of a thread: the constructor with a number of workers; the destructor of pool [p] (of the local static: at
    the end of the program); get(); submit() or wait(); parallel_for over [len] elements; the execution of
    a batch of [len] systems. *)
Inductive pcall :=
| PConstruct (n : nat)
| PDestroy (p : nat)
| PGet
| PSubmit
| PParallelFor (len : nat)
| PBatch (len : nat).

(** [PThrow]: std::logic_error.  [PTerminate]: std::terminate. *)
Inductive pout := POk | PThrow | PTerminate | PUB.
Global Instance pout_dec : EqDecision pout.
Proof. solve_decision. Defined.

(** thread_pool.hpp:217-239: the constructor.  No worker: failed assertion.  The background workers set their
    current_worker when their thread starts (line 109).  Simplifications: this is part of the constructor, as they
    run no task before; the constructor does not fail (see PoolFail.v). *)
Definition px_construct (t : thread) (n : nat) (st : pctx) : pctx * pout :=
  if decide (n = 0) then (st, PUB)
  else
    match px_instance st with
    | Some _ => (st, PThrow)
    | None =>
        let p := length (px_pools st) in
        (PCtx (Some p) (px_pools st ++ [PoolObj t n true]) (px_static st)
           (foldr (λ i m, <[worker p i := (p, i)]> m) (<[t := (p, 0)]> (px_current st)) (seq 1 (n - 1))), POk)
    end.

(** thread_pool.hpp:242-254: the destructor.  A worker that destroys its own pool joins itself, which throws in a
    destructor.  Destroying an object twice is undefined.  The current_worker of the threads stays. *)
Definition is_worker (t : thread) (p n : nat) : bool :=
  match t with inl _ => false | inr (q, i) => bool_decide (q = p ∧ 1 ≤ i < n) end.
Definition px_destroy (t : thread) (p : nat) (st : pctx) : pctx * pout :=
  match px_pools st !! p with
  | Some o =>
      if pl_live o then
        if is_worker t p (pl_size o) then (st, PTerminate)
        else (PCtx None (<[p := PoolObj (pl_maker o) (pl_size o) false]> (px_pools st)) (px_static st) (px_current st), POk)
      else (st, PUB)
  | None => (st, PUB)
  end.

Section ctx.
(** std::thread::hardware_concurrency(). *)
Variable hw : nat.

(** thread_pool.hpp:264-271: get().  The local static is constructed when no instance is found for the first time; the
    next time _instance becomes its address again; that it is used although it was destroyed is undefined.  The
    result is the pool. *)
Definition px_get (t : thread) (st : pctx) : pctx * (pout * nat) :=
  match px_instance st with
  | Some p => (st, (POk, p))
  | None =>
      match px_static st with
      | Some p =>
          match px_pools st !! p with
          | Some o => (PCtx (Some p) (px_pools st) (Some p) (px_current st), (if pl_live o then POk else PUB, p))
          | None => (st, (PUB, p))
          end
      | None =>
          let '(st', o) := px_construct t hw st in
          match o with
          | POk => (PCtx (Some (length (px_pools st))) (px_pools st') (Some (length (px_pools st))) (px_current st'), (POk, length (px_pools st)))
          | _ => (st', (o, 0))
          end
      end
  end.

(** thread_pool.hpp:276-284 and 59-61: through current_worker, not through the object. *)
Definition px_submit (t : thread) (st : pctx) : pout :=
  match px_current st !! t with
  | None => PUB
  | Some (p, _) => match px_pools st !! p with Some o => if pl_live o then POk else PUB | None => PUB end
  end.

(** parallel_for.hpp:14-22 and 42-50. *)
Definition px_parallel_for (t : thread) (len : nat) (st : pctx) : pctx * pout :=
  let '(st', (o, p)) := px_get t st in
  match o with
  | POk =>
      match px_pools st' !! p with
      | Some x => if pl_live x then (if decide (len / pl_size x < 1) then (st', POk) else (st', px_submit t st')) else (st', PUB)
      | None => (st', PUB)
      end
  | _ => (st', o)
  end.

(** stage.hpp:164-184, without main-thread systems. *)
Definition px_batch (t : thread) (len : nat) (st : pctx) : pctx * pout :=
  let '(st', (o, p)) := px_get t st in
  match o with
  | POk => if decide (len = 0) then (st', POk) else
      match px_pools st' !! p with
      | Some x => if pl_live x then (st', px_submit t st') else (st', PUB)
      | None => (st', PUB)
      end
  | _ => (st', o)
  end.

Definition pstep (t : thread) (c : pcall) (st : pctx) : pctx * pout :=
  match c with
  | PConstruct n => px_construct t n st
  | PDestroy p => px_destroy t p st
  | PGet => let '(st', (o, _)) := px_get t st in (st', o)
  | PSubmit => (st, px_submit t st)
  | PParallelFor len => px_parallel_for t len st
  | PBatch len => px_batch t len st
  end.
End ctx.

(** * Specification *)

(** Pool [p] with [n] workers, constructed by [t], exists. *)
Definition exists_pool (st : pctx) (p : nat) (t : thread) (n : nat) : Prop := px_pools st !! p = Some (PoolObj t n true).
(** A thread that runs: one of the program's own, or a worker of an existing pool. *)
Definition running (st : pctx) (t : thread) : Prop :=
  match t with
  | inl _ => True
  | inr (p, i) => ∃ u n, exists_pool st p u n ∧ 1 ≤ i < n
  end.
(** The thread constructed the existing pool, or is one of its workers. *)
Definition member (st : pctx) (t : thread) : Prop :=
  ∃ p u n, exists_pool st p u n ∧ (t = u ∨ ∃ i, t = worker p i ∧ 1 ≤ i < n).

(** Histories of calls that neither are undefined nor terminate the program.  Calls are not concurrent. *)
Inductive preach (hw : nat) : pctx → Prop :=
| PReach0 : preach hw pctx_init
| PReachS st t c st' o : preach hw st → running st t → pstep hw t c st = (st', o) → o ≠ PUB → o ≠ PTerminate → preach hw st'.
