(** Constructors of thread pools that fail (thread_pool.hpp:217-239, 130-132, 264-271), and the numbers of workers. *)
From Verif Require Import Base PoolContext.

(** thread_pool.hpp:219, 228 and 233, 238 with 131: what throws: the allocation of the vector, the allocation of worker [i]
    or of its queue, the start of the thread of worker [i]. *)
Inductive pfail := FReserve | FWorker (i : nat) | FStart (i : nat).
(** The failure can occur in the constructor of a pool with [n] workers. *)
Definition pf_ok (n : nat) (f : pfail) : Prop :=
  match f with FReserve => True | FWorker i => i < n | FStart i => 1 ≤ i < n end.

(** thread_pool.hpp:217-239: the constructor in which [f] fails.  The destructor does not run, only those of the members: the
    workers are destroyed, and destroying a worker whose thread was started is std::terminate, since the thread is joinable.
    _instance and the current_worker of the thread (once it was set, line 229) stay.  The object is recorded as destroyed.
    [PThrow] stands for any exception here. *)
Definition px_construct_fail (t : thread) (n : nat) (f : pfail) (st : pctx) : pctx * pout :=
  if decide (n = 0) then (st, PUB)
  else
    match f with
    | FReserve => (st, PThrow)
    | _ =>
        match px_instance st with
        | Some _ => (st, PThrow)
        | None =>
            let p := length (px_pools st) in
            let dead cur := PCtx (Some p) (px_pools st ++ [PoolObj t n false]) (px_static st) cur in
            match f with
            | FWorker 0 => (dead (px_current st), PThrow)
            | FStart (S (S _)) => (st, PTerminate)
            | _ => (dead (<[t := (p, 0)]> (px_current st)), PThrow)
            end
        end
    end.

(** thread_pool.hpp:264-271: the initialisation of the local static fails: it is not initialised. *)
Definition px_get_fail (hw : nat) (t : thread) (f : pfail) (st : pctx) : pctx * pout :=
  match px_instance st, px_static st with
  | None, None => px_construct_fail t hw f st
  | _, _ => let '(st', (o, _)) := px_get hw t st in (st', o)
  end.

(** A call, with what fails in the constructor that it runs, if it runs one. *)
Definition fstep (hw : nat) (t : thread) (c : pcall) (f : option pfail) (st : pctx) : pctx * pout :=
  match f, c with
  | Some f, PConstruct n => px_construct_fail t n f st
  | Some f, PGet => px_get_fail hw t f st
  | _, _ => pstep hw t c st
  end.

(** Histories of such calls behind a state, up to the first that is undefined or terminates the program. *)
Inductive fruns (hw : nat) : pctx → pctx → Prop :=
| FRuns0 st : fruns hw st st
| FRunsS st st1 t c f st2 o : fruns hw st st1 → running st1 t → fstep hw t c f st1 = (st2, o) → o ≠ PUB → o ≠ PTerminate → fruns hw st st2.

(** thread_pool.hpp:48-55, 204-208, 228-234: the workers, each with its _id; the parameter of the constructor is uint16_t, the loop
    variable is an int.  Simplification: there are fewer than 2^31 workers. *)
Definition as_u16 (i : nat) : N := (N.of_nat i mod 65536)%N.
Definition pool_workers (n : nat) : list N := as_u16 0 :: (as_u16 <$> seq 1 (n - 1)).
(** thread_pool.hpp:289-291: the position of the worker; the exception of at() leaves a noexcept function. *)
Definition worker_by_id (ws : list N) (id : N) : nat + pout :=
  match ws !! N.to_nat id with Some _ => inl (N.to_nat id) | None => inr PTerminate end.
(** thread_pool.hpp:311-323: [d] is what the random engine gives. *)
Definition random_worker (ws : list N) (d : nat) : option nat :=
  if decide (length ws = 1) then None else Some (1 + d mod (length ws - 1)).
