(** Model of view::par_each (view.hpp:132-151) over parallel_for (parallel_for.hpp:12-51): the tasks go over
    their batches of chunks, and their steps interleave. *)
From Verif Require Import Base Bits Layout HandlePool SparseMap HashTable Bitset ComponentSet Chunk Archetype Registry View
  ParallelFor.

(** A callback that only uses its own arguments: from the arguments of a call, the value assigned to every
    requested mutable component.  Otherwise as [callback] in View.v. *)
Notation pcallback := (list cell → cid → option val).

(** An element of view.chunks() (view.hpp:153-163): the chunk with a number of an archetype, and the blocks
    its chunk_view reads (chunk.hpp:433-435). *)
Record pchunk := PChunk { pc_arch : option nat; pc_blocks : blocks; pc_index : nat }.

(** A task: the chunks of its batch it has not begun, and in the chunk at hand the iterator and the end
    (view.hpp:136, 148: the inner for_each). *)
Record ptask := PTask { pt_todo : list pchunk; pt_cur : option (pchunk * list N * list N) }.

Section par_each.
Variable U : universe.

(** view.hpp:173-188: the chunks of the matching archetypes.  Simplification: the elements of this lazy range
    are computed when par_each starts; the tasks change neither the table nor an archetype's components or
    vector of chunks, on which they depend. *)
Fixpoint pe_chunks (rq : list vreq) (l : list (bitset * option nat)) : M registry (list pchunk) :=
  match l with
  | [] => ret []
  | e :: l =>
      let! ar := rg_arch e.2 in
      let! cs := pe_chunks rq l in
      ret ((if forallb (vw_match U ar) (vr_cid <$> rq)
            then PChunk e.2 (ar_blocks ar) <$> seq 0 (length (ar_chunks ar)) else []) ++ cs)
  end.

(** parallel_for.hpp:13-45: one task for every batch, or the caller alone (lines 19-21). *)
Definition pe_start (rq : list vreq) (num_workers : nat) : M registry (list ptask) :=
  let! r := get in
  let! cs := pe_chunks rq (ht_iter (rg_table r)) in
  ret (match pf_batches num_workers (length cs) with
       | None => [PTask cs None]
       | Some bs => (λ b, PTask (subrange cs b) None) <$> bs
       end).

(** One step of a task: entering a chunk (chunk.hpp:449-458), leaving it at its end, or one call of the
    callback and ++ (chunk.hpp:397-400, 416-418).  The result has the arguments of the call, if any.  [None]:
    the task has returned.  Simplification: a call of the callback is one step; [C60_no_shared_chunk] shows
    that no other task is in the same chunk at that time. *)
Definition pe_step (rq : list vreq) (f : pcallback) (t : ptask) : option (M registry (ptask * vlog)) :=
  match pt_cur t with
  | Some (c, ps, e) =>
      Some (if it_eqb ps e then ret (PTask (pt_todo t) None, [])
            else let! log := on_arch (pc_arch c) (on_chunk (pc_index c) (vw_call rq (λ _, f) [] ps)) in
                 ret (PTask (pt_todo t) (Some (c, it_incr U rq ps, e)), log))
  | None =>
      match pt_todo t with
      | [] => None
      | c :: todo =>
          Some (let! be := on_arch (pc_arch c) (on_chunk (pc_index c)
                   (let! k := get in
                    let! b := it_new (pc_blocks c) rq 0 in
                    let! e := it_new (pc_blocks c) rq (ck_size k) in
                    ret (b, e))) in
                ret (PTask todo (Some (c, be.1, be.2)), []))
      end
  end.

(** The tasks, the registry, and the arguments of all calls so far; any task may make the next step. *)
Record pconf := PConf { pf_tasks : list ptask; pf_reg : registry; pf_log : vlog }.

Inductive pe_run (rq : list vreq) (f : pcallback) : pconf → pconf → Prop :=
  | PeRun c i t m r' t' l : pf_tasks c !! i = Some t → pe_step rq f t = Some m → m (pf_reg c) = (r', Ok (t', l)) →
      pe_run rq f c (PConf (<[i := t']> (pf_tasks c)) r' (pf_log c ++ l)).

(** par_each returns when every task has returned (parallel_for.hpp:49, C55). *)
Definition pe_done (c : pconf) : Prop := Forall (λ t, t = PTask [] None) (pf_tasks c).
End par_each.
