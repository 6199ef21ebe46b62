(** Model of view.hpp:89-127 with callbacks (or bodies of a range-based for over each()) that use the registry. *)
From Verif Require Import Base Bits Layout HandlePool SparseMap HashTable Bitset ComponentSet Chunk Archetype Registry View RegSpec.

(** A program over one registry: return; throw; call an operation and go on with its outcome; run each(func),
    where [g], given the earlier calls of func and its arguments, is what func does, and go on with the calls
    made (or the exception that left the loop).
    Simplification: func reads its arguments when it is called; a later read or write through one of its
    references is a call of get or set. *)
Inductive rprog :=
| RRet
| RRaise (e : exn)
| RCall (op : rop) (k : outcome rres → rprog)
| REach (rq : list vreq) (g : vlog → list cell → rprog) (k : outcome vlog → rprog).

Section each_ops.
Variable U : universe.

(** An operation called while loops are on the way through the chunks of the archetypes [ws].  The loops hold an
    iterator into the table of archetypes and one into the vector of chunks of their archetype (view.hpp:173-188): these
    stay valid while neither the table nor the vector changes.  Simplification: any change of the table or of
    the number of chunks counts as invalidation. *)
Definition chunk_count (r : registry) (p : option nat) : option nat :=
  ar ← p ≫= (rg_heap r !!.); Some (length (ar_chunks ar)).
Definition iters_ok (ws : list (option nat)) (r r' : registry) : bool :=
  match ws with
  | [] => true
  | _ => bool_decide (ht_iter (rg_table r') = ht_iter (rg_table r)) &&
         bool_decide (length (ht_slots (rg_table r')) = length (ht_slots (rg_table r))) &&
         forallb (λ p, bool_decide (chunk_count r' p = chunk_count r p)) ws
  end.
Definition rp_call (ws : list (option nat)) (op : rop) : M registry (outcome rres) := λ r,
  let '(r', o) := run_rop U op r in
  match o with
  | UB => (r', UB)
  | _ => if iters_ok ws r r' then (r', Ok o) else (r', UB)
  end.

(** view.hpp:110-112: [ps] and [e] are the pointers of the iterators at the current row and at the end, taken
    when the loop over the chunk began; they are dereferenced (chunk.hpp:416-418) row by row. *)
Fixpoint ev_rows (fuel : nat) (rq : list vreq) (cb : option nat → vlog → list cell → M registry unit)
    (p : option nat) (j : nat) (ps e : list N) (log : vlog) : M registry vlog :=
  match fuel with
  | 0 => ub
  | S n =>
      if it_eqb ps e then ret log
      else
        let! xs := on_arch p (on_chunk j (it_deref ps)) in
        cb p log xs ;;!
        ev_rows n rq cb p j (it_incr U rq ps) e (log ++ [xs])
  end.

(** chunk.hpp:449-458: begin() and end() of a chunk. *)
Definition ev_bounds (bl : blocks) (rq : list vreq) : M chunk (nat * list N * list N) :=
  let! k := get in
  let! b := it_new bl rq 0 in
  let! e := it_new bl rq (ck_size k) in
  ret (ck_size k, b, e).

(** view.hpp:173-188. *)
Fixpoint ev_chunks (p : option nat) (bl : blocks) (rq : list vreq) (cb : option nat → vlog → list cell → M registry unit)
    (js : list nat) (log : vlog) : M registry vlog :=
  match js with
  | [] => ret log
  | j :: js =>
      let! x := on_arch p (on_chunk j (ev_bounds bl rq)) in
      let! log' := ev_rows (S x.1.1) rq cb p j x.1.2 x.2 log in
      ev_chunks p bl rq cb js log'
  end.
Fixpoint ev_archs (rq : list vreq) (cb : option nat → vlog → list cell → M registry unit)
    (l : list (bitset * option nat)) (log : vlog) : M registry vlog :=
  match l with
  | [] => ret log
  | e :: l =>
      let! ar := rg_arch e.2 in
      let! log' := (if forallb (vw_match U ar) (vr_cid <$> rq)
                    then ev_chunks e.2 (ar_blocks ar) rq cb (seq 0 (length (ar_chunks ar))) log
                    else ret log) in
      ev_archs rq cb l log'
  end.
(** view.hpp:106-127. *)
Definition ev_each (rq : list vreq) (cb : option nat → vlog → list cell → M registry unit) : M registry vlog :=
  let! r := get in ev_archs rq cb (ht_iter (rg_table r)) [].

(** Running a program inside loops over the archetypes [ws].  An exception of func leaves its loop. *)
Fixpoint run_rprog (ws : list (option nat)) (p : rprog) : M registry unit :=
  match p with
  | RRet => ret tt
  | RRaise e => λ r, (r, Throw e)
  | RCall op k => let! o := rp_call ws op in run_rprog ws (k o)
  | REach rq g k => λ r,
      let '(r', o) := ev_each rq (λ p log xs, run_rprog (p :: ws) (g log xs)) r in
      match o with UB => (r', UB) | _ => run_rprog ws (k o) r' end
  end.

(** * The abstract machine *)

(** [hs] are the entities that have the requested components. *)
Definition names (rq : list vreq) (w : world) (hs : list handle) : Prop :=
  NoDup hs ∧ ∀ h, h ∈ hs ↔ ∃ m, w !! h = Some m ∧ matches U rq (h, m).

(** [cb] is run for the entities [hs] in turn, each with the components it has by then, until one throws. *)
Fixpoint sp_loop (rq : list vreq) (cb : vlog → list cell → sreg → outcome unit → sreg → Prop)
    (hs : list handle) (log : vlog) (s : sreg) (o : outcome vlog) (s' : sreg) : Prop :=
  match hs with
  | [] => o = Ok log ∧ s' = s
  | h :: hs => ∃ m o1 s1, sr_world s !! h = Some m ∧ matches U rq (h, m) ∧ cb log (args_of U rq (h, m)) s o1 s1 ∧
      match o1 with
      | Ok _ => sp_loop rq cb hs (log ++ [args_of U rq (h, m)]) s1 o s'
      | Throw e => o = Throw e ∧ s' = s1
      | UB => False
      end
  end.
(** Every call has the effect it has outside of a loop. *)
Fixpoint sp_prog (p : rprog) (s : sreg) (o : outcome unit) (s' : sreg) : Prop :=
  match p with
  | RRet => o = Ok tt ∧ s' = s
  | RRaise e => o = Throw e ∧ s' = s
  | RCall op k => ∃ o1 s1, o1 ≠ UB ∧ rnext U s op o1 s1 ∧ sp_prog (k o1) s1 o s'
  | REach rq g k => ∃ hs o1 s1, names rq (sr_world s) hs ∧ o1 ≠ UB ∧
      sp_loop rq (λ log xs, sp_prog (g log xs)) hs [] s o1 s1 ∧ sp_prog (k o1) s1 o s'
  end.

(** * Calls that do not move an entity *)

(** The same entities with the same component types, and the same handles. *)
Definition alike (s s' : sreg) : Prop :=
  sr_issued s' = sr_issued s ∧ sr_dead s' = sr_dead s ∧ sr_pending s' = sr_pending s ∧ sr_failed s' = sr_failed s ∧
  sr_leaky s' = sr_leaky s ∧ ∀ h, dom (D := gset cid) <$> sr_world s' !! h = dom (D := gset cid) <$> sr_world s !! h.

Definition calm_op (s : sreg) (op : rop) : Prop :=
  permitted U s op ∧
  match op with
  | OSet h c _ | OGetOrInsert h c _ => ∀ m, sr_world s !! h = Some m → is_Some (m !! c)
  | ORemove h c => ∀ m, sr_world s !! h = Some m → m !! c = None
  | OGet _ _ | OHas _ _ | OVisit _ | OAlive _ | OSize | OEach _ _ | OSingle _ => True
  | _ => False
  end.

(** A program whose calls are all like this, whatever values the components have. *)
Fixpoint calm (s : sreg) (p : rprog) : Prop :=
  match p with
  | RRet | RRaise _ => True
  | RCall op k => calm_op s op ∧ ∀ s0 o s1, alike s s0 → rnext U s0 op o s1 → calm s (k o)
  | REach rq g k => rq ≠ [] ∧ VReq (u_ent U) true ∉ rq ∧
      (∀ s0 h m log, alike s s0 → sr_world s0 !! h = Some m → matches U rq (h, m) → calm s (g log (args_of U rq (h, m)))) ∧
      ∀ o, calm s (k o)
  end.

(** [N] bounds the number of calls of a program whose loops visit at most [M] entities. *)
Fixpoint calls (M : nat) (p : rprog) (N : nat) : Prop :=
  match p with
  | RRet | RRaise _ => True
  | RCall op k => ∃ N', N = S N' ∧ ∀ o, calls M (k o) N'
  | REach rq g k => ∃ N1 N2, N = M * N1 + N2 ∧ (∀ log xs, calls M (g log xs) N1) ∧ ∀ o, calls M (k o) N2
  end.
End each_ops.
