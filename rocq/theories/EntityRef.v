(** Calls through entity_ref and const_entity_ref (entity_ref.hpp:31-58, 229-246, 371-397, 439-441) with their noexcept
    specifications: an exception that leaves a noexcept function calls std::terminate. *)
From Verif Require Import Base Bits Layout HandlePool SparseMap HashTable Bitset ComponentSet Chunk Archetype Registry.

Inductive tres (A : Type) := TDone (o : outcome A) | TTerminated.
Global Arguments TDone {A} o.
Global Arguments TTerminated {A}.

Definition noexcept {S A} (m : M S A) : S → S * tres A := λ s,
  let '(s', o) := m s in (s', match o with Throw _ => TTerminated | _ => TDone o end).

(** entity_ref.hpp:55-57 and 395-397. *)
Definition er_has (h : handle) (cs : list cid) : registry → registry * tres bool := noexcept (rg_has h cs).

(** entity_ref.hpp:31-33 and 371-373; the archetype is shown by its component set. *)
Definition er_archetype (h : handle) : registry → registry * tres bitset :=
  noexcept (let! l := rg_location h in let! ar := rg_arch (lc_arch l) in ret (ms_ids (ar_comps ar))).

(** What the callback of visit does with one component: leave it, assign to it through the pointer (the overload for
    mutable references only), or throw.  It is given the calls before. *)
Inductive vact := VKeep | VWrite (v : val) | VRaise (e : exn).
Definition visitor := list (cid * cell) → cid → cell → vact.

(** chunk.hpp:258-271, with a callback that acts. *)
Fixpoint ck_visit_go (cb : visitor) (index : nat) (log : list (cid * cell)) (l : list (N * bmeta)) : M chunk (list (cid * cell)) :=
  match l with
  | [] => ret log
  | e :: l =>
      let! x := read_obj (addr e.2 index) in
      (match cb log (bm_id e.2) x with
       | VKeep => ret tt
       | VWrite v => assign_obj (addr e.2 index) (CVal v)
       | VRaise e => throw e
       end) ;;!
      ck_visit_go cb index (log ++ [(bm_id e.2, x)]) l
  end.
Definition ck_visit_cb (cb : visitor) (bl : blocks) (index : nat) : M chunk (list (cid * cell)) :=
  let! k := get in
  if decide (ck_size k ≤ index) then ub else ck_visit_go cb index [] (drop 1 (sm_dense bl)).

(** archetype.hpp:132-144. *)
Definition ar_visit_cb (cb : visitor) (c i : nat) : M archetype (list (cid * cell)) :=
  let! a := get in on_chunk c (ck_visit_cb cb (ar_blocks a) i).

(** entity_ref.hpp:229-246 and 439-441, base_registry.hpp:121-134: get_location is outside of the noexcept functions
    chunk::visit and visit_impl (chunk.hpp:193-202, 258).  The result is the calls that were made. *)
Definition er_visit (h : handle) (cb : visitor) : registry → registry * tres (list (cid * cell)) := λ r,
  match rg_location h r with
  | (r, Ok l) => noexcept (on_arch (lc_arch l) (ar_visit_cb cb (lc_chunk l) (lc_row l))) r
  | (r, Throw e) => (r, TDone (Throw e))
  | (r, UB) => (r, TDone UB)
  end.

(** * What visit should do *)

(** The callback on the components [l] in this order: the assignments it makes, or None if one of the calls throws. *)
Fixpoint visit_writes (cb : visitor) (log : list (cid * cell)) (l : list (cid * val)) : option (list (cid * val)) :=
  match l with
  | [] => Some []
  | (c, v) :: l =>
      match cb log c (CVal v) with
      | VKeep => visit_writes cb (log ++ [(c, CVal v)]) l
      | VWrite v' => ((c, v') ::.) <$> visit_writes cb (log ++ [(c, CVal v)]) l
      | VRaise _ => None
      end
  end.
