(** Model of archetype.hpp:15-289: archetypes and their operations on rows. *)
From Verif Require Import Base Bits Layout HandlePool SparseMap Bitset ComponentSet Chunk.

(** archetype.hpp:285-288.  [ar_lost] is a ghost counter of objects lost in released chunks. *)
Record archetype := Archetype {
  ar_max : nat;
  ar_blocks : blocks;
  ar_comps : meta_set;
  ar_chunks : list chunk;
  ar_lost : nat }.

Definition ar_with_chunks (a : archetype) (ks : list chunk) : archetype :=
  Archetype (ar_max a) (ar_blocks a) (ar_comps a) ks (ar_lost a).

(** The lens to chunk [i]; indexing past the end is undefined (archetype.hpp:260-273). *)
Definition on_chunk {X} (i : nat) (m : M chunk X) : M archetype X := λ a,
  match ar_chunks a !! i with
  | None => (a, UB)
  | Some k => let '(k', o) := m k in (ar_with_chunks a (<[i := k']> (ar_chunks a)), o)
  end.

(** entity_location.hpp:11-22; the pointer is the position of the archetype in the registry's heap, None is
    a null pointer. *)
Record loc := Loc { lc_arch : option nat; lc_chunk : nat; lc_row : nat }.

Global Instance loc_eq_dec : EqDecision loc.
Proof. solve_decision. Defined.

Section archetype.
Variable U : universe.

(** archetype.hpp:177-196: the blocks are emplaced in order, the entity block first. *)
Fixpoint put_blocks (max offset : N) (bl : blocks) (cs : list cid) : option blocks :=
  match cs with
  | [] => Some bl
  | c :: cs =>
      let '(b, o) := add_block max offset (u_type U c) in
      r ← sm_emplace w32 bl c (BMeta c b);
      put_blocks max o r.1 cs
  end.

(** archetype.hpp:26-30. *)
Definition ar_new (s : meta_set) : outcome archetype :=
  match get_max_size (u_type U <$> ms_metas s) with
  | None => Throw InsufficientChunkSize
  | Some m =>
      match put_blocks m 0 sm_init (u_ent U :: ms_metas s) with
      | None => UB
      | Some bl => Ok (Archetype (N.to_nat m) bl s [ck_new (N.to_nat m)] 0)
      end
  end.

(** archetype.hpp:171-174. *)
Definition ar_contains (a : archetype) (c : cid) : bool := ms_contains (ar_comps a) c.

(** archetype.hpp:275-282: the index of the chunk with room (always the last one). *)
Definition ar_ensure_free : M archetype nat := λ a,
  match last (ar_chunks a) with
  | None => (a, UB)
  | Some k =>
      if ck_full k
      then (ar_with_chunks a (ar_chunks a ++ [ck_new (ar_max a)]), Ok (length (ar_chunks a)))
      else (a, Ok (length (ar_chunks a) - 1))
  end.

(** archetype.hpp:59-70: chunk and row of the new entry. *)
Definition ar_emplace (h : handle) (args : list (cid * val)) : M archetype (nat * nat) :=
  let! f := ar_ensure_free in
  let! a := get in
  let! k := on_chunk f get in
  on_chunk f (ck_emplace_back U (ar_blocks a) h args) ;;!
  ret (length (ar_chunks a) - 1, ck_size k).

(** chunk.hpp:127-144, on chunk [c] of the archetype with [other] being chunk [l]. *)
Definition ck_swap_erase (c l index : nat) : M archetype (option handle) :=
  let! a := get in
  let! s := on_chunk c get in
  if decide (ck_size s ≤ index) then ub
  else if decide (ck_size s = 1 ∨ index = ck_size s - 1) then
    on_chunk c (ck_pop_back (ar_blocks a)) ;;! ret None
  else
    let! o := on_chunk l get in
    if ck_empty o then ub
    else
      let oi := ck_size o - 1 in
      let! eb := blk_at (ar_blocks a) (u_ent U) in
      let! e := on_chunk l (read_obj (addr eb oi)) in
      match e with
      | CVal _ => ub
      | CEnt h =>
          forM (sm_dense (ar_blocks a)) (λ e,
            let! ob := blk_find (ar_blocks a) e.1 in
            let! x := on_chunk l (take_obj (addr ob oi)) in
            on_chunk c (assign_obj (addr e.2 index) x)) ;;!
          on_chunk l (ck_pop_back (ar_blocks a)) ;;!
          ret (Some h)
      end.

(** vector<chunk>::pop_back: runs the chunk's destructor. *)
Definition ar_drop_chunk : M archetype unit := λ a,
  match last (ar_chunks a) with
  | None => (a, UB)
  | Some k =>
      let '(k', o) := ck_destruct (ar_blocks a) k in
      (Archetype (ar_max a) (ar_blocks a) (ar_comps a) (pop_back (ar_chunks a)) (ar_lost a + ck_leaked k'), o)
  end.

(** archetype.hpp:77-85. *)
Definition ar_swap_erase (c i : nat) : M archetype (option handle) :=
  let! a := get in
  let l := length (ar_chunks a) - 1 in
  let! moved := ck_swap_erase c l i in
  let! k := on_chunk l get in
  (if ck_empty k && bool_decide (1 < length (ar_chunks a)) then ar_drop_chunk else ret tt) ;;!
  ret moved.

(** archetype.hpp:94-109: the state is this archetype and the other one, two different objects.  The result
    is chunk and row in the other archetype and the entity moved inside this one. *)
Definition ar_move (c i : nat) : M (archetype * archetype) (nat * nat * option handle) :=
  let! f := on_snd ar_ensure_free in
  let! s := on_fst get in
  let! d := on_snd get in
  let! row := (λ sd,
    match ar_chunks sd.1 !! c, ar_chunks sd.2 !! f with
    | Some k, Some k2 =>
        let '((k', k2'), o) := ck_move (ar_blocks s) (ar_blocks d) i (k, k2) in
        ((ar_with_chunks sd.1 (<[c := k']> (ar_chunks sd.1)),
          ar_with_chunks sd.2 (<[f := k2']> (ar_chunks sd.2))), o)
    | _, _ => (sd, UB)
    end) : M (archetype * archetype) nat in
  let! moved := on_fst (ar_swap_erase c i) in
  let! d := on_snd get in
  ret (length (ar_chunks d) - 1, row, moved).

(** archetype.hpp:116-130: the state is the other archetype; this archetype is read from a snapshot, see
    [ck_copy] (ensure_free_chunk changes no existing chunk). *)
Definition ar_copy (s : archetype) (c i : nat) : M archetype (nat * nat) :=
  let! f := ar_ensure_free in
  let! d := get in
  let! k := of_opt (ar_chunks s !! c) in
  let! row := on_chunk f (ck_copy U (ar_blocks s) (ar_blocks d) k i) in
  ret (length (ar_chunks d) - 1, row).

(** archetype.hpp:253-258 without the final dereference: the address of the component. *)
Definition ar_ref (cmp : cid) (c i : nat) : M archetype N :=
  let! a := get in
  let! k := on_chunk c get in
  if decide (ck_size k ≤ i) then ub else fetch_pointer (ar_blocks a) cmp i.

(** archetype.hpp:132-144. *)
Definition ar_visit (a : archetype) (c i : nat) : outcome (list (cid * cell)) :=
  match ar_chunks a !! c with
  | None => UB
  | Some k => ck_visit (ar_blocks a) k i
  end.
End archetype.
